(** crypto/stark/src/prover.rs and verifier.rs: the constraint polynomials and out-of-domain sampling.
    [None] is a panic. *)
Require Import ZArith Lia Bool List.
From Verif Require Import Word KnuthModel FieldSig FieldAlgModel Arr FftModel StarkBase PolyModel TraceModel ExprModel.
Import ListNotations.
Open Scope nat_scope.

Section Oods.
Context {F : Type} (o : ops F).
(** [g.pow(offset).unwrap()] *)
Definition pow_offset (dbg : bool) (g : F) (offset : Z) : option F := let? r := pow_isize o dbg g offset in r.

(** ** Prover *)
(** prover.rs:515-529 [extract_trace_coset]: the loop over the rows [i], for each over the columns [j]. *)
Definition extract_trace_coset (e : engine F) (trace_lde : list (list F)) (size : nat) : option (table F) :=
  match trace_lde with
  | [] => None
  | l0 :: _ =>
      let lde_size := length l0 in
      for_each (seq 0 size) (fun t i =>
        if size =? 0 then None else
        let? index := permute_index (edbg e) lde_size (i * lde_size / size) in
        for_each (seq 0 (length trace_lde)) (fun t j =>
          let? lde := nth_error trace_lde j in
          let? x := nth_error lde index in
          t_set t i j x) t) (t_new o size (length trace_lde))
  end.
(** What the evaluation of the constraints on the coset reads (algebraic_dag.rs, Trace): the row [row] plus
    [blowup] times the offset, wrapping around. *)
Definition coset_trace (t : table F) (blowup row : nat) (i : nat) (j : Z) : option F :=
  t_get t (Z.to_nat ((Z.of_nat row + Z.of_nat blowup * j) mod Z.of_nat (t_rows t))) i.
(** prover.rs:596-614 with every row evaluated directly; that the graph of algebraic_dag.rs gives the same
    values is C43. [cofactor] is the generator. *)
Definition coset_values (e : engine F) (t : table F) (blowup : nat) (ex : rexpr F) : option (list F) :=
  let? r := eroot e (t_rows t) in
  let? root := r in
  option_all (map (fun row => eval_expr o (fmul o (egen e) (pow_usize o root (Z.of_nat row))) (coset_trace t blowup row) ex) (seq 0 (t_rows t))).
(** prover.rs:624-632: multiply by successive powers *)
Fixpoint shift_out (f g : F) (l : list F) : list F := match l with [] => [] | y :: l => fmul o y f :: shift_out (fmul o f g) g l end.
(** prover.rs:639-643: [chunks_exact(eval_degree)], distributed over the polynomials *)
Definition every (step first : nat) (l : list F) (count : nat) : list F := map (fun i => nth (first + step * i) l (f0 o)) (seq 0 count).
(** prover.rs:617-649: from the values on the coset to the [eval_degree] polynomials *)
Definition constraint_polynomials (e : engine F) (values : list F) (eval_degree trace_length : nat) : option (list (list F)) :=
  let? values := e_ifft o e values in
  let? values := permute (edbg e) values in
  let? ginv := inv_opt o (egen e) in
  let values := shift_out (f1 o) ginv values in
  if length values <? eval_degree * trace_length then None else
  let coefficients := firstn (eval_degree * trace_length) values in
  let zeros := skipn (eval_degree * trace_length) values in
  if forallb (fun z => feqb o z (f0 o)) zeros then
    if eval_degree =? 0 then None else
    let l := map (fun i => every eval_degree i coefficients (length coefficients / eval_degree)) (seq 0 eval_degree) in
    option_all (map poly_new l)
  else None.
(** prover.rs:658-669: the values of the trace polynomials written to the proof *)
Definition oods_root (e : engine F) (trace_polynomials : list (list F)) : option F :=
  match trace_polynomials with [] => None | p :: _ => let? r := eroot e (length p) in r end.
Definition oods_trace_values (e : engine F) (trace_polynomials : list (list F)) (args : list (nat * Z)) (oods_point : F) : option (list F) :=
  let? g := oods_root e trace_polynomials in
  option_all (map (fun a => let? p := nth_error trace_polynomials (fst a) in let? s := pow_offset (edbg e) g (snd a) in Some (evaluate o p (fmul o oods_point s))) args).
(** prover.rs:671-678: the values of the constraint polynomials written to the proof *)
Definition oods_point_pow (polys : list (list F)) (oods_point : F) : F := pow_usize o oods_point (Z.of_nat (length polys)).
Definition oods_constraint_values (polys : list (list F)) (oods_point : F) : list F := map (fun p => evaluate o p (oods_point_pow polys oods_point)) polys.
(** prover.rs:686-703: the combined quotient polynomial *)
Definition oods_combined (e : engine F) (trace_polynomials : list (list F)) (args : list (nat * Z)) (constraint_polys : list (list F)) (oods_point : F)
    (trace_coefficients constraint_coefficients : list F) : option (list F) :=
  let? g := oods_root e trace_polynomials in
  let? zero := poly_zeros o (match trace_polynomials with [] => 0 | p :: _ => length p end) in
  let? t := for_each (List.combine args trace_coefficients) (fun t ac =>
    let? p := nth_error trace_polynomials (fst (fst ac)) in
    let? s := pow_offset (edbg e) g (snd (fst ac)) in
    Some (divide_out_point_into o p (fmul o oods_point s) (snd ac) t)) zero in
  Some (fold_left (fun t pc => divide_out_point_into o (fst pc) (oods_point_pow constraint_polys oods_point) (snd pc) t) (List.combine constraint_polys constraint_coefficients) t).

(** ** Verifier *)
(** BTreeMap<(usize, isize), FieldElement> as the list of its entries in key order: insert and get *)
Definition trace_map : Type := list ((nat * Z) * F).
Definition key_cmp (a b : nat * Z) : comparison := match Nat.compare (fst a) (fst b) with Eq => Z.compare (snd a) (snd b) | c => c end.
Fixpoint map_insert (k : nat * Z) (v : F) (m : trace_map) : trace_map :=
  match m with
  | [] => [(k, v)]
  | (k', v') :: m' => match key_cmp k k' with Lt => (k, v) :: m | Eq => (k, v) :: m' | Gt => (k', v') :: map_insert k v m' end
  end.
Fixpoint map_get (m : trace_map) (i : nat) (j : Z) : option F :=
  match m with
  | [] => None
  | (k', v') :: m => match key_cmp (i, j) k' with Eq => Some v' | _ => map_get m i j end
  end.
(** verifier.rs:207-210: zip and collect *)
Definition claimed_trace_map (args : list (nat * Z)) (values : list F) : trace_map := fold_left (fun m kv => map_insert (fst kv) (snd kv) m) (List.combine args values) [].
(** verifier.rs:398-409 *)
Definition oods_value_from_trace_values (dbg : bool) (c : constraints (F := F)) (claims : list (list F)) (coefficients : list F) (m : trace_map) (oods_point : F) : option F :=
  let? E := combine o dbg c coefficients in
  let? E := substitute_claim o claims E in
  eval_expr o oods_point (map_get m) E.
(** verifier.rs:411-422 *)
Fixpoint from_constraint_values (power result : F) (values : list F) (oods_point : F) : F :=
  match values with [] => result | v :: values => from_constraint_values (fmul o power oods_point) (fadd o result (fmul o v power)) values oods_point end.
Definition oods_value_from_constraint_values (values : list F) (oods_point : F) : F := from_constraint_values (f1 o) (f0 o) values oods_point.
(** verifier.rs:479-515 [out_of_domain_element]; the inner [None] is [Error::RootUnavailable]. *)
Definition out_of_domain_element (e : engine F) (query_x : F) (query_trace_values query_constraint_values : list F) (oods_point : F) (m : trace_map)
    (oods_constraint_values oods_coefficients : list F) (trace_length : nat) : option (option F) :=
  let shifted_x := fmul o query_x (egen e) in
  let? r := eroot e trace_length in
  match r with
  | None => Some None
  | Some g =>
      let d := length query_constraint_values in
      let trace_terms := map (fun kv =>
          let? q := nth_error query_trace_values (fst (fst kv)) in
          let? s := pow_offset (edbg e) g (snd (fst kv)) in
          f_div o (fsub o q (snd kv)) (fsub o shifted_x (fmul o s oods_point))) m in
      let constraint_terms := map (fun qv => f_div o (fsub o (fst qv) (snd qv)) (fsub o shifted_x (pow_usize o oods_point (Z.of_nat d)))) (List.combine query_constraint_values oods_constraint_values) in
      let? terms := option_all (map (fun tc => let? t := fst tc in Some (fmul o t (snd tc))) (List.combine (trace_terms ++ constraint_terms) oods_coefficients)) in
      Some (Some (fsum o terms))
  end.
End Oods.
