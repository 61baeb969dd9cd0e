(** crypto/stark/src/algebraic_dag.rs and its use in prover.rs: the evaluation graph of the combined
    constraint over the coset. [None] is a panic. *)
Require Import ZArith Lia Bool List.
From Verif Require Import Word KnuthModel FieldSig FieldAlgModel Arr FftModel StarkBase PolyModel TraceModel ExprModel.
Import ListNotations.
Open Scope nat_scope.

(** algebraic_dag.rs:15 [CHUNK_SIZE], 41 [LOOKUP_SIZE] *)
Definition CHUNK : nat := 16.
Definition LOOKUP_SIZE : nat := 1024.
(** prover.rs:556 [CHUNK_SIZE] *)
Definition JOB : nat := Z.to_nat 65536.

(** algebraic_dag.rs:88-99 [Operation]; an [Index] is a [nat]. *)
Inductive operation (F : Type) : Type :=
  | OConst (c : F) | OCoset (c : F) (s : nat) | OTrace (i : nat) (j : Z) | OAdd (a b : nat) | ONeg (a : nat) | OMul (a b : nat)
  | OInv (a : nat) | OExp (a : nat) (e : Z) | OPoly (p : list F) (a : nat) | OLookup (v : list F).
Arguments OConst {F}. Arguments OCoset {F}. Arguments OTrace {F}. Arguments OAdd {F}. Arguments ONeg {F}. Arguments OMul {F}.
Arguments OInv {F}. Arguments OExp {F}. Arguments OPoly {F}. Arguments OLookup {F}.
(** algebraic_dag.rs:67-84 [Node] *)
Record node (F : Type) : Type := Node { n_op : operation F; n_hash : F; n_period : nat; n_note : F; n_values : list F }.
Arguments Node {F}. Arguments n_op {F}. Arguments n_hash {F}. Arguments n_period {F}. Arguments n_note {F}. Arguments n_values {F}.
(** algebraic_dag.rs:45-63 [AlgebraicGraph] *)
Record graph (F : Type) : Type := Graph { g_cofactor : F; g_size : nat; g_blowup : nat; g_seed : F; g_nodes : list (node F); g_row : nat }.
Arguments Graph {F}. Arguments g_cofactor {F}. Arguments g_size {F}. Arguments g_blowup {F}. Arguments g_seed {F}. Arguments g_nodes {F}. Arguments g_row {F}.

Section Dag.
Context {F : Type} (o : ops F) (e : engine F).
(** The two uses of Keccak (algebraic_dag.rs:146-156, 162-164, 186-190): the seed derived from the cofactor
    and the size, and the value standing for a trace cell, derived from the seed and its coordinates. *)
Context (kseed : F -> nat -> F) (ktrace : F -> nat -> Z -> F).

Definition with_nodes (g : graph F) (nodes : list (node F)) : graph F := Graph (g_cofactor g) (g_size g) (g_blowup g) (g_seed g) nodes (g_row g).
Definition with_row (g : graph F) (row : nat) : graph F := Graph (g_cofactor g) (g_size g) (g_blowup g) (g_seed g) (g_nodes g) row.
Definition with_values (nd : node F) (values : list F) : node F := Node (n_op nd) (n_hash nd) (n_period nd) (n_note nd) values.
Definition with_op (nd : node F) (op : operation F) : node F := Node op (n_hash nd) (n_period nd) (n_note nd) (n_values nd).

(** usize::is_power_of_two *)
Definition is_pow2 (n : nat) : bool := negb (n =? 0) && (n =? 2 ^ Nat.log2 n).
(** algebraic_dag.rs:159-173 [new] *)
Definition g_new (cofactor : F) (coset_size trace_blowup : nat) : option (graph F) :=
  if is_pow2 coset_size then Some (Graph cofactor coset_size trace_blowup (kseed cofactor coset_size) [] 0) else None.
(** algebraic_dag.rs:138-144 [Index] *)
Definition g_get (g : graph F) (i : nat) : option (node F) := get (g_nodes g) i.
Definition g_hash_of (g : graph F) (i : nat) : option F := let? n := g_get g i in Some (n_hash n).
(** algebraic_dag.rs:180-208 [hash] *)
Definition g_hash (g : graph F) (op : operation F) : option F :=
  match op with
  | OConst a => Some a
  | OTrace i j => Some (ktrace (g_seed g) i j)
  | OAdd a b => let? a := g_hash_of g a in let? b := g_hash_of g b in Some (fadd o a b)
  | ONeg a => let? a := g_hash_of g a in Some (fneg o a)
  | OMul a b => let? a := g_hash_of g a in let? b := g_hash_of g b in Some (fmul o a b)
  | OInv a => let? a := g_hash_of g a in inv_opt o a
  | OExp a i => let? a := g_hash_of g a in Some (pow_usize o a i)
  | OPoly p a => let? a := g_hash_of g a in Some (evaluate o p a)
  | OCoset c s =>
      if s =? 0 then None else
      if g_size g mod s =? 0 then
        let? i := inv_opt o (g_cofactor g) in
        Some (fmul o c (pow_usize o (fmul o (g_seed g) i) (Z.of_nat (g_size g / s))))
      else None
  | OLookup _ => None
  end.
(** algebraic_dag.rs:217-276 [simplify]; the arms in the order of the code *)
Definition g_simplify (g : graph F) (op : operation F) : option (operation F) :=
  match op with
  | OAdd a b =>
      let? na := g_get g a in let? nb := g_get g b in
      Some match n_op na, n_op nb with
           | OConst x, OConst y => OConst (fadd o x y)
           | OCoset c1 s1, OCoset c2 s2 => if s1 =? s2 then OCoset (fadd o c1 c2) s1 else OAdd a b
           | _, _ => OAdd a b
           end
  | ONeg a =>
      let? na := g_get g a in
      Some match n_op na with
           | OConst x => OConst (fneg o x)
           | OCoset c s => OCoset (fneg o c) s
           | _ => ONeg a
           end
  | OMul a b =>
      let? na := g_get g a in let? nb := g_get g b in
      Some match n_op na, n_op nb with
           | OConst x, OConst y => OConst (fmul o x y)
           | OCoset c1 s1, OCoset c2 s2 =>
               if s1 =? 1 then OCoset (fmul o c1 c2) s2 else
               if s2 =? 1 then OCoset (fmul o c2 c1) s1 else
               if s1 =? s2 then OCoset (fmul o c1 c2) (s1 / 2) else OMul a b
           | OConst x, OCoset c s => OCoset (fmul o x c) s
           | OCoset c s, OConst x => OCoset (fmul o x c) s
           | _, _ => OMul a b
           end
  | OExp a n =>
      let? na := g_get g a in
      match n_op na with
      | OConst x => Some (OConst (pow_usize o x n))
      | OCoset c s =>
          if (n =? 0)%Z then None else
          Some (if (Z.of_nat s mod n =? 0)%Z then OCoset (pow_usize o c n) (Z.to_nat (Z.of_nat s / n)) else OExp a n)
      | _ => Some (OExp a n)
      end
  | OInv a =>
      let? na := g_get g a in
      match n_op na with
      | OConst x => let? i := inv_opt o x in Some (OConst i)
      | OCoset c s => if (s =? 1) || (s =? 2) then let? i := inv_opt o c in Some (OCoset i s) else Some (OInv a)
      | _ => Some (OInv a)
      end
  | OPoly p a =>
      let? na := g_get g a in
      Some match n_op na with
           | OConst x => OConst (evaluate o p x)
           | OCoset c s => if s =? 1 then OCoset (evaluate o p c) 1 else OPoly p a
           | _ => OPoly p a
           end
  | op => Some op
  end.
(** algebraic_dag.rs:278-292 [period] *)
Definition g_period_of (g : graph F) (i : nat) : option nat := let? n := g_get g i in Some (n_period n).
Definition g_period (g : graph F) (op : operation F) : option nat :=
  match op with
  | OConst _ => Some 1
  | OCoset _ s => Some s
  | OTrace _ _ => Some (g_size g)
  | OAdd a b | OMul a b => let? a := g_period_of g a in let? b := g_period_of g b in Some (Nat.max a b)
  | ONeg a | OInv a | OExp a _ | OPoly _ a => g_period_of g a
  | OLookup v => Some (length v)
  end.
(** [nodes.iter().position(|n| n.hash == hash)] *)
Fixpoint position (h : F) (nodes : list (node F)) (i : nat) : option nat :=
  match nodes with [] => None | n :: r => if feqb o (n_hash n) h then Some i else position h r (S i) end.
(** algebraic_dag.rs:298-328 [op] *)
Definition g_op (g : graph F) (op : operation F) : option (graph F * nat) :=
  let? hash := g_hash g op in
  match position hash (g_nodes g) 0 with
  | Some index => Some (g, index)
  | None =>
      let? op := if feqb o hash (f0 o) then Some (OConst (f0 o)) else if feqb o hash (f1 o) then Some (OConst (f1 o)) else g_simplify g op in
      let? period := g_period g op in
      Some (with_nodes g (g_nodes g ++ [Node op hash period (f0 o) (repeat (f0 o) CHUNK)]), length (g_nodes g))
  end.
(** algebraic_dag.rs:332-367 [expression] *)
Fixpoint g_expression (g : graph F) (ex : rexpr F) : option (graph F * nat) :=
  match ex with
  | EX => g_op g (OCoset (g_cofactor g) (g_size g))
  | EConst a => g_op g (OConst a)
  | ETrace i j => g_op g (OTrace i j)
  | EPoly p a => let? (g, a) := g_expression g a in g_op g (OPoly p a)
  | EClaim _ _ _ => None
  | EAdd a b => let? (g, a) := g_expression g a in let? (g, b) := g_expression g b in g_op g (OAdd a b)
  | ENeg a => let? (g, a) := g_expression g a in g_op g (ONeg a)
  | EMul a b => let? (g, a) := g_expression g a in let? (g, b) := g_expression g b in g_op g (OMul a b)
  | EInv a => let? (g, a) := g_expression g a in g_op g (OInv a)
  | EExp a n => let? (g, a) := g_expression g a in g_op g (OExp a n)
  end.

(** algebraic_dag.rs:405-415 [recurse]; the fuel bounds the depth of the recursion. *)
Fixpoint recurse (fuel : nat) (nodes : list (node F)) (used : list bool) (i : nat) : option (list bool) :=
  match fuel with
  | O => None
  | S fuel =>
      let? used := set used i true in
      let? n := get nodes i in
      match n_op n with
      | OAdd a b | OMul a b => let? used := recurse fuel nodes used a in recurse fuel nodes used b
      | ONeg a | OInv a | OExp a _ | OPoly _ a => recurse fuel nodes used a
      | _ => Some used
      end
  end.
(** algebraic_dag.rs:422-429: the new number of every node *)
Fixpoint renumber (used : list bool) (counter : nat) : list nat :=
  match used with [] => [] | u :: r => if u then counter :: renumber r (S counter) else 0 :: renumber r counter end.
(** algebraic_dag.rs:430-439 *)
Definition rename (numbers : list nat) (nd : node F) : option (node F) :=
  match n_op nd with
  | OAdd a b => let? a := get numbers a in let? b := get numbers b in Some (with_op nd (OAdd a b))
  | OMul a b => let? a := get numbers a in let? b := get numbers b in Some (with_op nd (OMul a b))
  | ONeg a => let? a := get numbers a in Some (with_op nd (ONeg a))
  | OInv a => let? a := get numbers a in Some (with_op nd (OInv a))
  | OExp a n => let? a := get numbers a in Some (with_op nd (OExp a n))
  | OPoly p a => let? a := get numbers a in Some (with_op nd (OPoly p a))
  | _ => Some nd
  end.
(** algebraic_dag.rs:440-444 *)
Fixpoint retain {A} (used : list bool) (nodes : list A) : list A :=
  match used, nodes with u :: r, n :: nodes => if u then n :: retain r nodes else retain r nodes | _, _ => [] end.
(** algebraic_dag.rs:403-447 [tree_shake] *)
Definition tree_shake (g : graph F) (tip : nat) : option (graph F * nat) :=
  let? used := recurse (length (g_nodes g)) (g_nodes g) (repeat false (length (g_nodes g))) tip in
  let numbers := renumber used 0 in
  let? nodes := option_all (map (rename numbers) (g_nodes g)) in
  let? i := get numbers tip in
  Some (with_nodes g (retain used nodes), i).

(** [acc, acc * root, acc * root^2, ...] *)
Fixpoint geometric (acc root : F) (n : nat) : list F := match n with O => [] | S n => acc :: geometric (fmul o acc root) root n end.
Definition lookup (v : list F) (i : nat) : option F := if length v =? 0 then None else get v (i mod length v).
(** algebraic_dag.rs:455-492: the body of [init] for one node *)
Definition init_node (row : nat) (nd : node F) : option (node F) :=
  match n_op nd with
  | OConst a => Some (with_values nd (repeat a CHUNK))
  | OCoset c s =>
      let? r := eroot e s in let? root := r in
      let values := geometric (fmul o c (pow_usize o root (Z.of_nat row))) root CHUNK in
      if CHUNK <? s then
        let note := pow_usize o root (Z.of_nat CHUNK) in
        let? inv := inv_opt o note in
        Some (Node (n_op nd) (n_hash nd) (n_period nd) note (map (fun v => fmul o v inv) values))
      else Some (with_values nd values)
  | OLookup v =>
      if length v <=? CHUNK then
        if length v =? 0 then None else
        if CHUNK mod length v =? 0 then
          let? values := option_all (map (fun i => lookup v (row + i)) (seq 0 CHUNK)) in Some (with_values nd values)
        else None
      else Some nd
  | _ => Some nd
  end.
(** algebraic_dag.rs:451-493 [init] *)
Definition g_init (g : graph F) (start : nat) : option (graph F) :=
  if start mod CHUNK =? 0 then
    let? nodes := option_all (map (init_node start) (g_nodes g)) in Some (with_row (with_nodes g nodes) start)
  else None.

(** algebraic_dag.rs:511-528: the trace cell read for a row. The isize arithmetic is taken to be exact; a
    negative remainder becomes an index beyond the table. *)
Definition read_trace (t : table F) (blowup row c : nat) (off : Z) : option F :=
  let n := Z.of_nat (t_rows t) in
  if (n =? 0)%Z then None else
  let r := Z.rem (n + Z.of_nat row + Z.of_nat blowup * off) n in
  if (r <? 0)%Z then None else t_get t (Z.to_nat r) c.
Definition map2 {A} (f : A -> A -> A) (a b : list A) : list A := map (fun p => f (fst p) (snd p)) (List.combine a b).
(** algebraic_dag.rs:505-579: the body of [next] for one node *)
Definition next_values (t : table F) (blowup row : nat) (previous : list (node F)) (nd : node F) : option (list F) :=
  let prev i := let? n := get previous i in Some (n_values n) in
  match n_op nd with
  | OTrace c off => option_all (map (fun i => read_trace t blowup (row + i) c off) (seq 0 CHUNK))
  | OAdd a b => let? a := prev a in let? b := prev b in Some (map2 (fadd o) a b)
  | ONeg a => let? a := prev a in Some (map (fneg o) a)
  | OMul a b => let? a := prev a in let? b := prev b in Some (map2 (fmul o) a b)
  | OInv a => let? a := prev a in invert_batch_src_dst o a (n_values nd)
  | OExp a n => let? a := prev a in Some (map (fun x => pow_usize o x n) a)
  | OPoly p a => let? a := prev a in Some (map (evaluate o p) a)
  | OCoset _ s => if CHUNK <? s then Some (map (fun v => fmul o v (n_note nd)) (n_values nd)) else Some (n_values nd)
  | OLookup v => if CHUNK <? length v then option_all (map (fun i => lookup v (row + i)) (seq 0 CHUNK)) else Some (n_values nd)
  | OConst _ => Some (n_values nd)
  end.
Fixpoint next_nodes (t : table F) (blowup row : nat) (previous nodes : list (node F)) : option (list (node F)) :=
  match nodes with
  | [] => Some previous
  | nd :: rest => let? values := next_values t blowup row previous nd in next_nodes t blowup row (previous ++ [with_values nd values]) rest
  end.
(** [self.nodes.last().unwrap().values[i]] *)
Definition last_value (nodes : list (node F)) (i : nat) : option F :=
  match nodes with [] => None | _ => let? n := get nodes (length nodes - 1) in get (n_values n) i end.
(** algebraic_dag.rs:498-582 [next] *)
Definition g_next (t : table F) (g : graph F) : option (graph F * F) :=
  if 0 <? g_row g mod CHUNK then
    let? result := last_value (g_nodes g) (g_row g mod CHUNK) in
    Some (with_row g (g_row g + 1), result)
  else
    let? nodes := next_nodes t (g_blowup g) (g_row g) [] (g_nodes g) in
    let? result := last_value nodes 0 in
    Some (with_row (with_nodes g nodes) (g_row g + 1), result).
(** [n] calls of [next] *)
Fixpoint g_take (t : table F) (g : graph F) (n : nat) : option (list F) :=
  match n with O => Some [] | S n => let? (g, x) := g_next t g in let? l := g_take t g n in Some (x :: l) end.
(** algebraic_dag.rs:369-381 [make_lookup] *)
Definition make_lookup (g : graph F) (i : nat) : option (list F) :=
  let? nd := g_get g i in
  if n_period nd <=? LOOKUP_SIZE then
    let? (sub, _) := tree_shake g i in
    let? sub := g_init sub 0 in
    g_take (t_new o 0 0) sub (n_period nd)
  else None.
Definition is_coset (op : operation F) : bool := match op with OCoset _ _ => true | _ => false end.
(** algebraic_dag.rs:383-400 [lookup_tables] *)
Definition lookup_step (g : graph F) (i : nat) : option (graph F) :=
  let? nd := g_get g i in
  if Nat.min LOOKUP_SIZE (g_size g / 2) <? n_period nd then Some g else
  if is_coset (n_op nd) then Some g else
  let? table := make_lookup g i in
  let? nodes := set (g_nodes g) i (with_op nd (OLookup table)) in
  Some (with_nodes g nodes).
Definition lookup_tables (g : graph F) : option (graph F) := for_each (seq 0 (length (g_nodes g))) lookup_step g.

(** prover.rs:579-614: the values of the combined constraint on the coset. The jobs are independent, each
    works on a clone of the graph. [job] is the number of rows of a job. *)
Definition graph_jobs (job : nat) (g : graph F) (t : table F) (coset_size : nat) : option (list F) :=
  let? l := option_all (map (fun i => let? g := g_init g (i * job) in g_take t g (Nat.min job (coset_size - i * job))) (seq 0 ((coset_size + (job - 1)) / job))) in
  Some (concat l).
Definition graph_values (job : nat) (cofactor : F) (t : table F) (blowup : nat) (ex : rexpr F) : option (list F) :=
  let? g := g_new cofactor (t_rows t) blowup in
  let? (g, result) := g_expression g ex in
  let? g := lookup_tables g in
  let? (g, _) := tree_shake g result in
  let? g := g_init g 0 in
  graph_jobs job g t (t_rows t).
End Dag.
Arguments pow_usize : simpl never.
