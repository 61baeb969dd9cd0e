(** crypto/stark/src/rational_expression.rs, constraints.rs, constraint_check.rs *)
Require Import ZArith Lia Bool List.
From Verif Require Import Word KnuthModel FieldSig FieldAlgModel Arr FftModel StarkBase PolyModel TraceModel.
Import ListNotations.
Open Scope nat_scope.

(** rational_expression.rs:18-31 [RationalExpression]; a usize exponent or degree is a [Z], the column of a
    trace cell a [nat], its row offset (isize) a [Z]. The name of a claim polynomial is left out. *)
Inductive rexpr (F : Type) : Type :=
  | EX | EConst (c : F) | ETrace (i : nat) (j : Z) | EPoly (p : list F) (a : rexpr F) | EClaim (i : nat) (bound : Z) (a : rexpr F)
  | EAdd (a b : rexpr F) | ENeg (a : rexpr F) | EMul (a b : rexpr F) | EInv (a : rexpr F) | EExp (a : rexpr F) (e : Z).
Arguments EX {F}. Arguments EConst {F}. Arguments ETrace {F}. Arguments EPoly {F}. Arguments EClaim {F}.
Arguments EAdd {F}. Arguments ENeg {F}. Arguments EMul {F}. Arguments EInv {F}. Arguments EExp {F}.

(** usize arithmetic: the debug profile panics on overflow, the release profile wraps. *)
Definition uadd (dbg : bool) (a b : Z) : option Z := if (a + b <? B)%Z then Some (a + b)%Z else if dbg then None else Some (w64 (a + b)).
Definition usub (dbg : bool) (a b : Z) : option Z := if (b <=? a)%Z then Some (a - b)%Z else if dbg then None else Some (w64 (a - b)).
Definition umul (dbg : bool) (a b : Z) : option Z := if (a * b <? B)%Z then Some (a * b)%Z else if dbg then None else Some (w64 (a * b)).

Section Expr.
Context {F : Type} (o : ops F).
Notation expr := (rexpr F).

(** rational_expression.rs:51-67 [map]: bottom up; the function may panic. *)
Fixpoint map_expr (f : expr -> option expr) (e : expr) : option expr :=
  let? e := match e with
            | EPoly p a => let? a := map_expr f a in Some (EPoly p a)
            | EClaim i n a => let? a := map_expr f a in Some (EClaim i n a)
            | EAdd a b => let? a := map_expr f a in let? b := map_expr f b in Some (EAdd a b)
            | ENeg a => let? a := map_expr f a in Some (ENeg a)
            | EMul a b => let? a := map_expr f a in let? b := map_expr f b in Some (EMul a b)
            | EInv a => let? a := map_expr f a in Some (EInv a)
            | EExp a n => let? a := map_expr f a in Some (EExp a n)
            | _ => Some e
            end in f e.
(** rational_expression.rs:69-85 [substitute_claim] *)
Definition substitute_claim (claims : list (list F)) : expr -> option expr :=
  map_expr (fun x => match x with
    | EClaim i bound a => let? p := nth_error claims i in let? d := poly_degree o p in if (Z.of_nat d <=? bound)%Z then Some (EPoly p a) else None
    | x => Some x
    end).
(** rational_expression.rs:114-140 [Sub], [Div], 142-150 [Sum] *)
Definition e_sub (a b : expr) : expr := EAdd a (ENeg b).
Definition e_div (a b : expr) : expr := EMul a (EInv b).
Definition e_sum (l : list expr) : expr := match l with [] => EConst (f0 o) | e :: l => fold_left EAdd l e end.
(** rational_expression.rs:157-203 [degree], [trace_degree], [degree_impl] *)
Fixpoint degree_impl (dbg : bool) (x_degree trace_degree : Z) (e : expr) : option (Z * Z) :=
  let scale k nd := match nd with (n, d) => let? n := umul dbg k n in let? d := umul dbg k d in Some (n, d) end in
  match e with
  | EX => Some (x_degree, 0%Z)
  | EConst _ => Some (0%Z, 0%Z)
  | ETrace _ _ => Some (trace_degree, 0%Z)
  | EPoly p a => let? nd := degree_impl dbg x_degree trace_degree a in let? k := poly_degree o p in scale (Z.of_nat k) nd
  | EClaim _ bound a => let? nd := degree_impl dbg x_degree trace_degree a in scale bound nd
  | EAdd a b =>
      let? a := degree_impl dbg x_degree trace_degree a in let? b := degree_impl dbg x_degree trace_degree b in
      match a, b with (an, ad), (bn, bd) => let? x := uadd dbg an bd in let? y := uadd dbg bn ad in let? d := uadd dbg ad bd in Some (Z.max x y, d) end
  | ENeg a => degree_impl dbg x_degree trace_degree a
  | EMul a b =>
      let? a := degree_impl dbg x_degree trace_degree a in let? b := degree_impl dbg x_degree trace_degree b in
      match a, b with (an, ad), (bn, bd) => let? n := uadd dbg an bn in let? d := uadd dbg ad bd in Some (n, d) end
  | EInv a => let? nd := degree_impl dbg x_degree trace_degree a in match nd with (n, d) => Some (d, n) end
  | EExp a e => let? nd := degree_impl dbg x_degree trace_degree a in scale e nd
  end.
Definition degree (dbg : bool) (trace_degree : Z) (e : expr) : option (Z * Z) := degree_impl dbg 1 trace_degree e.
Definition trace_degree (dbg : bool) (e : expr) : option (Z * Z) := degree_impl dbg 0 1 e.

(** rational_expression.rs:292-313 [evaluate]; the trace closure may panic, e.g. on an index out of range. *)
Fixpoint eval_expr (x : F) (trace : nat -> Z -> option F) (e : expr) : option F :=
  match e with
  | EX => Some x
  | EConst c => Some c
  | ETrace i j => trace i j
  | EPoly p a => let? inner := eval_expr x trace a in Some (evaluate o p inner)
  | EClaim _ _ _ => None
  | EAdd a b => let? u := eval_expr x trace a in let? v := eval_expr x trace b in Some (fadd o u v)
  | ENeg a => let? u := eval_expr x trace a in Some (fneg o u)
  | EMul a b => let? u := eval_expr x trace a in let? v := eval_expr x trace b in Some (fmul o u v)
  | EInv a => let? u := eval_expr x trace a in inv_opt o u
  | EExp a e => let? u := eval_expr x trace a in Some (pow_usize o u e)
  end.
(** rational_expression.rs:208-290 [check] *)
Fixpoint check (x : F) (trace : nat -> Z -> option F) (e : expr) : option (F * bool) :=
  match e with
  | EX => Some (x, true)
  | EConst c => Some (c, true)
  | ETrace i j => let? v := trace i j in Some (v, true)
  | EPoly p a => let? r := check x trace a in match r with (res, is_ok) => Some (if is_ok then (evaluate o p res, true) else (f1 o, false)) end
  | EClaim _ _ _ => None
  | EAdd a b =>
      let? a := check x trace a in let? b := check x trace b in
      match a, b with (res_a, a_ok), (res_b, b_ok) => Some (if a_ok && b_ok then (fadd o res_a res_b, true) else (f1 o, false)) end
  | ENeg a => let? r := check x trace a in match r with (res_a, a_ok) => Some (fneg o res_a, a_ok) end
  | EMul a b =>
      let? a := check x trace a in let? b := check x trace b in
      match a, b with (res_a, a_ok), (res_b, b_ok) =>
        Some (if a_ok && b_ok then (fmul o res_a res_b, true)
              else if a_ok && negb b_ok then (if feqb o res_a (f0 o) then (f0 o, true) else (f1 o, false))
              else if negb a_ok && b_ok then (if feqb o res_b (f0 o) then (f0 o, true) else (f1 o, false))
              else (f1 o, false))
      end
  | EInv a =>
      let? r := check x trace a in
      match r with (res_a, a_ok) =>
        if a_ok then Some (if feqb o res_a (f0 o) then (f1 o, false) else (res_a, true))
        else match a with EInv b => check x trace b | _ => Some (f1 o, false) end
      end
  | EExp a e => let? r := check x trace a in match r with (res_a, a_ok) => Some (if a_ok then (pow_usize o res_a e, true) else (f1 o, false)) end
  end.
(** rational_expression.rs:315-335 [trace_arguments]: a BTreeSet of (usize, isize) is the list of its elements
    in increasing lexicographic order. *)
Fixpoint arg_insert (a : nat * Z) (l : list (nat * Z)) : list (nat * Z) :=
  match l with
  | [] => [a]
  | b :: l' => match Nat.compare (fst a) (fst b) with
      | Lt => a :: l
      | Gt => b :: arg_insert a l'
      | Eq => match Z.compare (snd a) (snd b) with Lt => a :: l | Eq => l | Gt => b :: arg_insert a l' end
      end
  end.
Fixpoint trace_arguments_impl (e : expr) (s : list (nat * Z)) : option (list (nat * Z)) :=
  match e with
  | ETrace i j => Some (arg_insert (i, j) s)
  | EX | EConst _ => Some s
  | EPoly _ a | EExp a _ | ENeg a | EInv a => trace_arguments_impl a s
  | EAdd a b | EMul a b => let? s := trace_arguments_impl a s in trace_arguments_impl b s
  | EClaim _ _ _ => None
  end.
Definition trace_arguments (e : expr) : option (list (nat * Z)) := trace_arguments_impl e [].

(** constraints.rs:32-70 [Constraints], without the channel seed (C39) and the claim polynomials (an argument
    of [substitute] below). *)
Record constraints : Type := Constraints {
  c_nrows : nat; c_ncolumns : nat; c_exprs : list expr; c_blowup : Z; c_pow_bits : Z; c_queries : Z; c_fri : list nat }.
(** constraints.rs:73-93 [default_fri_layout]; [trailing_zeros] of 0 is 64. *)
Fixpoint tz_loop (fuel : nat) (n : Z) : nat := match fuel with O => O | S fuel => if Z.odd n then O else S (tz_loop fuel (n / 2)%Z) end.
Definition trailing_zeros (n : Z) : nat := tz_loop 64 n.
Definition default_fri_layout (trace_nrows : Z) : list nat :=
  let log2_trace := trailing_zeros trace_nrows in
  let num_reductions := if 8 <? log2_trace then log2_trace - 8 else log2_trace in
  repeat 3 (num_reductions / 3) ++ (if num_reductions mod 3 =? 0 then [] else [num_reductions mod 3]).
(** constraints.rs:102-123 [from_expressions]: inner None is [InvalidTraceLength]. *)
Definition from_expressions (e : engine F) (nrows ncolumns : nat) (exprs : list expr) : option (option constraints) :=
  let? r := eroot e nrows in
  match r with
  | None => Some None
  | Some _ => Some (Some (Constraints nrows ncolumns exprs 16 0 45 (default_fri_layout (Z.of_nat nrows))))
  end.
(** constraints.rs:132-173 [from_expressions_detailed], outside of the crate's own tests. *)
Definition from_expressions_detailed (e : engine F) (nrows ncolumns : nat) (exprs : list expr) (blowup pow_bits queries : option Z) (layout : option (list nat)) : option (option constraints) :=
  let? r := eroot e nrows in
  match r with
  | None => Some None
  | Some _ => Some (Some (Constraints nrows ncolumns exprs (match blowup with Some x => x | None => 16%Z end) (match pow_bits with Some x => x | None => 20%Z end)
                          (match queries with Some x => x | None => 13%Z end) (match layout with Some x => x | None => default_fri_layout (Z.of_nat nrows) end)))
  end.
(** constraints.rs:199-208 [degree]: [max] of an empty iterator panics. *)
Definition net_degree (dbg : bool) (e : expr) : option Z := let? nd := trace_degree dbg e in match nd with (n, d) => usub dbg n d end.
Definition c_degree (dbg : bool) (c : constraints) : option Z :=
  let? l := option_all (map (net_degree dbg) (c_exprs c)) in
  match l with [] => None | x :: l => Some (fold_left Z.max l x) end.
(** constraints.rs:211-216 [security_bits]: [64 - leading_zeros] is the number of binary digits. *)
Definition binary_digits (n : Z) : Z := if (n =? 0)%Z then 0%Z else (Z.log2 n + 1)%Z.
Definition security_bits (dbg : bool) (c : constraints) : option Z :=
  let? x := umul dbg (binary_digits (c_blowup c)) (c_queries c / 2) in uadd dbg x (c_pow_bits c).
(** constraints.rs:223-246 [max_proof_size]; a shift by 64 or more panics, or shifts by the amount modulo 64. *)
Definition ushl1 (dbg : bool) (i : Z) : option Z := if (i <? 64)%Z then Some (2 ^ i)%Z else if dbg then None else Some (2 ^ (i mod 64))%Z.
Fixpoint size_loop (dbg : bool) (queries : Z) (layout : list nat) (current total : Z) : option (Z * Z) :=
  match layout with
  | [] => Some (current, total)
  | i :: layout =>
      let? current := usub dbg current (Z.of_nat i) in
      let? s := ushl1 dbg (Z.of_nat i) in let? x := uadd dbg current s in let? x := usub dbg x 1 in
      let? x := umul dbg queries x in let? total := uadd dbg total x in size_loop dbg queries layout current total
  end.
Definition max_proof_size (dbg : bool) (c : constraints) : option Z :=
  let len := Z.of_nat (trailing_zeros (Z.of_nat (c_nrows c))) in
  let? x := umul dbg len (Z.of_nat (c_ncolumns c)) in let? x := uadd dbg x len in let? total := umul dbg (c_queries c) x in
  let? current := usub dbg len 3 in
  let? x := uadd dbg current 7 in let? x := umul dbg (c_queries c) x in let? total := uadd dbg total x in
  let? r := size_loop dbg (c_queries c) (c_fri c) current total in
  match r with (current, total) =>
    let? final_list := ushl1 dbg current in
    let? total := if (c_queries c <? final_list)%Z then uadd dbg total (final_list - c_queries c) else Some total in
    umul dbg 32 total
  end.
(** constraints.rs:248-266 [combine]: [tuples] drops an odd last coefficient. *)
Fixpoint tuples {A} (l : list A) : list (A * A) := match l with a :: b :: l => (a, b) :: tuples l | _ => [] end.
Definition adjustment_degree (dbg : bool) (nrows : nat) (target : Z) (e : expr) : option Z :=
  let? t := usub dbg (Z.of_nat nrows) 1 in
  let? nd := degree dbg t e in
  match nd with (num, den) => let? s := uadd dbg target den in usub dbg s num end.
Definition combine_term (dbg : bool) (nrows : nat) (target : Z) (t : expr * (F * F)) : option expr :=
  match t with (e, (lo, hi)) => let? a := adjustment_degree dbg nrows target e in Some (EMul (EAdd (EConst lo) (EMul (EConst hi) (EExp EX a))) e) end.
Definition target_degree (dbg : bool) (c : constraints) : option Z := let? d := c_degree dbg c in let? t := umul dbg d (Z.of_nat (c_nrows c)) in usub dbg t 1.
Definition combine (dbg : bool) (c : constraints) (coefficients : list F) : option expr :=
  if 2 * length (c_exprs c) =? length coefficients then
    let? target := target_degree dbg c in
    let? l := option_all (map (combine_term dbg (c_nrows c) target) (List.combine (c_exprs c) (tuples coefficients))) in
    Some (e_sum l)
  else None.
(** constraints.rs:268-275 [trace_arguments]: the union of the sets. *)
Definition c_trace_arguments (c : constraints) : option (list (nat * Z)) :=
  let? l := option_all (map trace_arguments (c_exprs c)) in Some (fold_left (fun x y => fold_left (fun s a => arg_insert a s) y x) l []).
(** constraints.rs:289-297 [substitute] *)
Definition substitute (claims : list (list F)) (c : constraints) : option constraints :=
  match claims with
  | [] => Some c
  | _ => let? l := option_all (map (substitute_claim claims) (c_exprs c)) in Some (Constraints (c_nrows c) (c_ncolumns c) l (c_blowup c) (c_pow_bits c) (c_queries c) (c_fri c))
  end.

(** constraint_check.rs:44-56 and 82-94, the closure [trace]: [abs] of isize::MIN panics or fails the
    conversion; [len + row - j] panics or gives an index out of range if j is too large. *)
Definition cc_trace (t : table F) (row : nat) (i : nat) (j : Z) : option F :=
  let len := Z.of_nat (t_rows t) in
  if (0 <? j)%Z then t_get t (Z.to_nat ((j + Z.of_nat row) mod len)) i
  else if (j =? - 2 ^ 63)%Z then None
  else let j := Z.abs j in
    if (Z.of_nat row <? j)%Z then if (j <=? len + Z.of_nat row)%Z then t_get t (Z.to_nat (len + Z.of_nat row - j)) i else None
    else t_get t (Z.to_nat (Z.of_nat row - j)) i.
(** constraint_check.rs:34-65 [check_constraints]: the inner value is None for Ok and Some (row, which) for Err. *)
Fixpoint check_row (x : F) (trace : nat -> Z -> option F) (which : nat) (l : list expr) : option (option nat) :=
  match l with
  | [] => Some None
  | e :: l => let? r := check x trace e in if snd r then check_row x trace (S which) l else Some (Some which)
  end.
Fixpoint check_rows (t : table F) (exprs : list expr) (g root : F) (rows : list nat) : option (option (nat * nat)) :=
  match rows with
  | [] => Some None
  | row :: rows => let? r := check_row root (cc_trace t row) 0 exprs in
      match r with Some which => Some (Some (row, which)) | None => check_rows t exprs g (fmul o root g) rows end
  end.
Definition check_constraints (e : engine F) (exprs : list expr) (t : table F) : option (option (nat * nat)) :=
  let? r := eroot e (t_rows t) in let? g := r in check_rows t exprs g (f1 o) (seq 0 (t_rows t)).
(** constraint_check.rs:67-99 [check_specific_constraint] *)
Definition check_specific_constraint (e : engine F) (exprs : list expr) (t : table F) (row which : nat) : option bool :=
  let? r := eroot e (t_rows t) in let? g := r in
  let x := match row with O => f1 o | S r => pow_usize o g (Z.of_nat r) end in
  let? c := nth_error exprs which in
  let? v := check x (cc_trace t row) c in Some (snd v).
End Expr.
