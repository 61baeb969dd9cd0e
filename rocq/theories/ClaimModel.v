(** The way claims are written with the crypto/stark crate: traits.rs, and the claims in crypto/stark/examples. *)
Require Import ZArith Bool List.
From Verif Require Import Word KnuthModel FieldSig FieldAlgModel Arr FftModel StarkBase PolyModel TraceModel ExprModel.
Import ListNotations.
Open Scope nat_scope.

Section Claims.
Context {F : Type} (o : ops F).
(** The closures [on_row] and [every_row] of small_fib.rs:32-33, large_fib.rs:32-33, mimc_cubic.rs:49-50, mimc_quadratic.rs:50-51,
    mimc_hash.rs:162-163 and vdf.rs:33-34; [g] is the trace generator, [n] the trace length. *)
Definition on_row (g : F) (index : Z) : rexpr F := EInv (e_sub EX (EExp (EConst g) index)).
Definition every_row (g : F) (n : Z) : rexpr F := e_div (e_sub EX (EExp (EConst g) (n - 1))) (e_sub (EExp EX n) (EConst (f1 o))).
(** mimc_hash.rs:176-180 [on_loop_rows]; as the trace generator is a constant, its power is computed at once
    (overflow of the exponent is not modelled: the theorems ask that it fits) *)
Definition on_loop_rows (g : F) (n length : Z) : rexpr F :=
  e_div (e_sub (EExp EX (n / length)) (EConst (pow_usize o g (n / length * (n - 1))))) (e_sub (EExp EX n) (EConst (f1 o))).
(** mimc_tree.rs:183-184 [on_loop_start_rows] *)
Definition on_loop_start_rows (n length : Z) : rexpr F := e_div (EConst (f1 o)) (e_sub (EExp EX (n / length)) (EConst (f1 o))).
(** mimc_cubic.rs:52-61, mimc_quadratic.rs:53-62 (where the length is written 16), mimc_hash.rs:165-174: a column that repeats [values] *)
Definition periodic (e : engine F) (n : Z) (values : list F) : option (rexpr F) :=
  let? v := e_ifft o e values in
  let? v := permute (edbg e) v in
  let? p := poly_new v in
  Some (EPoly p (EExp EX (n / Z.of_nat (length values)))).
(** usize::next_power_of_two; beyond 2^63 it panics (debug; the release profile returns 0). *)
Definition next_power_of_two (x : Z) : option Z := if (x <=? 2 ^ 63)%Z then Some (2 ^ Z.log2_up x)%Z else None.
(** [FieldElement::root(n).unwrap()] *)
Definition root_unwrap (e : engine F) (n : Z) : option F := let? r := eroot e (Z.to_nat n) in r.
(** [Constraints::from_expressions(..).unwrap()] *)
Definition system (e : engine F) (n ncolumns : nat) (exprs : list (rexpr F)) : option (constraints (F := F)) := let? r := from_expressions e n ncolumns exprs in r.

(** ** small_fib.rs, large_fib.rs *)
(** small_fib.rs:35-40, large_fib.rs:35-40 *)
Definition fib_exprs (g : F) (n index : Z) (value : F) : list (rexpr F) :=
  [ EMul (e_sub (ETrace 0 1) (ETrace 1 0)) (every_row g n);
    EMul (e_sub (e_sub (ETrace 1 1) (ETrace 0 0)) (ETrace 1 0)) (every_row g n);
    EMul (e_sub (ETrace 0 0) (EConst (f1 o))) (on_row g 0);
    EMul (e_sub (ETrace 0 0) (EConst value)) (on_row g index) ].
(** small_fib.rs:21-42, large_fib.rs:21-42 [constraints] (without the seed) *)
Definition fib_constraints (e : engine F) (index : Z) (value : F) : option (constraints (F := F)) :=
  let? n := next_power_of_two index in
  let? g := root_unwrap e n in
  system e (Z.to_nat n) 2 (fib_exprs g n index value).
(** small_fib.rs:46-56, large_fib.rs:46-56 [trace] *)
Definition fib_step (t : option (table F)) (i : nat) : option (table F) :=
  let? t := t in
  let? b := t_get t i 1 in let? t := t_set t (i + 1) 0 b in
  let? a := t_get t i 0 in let? b := t_get t i 1 in t_set t (i + 1) 1 (fadd o a b).
Definition fib_trace (index : Z) (secret : F) : option (table F) :=
  let? n := next_power_of_two index in
  let? t := t_set (t_new o (Z.to_nat n) 2) 0 0 (f1 o) in
  let? t := t_set t 0 1 secret in
  fold_left fib_step (seq 0 (Z.to_nat n - 1)) (Some t).

(** ** constant.rs:16-22, claim_polynomial.rs:17-22 and 35-50 *)
Definition constant_exprs (value : F) : list (rexpr F) := [ e_div (e_sub (ETrace 0 0) (EConst value)) (e_sub EX (EConst (f1 o))) ].
Definition claim_poly_exprs : list (rexpr F) := [ e_div (e_sub (ETrace 0 0) (EClaim 0 0 EX)) (e_sub EX (EConst (f1 o))) ].
(** claim_polynomial.rs:36-42: every expression with the claim polynomial put in *)
Definition concrete_exprs (value : F) : option (list (rexpr F)) := let? p := poly_new [value] in option_all (map (substitute_claim o [p]) claim_poly_exprs).
(** constant.rs:26-31, claim_polynomial.rs:26-31 [trace]; [hundred] is FieldElement::from(100) *)
Definition constant_trace (hundred witness : F) : option (table F) :=
  let? t := t_set (t_new o 2 1) 0 0 witness in t_set t 1 0 (fadd o witness hundred).

(** ** mimc_cubic.rs; ROUNDS (8192) is [n], ALPHA (3) is [alpha], K_COEF (16 values) is [coef] *)
(** mimc_cubic.rs:63-70 *)
Definition mimc_cubic_exprs (g : F) (n : Z) (alpha : Z) (k_coef : rexpr F) (before after : F) : list (rexpr F) :=
  [ EMul (e_sub (ETrace 0 1) (EAdd (EExp (ETrace 0 0) alpha) k_coef)) (every_row g n);
    EMul (e_sub (ETrace 0 0) (EConst before)) (on_row g 0);
    EMul (e_sub (ETrace 0 0) (EConst after)) (on_row g (n - 1)) ].
Definition mimc_cubic_constraints (e : engine F) (n alpha : Z) (coef : list F) (before after : F) : option (constraints (F := F)) :=
  let? g := root_unwrap e n in
  let? k_coef := periodic e n coef in
  system e (Z.to_nat n) 1 (mimc_cubic_exprs g n alpha k_coef before after).
(** mimc_cubic.rs:76-86 [trace]; the assertion panics *)
Definition mimc_cubic_step (alpha : Z) (coef : list F) (s : option (table F * F)) (i : nat) : option (table F * F) :=
  let? (t, prev) := s in
  let? t := t_set t i 0 prev in
  let? c := nth_error coef (i mod length coef) in
  Some (t, fadd o (pow_usize o prev alpha) c).
Definition mimc_cubic_trace (n alpha : Z) (coef : list F) (before after : F) : option (table F) :=
  let? (t, _) := fold_left (mimc_cubic_step alpha coef) (seq 0 (Z.to_nat n)) (Some (t_new o (Z.to_nat n) 1, before)) in
  let? last := t_get t (Z.to_nat n - 1) 0 in
  if feqb o last after then Some t else None.

(** ** mimc_quadratic.rs *)
(** mimc_quadratic.rs:64-75 *)
Definition mimc_quadratic_exprs (g : F) (n : Z) (k_coef : rexpr F) (before after : F) : list (rexpr F) :=
  [ EMul (e_sub (EMul (ETrace 0 0) (ETrace 0 0)) (ETrace 1 0)) (every_row g n);
    EMul (e_sub (EMul (ETrace 0 0) (ETrace 1 0)) (ETrace 2 0)) (every_row g n);
    EMul (e_sub (ETrace 0 1) (EAdd (ETrace 2 0) k_coef)) (every_row g n);
    EMul (e_sub (ETrace 0 0) (EConst before)) (on_row g 0);
    EMul (e_sub (ETrace 0 0) (EConst after)) (on_row g (n - 1)) ].
Definition mimc_quadratic_constraints (e : engine F) (n : Z) (coef : list F) (before after : F) : option (constraints (F := F)) :=
  let? g := root_unwrap e n in
  let? k_coef := periodic e n coef in
  system e (Z.to_nat n) 3 (mimc_quadratic_exprs g n k_coef before after).

(** mimc_quadratic.rs:81-93 [trace] *)
Definition mimc_quadratic_step (coef : list F) (s : option (table F * F)) (i : nat) : option (table F * F) :=
  let? (t, prev) := s in
  let? t := t_set t i 0 prev in
  let? a := t_get t i 0 in let? t := t_set t i 1 (fmul o a a) in
  let? a := t_get t i 0 in let? b := t_get t i 1 in let? t := t_set t i 2 (fmul o a b) in
  let? b := t_get t i 2 in let? c := nth_error coef (i mod length coef) in
  Some (t, fadd o b c).
Definition mimc_quadratic_trace (n : Z) (coef : list F) (before after : F) : option (table F) :=
  let? (t, _) := fold_left (mimc_quadratic_step coef) (seq 0 (Z.to_nat n)) (Some (t_new o (Z.to_nat n) 3, before)) in
  let? last := t_get t (Z.to_nat n - 1) 0 in
  if feqb o last after then Some t else None.

(** ** mimc_hash.rs; the trace length (256) is [n], the length of a round (128) [l], [q] is Q and [three] FieldElement::from(3) *)
(** mimc_hash.rs:186-201 *)
Definition mimc_hash_exprs (g q three : F) (n l : Z) (k_coef : rexpr F) (before_x before_y after : F) : list (rexpr F) :=
  [ EMul (e_sub (EAdd (EAdd (EExp (ETrace 0 0) 3) (EMul (EMul (EMul (EConst three) (EConst q)) (ETrace 0 0)) (EExp (ETrace 1 0) 2))) k_coef) (ETrace 0 1)) (on_loop_rows g n l);
    EMul (e_sub (EAdd (EMul (EConst three) (EExp (ETrace 0 0) 2)) (EMul (EConst q) (EExp (ETrace 1 0) 3))) (ETrace 1 1)) (every_row g n);
    EMul (e_sub (ETrace 0 0) (EConst before_x)) (on_row g 0);
    EMul (ETrace 1 0) (on_row g 0);
    EMul (e_sub (ETrace 0 0) (EConst before_y)) (on_row g l);
    EMul (e_sub (ETrace 0 0) (EConst after)) (on_row g (n - 1)) ].
Definition mimc_hash_constraints (e : engine F) (n l : Z) (q three : F) (coef : list F) (before_x before_y after : F) : option (constraints (F := F)) :=
  let? g := root_unwrap e n in
  let? k_coef := periodic e n coef in
  system e (Z.to_nat n) 2 (mimc_hash_exprs g q three n l k_coef before_x before_y after).

(** ** vdf.rs; the trace length (2^20) is [n], R (3) is [r], [two] is FieldElement::from(2) *)
(** vdf.rs:36-51 *)
Definition vdf_exprs (g r two : F) (n : Z) (c0_start c1_start c0_end c1_end : F) : list (rexpr F) :=
  [ EMul (e_sub (EAdd (EMul (ETrace 0 0) (ETrace 0 0)) (EMul (EMul (EConst r) (ETrace 1 0)) (ETrace 1 0))) (ETrace 2 0)) (every_row g n);
    EMul (e_sub (EMul (EMul (EConst two) (ETrace 0 0)) (ETrace 1 0)) (ETrace 3 0)) (every_row g n);
    EMul (e_sub (EAdd (EMul (ETrace 0 0) (ETrace 2 0)) (EMul (EMul (EConst r) (ETrace 1 0)) (ETrace 3 0))) (ETrace 0 1)) (every_row g n);
    EMul (e_sub (EAdd (EMul (ETrace 0 0) (ETrace 2 0)) (EMul (ETrace 1 0) (ETrace 3 0))) (ETrace 1 1)) (every_row g n);
    EMul (e_sub (ETrace 0 0) (EConst c0_start)) (on_row g 0);
    EMul (e_sub (ETrace 1 0) (EConst c1_start)) (on_row g 0);
    EMul (e_sub (ETrace 0 0) (EConst c0_end)) (on_row g (n - 1));
    EMul (e_sub (ETrace 1 0) (EConst c1_end)) (on_row g (n - 1)) ].
Definition vdf_constraints (e : engine F) (n : Z) (r two c0_start c1_start c0_end c1_end : F) : option (constraints (F := F)) :=
  let? g := root_unwrap e n in system e (Z.to_nat n) 4 (vdf_exprs g r two n c0_start c1_start c0_end c1_end).
(** vdf.rs:57-73 [trace]: [square] is the product with itself *)
Definition vdf_trace_step (r two : F) (s : option (table F * (F * F))) (i : nat) : option (table F * (F * F)) :=
  let? (t, prev) := s in
  let? t := t_set t i 0 (fst prev) in let? t := t_set t i 1 (snd prev) in
  let? a := t_get t i 0 in let? b := t_get t i 1 in let? t := t_set t i 2 (fadd o (fmul o a a) (fmul o r (fmul o b b))) in
  let? a := t_get t i 0 in let? b := t_get t i 1 in let? t := t_set t i 3 (fmul o (fmul o two a) b) in
  let? a := t_get t i 0 in let? b := t_get t i 1 in let? c := t_get t i 2 in let? d := t_get t i 3 in
  Some (t, (fadd o (fmul o a c) (fmul o (fmul o r b) d), fadd o (fmul o a c) (fmul o b d))).
Definition vdf_trace (n : Z) (r two c0_start c1_start c0_end c1_end : F) : option (table F) :=
  let? (t, _) := fold_left (vdf_trace_step r two) (seq 0 (Z.to_nat n)) (Some (t_new o (Z.to_nat n) 4, (c0_start, c1_start))) in
  let? a := t_get t (Z.to_nat n - 1) 0 in let? b := t_get t (Z.to_nat n - 1) 1 in
  if feqb o a c0_end then if feqb o b c1_end then Some t else None else None.
(** mimc_hash.rs:216-225 and 229-239, the body of the two loops; [first] is 0 and [execution_increment]. The assignment to
    new_left reads [right.square()] and [left.pow(3)], to new_right [left.square()] and [right.pow(3)]. *)
Definition mimc_hash_step (q three : F) (coef : list F) (first : nat) (s : option (table F * (F * F))) (i : nat) : option (table F * (F * F)) :=
  let? (t, (lft, rgt)) := s in
  let? t := t_set t (i + first) 0 lft in let? t := t_set t (i + first) 1 rgt in
  let? c := nth_error coef i in
  Some (t, (fadd o (fadd o (pow_usize o lft 3) (fmul o (fmul o (fmul o three q) lft) (fmul o rgt rgt))) c,
            fadd o (fmul o three (fmul o lft lft)) (fmul o q (pow_usize o rgt 3)))).
(** mimc_hash.rs:210-243 [trace] *)
Definition mimc_hash_trace (l : Z) (q three : F) (coef : list F) (before_x before_y after : F) : option (table F) :=
  let l := Z.to_nat l in
  let? (t, (_, rgt)) := fold_left (mimc_hash_step q three coef 0) (seq 0 l) (Some (t_new o (2 * l) 2, (before_x, f0 o))) in
  let? (t, _) := fold_left (mimc_hash_step q three coef l) (seq 0 l) (Some (t, (before_y, rgt))) in
  let? last := t_get t (2 * l - 1) 0 in
  if feqb o last after then Some t else None.
(** mimc_hash.rs:245-267 [mimc]: the two loops over the round constants, the second without the last of them *)
Definition mimc_hash_round (q three : F) (s : F * F) (item : F) : F * F :=
  let (lft, rgt) := s in
  (fadd o (fadd o (pow_usize o lft 3) (fmul o (fmul o (fmul o three q) lft) (fmul o rgt rgt))) item, fadd o (fmul o three (fmul o lft lft)) (fmul o q (pow_usize o rgt 3))).
Definition mimc_hash (q three : F) (coef : list F) (x y : F) : F :=
  let (_, rgt) := fold_left (mimc_hash_round q three) coef (x, f0 o) in
  fst (fold_left (mimc_hash_round q three) (firstn (length coef - 1) coef) (y, rgt)).

(** ** mimc_tree.rs; the trace length (256 * 8192) is [n], the length of a round (128) [l] *)
(** mimc_tree.rs:192-218; [x - 1] on expressions subtracts the constant one *)
Definition mimc_tree_exprs (g q three : F) (n l : Z) (k_coef : rexpr F) (element root start_left : F) : list (rexpr F) :=
  [ EMul (e_sub (EAdd (EAdd (EExp (ETrace 0 0) 3) (EMul (EMul (EMul (EConst three) (EConst q)) (ETrace 0 0)) (EExp (ETrace 1 0) 2))) k_coef) (ETrace 0 1)) (on_loop_rows g n l);
    EMul (e_sub (EAdd (EMul (EConst three) (EExp (ETrace 0 0) 2)) (EMul (EConst q) (EExp (ETrace 1 0) 3))) (ETrace 1 1)) (on_loop_rows g n (2 * l));
    EMul (EMul (EConst start_left) (e_sub (ETrace 0 0) (EConst element))) (on_row g l);
    EMul (EMul (e_sub (EConst start_left) (EConst (f1 o))) (e_sub (ETrace 0 0) (EConst element))) (on_row g 0);
    EMul (ETrace 1 0) (on_loop_start_rows n (2 * l));
    EMul (e_sub (ETrace 0 0) (EConst root)) (on_row g (n - 1)) ].
(** mimc_tree.rs:150-222 [constraints] (without the seed) *)
Definition mimc_tree_constraints (e : engine F) (n l : Z) (q three : F) (coef : list F) (element root start_left : F) : option (constraints (F := F)) :=
  let? g := root_unwrap e n in
  let? k_coef := periodic e n coef in
  system e (Z.to_nat n) 2 (mimc_tree_exprs g q three n l k_coef element root start_left).
(** mimc_tree.rs:252-292 [mimc_loop]: the last turn of the second loop returns after the two assignments to the table *)
Definition mimc_tree_loop (l : nat) (q three : F) (coef : list F) (x y : F) (t : table F) (execution_increment : nat) : option (table F * F) :=
  let? (t, (_, rgt)) := fold_left (mimc_hash_step q three coef execution_increment) (seq 0 l) (Some (t, (x, f0 o))) in
  let? (t, (lft, rgt)) := fold_left (mimc_hash_step q three coef (execution_increment + l)) (seq 0 (l - 1)) (Some (t, (y, rgt))) in
  let? t := t_set t (l - 1 + (execution_increment + l)) 0 lft in let? t := t_set t (l - 1 + (execution_increment + l)) 1 rgt in
  Some (t, lft).
(** mimc_tree.rs:230-249 [trace]; [path] is the list of the pairs of [zip] *)
Definition mimc_tree_step (l : nat) (q three : F) (coef : list F) (s : option (table F * (F * nat))) (n : F * bool) : option (table F * (F * nat)) :=
  let? (t, (previous, inc)) := s in
  let? (t, previous) := (if snd n then mimc_tree_loop l q three coef (fst n) previous t inc else mimc_tree_loop l q three coef previous (fst n) t inc) in
  Some (t, (previous, inc + 2 * l)).
Definition mimc_tree_trace (l : Z) (q three : F) (coef : list F) (element root : F) (path : list F) (is_left : list bool) : option (table F) :=
  let l := Z.to_nat l in
  let? (t, _) := fold_left (mimc_tree_step l q three coef) (List.combine path is_left) (Some (t_new o (2 * l * length path) 2, (element, 0))) in
  let? last := t_get t (2 * l * length path - 1) 0 in
  if feqb o last root then Some t else None.
(** mimc_tree.rs:295-305 [mimc_path]: the i-th flag is indexed, which panics beyond the flags; mimc_hash is the one of mimc_hash.rs *)
Fixpoint mimc_tree_path (q three : F) (coef : list F) (previous : F) (path : list F) (is_left : list bool) : option F :=
  match path with
  | [] => Some previous
  | node :: path =>
    match is_left with
    | [] => None
    | l :: is_left => mimc_tree_path q three coef (if l then mimc_hash q three coef node previous else mimc_hash q three coef previous node) path is_left
    end
  end.
End Claims.
