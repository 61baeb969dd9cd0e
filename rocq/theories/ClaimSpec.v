(** What the claims of the examples mean, independently of the constraint systems. *)
Require Import ZArith Bool List.
From Verif Require Import FieldSig StarkBase TraceModel ExprModel ExprSpec ClaimModel.
Import ListNotations.
Open Scope nat_scope.

(** Where a condition on the cells of the table is imposed: on all rows but the last one, on the row of that number, on the
    rows but the last of each of the blocks of 2^j rows, on the first rows of these blocks. *)
Inductive place : Type := AllButLast | Row (index : Z) | Blocks (j : nat) | Starts (j : nat).
Definition covers (k : nat) (p : place) (row : nat) : Prop :=
  match p with
  | AllButLast => row + 1 < 2 ^ k
  | Row index => Z.of_nat row = (index mod 2 ^ Z.of_nat k)%Z
  | Blocks j => (row + 1) mod 2 ^ j <> 0
  | Starts j => row mod 2 ^ j = 0
  end.
Definition sensible (k : nat) (p : place) : Prop := match p with AllButLast => True | Row index => (0 <= index < 2 ^ 64)%Z | Blocks j => j <= k /\ k + (k - j) <= 64 | Starts j => j <= k end.

Section Spec.
Context {F : Type} (o : ops F).
(** The constraint that imposes [N] = 0 there, as the examples write it; [g] is the generator of a trace of 2^k rows. *)
Definition placed (g : F) (k : nat) (c : rexpr F * place) : rexpr F :=
  EMul (fst c) (match snd c with
                | AllButLast => every_row o g (2 ^ Z.of_nat k)
                | Row index => on_row g index
                | Blocks j => on_loop_rows o g (2 ^ Z.of_nat k) (2 ^ Z.of_nat j)
                | Starts j => on_loop_start_rows o (2 ^ Z.of_nat k) (2 ^ Z.of_nat j)
                end).
(** The condition [N] on the cells around [row] holds. *)
Definition satisfied (g : F) (t : table F) (row : nat) (N : rexpr F) : Prop := value o (fpw o g row) (row_trace t row) N (f0 o).
(** A condition: an expression without divisions on the cells of the table. *)
Definition condition (t : table F) (N : rexpr F) : Prop :=
  usizes N /\ division_free N /\ forall i j, refers N i j -> i < t_cols t /\ (- Z.of_nat (t_rows t) <= j)%Z /\ (- 2 ^ 63 < j < 2 ^ 63)%Z.

(** The sequence of the Fibonacci claim: 1, s, 1 + s, ... *)
Fixpoint fibonacci (s : F) (n : nat) : F * F := match n with O => (f1 o, s) | S n => (snd (fibonacci s n), fadd o (fst (fibonacci s n)) (snd (fibonacci s n))) end.
(** The MiMC cipher: x -> x^alpha + k_i with round constants taken in turn. *)
Fixpoint mimc (alpha : N) (coef : list F) (x : F) (n : nat) : F :=
  match n with O => x | S n => fadd o (fexp o (mimc alpha coef x n) alpha) (nth (n mod length coef) coef (f0 o)) end.
(** The iteration of vdf.rs. *)
Definition square2 (r two : F) (c : F * F) : F * F := (fadd o (fmul o (fst c) (fst c)) (fmul o r (fmul o (snd c) (snd c))), fmul o two (fmul o (fst c) (snd c))).
Definition vdf_step (r two : F) (c : F * F) : F * F :=
  let s := square2 r two c in (fadd o (fmul o (fst c) (fst s)) (fmul o r (fmul o (snd c) (snd s))), fadd o (fmul o (fst c) (fst s)) (fmul o (snd c) (snd s))).
(** Multiplication of a + b sqrt(r). *)
Definition ext_mul (r : F) (x y : F * F) : F * F :=
  (fadd o (fmul o (fst x) (fst y)) (fmul o r (fmul o (snd x) (snd y))), fadd o (fmul o (fst x) (snd y)) (fmul o (snd x) (fst y))).
Fixpoint iterate {A} (f : A -> A) (n : nat) (x : A) : A := match n with O => x | S n => f (iterate f n x) end.
(** One step of the hash of mimc_hash.rs, with the round constant k. *)
Definition hash_step (q three k : F) (s : F * F) : F * F :=
  let (l, r) := s in
  (fadd o (fadd o (fmul o l (fmul o l l)) (fmul o (fmul o three q) (fmul o l (fmul o r r)))) k, fadd o (fmul o three (fmul o l l)) (fmul o q (fmul o r (fmul o r r)))).
(** The states of the hash of (x, y) with the round constants ks: after a round of all constants the left part is replaced by y. *)
Fixpoint hash_state (q three : F) (ks : list F) (x y : F) (row : nat) : F * F :=
  match row with
  | O => (x, f0 o)
  | S row => let s := hash_step q three (nth (row mod length ks) ks (f0 o)) (hash_state q three ks x y row) in if (S row) mod length ks =? 0 then (y, snd s) else s
  end.
(** Authentication in a tree: the way from an element to the root, with the inputs of every hash. [true] says that the sibling
    is on the left. *)
Definition siblings (node previous : F) (is_left : bool) : F * F := if is_left then (node, previous) else (previous, node).
Fixpoint tree_inputs (hash : F -> F -> F) (previous : F) (path : list (F * bool)) : list (F * F) :=
  match path with [] => [] | (node, l) :: path => let xy := siblings node previous l in xy :: tree_inputs hash (hash (fst xy) (snd xy)) path end.
Fixpoint tree_root (hash : F -> F -> F) (previous : F) (path : list (F * bool)) : F :=
  match path with [] => previous | (node, l) :: path => let xy := siblings node previous l in tree_root hash (hash (fst xy) (snd xy)) path end.
End Spec.
