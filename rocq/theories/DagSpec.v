(** What the evaluation graph is for, independently of algebraic_dag.rs. *)
Require Import ZArith NArith Bool List.
From Verif Require Import FieldSig StarkBase PolyModel TraceModel ExprModel ExprSpec.
Import ListNotations.
Open Scope nat_scope.

Section Spec.
Context {F : Type} (o : ops F).
(** The expression and everything inside it. *)
Fixpoint subexpressions (ex : rexpr F) : list (rexpr F) :=
  ex :: match ex with
        | EX | EConst _ | ETrace _ _ => []
        | EPoly _ a | EClaim _ _ a | ENeg a | EInv a | EExp a _ => subexpressions a
        | EAdd a b | EMul a b => subexpressions a ++ subexpressions b
        end.
(** In row [row] of the extended trace, "column i, offset j" is the cell [blowup * j] rows further, cyclically. *)
Definition cell (t : table F) (blowup row : nat) (i : nat) (j : Z) : option F :=
  t_get t (Z.to_nat ((Z.of_nat row + Z.of_nat blowup * j) mod Z.of_nat (t_rows t))) i.
(** [v] is the value of [ex] in row [row] of the coset with cofactor [c] and root [w]. *)
Definition row_value (c w : F) (t : table F) (blowup row : nat) (ex : rexpr F) (v : F) : Prop :=
  value o (fmul o c (fpw o w row)) (cell t blowup row) ex v.
(** [h] is the value of [ex] at the pseudorandom point: X is [seed] and cell (i, j) is [K i j]. *)
Definition random_value (seed : F) (K : nat -> Z -> F) (ex : rexpr F) (h : F) : Prop := value o seed (fun i j => Some (K i j)) ex h.
(** The pseudorandom point tells the subexpressions of [ex], zero and one apart: two of them that agree there
    agree in every row. *)
Definition no_collision (seed : F) (K : nat -> Z -> F) (c w : F) (t : table F) (blowup : nat) (ex : rexpr F) : Prop :=
  forall a b h, In a (subexpressions ex) -> In b (EConst (f0 o) :: EConst (f1 o) :: subexpressions ex) ->
  random_value seed K a h -> random_value seed K b h ->
  forall row u v, row < t_rows t -> row_value c w t blowup row a u -> row_value c w t blowup row b v -> u = v.
End Spec.
