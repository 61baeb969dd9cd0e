(** What a width-w non-adjacent form of an integer is. *)
Require Import ZArith List.
Import ListNotations.
Open Scope Z_scope.

(** Least significant digit first: sum of d_i 2^i. *)
Fixpoint digits_value (l : list Z) : Z := match l with [] => 0 | d :: l => d + 2 * digits_value l end.
Record wnaf_form (w : Z) (n : Z) (l : list Z) : Prop := {
  wnaf_value : digits_value l = n;
  wnaf_digit : forall i, nth i l 0 <> 0 -> Z.odd (nth i l 0) = true /\ Z.abs (nth i l 0) < 2 ^ (w - 1);
  wnaf_sparse : forall i j, (i < j)%nat -> nth i l 0 <> 0 -> nth j l 0 <> 0 -> w <= Z.of_nat j - Z.of_nat i
}.
