(** The curve y^2 = x^3 + a x + b and its group law, as textbooks state them. *)
Require Import ZArith NArith List.
From Verif Require Import FieldSig CurveModel.

Section Spec.
Context {F : Type} (o : ops F) (a b : F).
Notation "0" := (f0 o). Notation "1" := (f1 o).
Notation "x + y" := (fadd o x y). Notation "x - y" := (fsub o x y). Notation "x * y" := (fmul o x y).
Notation "- x" := (fneg o x).

Definition on_curve (p : affine F) : Prop :=
  match p with AZero => True | APoint x y => y * y = x * x * x + a * x + b end.
Definition opposite (p : affine F) : affine F := match p with AZero => AZero | APoint x y => APoint x (- y) end.

(** R is the sum of P and Q: reflect the third intersection, with the curve, of the line through
    P and Q (the tangent when they coincide). [l] is the slope of that line. *)
Inductive sum_of : affine F -> affine F -> affine F -> Prop :=
| sum_zero_l q : sum_of AZero q q
| sum_zero_r p : sum_of p AZero p
| sum_opposite x y : sum_of (APoint x y) (APoint x (- y)) AZero
| sum_chord x1 y1 x2 y2 l : x1 <> x2 -> l * (x1 - x2) = y1 - y2 ->
    sum_of (APoint x1 y1) (APoint x2 y2) (APoint (l * l - x1 - x2) (l * (x1 - (l * l - x1 - x2)) - y1))
| sum_tangent x y l : y + y <> 0 -> l * (y + y) = (x * x + x * x + x * x) + a ->
    sum_of (APoint x y) (APoint x y) (APoint (l * l - x - x) (l * (x - (l * l - x - x)) - y)).

(** The total sum of two points, a point by value. *)
Definition padd (p q : affine F) : affine F :=
  match p, q with
  | AZero, _ => q
  | _, AZero => p
  | APoint x1 y1, APoint x2 y2 =>
      let third l := APoint (l * l - x1 - x2) (l * (x1 - (l * l - x1 - x2)) - y1) in
      if feqb o x1 x2 then
        if feqb o y1 y2 then
          if feqb o y1 0 then AZero else third ((x1 * x1 + x1 * x1 + x1 * x1 + a) * finv o (y1 + y1))
        else AZero
      else third ((y1 - y2) * finv o (x1 - x2))
  end.
(** The n-fold sum P + ... + P. *)
Definition nmul (n : N) (p : affine F) : affine F := N.iter n (padd p) AZero.
Definition zmul (z : Z) (p : affine F) : affine F :=
  match z with Z0 => AZero | Zpos n => nmul (Npos n) p | Zneg n => opposite (nmul (Npos n) p) end.

(** No point of the curve is singular; the characteristic is not two. *)
Record smooth : Prop := {
  sm_two : 1 + 1 <> 0;
  sm_singular : forall x, x * x * x + a * x + b = 0 -> x * x + x * x + x * x + a <> 0
}.
End Spec.
