(** Specification side of ECDSA (C34): the textbook verification equation, and the condition under
    which the interleaved multiplication of [verify] meets no exceptional mixed addition. *)
Require Import ZArith Bool List.
From Verif Require Import U256Model U256Spec FieldSig FieldInstance FieldModel Primes CurveModel CurveSpec CurveInstance WnafModel WnafSpec.
Import ListNotations.
Open Scope Z_scope.

(** z times the generator *)
Definition G_times (z : Z) : affine Felt := zmul felt_ops (f1 felt_ops) z GENERATOR.

(** The verification equation: the x coordinate of the point, an integer below the field modulus,
    is r modulo the order of the group. The point at infinity has no x coordinate. *)
Definition x_matches (p : affine Felt) (r : Scalar) : Prop :=
  match p with AZero => False | APoint x _ => fe_val x mod p_order = fe_val r end.

(** Does z G vanish? *)
Definition vanishes (z : Z) : bool := z mod p_order =? 0.
(** acc G and t G are not both finite with the same x coordinate. *)
Definition apart (acc t : Z) : bool := vanishes acc || vanishes t || negb (vanishes (acc - t) || vanishes (acc + t)).
(** Walk through the digits of the two scalars, least significant pair first in the list, as the
    loop of [double_base_mul] does from the other end: the accumulator is doubled, then x G and
    y (d G) are added. Returns the final multiple of the generator, and whether every addition was
    of points that are [apart]. *)
Fixpoint trace (d start : Z) (l : list (Z * Z)) : Z * bool :=
  match l with
  | [] => (start, true)
  | (x, y) :: l => let '(acc, ok) := trace d start l in
      (2 * acc + x + d * y, ok && apart (2 * acc) x && apart (2 * acc + x) (d * y))
  end.
Definition collision_free (d u1 u2 : Z) : Prop :=
  match non_adjacent_form (u_of_Z u1) 7, non_adjacent_form (u_of_Z u2) 5 with
  | Some a, Some b => snd (trace d 0 (combine a b)) = true
  | _, _ => False
  end.
