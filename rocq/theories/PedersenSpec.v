(** What the tables of the Pedersen Merkle tree mean. *)
Require Import ZArith Bool List.
From Verif Require Import FieldSig CurveModel CurveSpec.
Import ListNotations.
Open Scope nat_scope.

Section Spec.
Context {F : Type} (o : ops F).
Notation "x + y" := (fadd o x y). Notation "x - y" := (fsub o x y). Notation "x * y" := (fmul o x y).
(** The number with the given bits, the lowest first, as an element of the field. *)
Fixpoint num (bs : list bool) : F := match bs with [] => f0 o | b :: bs => (if b then f1 o else f0 o) + (f1 o + f1 o) * num bs end.
(** (r, with the slope s) is the third point, reflected, of a line of slope s through q and p. If q and p have the same abscissa and ordinate, the
    slope is arbitrary; if only the abscissa is the same, there is none. *)
Definition chord (s : F) (q p r : F * F) : Prop :=
  s * (fst q - fst p) = snd q - snd p /\ s * s = fst q + fst p + fst r /\ s * (fst q - fst r) = snd q + snd r.
Definition advance (b : bool) (s : F) (q p r : F * F) : Prop := if b then chord s q p r else s = f0 o /\ r = q.
(** The n rows of a layer, [T r i] is the cell in row r, column i; [P r] and [Q r] are the points that the bits number r of the
    left and the right input select. Columns 0 and 4 hold the remaining bits, 1 and 5 slopes, (2, 3) and (6, 7) the points after the left and the right bit. *)
Definition layer_rows (n bits : nat) (shift : F * F) (P Q : nat -> F * F) (T : nat -> nat -> F) : Prop :=
  exists lb rb : nat -> bool,
  (T 0 6, T 0 7) = shift /\
  (forall r, r < n -> T r 0 = num (map lb (seq r (n - 1 - r))) /\ T r 4 = num (map rb (seq r (n - 1 - r)))) /\
  T bits 0 = f0 o /\ T bits 4 = f0 o /\
  forall r, Nat.lt (S r) n ->
    advance (lb r) (T (S r) 1) (T r 6, T r 7) (P r) (T (S r) 2, T (S r) 3) /\
    advance (rb r) (T (S r) 5) (T (S r) 2, T (S r) 3) (Q r) (T (S r) 6, T (S r) 7).
(** Points one after the other: the sum of those whose bit is set. *)
Fixpoint selected (bs : list bool) (ps : list (affine F)) : affine F :=
  match bs, ps with b :: bs, p :: ps => if b then padd o (f1 o) p (selected bs ps) else selected bs ps | _, _ => AZero end.
(** The Pedersen hash of two numbers given by their bits: the abscissa of shift + sum of the selected points. *)
Definition pedersen (shift : affine F) (ps qs : list (affine F)) (lb rb : list bool) : affine F :=
  padd o (f1 o) (padd o (f1 o) shift (selected lb ps)) (selected rb qs).
(** The sums in the order in which the rows of the table make them, for the bits [lb] and [rb]; bit number r selects [P r] or [Q r]. *)
Definition point (p : F * F) : affine F := APoint (fst p) (snd p).
Definition add_if (b : bool) (p q : affine F) : affine F := if b then padd o (f1 o) q p else q.
Fixpoint partial_sum (shift : affine F) (P Q : nat -> affine F) (lb rb : nat -> bool) (r : nat) : affine F :=
  match r with O => shift | S r => add_if (rb r) (Q r) (add_if (lb r) (P r) (partial_sum shift P Q lb rb r)) end.
(** No addition, of the first n ones, is of a point to itself or its opposite, or to the point at infinity. *)
Definition apart (q p : affine F) : Prop := match q, p with APoint x _, APoint x' _ => x <> x' | _, _ => False end.
Definition generic (shift : affine F) (P Q : nat -> affine F) (lb rb : nat -> bool) (n : nat) : Prop :=
  forall r, Nat.lt r n -> (lb r = true -> apart (partial_sum shift P Q lb rb r) (P r)) /\ (rb r = true -> apart (add_if (lb r) (P r) (partial_sum shift P Q lb rb r)) (Q r)).
(** Conversions between field elements and the numbers below 2^bits. *)
Record conversions (to_uint : F -> Z) (from_uint : Z -> F) (bits : nat) : Prop := {
  cv_range : forall x, (0 <= to_uint x < 2 ^ Z.of_nat bits)%Z;
  cv_back : forall x, from_uint (to_uint x) = x;
  cv_zero : from_uint 0%Z = f0 o;
  cv_bit : forall z, (0 <= z < 2 ^ Z.of_nat bits)%Z -> from_uint z = (if Z.odd z then f1 o else f0 o) + (f1 o + f1 o) * from_uint (Z.div z 2) }.
(** Bit number r of a number. *)
Definition bit (z : Z) (r : nat) : bool := Z.testbit z (Z.of_nat r).
(** The first n bits of a number, and the sum with points in a list. *)
Definition first_bits (n : nat) (b : nat -> bool) : list bool := map b (seq 0 n).
(** The Pedersen hash of two field elements: the abscissa of the point. *)
Definition pedersen_point (shift : affine F) (P Q : nat -> affine F) (bits : nat) (x y : Z) : affine F :=
  pedersen shift (map P (seq 0 bits)) (map Q (seq 0 bits)) (first_bits bits (bit x)) (first_bits bits (bit y)).
(** In the other order of the additions, first those of the left input, all of them are of points with different abscissas. *)
Definition hash_generic (shift : affine F) (P Q : nat -> affine F) (lb rb : nat -> bool) (n : nat) : Prop :=
  let none _ := false in
  let half := partial_sum shift P P lb none n in
  forall r, Nat.lt r n -> (lb r = true -> apart (partial_sum shift P P lb none r) (P r)) /\ (rb r = true -> apart (partial_sum half Q Q rb none r) (Q r)).
End Spec.
