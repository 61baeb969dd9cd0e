(** The elliptic curve of algebra/elliptic-curve/src, generic over the field operations.

    [None] is a panic. Field division panics on a zero divisor ([f_div]); the inverse itself
    is the one of FieldSig.v (see C19 for the limb-level algorithm). [square()] is modelled as a
    product (C17_square). Scalars enter through [to_uint()], so they are given as U256 values. *)
Require Import ZArith Lia Bool List.
From Verif Require Import Word U256Model KnuthModel BinaryModel FieldSig FieldAlgModel Arr.
Import ListNotations.
Open Scope Z_scope.

(** curve.rs:16-22 [Affine] *)
Inductive affine (F : Type) : Type := AZero | APoint (x y : F).
Arguments AZero {F}. Arguments APoint {F} x y.
(** jacobian.rs:17-21 [Jacobian] *)
Record jacobian (F : Type) : Type := J { jx : F; jy : F; jz : F }.
Arguments J {F}. Arguments jx {F}. Arguments jy {F}. Arguments jz {F}.

Section Curve.
Context {F : Type} (o : ops F) (beta : F).
Notation "0" := (f0 o). Notation "1" := (f1 o).
Notation "x + y" := (fadd o x y). Notation "x - y" := (fsub o x y). Notation "x * y" := (fmul o x y).
Notation "- x" := (fneg o x). Notation "x =? y" := (feqb o x y).
Notation "x / y" := (f_div o x y).

(** curve.rs:58-64 [is_on_curve] *)
Definition is_on_curve (p : affine F) : bool :=
  match p with AZero => true | APoint x y => y * y =? x * x * x + x + beta end.
(** curve.rs:70-85 [double], 66-68 [double_assign] *)
Definition a_double (p : affine F) : option (affine F) :=
  match p with
  | AZero => Some AZero
  | APoint x y =>
      if y =? 0 then Some AZero
      else
        let? m := ((x + x + x) * x + 1) / (y + y) in
        let nx := m * m - x - x in
        let ny := m * (x - nx) - y in
        Some (APoint nx ny)
  end.
(** curve.rs:87-92 [neg_assign], 101-115 [neg] *)
Definition a_neg (p : affine F) : affine F := match p with AZero => AZero | APoint x y => APoint x (- y) end.
(** curve.rs:117-142 [add_assign] *)
Definition a_add (p q : affine F) : option (affine F) :=
  match p with
  | AZero => Some q
  | APoint ax ay =>
      match q with
      | AZero => Some p
      | APoint bx by_ =>
          if ax =? bx then (if ay =? by_ then a_double p else Some AZero)
          else
            let? m := (ay - by_) / (ax - bx) in
            let x := m * m - ax - bx in
            Some (APoint x (m * (ax - x) - ay))
      end
  end.
(** curve.rs:148-154 [sub_assign] *)
Definition a_sub (p q : affine F) : option (affine F) := a_add p (a_neg q).

(** [for i in (0..n).rev()] *)
Definition rev_range (n : Z) : list Z := rev (range 0%Z n).
(** curve.rs:156-178 [Mul<&ScalarFieldElement>] of [curve_operations!], for a type with
    operations [double], [add] and [zero]; [bits] is [scalar.to_uint()]. *)
Definition op_mul {A} (double : A -> option A) (add : A -> A -> option A) (zero : A) (p : A) (bits : u256) : option A :=
  match u_most_significant_bit bits with
  | Some position => for_each (rev_range position) (fun r i =>
      let? r := double r in
      if u_bit bits i then add r p else Some r) p
  | None => Some zero
  end.
Definition a_mul (p : affine F) (bits : u256) : option (affine F) := op_mul a_double a_add AZero p bits.

(** jacobian.rs:24-28 [ZERO] *)
Definition j_zero : jacobian F := J 1 1 0.
(** prime_field.rs:157-166 [double], [triple] *)
Definition dbl (x : F) : F := x + x.
Definition tpl (x : F) : F := x + x + x.
Definition sqr (x : F) : F := x * x.
(** jacobian.rs:36-52 [double_assign], 58-63 [double] *)
Definition j_double (p : jacobian F) : jacobian F :=
  let '(J x y z) := p in
  if y =? 0 then j_zero
  else
    let xx := sqr x in
    let yy := sqr y in
    let yyyy := sqr yy in
    let zz := sqr z in
    let s := dbl (sqr (x + yy) - xx - yyyy) in
    let m := tpl xx + sqr zz in
    let z' := sqr (y + z) - yy - zz in
    let x' := sqr m - dbl s in
    let y' := m * (s - x') - dbl (dbl (dbl yyyy)) in
    J x' y' z'.
(** jacobian.rs:54-56 [neg_assign], 125-133 [neg] *)
Definition j_neg (p : jacobian F) : jacobian F := J (jx p) (- jy p) (jz p).
(** jacobian.rs:79-107 [From<&Affine>], [From<Affine>] *)
Definition j_from_affine (p : affine F) : jacobian F := match p with AZero => j_zero | APoint x y => J x y 1 end.
(** jacobian.rs:109-123 [From<&Jacobian> for Affine] *)
Definition a_from_jacobian (p : jacobian F) : affine F :=
  match inv_opt o (jz p) with
  | None => AZero
  | Some zi => let zi2 := sqr zi in let zi3 := zi * zi2 in APoint (jx p * zi2) (jy p * zi3)
  end.
(** jacobian.rs:30-34 [is_on_curve] *)
Definition j_is_on_curve (p : jacobian F) : bool := is_on_curve (a_from_jacobian p).
(** the derived [PartialEq] of Affine (curve.rs:16) and jacobian.rs:66-71 [eq] *)
Definition a_eqb (p q : affine F) : bool :=
  match p, q with AZero, AZero => true | APoint x y, APoint x' y' => (x =? x') && (y =? y') | _, _ => false end.
Definition j_eqb (p q : jacobian F) : bool := a_eqb (a_from_jacobian p) (a_from_jacobian q).
(** jacobian.rs:135-173 [AddAssign<&Jacobian>] *)
Definition j_add (p q : jacobian F) : jacobian F :=
  let '(J x1 y1 z1) := p in let '(J x2 y2 z2) := q in
  if z2 =? 0 then p
  else if z1 =? 0 then q
  else
    let z1z1 := sqr z1 in
    let z2z2 := sqr z2 in
    let u1 := x1 * z2z2 in
    let u2 := x2 * z1z1 in
    let s1 := y1 * z2 * z2z2 in
    let s2 := y2 * z1 * z1z1 in
    if u1 =? u2 then (if s1 =? s2 then j_double p else j_zero)
    else
      let h := u2 - u1 in
      let i := sqr (dbl h) in
      let j := h * i in
      let r := dbl (s2 - s1) in
      let v := u1 * i in
      let x := sqr r - j - dbl v in
      let y := r * (v - x) - dbl (s1 * j) in
      let z := (sqr (z1 + z2) - z1z1 - z2z2) * h in
      J x y z.
(** curve.rs:148-154 [sub_assign] *)
Definition j_sub (p q : jacobian F) : jacobian F := j_add p (j_neg q).
(** jacobian.rs:175-214 [AddAssign<&Affine>]: line 196 compares [self.x] with [s2]. *)
Definition j_add_affine (p : jacobian F) (q : affine F) : jacobian F :=
  match q with
  | AZero => p
  | APoint x y =>
      let '(J x1 y1 z1) := p in
      if z1 =? 0 then J x y 1
      else
        let z1z1 := sqr z1 in
        let u2 := x * z1z1 in
        let s2 := y * z1 * z1z1 in
        if x1 =? u2 then (if x1 =? s2 then j_double p else j_zero)
        else
          let h := u2 - x1 in
          let hh := sqr h in
          let i := dbl (dbl hh) in
          let j := h * i in
          let r := dbl (s2 - y1) in
          let v := x1 * i in
          let x' := sqr r - j - dbl v in
          let y' := r * (v - x') - dbl (y1 * j) in
          let z' := sqr (z1 + h) - z1z1 - hh in
          J x' y' z'
  end.
(** jacobian.rs:227-231 [SubAssign<&Affine>] *)
Definition j_sub_affine (p : jacobian F) (q : affine F) : jacobian F := j_add_affine p (a_neg q).
(** curve.rs:156-178 [Mul<&ScalarFieldElement>] *)
Definition j_mul (p : jacobian F) (bits : u256) : option (jacobian F) :=
  op_mul (fun p => Some (j_double p)) (fun p q => Some (j_add p q)) j_zero p bits.
End Curve.
