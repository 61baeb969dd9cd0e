(** The affine and Jacobian operations compute the group law of CurveSpec.v. *)
Require Import ZArith NArith Lia Bool List Field Ring.
From Verif Require Import Word U256Model KnuthModel BinaryModel FieldSig FieldAlgModel Arr CurveModel CurveSpec CurveGroup.
Import ListNotations.

Section Curve.
Context {F : Type} (o : ops F) (L : lawful o).
Notation "0" := (f0 o). Notation "1" := (f1 o).
Notation "x + y" := (fadd o x y). Notation "x - y" := (fsub o x y). Notation "x * y" := (fmul o x y).
Notation "- x" := (fneg o x). Notation "x / y" := (fmul o x (finv o y)).
Add Field Ffield : (law_field o L).
Hypothesis Two : 1 + 1 <> 0.
Local Notation "p ⊕ q" := (padd o 1 p q) (at level 50, left associativity).
Local Notation aff := (a_from_jacobian o).

Lemma dbl_ne y : y <> 0 -> y + y <> 0.
Proof. intros N E. apply N. assert (E2 : (1 + 1) * y = 0) by (rewrite <- E; ring). apply (fmul_0_iff o L) in E2 as [E2|E2]; [destruct (Two E2)|exact E2]. Qed.
Lemma sub_ne x y : x <> y -> x - y <> 0.
Proof. intros N E. apply N. apply (fsub_0_iff o L). exact E. Qed.
Lemma div_ne x y : y <> 0 -> f_div o x y = Some (x / y).
Proof. intros N. unfold f_div. rewrite (inv_opt_ne o L) by assumption. reflexivity. Qed.

Lemma a_double_eq p : a_double o p = Some (p ⊕ p).
Proof.
  destruct p as [|x y]; [reflexivity|]. cbn [a_double padd]. destruct (feqb_spec o L x x) as [_|N]; [|congruence].
  destruct (feqb_spec o L y y) as [_|N]; [|congruence]. destruct (feqb_spec o L y 0) as [E|N]; [reflexivity|].
  rewrite div_ne by (apply dbl_ne; assumption). cbn [bind]. do 2 f_equal; replace ((x + x + x) * x + 1) with (x * x + x * x + x * x + 1) by ring; reflexivity.
Qed.
Lemma a_add_eq p q : a_add o p q = Some (p ⊕ q).
Proof.
  destruct p as [|x1 y1]; [reflexivity|]. destruct q as [|x2 y2]; [reflexivity|]. cbn [a_add].
  destruct (feqb_spec o L x1 x2) as [<-|N].
  - destruct (feqb_spec o L y1 y2) as [<-|N]; [apply a_double_eq|]. cbn [padd]. destruct (feqb_spec o L x1 x1) as [_|]; [|congruence].
    destruct (feqb_spec o L y1 y2); [contradiction|reflexivity].
  - cbn [padd]. destruct (feqb_spec o L x1 x2); [contradiction|]. rewrite div_ne by (apply sub_ne; assumption). reflexivity.
Qed.
Lemma a_neg_eq p : a_neg o p = opposite o p. Proof. reflexivity. Qed.
Lemma a_sub_eq p q : a_sub o p q = Some (p ⊕ opposite o q). Proof. apply a_add_eq. Qed.

(** *** The point a Jacobian triple stands for *)
Lemma aff_zero x y : aff (J x y 0) = AZero.
Proof. unfold a_from_jacobian. cbn [jz]. rewrite (proj2 (inv_opt_none o L 0) eq_refl). reflexivity. Qed.
Lemma aff_point x y z : z <> 0 -> aff (J x y z) = APoint (x / (z * z)) (y / (z * z * z)).
Proof. intros N. unfold a_from_jacobian, sqr. cbn [jx jy jz]. rewrite (inv_opt_ne o L) by assumption. f_equal; field; assumption. Qed.
Lemma aff_from p : aff (j_from_affine o p) = p.
Proof.
  assert (N : 1 <> 0) by apply (F_1_neq_0 (law_field o L)).
  destruct p as [|x y]; cbn [j_from_affine]; [apply aff_zero|]. rewrite aff_point by assumption. f_equal; field; assumption.
Qed.
Lemma aff_neg p : aff (j_neg o p) = opposite o (aff p).
Proof.
  destruct p as [x y z]. unfold j_neg. cbn [jx jy jz]. destruct (feq_dec o L z 0) as [->|N]; [rewrite !aff_zero; reflexivity|].
  rewrite !aff_point by assumption. cbn [opposite]. f_equal. field. assumption.
Qed.
Lemma mul_ne x y : x <> 0 -> y <> 0 -> x * y <> 0. Proof. apply (fmul_neq_0 o L). Qed.
Lemma div_0 y z : z <> 0 -> (y / z = 0 <-> y = 0).
Proof. intros N. split; [intros E|intros ->; field; assumption]. transitivity (y / z * z); [field; assumption|]. rewrite E. ring. Qed.
Lemma div_eq x z x' z' : z <> 0 -> z' <> 0 -> (x / z = x' / z' <-> x * z' = x' * z).
Proof.
  intros N N'. split; intros E.
  - transitivity (x / z * (z * z')); [field; assumption|]. rewrite E. field. assumption.
  - transitivity (x * z' / (z * z')); [field; auto|]. rewrite E. field. auto.
Qed.
Lemma aff_double p : aff (j_double o p) = aff p ⊕ aff p.
Proof.
  destruct p as [x y z]. cbn [j_double]. destruct (feq_dec o L z 0) as [->|N].
  { rewrite !aff_zero. cbn [padd]. destruct (feqb_spec o L y 0); [apply aff_zero|]. unfold sqr. match goal with |- aff (J _ _ ?t) = _ => replace t with 0 by ring end. apply aff_zero. }
  assert (N3 : z * z * z <> 0) by (repeat apply mul_ne; assumption).
  rewrite (aff_point x y z N). destruct (feqb_spec o L y 0) as [->|Ny].
  { unfold j_zero. rewrite aff_zero. cbn [padd]. destruct (feqb_spec o L (x / (z * z)) (x / (z * z))); [|congruence].
    destruct (feqb_spec o L (0 / (z * z * z)) (0 / (z * z * z))); [|congruence].
    destruct (feqb_spec o L (0 / (z * z * z)) 0) as [|C]; [reflexivity|]. destruct C. apply div_0; auto. }
  rewrite (add_tangent o L) by (rewrite div_0; assumption).
  assert (Y2 : y + y <> 0) by (apply dbl_ne; assumption).
  unfold sqr. match goal with |- aff (J _ _ ?t) = _ => replace t with ((1 + 1) * y * z) by ring end.
  rewrite aff_point by (repeat apply mul_ne; assumption). unfold third, tslope, dbl, tpl. 
  f_equal; field; repeat split; auto; try (intros E; apply Y2; rewrite <- E; ring).
Qed.
Lemma aff_add p q : aff (j_add o p q) = aff p ⊕ aff q.
Proof.
  destruct p as [x1 y1 z1], q as [x2 y2 z2]. cbn [j_add]. destruct (feqb_spec o L z2 0) as [->|N2].
  { rewrite (aff_zero x2 y2). destruct (aff _); reflexivity. }
  destruct (feqb_spec o L z1 0) as [->|N1]; [rewrite aff_zero; reflexivity|].
  assert (S1 : z1 * z1 <> 0) by (apply mul_ne; assumption). assert (S2 : z2 * z2 <> 0) by (apply mul_ne; assumption).
  assert (C1 : z1 * z1 * z1 <> 0) by (apply mul_ne; assumption). assert (C2 : z2 * z2 * z2 <> 0) by (apply mul_ne; assumption).
  rewrite !(aff_point x2 y2 z2) by assumption. unfold sqr. destruct (feqb_spec o L (x1 * (z2 * z2)) (x2 * (z1 * z1))) as [E|N].
  - assert (EX : x1 / (z1 * z1) = x2 / (z2 * z2)) by (apply div_eq; assumption).
    destruct (feqb_spec o L (y1 * z2 * (z2 * z2)) (y2 * z1 * (z1 * z1))) as [Ey|Ny].
    + assert (EY : y1 / (z1 * z1 * z1) = y2 / (z2 * z2 * z2)). { apply div_eq; try assumption. transitivity (y1 * z2 * (z2 * z2)); [ring|]. rewrite Ey. ring. }
      rewrite aff_double, (aff_point x1 y1 z1) by assumption. rewrite <- EX, <- EY. reflexivity.
    + unfold j_zero. rewrite aff_zero, (aff_point x1 y1 z1) by assumption. cbn [padd]. destruct (feqb_spec o L (x1 / (z1 * z1)) (x2 / (z2 * z2))); [|contradiction].
      destruct (feqb_spec o L (y1 / (z1 * z1 * z1)) (y2 / (z2 * z2 * z2))) as [EY|_]; [|reflexivity]. destruct Ny.
      apply (proj1 (div_eq _ _ _ _ C1 C2)) in EY. transitivity (y1 * (z2 * z2 * z2)); [ring|]. rewrite EY. ring.
  - rewrite (aff_point x1 y1 z1) by assumption. rewrite (add_chord o L) by (rewrite div_eq by assumption; exact N).
    assert (H : x2 * (z1 * z1) - x1 * (z2 * z2) <> 0) by (apply sub_ne; auto).
    match goal with |- aff (J _ _ ?t) = _ => replace t with ((1 + 1) * z1 * z2 * (x2 * (z1 * z1) - x1 * (z2 * z2))) by ring end.
    rewrite aff_point by (repeat apply mul_ne; assumption). unfold third, slope, dbl.
    f_equal; field; repeat split; auto; try (intros E; apply H; transitivity (- (x1 * z2 * z2 - x2 * z1 * z1)); [ring|]; first [rewrite E; ring | replace (x1 * z2 * z2 - x2 * z1 * z1) with (x1 * (z2 * z2) - x2 * (z1 * z1)) by ring; rewrite E; ring]).
Qed.
Lemma aff_sub p q : aff (j_sub o p q) = aff p ⊕ opposite o (aff q).
Proof. unfold j_sub. rewrite aff_add, aff_neg. reflexivity. Qed.
Lemma j_eqb_spec p q : j_eqb o p q = true <-> aff p = aff q.
Proof.
  unfold j_eqb. destruct (aff p) as [|x y], (aff q) as [|x' y']; cbn [a_eqb]; try (split; [discriminate|congruence]); [tauto|].
  rewrite andb_true_iff. destruct (feqb_spec o L x x'), (feqb_spec o L y y'); split; try intuition congruence.
Qed.
(** Mixed addition: right unless both points are finite with the same x coordinate. *)
Definition x_of (p : affine F) : option F := match p with AZero => None | APoint x _ => Some x end.
Lemma aff_add_affine p q : (aff p = AZero \/ q = AZero \/ x_of (aff p) <> x_of q) -> aff (j_add_affine o p q) = aff p ⊕ q.
Proof.
  intros H. destruct q as [|x2 y2]; [cbn [j_add_affine]; destruct (aff p); reflexivity|]. destruct p as [x1 y1 z1]. cbn [j_add_affine].
  assert (N : 1 <> 0) by apply (F_1_neq_0 (law_field o L)).
  destruct (feqb_spec o L z1 0) as [->|N1]. { rewrite aff_zero, aff_point by assumption. cbn [padd]. f_equal; field; assumption. }
  rewrite (aff_point x1 y1 z1) in * by assumption. destruct H as [H|[H|H]]; [discriminate|discriminate|]. cbn [x_of] in H.
  assert (NX : x1 / (z1 * z1) <> x2) by congruence. assert (S1 : z1 * z1 <> 0) by (apply mul_ne; assumption).
  unfold sqr. destruct (feqb_spec o L x1 (x2 * (z1 * z1))) as [E|Nx].
  { destruct NX. rewrite E. field. assumption. }
  rewrite (add_chord o L) by assumption. assert (Hh : x2 * (z1 * z1) - x1 <> 0) by (apply sub_ne; auto).
  match goal with |- aff (J _ _ ?t) = _ => replace t with ((1 + 1) * z1 * (x2 * (z1 * z1) - x1)) by ring end.
  rewrite aff_point by (repeat apply mul_ne; assumption). unfold third, slope, dbl.
  f_equal; field; repeat split; auto; try (intros E; apply Hh; transitivity (- (x1 - x2 * (z1 * z1))); [ring|]; first [rewrite E; ring | replace (x1 - x2 * (z1 * z1)) with (x1 - x2 * z1 * z1) by ring; rewrite E; ring]).
Qed.
(** What it computes in the remaining case. *)
Lemma aff_add_affine_same x1 y1 z1 x2 y2 : z1 <> 0 -> x_of (aff (J x1 y1 z1)) = Some x2 ->
  aff (j_add_affine o (J x1 y1 z1) (APoint x2 y2)) = if feqb o x2 (y2 * z1) then aff (J x1 y1 z1) ⊕ aff (J x1 y1 z1) else AZero.
Proof.
  intros N1 E. rewrite aff_point in E by assumption. injection E as E. assert (S1 : z1 * z1 <> 0) by (apply mul_ne; assumption).
  assert (E1 : x1 = x2 * (z1 * z1)) by (rewrite <- E; field; assumption).
  cbn [j_add_affine]. destruct (feqb_spec o L z1 0); [contradiction|]. unfold sqr. destruct (feqb_spec o L x1 (x2 * (z1 * z1))) as [_|]; [|contradiction].
  destruct (feqb_spec o L x1 (y2 * z1 * (z1 * z1))) as [E2|N2], (feqb_spec o L x2 (y2 * z1)) as [E3|N3]; try apply aff_double; try apply aff_zero.
  - destruct N3. rewrite E1 in E2. transitivity (x2 * (z1 * z1) / (z1 * z1)); [field; assumption|]. rewrite E2. field. assumption.
  - destruct N2. rewrite E1, E3. reflexivity.
Qed.
End Curve.
