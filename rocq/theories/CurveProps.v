(** C30-C33: the curve group, Jacobian coordinates, wNAF recoding, scalar multiplication.

    The algorithms of algebra/elliptic-curve are generic in the field in the model; every theorem is
    for any field and any non-singular curve y^2 = x^3 + x + b over it (characteristic not two), and
    [C30_stark_curve] shows that the crate's own field and constants are an instance. *)
Require Import ZArith NArith Lia Bool List Znumtheory Ring Field.
From Verif Require Import Word U256Model U256Spec U256Proofs BinaryProofs MontgomeryModel FieldModel Primes FieldSig FieldInstance FieldAlgModel Arr
  CurveModel CurveSpec CurveGroup CurveProofs WnafModel WnafSpec WnafProofs ScalarMulProofs CurveInstance CurveOrder CurveBase.
Import ListNotations.
Open Scope Z_scope.

Notation curve o b := (on_curve o (f1 o) b).
Notation good_curve o b := (smooth o (f1 o) b).
Notation multiple o k p := (zmul o (f1 o) k p).
(** The point a Jacobian triple stands for. *)
Notation point_of o j := (a_from_jacobian o j).

(** *** C30 *)
Section Sum.
Context {F : Type} (o : ops F) (L : lawful o) (b : F) (Sm : good_curve o b).
Add Field Ffield : (law_field o L).
Lemma div_back x y : y <> f0 o -> fmul o (fmul o x (finv o y)) y = x.
Proof. intros N. field. exact N. Qed.
Lemma rescale x y z c : z <> f0 o -> c <> f0 o ->
  a_from_jacobian o (J (fmul o (fmul o c c) x) (fmul o (fmul o c (fmul o c c)) y) (fmul o c z)) = a_from_jacobian o (J x y z).
Proof. intros N Nc. rewrite !(aff_point o L) by (first [exact N|apply (fmul_neq_0 o L); assumption]). f_equal; field; split; assumption. Qed.
Lemma neg_zero : fneg o (f0 o) = f0 o. Proof. ring. Qed.
Lemma padd_sum p q : curve o b p -> curve o b q -> sum_of o (f1 o) p q (padd o (f1 o) p q).
Proof.
  intros Op Oq. destruct p as [|x y]; [constructor|]. destruct q as [|x' y']; [constructor|]. cbn [padd].
  destruct (feqb_spec o L x x') as [<-|N].
  - destruct (feqb_spec o L y y') as [<-|Ny].
    + destruct (feqb_spec o L y (f0 o)) as [->|N0].
      * pose proof (sum_opposite o (f1 o) x (f0 o)) as H. rewrite neg_zero in H. exact H.
      * apply sum_tangent; [apply (dbl_neq o L _ _ Sm); exact N0|]. apply div_back, (dbl_neq o L _ _ Sm). exact N0.
    + destruct (same_x o L _ _ _ _ _ Op Oq) as [C| ->]; [contradiction|]. apply sum_opposite.
  - apply sum_chord; [exact N|]. apply div_back. intros C. apply N. apply (fsub_0_iff o L). exact C.
Qed.
Lemma sum_padd p q r : curve o b p -> curve o b q -> sum_of o (f1 o) p q r -> r = padd o (f1 o) p q.
Proof.
  intros Op Oq H. destruct H as [q|p|x y|x1 y1 x2 y2 l N E|x y l N E].
  - reflexivity.
  - symmetry. apply add_0_r.
  - symmetry. exact (add_opp o L _ _ Sm (APoint x y)).
  - rewrite (add_chord o L) by exact N. unfold third, slope. assert (N' : fsub o x1 x2 <> f0 o) by (intros C; apply N, (fsub_0_iff o L), C).
    assert (El : l = fmul o (fsub o y1 y2) (finv o (fsub o x1 x2))) by (rewrite <- E; field; exact N'). rewrite <- El. reflexivity.
  - assert (Ny : y <> f0 o) by (intros ->; apply N; ring). rewrite (add_tangent o L) by exact Ny. unfold third, tslope.
    match goal with |- context [fmul o ?a (finv o (fadd o y y))] => assert (El : l = fmul o a (finv o (fadd o y y))) by (rewrite <- E; field; exact N) end.
    rewrite <- El. reflexivity.
Qed.
Lemma is_on_curve_iff p : is_on_curve o b p = true <-> curve o b p.
Proof. destruct p as [|x y]; cbn [is_on_curve on_curve]; [tauto|]. rewrite (law_eqb o L). assert (E : fmul o (f1 o) x = x) by ring. rewrite E. tauto. Qed.
End Sum.

(** The relation [sum_of] of CurveSpec.v is the chord-and-tangent rule. Points are on the curve
    exactly when the code says so, and each of the four operations returns (without panic) the
    point the rule prescribes; the result is on the curve. *)
Theorem C30_chord_tangent : forall F (o : ops F) b p q, lawful o -> good_curve o b ->
  (is_on_curve o b p = true <-> curve o b p) /\
  (curve o b p -> curve o b q ->
    (exists r, a_add o p q = Some r /\ (forall r', sum_of o (f1 o) p q r' <-> r' = r) /\ curve o b r) /\
    (exists r, a_double o p = Some r /\ (forall r', sum_of o (f1 o) p p r' <-> r' = r) /\ curve o b r) /\
    (exists r, a_sub o p q = Some r /\ (forall r', sum_of o (f1 o) p (opposite o q) r' <-> r' = r) /\ curve o b r) /\
    a_neg o p = opposite o p /\ curve o b (a_neg o p)).
Proof.
  intros F o b p q L Sm. split; [apply (is_on_curve_iff o L)|]. intros Op Oq. pose proof (sm_two _ _ _ Sm) as Two.
  assert (K : forall p q, curve o b p -> curve o b q -> forall r', sum_of o (f1 o) p q r' <-> r' = padd o (f1 o) p q).
  { intros p' q' Op' Oq' r'. split; [apply (sum_padd o L b Sm); assumption|]. intros ->. apply (padd_sum o L b Sm); assumption. }
  split; [|split; [|split; [|split]]].
  - exists (padd o (f1 o) p q). split; [apply (a_add_eq o L Two)|]. split; [apply K; assumption|apply (add_on o L _ _ Sm); assumption].
  - exists (padd o (f1 o) p p). split; [apply (a_double_eq o L Two)|]. split; [apply K; assumption|apply (add_on o L _ _ Sm); assumption].
  - exists (padd o (f1 o) p (opposite o q)). split; [apply (a_sub_eq o L Two)|]. split; [apply K; [assumption|apply (neg_on o L); assumption]|apply (add_on o L _ _ Sm); [assumption|apply (neg_on o L); assumption]].
  - reflexivity.
  - apply (neg_on o L). exact Op.
Qed.
Print Assumptions C30_chord_tangent.

(** The group laws, stated with the code's own operations. *)
Theorem C30_group : forall F (o : ops F) b p q r, lawful o -> good_curve o b -> curve o b p -> curve o b q -> curve o b r ->
  a_add o p AZero = Some p /\ a_add o AZero p = Some p /\
  a_add o p (a_neg o p) = Some AZero /\ a_sub o p p = Some AZero /\
  a_add o p q = a_add o q p /\
  (let? s := a_add o p q in a_add o s r) = (let? t := a_add o q r in a_add o p t) /\
  a_add o p p = a_double o p /\
  (let? s := a_add o p q in a_sub o s q) = Some p.
Proof.
  intros F o b p q r L Sm Op Oq Or. pose proof (sm_two _ _ _ Sm) as Two. pose proof (neg_on o L (f1 o) b) as No.
  unfold a_sub. rewrite !(a_add_eq o L Two), (a_double_eq o L Two). cbn [bind]. rewrite !(a_add_eq o L Two). change (a_neg o p) with (opposite o p). change (a_neg o q) with (opposite o q).
  repeat split.
  - rewrite add_0_r. reflexivity.
  - rewrite (add_opp o L _ _ Sm). reflexivity.
  - rewrite (add_opp o L _ _ Sm). reflexivity.
  - rewrite (add_comm o L _ _ Sm) by assumption. reflexivity.
  - rewrite (add_assoc o L _ _ Sm) by assumption. reflexivity.
  - rewrite (add_assoc o L _ _ Sm), (add_opp o L _ _ Sm), add_0_r by auto. reflexivity.
Qed.
Print Assumptions C30_group.

(** The crate's field and curve constants satisfy the hypotheses above. The generator is on the
    curve, has coordinates as documented, and its order is the prime modulus of the scalar field. *)
Theorem C30_stark_curve :
  lawful felt_ops /\ good_curve felt_ops BETA /\ curve felt_ops BETA GENERATOR /\
  (exists x y, GENERATOR = APoint x y /\ fe_val x = 0x01ef15c18599971b7beced415a40f0c7deacfd9b0d1819e03d723d8bc943cfca /\
     fe_val y = 0x005668060aa49730b7be4801df46ec62de53ecd11abe43a32873000c36e8dc1f) /\
  fe_val BETA = 0x06f21413efbe40de150e596d72f7a8c5609ad26c15c915c1f4cdfcb99cee9e89 /\
  prime p_order /\ forall k, multiple felt_ops k GENERATOR = AZero <-> (p_order | k).
Proof.
  split; [exact felt_lawful|]. split; [exact stark_smooth|]. split; [exact gen_on|]. split; [exists GEN_X, GEN_Y; split; [reflexivity|exact gen_val]|].
  split; [exact beta_val|]. split; [exact prime_order|].
  exact (zmul_zero felt_ops felt_lawful BETA stark_smooth GENERATOR p_order gen_on gen_nonzero prime_order generator_order).
Qed.
Print Assumptions C30_stark_curve.

(** *** C31 *)
Theorem C31_jacobian : forall F (o : ops F) b p q, lawful o -> good_curve o b ->
  point_of o (j_double o p) = padd o (f1 o) (point_of o p) (point_of o p) /\
  point_of o (j_neg o p) = opposite o (point_of o p) /\
  point_of o (j_add o p q) = padd o (f1 o) (point_of o p) (point_of o q) /\
  point_of o (j_sub o p q) = padd o (f1 o) (point_of o p) (opposite o (point_of o q)) /\
  (j_eqb o p q = true <-> point_of o p = point_of o q) /\
  (j_is_on_curve o b p = true <-> curve o b (point_of o p)).
Proof.
  intros F o b p q L Sm. pose proof (sm_two _ _ _ Sm) as Two.
  split; [apply (aff_double o L Two)|]. split; [apply (aff_neg o L)|]. split; [apply (aff_add o L Two)|]. split; [apply (aff_sub o L Two)|].
  split; [apply (j_eqb_spec o L)|apply (is_on_curve_iff o L)].
Qed.
Print Assumptions C31_jacobian.

(** The same, as agreement of the two implementations: convert, operate, convert back. *)
Theorem C31_agreement : forall F (o : ops F) b p q P Q, lawful o -> good_curve o b -> point_of o p = P -> point_of o q = Q ->
  a_double o P = Some (point_of o (j_double o p)) /\
  a_neg o P = point_of o (j_neg o p) /\
  a_add o P Q = Some (point_of o (j_add o p q)) /\
  a_sub o P Q = Some (point_of o (j_sub o p q)).
Proof.
  intros F o b p q P Q L Sm <- <-. pose proof (sm_two _ _ _ Sm) as Two.
  rewrite (aff_double o L Two), (aff_neg o L), (aff_add o L Two), (aff_sub o L Two).
  repeat split; [apply (a_double_eq o L Two)|apply (a_add_eq o L Two)|apply (a_sub_eq o L Two)].
Qed.
Print Assumptions C31_agreement.

(** Conversion: every affine point has a Jacobian form that converts back to it, every triple with
    z <> 0 stands for (x / z^2, y / z^3), every triple with z = 0 for zero, and rescaling a triple
    does not change the point. *)
Theorem C31_conversion : forall F (o : ops F) P x y z c, lawful o ->
  point_of o (j_from_affine o P) = P /\
  (z <> f0 o -> exists X Y, point_of o (J x y z) = APoint X Y /\ fmul o X (fmul o z z) = x /\ fmul o Y (fmul o z (fmul o z z)) = y) /\
  point_of o (J x y (f0 o)) = AZero /\
  (c <> f0 o -> point_of o (J (fmul o (fmul o c c) x) (fmul o (fmul o c (fmul o c c)) y) (fmul o c z)) = point_of o (J x y z)).
Proof.
  intros F o P x y z c L. split; [apply (aff_from o L)|]. split; [|split; [apply (aff_zero o L)|]].
  - intros N. rewrite (aff_point o L) by exact N. eexists _, _. split; [reflexivity|]. split.
    + apply (div_back o L). apply (fmul_neq_0 o L); exact N.
    + assert (E : fmul o z (fmul o z z) = fmul o (fmul o z z) z) by apply (Ring_theory.Rmul_comm (Field_theory.F_R (law_field o L))). rewrite E.
      apply (div_back o L). repeat apply (fmul_neq_0 o L); exact N.
  - intros Nc. destruct (feq_dec o L z (f0 o)) as [->|N].
    + assert (E : fmul o c (f0 o) = f0 o) by (apply (fmul_0_iff o L); right; reflexivity). rewrite E, !(aff_zero o L). reflexivity.
    + apply (rescale o L); assumption.
Qed.
Print Assumptions C31_conversion.

(** Mixed addition (Jacobian += affine) is exact unless both points are finite with the same x. *)
Theorem C31_mixed_add : forall F (o : ops F) b p Q, lawful o -> good_curve o b ->
  (point_of o p = AZero \/ Q = AZero \/ x_of (point_of o p) <> x_of Q) ->
  point_of o (j_add_affine o p Q) = padd o (f1 o) (point_of o p) Q /\
  point_of o (j_sub_affine o p Q) = padd o (f1 o) (point_of o p) (opposite o Q).
Proof.
  intros F o b p Q L Sm H. pose proof (sm_two _ _ _ Sm) as Two. split; [apply (aff_add_affine o L Two); exact H|].
  unfold j_sub_affine. change (a_neg o Q) with (opposite o Q). apply (aff_add_affine o L Two).
  destruct H as [H|[->|H]]; [left; exact H|right; left; reflexivity|right; right]. destruct Q; exact H.
Qed.
Print Assumptions C31_mixed_add.
(** In the remaining case it compares the x coordinate with a y coordinate, so P + P is zero instead
    of 2 P unless x = y z for the representation at hand; and P + (-P) is 2 P when that holds. *)
Theorem C31_mixed_add_deviation : forall F (o : ops F) b x1 y1 z1 x y, lawful o -> good_curve o b -> z1 <> f0 o ->
  x_of (point_of o (J x1 y1 z1)) = Some x ->
  point_of o (j_add_affine o (J x1 y1 z1) (APoint x y)) =
    if feqb o x (fmul o y z1) then padd o (f1 o) (point_of o (J x1 y1 z1)) (point_of o (J x1 y1 z1)) else AZero.
Proof. intros F o b x1 y1 z1 x y L Sm N E. rewrite (aff_add_affine_same o L (sm_two _ _ _ Sm)) by assumption. reflexivity. Qed.
Print Assumptions C31_mixed_add_deviation.
Theorem C31_mixed_add_refuted : exists p, curve felt_ops BETA (point_of felt_ops p) /\ point_of felt_ops p = GENERATOR /\
  point_of felt_ops (j_add_affine felt_ops p GENERATOR) = AZero /\ padd felt_ops (f1 felt_ops) (point_of felt_ops p) GENERATOR <> AZero.
Proof.
  exists (j_from_affine felt_ops GENERATOR). rewrite (aff_from felt_ops felt_lawful). split; [exact gen_on|]. split; [reflexivity|].
  assert (E : point_of felt_ops (j_from_affine felt_ops GENERATOR) = GENERATOR) by apply (aff_from felt_ops felt_lawful).
  assert (N1 : f1 felt_ops <> f0 felt_ops) by (apply (eqb_ne felt_ops felt_lawful); vm_compute; reflexivity).
  split.
  - rewrite gen_phi in *. cbn [j_from_affine] in *. rewrite (C31_mixed_add_deviation Felt felt_ops BETA _ _ _ _ _ felt_lawful stark_smooth N1) by (rewrite E; reflexivity).
    destruct (feqb felt_ops (phi gx) (fmul felt_ops (phi gy) (f1 felt_ops))) eqn:C; [|reflexivity]. exfalso. apply (law_eqb felt_ops felt_lawful) in C.
    rewrite <- phi_1, <- phi_mul, Z.mul_1_r in C. apply phi_inj in C; [discriminate C|split; [discriminate|reflexivity]|split; [discriminate|reflexivity]].
  - intros C. assert (C2 : multiple felt_ops 2 GENERATOR = AZero). { rewrite <- C. symmetry. apply (zmul_2 felt_ops felt_lawful BETA stark_smooth). exact gen_on. }
    apply C30_stark_curve in C2. apply Z.divide_pos_le in C2; [|lia]. pose proof order_big. lia.
Qed.
Print Assumptions C31_mixed_add_refuted.

(** *** C32 *)
Lemma wnaf_tail w n d l : wnaf_form w n (d :: l) -> wnaf_form w (digits_value l) l /\ n = d + 2 * digits_value l.
Proof.
  intros [V D Sp]. split; [|symmetry; exact V]. constructor; [reflexivity|intros i; exact (D (S i))|].
  intros i j Hij Ni Nj. specialize (Sp (S i) (S j) ltac:(lia) Ni Nj). lia.
Qed.
Lemma wnaf_unique w : 1 < w -> forall l n l', wnaf_form w n l -> wnaf_form w n l' -> length l = length l' -> l = l'.
Proof.
  intros Hw. induction l as [|d l IH]; intros n [|d' l'] Fl Fl' E; try discriminate E; [reflexivity|].
  destruct (wnaf_tail _ _ _ _ Fl) as [Tl En]. destruct (wnaf_tail _ _ _ _ Fl') as [Tl' En'].
  assert (K : forall d l, wnaf_form w n (d :: l) -> n = d + 2 * digits_value l -> (d = 0 <-> Z.odd n = false)).
  { intros x m Fx Ex. split; [intros ->; rewrite Ex, Z.add_0_l, Z.odd_mul; reflexivity|]. intros O. destruct (Z.eq_dec x 0) as [|N]; [assumption|]. exfalso.
    destruct (wnaf_digit _ _ _ Fx 0%nat N) as [O' _]. cbn [nth] in O'. rewrite Ex, Z.odd_add, Z.odd_mul, O' in O. discriminate O. }
  assert (Ed : d = d').
  { destruct (Z.eq_dec d 0) as [->|N].
    - symmetry. apply (K d' l' Fl' En'). apply (K 0 l Fl En). reflexivity.
    - assert (N' : d' <> 0) by (intros C; apply N, (K d l Fl En), (K d' l' Fl' En'), C).
      destruct (wnaf_high w n [] d l Fl ltac:(lia) N) as [c Ec]. destruct (wnaf_high w n [] d' l' Fl' ltac:(lia) N') as [c' Ec'].
      destruct (wnaf_digit _ _ _ Fl 0%nat N) as [_ B]. destruct (wnaf_digit _ _ _ Fl' 0%nat N') as [_ B']. cbn [nth] in B, B'.
      assert (Ew : 2 ^ w = 2 * 2 ^ (w - 1)) by (rewrite <- Z.pow_succ_r by lia; f_equal; lia). rewrite Ew in Ec, Ec'. set (h := 2 ^ (w - 1)) in *.
      assert (Q : d - d' = (c' - c) * (2 * h)) by lia. destruct (Z.eq_dec c c') as [->|Nc]; [lia|]. assert (1 <= c' - c \/ c' - c <= -1) by lia. nia. }
  subst d'. f_equal. apply (IH (digits_value l)); [exact Tl| |cbn in E; congruence]. assert (Ev : digits_value l = digits_value l') by lia. rewrite Ev. exact Tl'.
Qed.
Theorem C32_wnaf : forall s n w, denotes s n -> 2 <= w <= 14 ->
  exists l, non_adjacent_form s w = Some l /\ length l = 257%nat /\ wnaf_form w n l.
Proof. intros s n w [Ws <-] Hw. apply naf_spec; assumption. Qed.
Print Assumptions C32_wnaf.
(** The digits are determined by the scalar: any two forms of the same length agree. *)
Theorem C32_unique : forall w n l l', 1 < w -> wnaf_form w n l -> wnaf_form w n l' -> length l = length l' -> l = l'.
Proof. intros w n l l' Hw. exact (wnaf_unique w Hw l n l'). Qed.
Print Assumptions C32_unique.

(** *** C33 *)
(** [multiple] is the k-fold sum. *)
Theorem C33_multiple : forall F (o : ops F) b p k, lawful o -> good_curve o b -> curve o b p ->
  multiple o 0 p = AZero /\ multiple o (k + 1) p = padd o (f1 o) (multiple o k p) p /\ curve o b (multiple o k p).
Proof.
  intros F o b p k L Sm Op. split; [reflexivity|]. split; [|apply (zmul_on o L _ _ Sm); exact Op].
  rewrite (zmul_add o L) with (b := b) by assumption. rewrite zmul_1. reflexivity.
Qed.
Print Assumptions C33_multiple.
(** Double-and-add in both coordinate systems, and wNAF multiplication, for every 256-bit scalar. *)
Theorem C33_mul : forall F (o : ops F) b P p s k, lawful o -> good_curve o b -> denotes s k -> curve o b P -> curve o b (point_of o p) ->
  a_mul o P s = Some (multiple o k P) /\
  (exists r, j_mul o p s = Some r /\ point_of o r = multiple o k (point_of o p)) /\
  (exists r, wnaf_mul o P s = Some r /\ point_of o r = multiple o k P).
Proof.
  intros F o b P p s k L Sm [Ws <-] OP Op. split; [apply (a_mul_spec o L b Sm); assumption|]. split; [apply (j_mul_spec o L b Sm); assumption|apply (wnaf_mul_spec o L b Sm); assumption].
Qed.
Print Assumptions C33_mul.
(** Multiples of the generator with the precomputed table, for every scalar below the group order
    but one; the scalar n - 94 gives zero. *)
Theorem C33_base_mul : exists t, generator_table = Some t /\ forall s k, denotes s k -> 0 <= k < p_order ->
  exists r, base_mul felt_ops t s = Some r /\
    (k <> p_order - 94 -> point_of felt_ops r = multiple felt_ops k GENERATOR) /\
    (k = p_order - 94 -> point_of felt_ops r = AZero /\ multiple felt_ops k GENERATOR <> AZero).
Proof.
  destruct generator_table_spec as (t & E & Ht). exists t. split; [exact E|]. intros s k [Ws <-] Hk. destruct (Z.eq_dec (val s) (p_order - 94)) as [Es|N].
  - destruct (base_exception t s Ws Es Ht) as (r & Er & A). exists r. split; [exact Er|]. split; [intros C; contradiction|]. intros _. split; [exact A|].
    intros C. apply C30_stark_curve in C. rewrite Es in C. apply Z.divide_pos_le in C; [|reflexivity]. pose proof order_big. lia.
  - destruct (base_ok t s Ws Hk Ht N) as (r & Er & A). exists r. split; [exact Er|]. split; [intros _; exact A|intros C; contradiction].
Qed.
Print Assumptions C33_base_mul.
(** [double_base_mul] on any curve: the sum of the two multiples, provided the odd multiples of the
    second point up to fifteen are finite (its table is converted to affine coordinates) and no
    addition in the run meets two finite points with the same x. *)
Theorem C33_double_base_mul : forall F (o : ops F) b P Q t s k s' k' da db, lawful o -> good_curve o b -> curve o b P -> curve o b Q ->
  window_table_affine o P 32 = Some t -> denotes s k -> denotes s' k' ->
  (forall i, (i < 8)%nat -> multiple o (2 * Z.of_nat i + 1) Q <> AZero) ->
  wnaf_form 7 k da -> wnaf_form 5 k' db -> length da = 257%nat -> length db = 257%nat -> clash_free2 o P Q (combine da db) ->
  exists r, double_base_mul o t s Q s' = Some r /\ point_of o r = padd o (f1 o) (multiple o k P) (multiple o k' Q).
Proof.
  intros F o b P Q t s k s' k' da db L Sm OP OQ Et [Ws <-] [Ws' <-] Hq Fa Fb La Lb Cf.
  destruct (window_table_affine_spec o L b Sm P 32 ltac:(lia) OP) as (t' & Et' & Ht). rewrite Et in Et'. injection Et' as <-.
  destruct (naf_spec s 7 Ws ltac:(lia)) as (a & Ea & La' & Fa'). destruct (naf_spec s' 5 Ws' ltac:(lia)) as (a' & Ea' & Lb' & Fb').
  assert (a = da) by (apply (C32_unique 7 (val s)); [lia|assumption|assumption|congruence]). assert (a' = db) by (apply (C32_unique 5 (val s')); [lia|assumption|assumption|congruence]). subst a a'.
  exact (double_base_mul_spec o L b Sm P Q t s s' da db OP OQ Ht Ws Ws' Hq Ea Ea' Cf).
Qed.
Print Assumptions C33_double_base_mul.
Theorem C33_double_base_mul_zero_panics : forall F (o : ops F) b t s s', lawful o -> good_curve o b -> wf s' ->
  double_base_mul o t s AZero s' = None.
Proof. intros F o b t s s' L Sm Ws. exact (double_base_mul_zero o L b Sm t s s' Ws). Qed.
Print Assumptions C33_double_base_mul_zero_panics.
(** [double_mul] looks at the wrong digit before subtracting: a negative digit of the first scalar
    counts only where the digit of the second is negative too, and where the digit of the first is
    zero and that of the second negative, P itself is subtracted. *)
Theorem C33_double_mul_deviation : forall F (o : ops F) b P Q s k s' k', lawful o -> good_curve o b -> curve o b P -> curve o b Q ->
  denotes s k -> denotes s' k' -> exists da db r, wnaf_form 5 k da /\ wnaf_form 5 k' db /\ double_mul o P s Q s' = Some r /\
    point_of o r = padd o (f1 o) (multiple o (digits_value (map (fun '(d, e) => if 0 <? d then d else if e <? 0 then (if d =? 0 then -1 else d) else 0) (combine da db))) P) (multiple o k' Q).
Proof.
  intros F o b P Q s k s' k' L Sm OP OQ [Ws <-] [Ws' <-]. destruct (double_mul_spec o L b Sm P Q s s' Ws Ws' OP OQ) as (da & db & Ea & Eb & r & Er & Ar).
  exists da, db, r. destruct (naf_spec s 5 Ws ltac:(lia)) as (a & Ea' & _ & Fa). destruct (naf_spec s' 5 Ws' ltac:(lia)) as (a' & Eb' & _ & Fb).
  split; [congruence|]. split; [congruence|]. split; [exact Er|]. rewrite Ar. reflexivity.
Qed.
Print Assumptions C33_double_mul_deviation.
(** 31 P + 0 Q comes out as 32 P. *)
Theorem C33_double_mul_refuted : forall F (o : ops F) b P Q, lawful o -> good_curve o b -> curve o b P -> curve o b Q ->
  exists r, double_mul o P (mk 31 0 0 0) Q ZERO = Some r /\ point_of o r = multiple o 32 P.
Proof.
  intros F o b P Q L Sm OP OQ. destruct (double_mul_spec o L b Sm P Q (mk 31 0 0 0) ZERO (proj1 (wfb_spec (mk 31 0 0 0)) eq_refl) wf_ZERO OP OQ) as (da & db & Ea & Eb & r & Er & Ar).
  exists r. split; [exact Er|]. rewrite Ar.
  assert (E : match non_adjacent_form (mk 31 0 0 0) 5, non_adjacent_form ZERO 5 with Some a, Some b => digits_value (map used_digit (combine a b)) = 32 | _, _ => False end) by (vm_compute; reflexivity).
  rewrite Ea, Eb in E. rewrite E. change (multiple o (val ZERO) Q) with (@AZero F). apply add_0_r.
Qed.
Print Assumptions C33_double_mul_refuted.

(** *** Examples: y^2 = x^3 + x + 1 modulo 97 *)
Definition tb := tiny 1.
Definition tp (x y : Z) : affine (fe tiny_field) := APoint (tiny x) (tiny y).
Lemma tiny_curve : good_curve tiny_ops tb.
Proof. apply (smooth_disc tiny_ops tiny_lawful); apply (eqb_ne tiny_ops tiny_lawful); vm_compute; reflexivity. Qed.
Lemma tiny_point : curve tiny_ops tb (tp 0 1) /\ curve tiny_ops tb (tp 1 10).
Proof. split; apply (is_on_curve_iff tiny_ops tiny_lawful); vm_compute; reflexivity. Qed.
Definition same (p : option (affine (fe tiny_field))) (q : affine (fe tiny_field)) : bool := match p with Some p => a_eqb tiny_ops p q | None => false end.
Example C30_ex : is_on_curve tiny_ops tb (tp 1 10) = true /\ is_on_curve tiny_ops tb (tp 1 11) = false /\
  same (a_double tiny_ops (tp 0 1)) (tp 73 11) = true /\ same (a_add tiny_ops (tp 0 1) (tp 1 10)) (tp 80 55) = true.
Proof. vm_compute. repeat split. Qed.
Example C31_ex : same (Some (a_from_jacobian tiny_ops (j_add tiny_ops (J (tiny 0) (tiny 8) (tiny 2)) (j_from_affine tiny_ops (tp 1 10))))) (tp 80 55) = true /\
  same (Some (a_from_jacobian tiny_ops (j_add_affine tiny_ops (J (tiny 0) (tiny 8) (tiny 2)) (tp 0 1)))) AZero = true.
Proof. vm_compute. split; reflexivity. Qed.
Example C32_ex : non_adjacent_form (mk 31 0 0 0) 5 = Some (-1 :: 0 :: 0 :: 0 :: 0 :: 1 :: repeat 0 251) /\
  option_map (fun l => nth 256 l 0) (non_adjacent_form MAX 5) = Some 1.
Proof. vm_compute. split; reflexivity. Qed.
Example C33_ex : same (a_mul tiny_ops (tp 1 10) (mk 5 0 0 0)) (tp 70 46) = true.
Proof. vm_compute. reflexivity. Qed.
Lemma clash_free2_zeros {F} (o : ops F) p q n : clash_free2 o p q (repeat (0, 0) n).
Proof. induction n as [|n IH]; [exact I|]. cbn [repeat clash_free2]. split; [exact IH|]. split; intros C; congruence. Qed.
Lemma digits_zeros n : digits_value (repeat 0 n) = 0. Proof. induction n as [|n IH]; [reflexivity|]. cbn [repeat digits_value]. lia. Qed.
Lemma map_repeat' {A B} (f : A -> B) x n : map f (repeat x n) = repeat (f x) n. Proof. induction n; cbn; congruence. Qed.
Lemma nth_zeros n i : nth i (repeat 0 n) 0 = 0. Proof. revert i. induction n as [|n IH]; intros [|i]; cbn; auto. Qed.
Lemma one_form w : 1 < w -> wnaf_form w 1 (1 :: repeat 0 256).
Proof.
  intros Hw. constructor.
  - cbn [digits_value]. rewrite digits_zeros. reflexivity.
  - intros [|i] N; cbn [nth] in *; [|rewrite nth_zeros in N; contradiction]. split; [reflexivity|]. change (Z.abs 1) with (2 ^ 0). apply Z.pow_lt_mono_r; lia.
  - intros i [|j] Hij _ N; [lia|]. cbn [nth] in N. rewrite nth_zeros in N. contradiction.
Qed.
Lemma tiny_x : x_of (tp 0 1) <> x_of (tp 1 10).
Proof.
  intros X. apply (f_equal (fun v => match v with Some v => fe_val v | None => 5 end)) in X. vm_compute in X. discriminate X.
Qed.
(** The hypotheses of [C33_double_base_mul] can be met: 1 P + 1 Q. *)
Example C33_double_base_ex :
  (forall i, (i < 8)%nat -> multiple tiny_ops (2 * Z.of_nat i + 1) (tp 1 10) <> AZero) /\
  wnaf_form 7 1 (1 :: repeat 0 256) /\ wnaf_form 5 1 (1 :: repeat 0 256) /\
  clash_free2 tiny_ops (tp 0 1) (tp 1 10) (combine (1 :: repeat 0 256) (1 :: repeat 0 256)).
Proof.
  split; [|split; [apply one_form; lia|split; [apply one_form; lia|]]].
  - assert (K : forallb (fun i => negb (a_eqb tiny_ops (multiple tiny_ops (2 * Z.of_nat i + 1) (tp 1 10)) AZero)) (seq 0 8) = true) by (vm_compute; reflexivity).
    intros i Hi E. rewrite forallb_forall in K. specialize (K i ltac:(apply in_seq; lia)). rewrite E in K. discriminate K.
  - assert (E : forall n, combine (repeat 0 n) (repeat 0 n) = repeat (0, 0) n) by (induction n; cbn; congruence). cbn [combine]. rewrite E. cbn [clash_free2].
    split; [apply clash_free2_zeros|]. rewrite !map_repeat', !digits_zeros. change (multiple tiny_ops (2 * 0) (tp 0 1)) with (@AZero (fe tiny_field)). change (multiple tiny_ops (2 * 0) (tp 1 10)) with (@AZero (fe tiny_field)). cbn [padd].
    split; intros _ (N & _ & X); [apply N; reflexivity|]. rewrite !zmul_1 in X. apply tiny_x in X. exact X.
Qed.
