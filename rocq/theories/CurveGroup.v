(** The points of a smooth curve form a commutative group. *)
Require Import ZArith NArith Lia Bool List Field Ring.
From Verif Require Import FieldSig CurveModel CurveSpec.

Section Group.
Context {F : Type} (o : ops F) (L : lawful o) (a b : F).
Notation "0" := (f0 o). Notation "1" := (f1 o).
Notation "x + y" := (fadd o x y). Notation "x - y" := (fsub o x y). Notation "x * y" := (fmul o x y).
Notation "- x" := (fneg o x). Notation "x / y" := (fmul o x (finv o y)).
Add Field Ffield : (law_field o L).
Hypothesis Sm : smooth o a b.
Local Notation on := (on_curve o a b).
Local Notation neg := (opposite o).
Local Notation "p ⊕ q" := (padd o a p q) (at level 50, left associativity).

Lemma two_neq : 1 + 1 <> 0. Proof. apply (sm_two _ _ _ Sm). Qed.
Lemma dbl_neq y : y <> 0 -> y + y <> 0.
Proof. intros N E. apply N. assert (E2 : (1 + 1) * y = 0) by (rewrite <- E; ring). apply (fmul_0_iff o L) in E2 as [E2|E2]; [destruct (two_neq E2)|exact E2]. Qed.
Lemma eq_sub x y : x = y -> x - y = 0. Proof. intros ->. ring. Qed.
Lemma sub_eq x y : x - y = 0 -> x = y. Proof. apply (fsub_0_iff o L). Qed.
Lemma sub_neq x y : x <> y -> x - y <> 0. Proof. intros N E. apply N, sub_eq, E. Qed.
Lemma neg_eq y : y = - y -> y = 0.
Proof.
  intros E. destruct (feq_dec o L y 0) as [|N]; [assumption|]. destruct (dbl_neq y N). rewrite E at 1. ring.
Qed.
Lemma neg_neg p : neg (neg p) = p.
Proof. destruct p as [|x y]; cbn; [reflexivity|]. f_equal. ring. Qed.
Lemma neg_on p : on p -> on (neg p).
Proof. destruct p as [|x y]; cbn; [auto|]. intros <-. ring. Qed.
(** same x: equal or opposite *)
Lemma same_x x y y' : on (APoint x y) -> on (APoint x y') -> y = y' \/ y' = - y.
Proof.
  cbn. intros E1 E2. assert (E : (y - y') * (y + y') = 0). { transitivity (y * y - y' * y'); [ring|]. rewrite E1, E2. ring. }
  apply (fmul_0_iff o L) in E as [E|E]; [left; apply sub_eq; exact E|right]. transitivity ((y + y') - y); [ring|]. rewrite E. ring.
Qed.

(** the four cases of a sum *)
Definition third x1 y1 x2 l : affine F := APoint (l * l - x1 - x2) (l * (x1 - (l * l - x1 - x2)) - y1).
Definition slope x1 y1 x2 y2 : F := (y1 - y2) / (x1 - x2).
Definition tslope x y : F := (x * x + x * x + x * x + a) / (y + y).
Lemma add_chord x1 y1 x2 y2 : x1 <> x2 -> APoint x1 y1 ⊕ APoint x2 y2 = third x1 y1 x2 (slope x1 y1 x2 y2).
Proof. intros N. cbn [padd]. destruct (feqb_spec o L x1 x2); [contradiction|]. reflexivity. Qed.
Lemma add_tangent x y : y <> 0 -> APoint x y ⊕ APoint x y = third x y x (tslope x y).
Proof. intros N. cbn [padd]. destruct (feqb_spec o L x x); [|congruence]. destruct (feqb_spec o L y y); [|congruence]. destruct (feqb_spec o L y 0); [contradiction|]. reflexivity. Qed.
Lemma add_opp p : p ⊕ neg p = AZero.
Proof.
  destruct p as [|x y]; [reflexivity|]. cbn [padd opposite]. destruct (feqb_spec o L x x); [|congruence].
  destruct (feqb_spec o L y (- y)) as [E|E]; [|reflexivity]. destruct (feqb_spec o L y 0) as [|N]; [reflexivity|]. destruct N. apply neg_eq, E.
Qed.
Lemma add_opp_l p : neg p ⊕ p = AZero.
Proof. pose proof (add_opp (neg p)) as E. rewrite neg_neg in E. exact E. Qed.
Lemma add_0_l p : AZero ⊕ p = p. Proof. reflexivity. Qed.
Lemma add_0_r p : p ⊕ AZero = p. Proof. destruct p; reflexivity. Qed.
Lemma add_comm p q : on p -> on q -> p ⊕ q = q ⊕ p.
Proof.
  destruct p as [|x1 y1], q as [|x2 y2]; try reflexivity. intros O1 O2.
  destruct (feq_dec o L x1 x2) as [<-|N].
  - destruct (feq_dec o L y1 y2) as [<-|N2]; [reflexivity|]. destruct (same_x x1 y1 y2 O1 O2) as [|E]; [contradiction|]. subst y2.
    change (APoint x1 (- y1)) with (neg (APoint x1 y1)). rewrite add_opp, add_opp_l. reflexivity.
  - rewrite !add_chord by auto. assert (x1 - x2 <> 0) by (apply sub_neq; assumption). assert (x2 - x1 <> 0) by (apply sub_neq; auto).
    assert (E : slope x2 y2 x1 y1 = slope x1 y1 x2 y2) by (unfold slope; field; auto). unfold third. rewrite E. f_equal; [ring|].
    unfold slope. field. assumption.
Qed.
Lemma add_on p q : on p -> on q -> on (p ⊕ q).
Proof.
  destruct p as [|x1 y1], q as [|x2 y2]; try (cbn; auto; fail). intros O1 O2.
  destruct (feq_dec o L x1 x2) as [<-|N].
  - destruct (feq_dec o L y1 y2) as [<-|N2].
    + destruct (feq_dec o L y1 0) as [->|N]; [cbn [padd]; destruct (feqb_spec o L x1 x1); [|congruence]; destruct (feqb_spec o L 0 0); [exact I|congruence]|].
      rewrite add_tangent by assumption. pose proof (dbl_neq y1 N). cbn in *. unfold tslope.
      assert (b = y1 * y1 - x1 * x1 * x1 - a * x1) as -> by (rewrite O1; ring). field. assumption.
    + destruct (same_x x1 y1 y2 O1 O2) as [|E]; [contradiction|]. subst y2. change (APoint x1 (- y1)) with (neg (APoint x1 y1)). rewrite add_opp. exact I.
  - rewrite add_chord by assumption. assert (x1 - x2 <> 0) by (apply sub_neq; assumption). cbn in *. unfold slope.
    assert (b = y1 * y1 - x1 * x1 * x1 - a * x1) as -> by (rewrite O1; ring). field [O2]. assumption.
Qed.
Lemma neg_add p q : neg (p ⊕ q) = neg p ⊕ neg q.
Proof.
  destruct p as [|x1 y1], q as [|x2 y2]; try reflexivity.
  destruct (feq_dec o L x1 x2) as [<-|N].
  - cbn [padd opposite]. destruct (feqb_spec o L x1 x1); [|congruence].
    destruct (feqb_spec o L y1 y2) as [<-|N2].
    + destruct (feqb_spec o L (- y1) (- y1)); [|congruence]. destruct (feqb_spec o L y1 0) as [E|N].
      * destruct (feqb_spec o L (- y1) 0) as [|N]; [reflexivity|]. destruct N. rewrite E. ring.
      * destruct (feqb_spec o L (- y1) 0) as [E|_]; [destruct N; apply (fneg_0_iff o L); exact E|].
        assert (y1 + y1 <> 0) by (apply dbl_neq; assumption).
        assert (- y1 + - y1 <> 0). { apply dbl_neq. intros E. apply N. apply (fneg_0_iff o L). exact E. }
        cbn [opposite]. f_equal; field; auto.
    + destruct (feqb_spec o L (- y1) (- y2)) as [E|_]; [|reflexivity]. destruct N2. transitivity (- - y1); [ring|]. rewrite E. ring.
  - cbn [opposite]. rewrite !add_chord by assumption. assert (x1 - x2 <> 0) by (apply sub_neq; assumption). unfold third, slope. cbn [opposite]. f_equal; field; assumption.
Qed.

(** -P + (P + Q) = Q *)
Lemma tangent_third x1 y1 x2 y2 : on (APoint x1 y1) -> on (APoint x2 y2) -> x1 <> x2 ->
  slope x1 y1 x2 y2 * slope x1 y1 x2 y2 - x1 - x2 = x1 -> slope x1 y1 x2 y2 * (y1 + y1) = x1 * x1 + x1 * x1 + x1 * x1 + a.
Proof.
  intros O1 O2 N E. pose proof (sub_neq _ _ N) as N'. cbn in O1, O2. set (l := slope x1 y1 x2 y2) in *.
  assert (El : l * (x1 - x2) = y1 - y2) by (unfold l, slope; field; assumption). clearbody l.
  assert (E2 : (x1 - x2) * (l * (y1 + y1) - l * l * (x1 - x2)) = (x1 - x2) * (x1 * x1 + x1 * x2 + x2 * x2 + a)).
  { transitivity (y1 * y1 - y2 * y2). { transitivity ((l * (x1 - x2)) * (y1 + y1 - l * (x1 - x2))); [ring|]. rewrite El. ring. }
    rewrite O1, O2. ring. }
  apply (fmul_cancel_l o L) in E2; [|assumption].
  assert (E3 : l * l = x1 + x1 + x2). { transitivity ((l * l - x1 - x2) + x1 + x2); [ring|]. rewrite E. ring. }
  transitivity ((l * (y1 + y1) - l * l * (x1 - x2)) + l * l * (x1 - x2)); [ring|]. rewrite E2, E3. ring.
Qed.
Lemma add_cancel p q : on p -> on q -> neg p ⊕ (p ⊕ q) = q.
Proof.
  destruct p as [|x1 y1]; [reflexivity|]. destruct q as [|x2 y2].
  { intros O1 _. rewrite add_0_r. rewrite add_comm by (try apply neg_on; assumption). apply add_opp. }
  intros O1 O2. destruct (feq_dec o L x1 x2) as [<-|N].
  - destruct (feq_dec o L y1 y2) as [<-|N2].
    + destruct (feq_dec o L y1 0) as [->|N].
      * assert (E : neg (APoint x1 0) = APoint x1 0) by (cbn; f_equal; ring). rewrite <- E at 3. rewrite add_opp, add_0_r. exact E.
      * rewrite add_tangent by assumption. pose proof (dbl_neq y1 N) as Nd. set (l := tslope x1 y1).
        unfold third. destruct (feq_dec o L (l * l - x1 - x1) x1) as [E|E].
        -- rewrite E. replace (l * (x1 - x1) - y1) with (- y1) by ring.
           change (APoint x1 (- y1)) with (neg (APoint x1 y1)). rewrite <- neg_add. rewrite add_tangent by assumption. fold l. unfold third. rewrite E.
           cbn. f_equal. ring.
        -- cbn [opposite]. rewrite add_chord by auto. set (x3 := l * l - x1 - x1) in *. unfold third.
           assert (N3 : x1 - x3 <> 0) by (apply sub_neq; auto).
           assert (El : slope x1 (- y1) x3 (l * (x1 - x3) - y1) = - l). { unfold slope. field. exact N3. }
           rewrite El. assert (Ex : - l * - l - x1 - x3 = x1) by (unfold x3; ring). rewrite Ex. f_equal. ring.
    + destruct (same_x x1 y1 y2 O1 O2) as [|E]; [contradiction|]. subst y2. change (APoint x1 (- y1)) with (neg (APoint x1 y1)). rewrite add_opp, add_0_r. reflexivity.
  - rewrite add_chord by assumption. pose proof (sub_neq _ _ N) as N'. pose proof (tangent_third x1 y1 x2 y2 O1 O2 N) as T. set (l := slope x1 y1 x2 y2) in *.
    assert (Ey : y2 = y1 - l * (x1 - x2)) by (unfold l, slope; field; assumption).
    unfold third. destruct (feq_dec o L (l * l - x1 - x2) x1) as [E|E].
    + specialize (T E). rewrite E. replace (l * (x1 - x1) - y1) with (- y1) by ring. change (APoint x1 (- y1)) with (neg (APoint x1 y1)). rewrite <- neg_add.
      destruct (feq_dec o L y1 0) as [Y|Y].
      * exfalso. apply (sm_singular _ _ _ Sm x1).
        -- cbn in O1. rewrite <- O1, Y. ring.
        -- rewrite <- T, Y. ring.
      * rewrite add_tangent by assumption. pose proof (dbl_neq y1 Y) as Nd.
        assert (Et : tslope x1 y1 = l). { unfold tslope. rewrite <- T. field. assumption. }
        rewrite Et. unfold third. assert (Ex : l * l - x1 - x1 = x2). { transitivity ((l * l - x1 - x2) - x1 + x2); [ring|]. rewrite E. ring. }
        rewrite Ex. cbn. f_equal. rewrite Ey. ring.
    + cbn [opposite]. rewrite add_chord by auto. set (x3 := l * l - x1 - x2) in *. unfold third.
      assert (N3 : x1 - x3 <> 0) by (apply sub_neq; auto).
      assert (El : slope x1 (- y1) x3 (l * (x1 - x3) - y1) = - l). { unfold slope. field. exact N3. }
      rewrite El. assert (Ex : - l * - l - x1 - x3 = x2) by (unfold x3; ring). rewrite Ex. f_equal. rewrite Ey. ring.
Qed.
Lemma cancel_l p q r : on p -> on q -> on r -> p ⊕ q = p ⊕ r -> q = r.
Proof. intros Op Oq Or E. rewrite <- (add_cancel p q Op Oq), E. apply add_cancel; assumption. Qed.
Lemma add_cancel' p q : on p -> on q -> p ⊕ (neg p ⊕ q) = q.
Proof. intros Op Oq. rewrite <- (neg_neg p) at 1. apply add_cancel; [apply neg_on|]; assumption. Qed.
Lemma sum_zero p q : on p -> on q -> p ⊕ q = AZero -> q = neg p.
Proof. intros Op Oq E. rewrite <- (add_cancel p q Op Oq), E. apply add_0_r. Qed.

(** the point of each sum *)
Lemma neq_x x1 y1 x2 y2 : on (APoint x1 y1) -> on (APoint x2 y2) -> APoint x1 y1 <> APoint x2 y2 -> APoint x2 y2 <> neg (APoint x1 y1) -> x1 <> x2.
Proof. intros O1 O2 N1 N2 <-. destruct (same_x x1 y1 y2 O1 O2) as [<-|E]; [congruence|]. apply N2. cbn. congruence. Qed.

(** the cases in which no shortcut applies *)
Lemma scale c X Y : X <> 0 -> c <> 0 -> c * X = Y -> Y <> 0.
Proof. intros NX Nc <-. apply (fmul_neq_0 o L); assumption. Qed.
Ltac side := repeat split; auto; try (match goal with
  | Nx : ?X <> 0, Nc : ?c <> 0 |- ?Y <> 0 => solve [apply (scale (c * c) X Y); [exact Nx|apply (fmul_neq_0 o L); exact Nc|field; auto]]
  end).
Lemma assoc_generic x1 y1 x2 y2 x3 y3 x12 y12 x23 y23 :
  on (APoint x1 y1) -> on (APoint x2 y2) -> on (APoint x3 y3) ->
  x1 <> x2 -> x2 <> x3 -> third x1 y1 x2 (slope x1 y1 x2 y2) = APoint x12 y12 -> third x2 y2 x3 (slope x2 y2 x3 y3) = APoint x23 y23 ->
  x12 <> x3 -> x1 <> x23 ->
  third x12 y12 x3 (slope x12 y12 x3 y3) = third x1 y1 x23 (slope x1 y1 x23 y23).
Proof.
  intros C1 C2 C3 N1 N2 E12 E23 N3 N4. apply sub_neq in N1. apply sub_neq in N2. apply sub_neq in N3. apply sub_neq in N4.
  unfold third, slope in *. injection E12 as <- <-. injection E23 as <- <-. cbn in C1, C2, C3.
  assert (b = y1*y1 - x1*x1*x1 - a*x1) as -> by (rewrite C1; ring). clear C1.
  f_equal; field [C2 C3]; side.
Qed.
(** (P + P) + R = P + (P + R) *)
Lemma assoc_double x1 y1 x3 y3 x12 y12 x23 y23 :
  on (APoint x1 y1) -> on (APoint x3 y3) ->
  y1 + y1 <> 0 -> x1 <> x3 -> third x1 y1 x1 (tslope x1 y1) = APoint x12 y12 -> third x1 y1 x3 (slope x1 y1 x3 y3) = APoint x23 y23 ->
  x12 <> x3 -> x1 <> x23 ->
  third x12 y12 x3 (slope x12 y12 x3 y3) = third x1 y1 x23 (slope x1 y1 x23 y23).
Proof.
  intros C1 C3 N1 N2 E12 E23 N3 N4. apply sub_neq in N2. apply sub_neq in N3. apply sub_neq in N4.
  unfold third, slope, tslope in *. injection E12 as <- <-. injection E23 as <- <-. cbn in C1, C3.
  assert (b = y1*y1 - x1*x1*x1 - a*x1) as -> by (rewrite C1; ring). clear C1.
  f_equal; field [C3]; side.
Qed.
(** slopes without division *)
Lemma tslope_a x y : y + y <> 0 -> a = tslope x y * (y + y) - (x * x + x * x + x * x).
Proof. intros N. unfold tslope. field. assumption. Qed.
Lemma slope_y x1 y1 x2 y2 : x1 - x2 <> 0 -> y2 = y1 - slope x1 y1 x2 y2 * (x1 - x2).
Proof. intros N. unfold slope. field. assumption. Qed.
Lemma slope_a x1 y1 x2 y2 : on (APoint x1 y1) -> on (APoint x2 y2) -> x1 - x2 <> 0 ->
  a = slope x1 y1 x2 y2 * (y1 + y2) - (x1 * x1 + x1 * x2 + x2 * x2).
Proof.
  cbn. intros C1 C2 N. apply (fmul_cancel_l o L (x1 - x2)); [assumption|].
  transitivity ((y1 * y1 - x1 * x1 * x1) - (y2 * y2 - x2 * x2 * x2)); [rewrite C1, C2; ring|]. unfold slope. field. assumption.
Qed.
(** (P + P) + (P + P) = P + (P + (P + P)) *)
Lemma assoc_quad x1 y1 x2 y2 x3 y3 : 
  y1 + y1 <> 0 -> third x1 y1 x1 (tslope x1 y1) = APoint x2 y2 -> y2 + y2 <> 0 -> x1 <> x2 -> third x1 y1 x2 (slope x1 y1 x2 y2) = APoint x3 y3 ->
  x1 <> x3 ->
  third x2 y2 x2 (tslope x2 y2) = third x1 y1 x3 (slope x1 y1 x3 y3).
Proof.
  intros N1 E2 N2 N3 E3 N4. apply sub_neq in N3. apply sub_neq in N4. pose proof (tslope_a x1 y1 N1) as Ea.
  unfold third in E2. set (l := tslope x1 y1) in *. clearbody l. injection E2 as <- <-.
  unfold third, slope, tslope in *. injection E3 as <- <-. rewrite Ea.
  f_equal; field; side.
Qed.
(** (P + Q) + (P + Q) = P + (Q + (P + Q)) *)
Lemma assoc_sum x1 y1 x2 y2 x3 y3 x4 y4 : on (APoint x1 y1) -> on (APoint x2 y2) ->
  x1 <> x2 -> third x1 y1 x2 (slope x1 y1 x2 y2) = APoint x3 y3 -> y3 + y3 <> 0 -> x2 <> x3 -> third x2 y2 x3 (slope x2 y2 x3 y3) = APoint x4 y4 ->
  x1 <> x4 ->
  third x3 y3 x3 (tslope x3 y3) = third x1 y1 x4 (slope x1 y1 x4 y4).
Proof.
  intros C1 C2 N1 E3 N3 N2 E4 N4. apply sub_neq in N1. apply sub_neq in N2. apply sub_neq in N4.
  pose proof (slope_a x1 y1 x2 y2 C1 C2 N1) as Ea. pose proof (slope_y x1 y1 x2 y2 N1) as Ey.
  unfold third in E3. set (l := slope x1 y1 x2 y2) in *. clearbody l. injection E3 as <- <-. subst y2.
  unfold third, slope, tslope in *. injection E4 as <- <-. rewrite Ea.
  f_equal; field; side.
Qed.
(** (P + Q) + (P + Q) = P + P when Q + Q = 0 *)
Lemma assoc_two_torsion x1 y1 x2 x3 y3 : on (APoint x1 y1) -> on (APoint x2 0) ->
  x1 <> x2 -> y1 + y1 <> 0 -> third x1 y1 x2 (slope x1 y1 x2 0) = APoint x3 y3 -> y3 + y3 <> 0 ->
  third x3 y3 x3 (tslope x3 y3) = third x1 y1 x1 (tslope x1 y1).
Proof.
  intros C1 C2 N1 N2 E3 N3. apply sub_neq in N1.
  pose proof (slope_a x1 y1 x2 0 C1 C2 N1) as Ea. pose proof (slope_y x1 y1 x2 0 N1) as Ey.
  unfold third in E3. set (l := slope x1 y1 x2 0) in *. clearbody l. injection E3 as <- <-.
  assert (Ey1 : y1 = l * (x1 - x2)) by (transitivity ((y1 - l * (x1 - x2)) + l * (x1 - x2)); [ring|rewrite <- Ey; ring]). clear Ey C1 C2. subst y1.
  unfold third, slope, tslope in *. rewrite Ea.
  f_equal; field; side.
Qed.

Lemma pdec (p q : affine F) : {p = q} + {p <> q}.
Proof.
  destruct p as [|x y], q as [|x' y']; try (right; congruence); [left; reflexivity|].
  destruct (feq_dec o L x x') as [<-|N]; [|right; congruence]. destruct (feq_dec o L y y') as [<-|N]; [left; reflexivity|right; congruence].
Qed.
Lemma neg_inj p q : neg p = neg q -> p = q.
Proof. intros E. rewrite <- (neg_neg p), E. apply neg_neg. Qed.
Lemma not_self_neg x y : APoint x y <> neg (APoint x y) -> y <> 0 /\ y + y <> 0.
Proof.
  intros N. assert (Ny : y <> 0). { intros ->. apply N. cbn. f_equal. ring. } split; [exact Ny|apply dbl_neq; exact Ny].
Qed.
Lemma self_sum x y : APoint x y <> neg (APoint x y) -> APoint x y ⊕ APoint x y = third x y x (tslope x y).
Proof. intros N. apply add_tangent. apply not_self_neg in N. apply N. Qed.
Lemma other_sum x1 y1 x2 y2 : on (APoint x1 y1) -> on (APoint x2 y2) -> APoint x1 y1 <> APoint x2 y2 -> APoint x2 y2 <> neg (APoint x1 y1) ->
  x1 <> x2 /\ APoint x1 y1 ⊕ APoint x2 y2 = third x1 y1 x2 (slope x1 y1 x2 y2).
Proof. intros O1 O2 N1 N2. pose proof (neq_x _ _ _ _ O1 O2 N1 N2) as N. split; [exact N|]. apply add_chord. exact N. Qed.
Lemma add_self_cancel p q : on p -> on q -> p = p ⊕ q -> q = AZero.
Proof. intros Op Oq E. apply (cancel_l p); [assumption|assumption|exact I|]. rewrite add_0_r. congruence. Qed.

(** (P + P) + R = P + (P + R) *)
Lemma double_assoc p r : on p -> on r -> (p ⊕ p) ⊕ r = p ⊕ (p ⊕ r).
Proof.
  intros Op Or. pose proof (add_on p p Op Op) as OS. pose proof (add_on p r Op Or) as OT.
  destruct (pdec p AZero) as [->|Zp]; [reflexivity|]. destruct (pdec r AZero) as [->|Zr]; [rewrite !add_0_r; reflexivity|].
  destruct (pdec p (neg p)) as [E|N1].
  { assert (E2 : p ⊕ p = AZero) by (rewrite E at 2; apply add_opp). rewrite E2, add_0_l. rewrite E at 1. symmetry. apply add_cancel; assumption. }
  destruct (pdec r p) as [->|N2]; [apply add_comm; assumption|].
  destruct (pdec r (neg p)) as [->|N3].
  { rewrite add_opp, add_0_r. rewrite add_comm by (try apply neg_on; assumption). apply add_cancel; assumption. }
  destruct (pdec r (neg (p ⊕ p))) as [->|N4].
  { rewrite add_opp, neg_add, add_cancel' by (try apply neg_on; assumption). symmetry. apply add_opp. }
  destruct (pdec p (neg (p ⊕ r))) as [E|N5].
  { assert (R : p ⊕ (p ⊕ r) = AZero) by (rewrite E at 1; apply add_opp_l). rewrite R.
    pose proof (add_cancel' p (neg r) Op (neg_on r Or)) as X. rewrite <- neg_add, <- E in X. rewrite X. apply add_opp_l. }
  assert (ZS : p ⊕ p <> AZero) by (intros E; apply N1; apply sum_zero; assumption).
  assert (ZT : p ⊕ r <> AZero) by (intros E; apply N3; apply sum_zero; assumption).
  assert (NT : p <> p ⊕ r) by (intros E; apply Zr; apply (add_self_cancel p); assumption).
  destruct p as [|x1 y1]; [contradiction|]. destruct r as [|x3 y3]; [contradiction|]. destruct (not_self_neg _ _ N1) as [Y1 Y2].
  destruct (other_sum x1 y1 x3 y3 Op Or ltac:(auto) N3) as [X13 ET].
  assert (N5' : APoint x1 y1 ⊕ APoint x3 y3 <> neg (APoint x1 y1)) by (intros E; apply N5; rewrite E; symmetry; apply neg_neg).
  pose proof (self_sum x1 y1 N1) as ES.
  destruct (pdec (APoint x1 y1 ⊕ APoint x1 y1) (APoint x3 y3)) as [E|N6].
  - rewrite E in *. rewrite ET in *. destruct (third x1 y1 x3 (slope x1 y1 x3 y3)) as [|x4 y4] eqn:E4; [contradiction|].
    destruct (other_sum x1 y1 x4 y4 Op OT NT N5') as [X14 EP].
    destruct (not_self_neg x3 y3 N4) as [Y3 Y4]. rewrite (self_sum x3 y3 N4), EP. apply (assoc_quad x1 y1 x3 y3 x4 y4); auto.
  - rewrite ES, ET in *. destruct (third x1 y1 x1 (tslope x1 y1)) as [|x2 y2] eqn:E2; [contradiction|].
    destruct (third x1 y1 x3 (slope x1 y1 x3 y3)) as [|x4 y4] eqn:E4; [contradiction|].
    destruct (other_sum x2 y2 x3 y3 OS Or N6 N4) as [X23 EP]. destruct (other_sum x1 y1 x4 y4 Op OT NT N5') as [X14 EQ].
    rewrite EP, EQ. apply (assoc_double x1 y1 x3 y3 x2 y2 x4 y4); auto.
Qed.
(** (P + Q) + (P + Q) = P + (Q + (P + Q)) *)
Lemma sum_assoc p q : on p -> on q -> p <> AZero -> q <> AZero -> p <> q -> q <> neg p ->
  p ⊕ q <> neg (p ⊕ q) -> q <> p ⊕ q -> p ⊕ q <> neg q -> p <> neg (q ⊕ (p ⊕ q)) ->
  (p ⊕ q) ⊕ (p ⊕ q) = p ⊕ (q ⊕ (p ⊕ q)).
Proof.
  intros Op Oq Zp Zq Npq Nqp NS NqS NSq NpT. pose proof (add_on p q Op Oq) as OS. pose proof (add_on q _ Oq OS) as OT.
  assert (ZS : p ⊕ q <> AZero) by (intros E; apply Nqp; apply sum_zero; assumption).
  assert (ZT : q ⊕ (p ⊕ q) <> AZero) by (intros E; apply NSq; apply sum_zero; assumption).
  destruct (pdec p (q ⊕ (p ⊕ q))) as [E|NT].
  - assert (Q2 : q ⊕ q = AZero).
    { apply (add_self_cancel p); [assumption|apply add_on; assumption|]. rewrite E at 1. rewrite (add_comm p q) by assumption.
      rewrite <- double_assoc by assumption. apply add_comm; [apply add_on|]; assumption. }
    rewrite <- E. assert (Np : p <> neg p) by (rewrite E at 2; exact NpT).
    apply sum_zero in Q2; try assumption.
    destruct p as [|x1 y1]; [contradiction|]. destruct q as [|x2 y2]; [contradiction|].
    destruct (other_sum x1 y1 x2 y2 Op Oq Npq Nqp) as [X12 ES]. assert (y2 = 0) by (apply neg_eq; cbn in Q2; congruence). subst y2.
    rewrite ES in *. destruct (third x1 y1 x2 (slope x1 y1 x2 0)) as [|x3 y3] eqn:E3; [contradiction|].
    rewrite (self_sum x1 y1 Np), (self_sum x3 y3 NS). apply not_self_neg in Np. apply not_self_neg in NS.
    apply (assoc_two_torsion x1 y1 x2 x3 y3); tauto.
  - destruct p as [|x1 y1]; [contradiction|]. destruct q as [|x2 y2]; [contradiction|].
    assert (NT' : APoint x2 y2 ⊕ (APoint x1 y1 ⊕ APoint x2 y2) <> neg (APoint x1 y1)) by (intros E; apply NpT; rewrite E; symmetry; apply neg_neg).
    destruct (other_sum x1 y1 x2 y2 Op Oq Npq Nqp) as [X12 ES]. rewrite ES in *.
    destruct (third x1 y1 x2 (slope x1 y1 x2 y2)) as [|x3 y3] eqn:E3; [contradiction|].
    destruct (other_sum x2 y2 x3 y3 Oq OS NqS NSq) as [X23 ET]. rewrite ET in *.
    destruct (third x2 y2 x3 (slope x2 y2 x3 y3)) as [|x4 y4] eqn:E4; [contradiction|].
    destruct (other_sum x1 y1 x4 y4 Op OT NT NT') as [X14 EP]. rewrite EP, (self_sum x3 y3 NS). apply not_self_neg in NS.
    apply (assoc_sum x1 y1 x2 y2 x3 y3 x4 y4); tauto.
Qed.
Theorem add_assoc p q r : on p -> on q -> on r -> (p ⊕ q) ⊕ r = p ⊕ (q ⊕ r).
Proof.
  intros Op Oq Or. pose proof (add_on p q Op Oq) as OS. pose proof (add_on q r Oq Or) as OT.
  destruct (pdec p AZero) as [->|Zp]; [reflexivity|]. destruct (pdec q AZero) as [->|Zq]; [rewrite !add_0_r; reflexivity|].
  destruct (pdec r AZero) as [->|Zr]; [rewrite !add_0_r; reflexivity|].
  destruct (pdec q (neg p)) as [->|N1]; [rewrite add_opp, add_cancel' by assumption; reflexivity|].
  destruct (pdec r (neg q)) as [->|N2].
  { rewrite add_opp, add_0_r. rewrite (add_comm p q), (add_comm _ (neg q)) by (try apply add_on; try apply neg_on; assumption). apply add_cancel; assumption. }
  destruct (pdec r (neg (p ⊕ q))) as [->|N3].
  { rewrite add_opp, neg_add, (add_comm (neg p)), add_cancel' by (try apply neg_on; assumption). symmetry. apply add_opp. }
  destruct (pdec p (neg (q ⊕ r))) as [E|N4].
  { rewrite E at 2. rewrite add_opp_l. rewrite E, neg_add. rewrite (add_comm _ q), add_cancel' by (try apply add_on; try apply neg_on; assumption). apply add_opp_l. }
  destruct (pdec p q) as [<-|Npq]; [apply double_assoc; assumption|].
  destruct (pdec q r) as [<-|Nqr].
  { rewrite (add_comm p q), (add_comm _ q) by (try apply add_on; assumption). rewrite <- double_assoc by assumption. apply add_comm; try apply add_on; assumption. }
  assert (N2' : q <> neg r) by (intros E; apply N2; rewrite E; symmetry; apply neg_neg).
  assert (ZS : p ⊕ q <> AZero) by (intros E; apply N1; apply sum_zero; assumption).
  assert (ZT : q ⊕ r <> AZero) by (intros E; apply N2; apply sum_zero; assumption).
  destruct (pdec (p ⊕ q) r) as [<-|NSr]; [apply sum_assoc; assumption|].
  destruct (pdec p (q ⊕ r)) as [->|NpT].
  { assert (C1 : q ⊕ r = r ⊕ q) by (apply add_comm; assumption). assert (C2 : (q ⊕ r) ⊕ q = q ⊕ (r ⊕ q)) by (rewrite C1; apply add_comm; [rewrite <- C1|]; assumption).
    rewrite C2 in *. rewrite C1 in *. rewrite (add_comm _ r) by (try apply add_on; assumption). symmetry. apply sum_assoc; try assumption; auto.
    intros E. apply N1. rewrite E. symmetry. apply neg_neg. }
  destruct p as [|x1 y1]; [contradiction|]. destruct q as [|x2 y2]; [contradiction|]. destruct r as [|x3 y3]; [contradiction|].
  assert (N4' : APoint x2 y2 ⊕ APoint x3 y3 <> neg (APoint x1 y1)) by (intros E; apply N4; rewrite E; symmetry; apply neg_neg).
  destruct (other_sum x1 y1 x2 y2 Op Oq Npq N1) as [X12 ES]. destruct (other_sum x2 y2 x3 y3 Oq Or Nqr N2) as [X23 ET]. rewrite ES, ET in *.
  destruct (third x1 y1 x2 (slope x1 y1 x2 y2)) as [|x4 y4] eqn:E4; [contradiction|].
  destruct (third x2 y2 x3 (slope x2 y2 x3 y3)) as [|x5 y5] eqn:E5; [contradiction|].
  destruct (other_sum x4 y4 x3 y3 OS Or NSr N3) as [X43 EP]. destruct (other_sum x1 y1 x5 y5 Op OT NpT N4') as [X15 EQ]. rewrite EP, EQ.
  apply (assoc_generic x1 y1 x2 y2 x3 y3); assumption.
Qed.

(** Multiples *)
Local Notation nm := (nmul o a). Local Notation zm := (zmul o a).
Lemma nmul_0 p : nm 0 p = AZero. Proof. reflexivity. Qed.
Lemma nmul_succ n p : nm (N.succ n) p = p ⊕ nm n p.
Proof. unfold nmul. rewrite N.iter_succ. reflexivity. Qed.
Lemma nmul_on n p : on p -> on (nm n p).
Proof. intros Op. induction n as [|n IH] using N.peano_ind; [exact I|]. rewrite nmul_succ. apply add_on; assumption. Qed.
Lemma nmul_1 p : nm 1 p = p.
Proof. change 1%N with (N.succ 0). rewrite nmul_succ, nmul_0. apply add_0_r. Qed.
Lemma nmul_add n m p : on p -> nm (n + m) p = nm n p ⊕ nm m p.
Proof.
  intros Op. induction n as [|n IH] using N.peano_ind; [reflexivity|]. rewrite N.add_succ_l, !nmul_succ, IH.
  symmetry. apply add_assoc; try apply nmul_on; assumption.
Qed.
Lemma nmul_zero n : nm n AZero = AZero.
Proof. induction n as [|n IH] using N.peano_ind; [reflexivity|]. rewrite nmul_succ, IH. reflexivity. Qed.
Lemma nmul_mul n m p : on p -> nm (n * m) p = nm n (nm m p).
Proof.
  intros Op. induction n as [|n IH] using N.peano_ind; [reflexivity|]. rewrite N.mul_succ_l, N.add_comm, nmul_add, nmul_succ, IH by assumption. reflexivity.
Qed.
Lemma nmul_neg n p : on p -> nm n (neg p) = neg (nm n p).
Proof. intros Op. induction n as [|n IH] using N.peano_ind; [reflexivity|]. rewrite !nmul_succ, IH, neg_add. reflexivity. Qed.
Lemma nmul_sum n p q : on p -> on q -> nm n (p ⊕ q) = nm n p ⊕ nm n q.
Proof.
  intros Op Oq. induction n as [|n IH] using N.peano_ind; [reflexivity|]. rewrite !nmul_succ, IH.
  pose proof (nmul_on n p Op). pose proof (nmul_on n q Oq).
  rewrite !add_assoc by (try apply add_on; assumption). f_equal. rewrite <- !add_assoc by assumption. f_equal. apply add_comm; assumption.
Qed.

Lemma zmul_N n p : zm (Z.of_N n) p = nm n p. Proof. destruct n; reflexivity. Qed.
Lemma zmul_on z p : on p -> on (zm z p).
Proof. intros Op. destruct z; [exact I|apply nmul_on; exact Op|apply neg_on, nmul_on; exact Op]. Qed.
Lemma zmul_opp z p : zm (- z) p = neg (zm z p).
Proof. destruct z; cbn [Z.opp zmul]; try reflexivity. symmetry. apply neg_neg. Qed.
Lemma zmul_pos_sub n m p : on p -> zm (Z.of_N n - Z.of_N m) p = nm n p ⊕ neg (nm m p).
Proof.
  intros Op. destruct (N.le_ge_cases m n) as [H|H].
  - replace (Z.of_N n - Z.of_N m)%Z with (Z.of_N (n - m)) by lia. rewrite zmul_N.
    replace n with (m + (n - m))%N at 2 by lia. rewrite nmul_add by assumption. pose proof (nmul_on m p Op). pose proof (nmul_on (n - m) p Op).
    rewrite (add_comm _ (neg _)) by (try apply add_on; try apply neg_on; assumption). symmetry. apply add_cancel; assumption.
  - replace (Z.of_N n - Z.of_N m)%Z with (- Z.of_N (m - n))%Z by lia. rewrite zmul_opp, zmul_N.
    replace m with (n + (m - n))%N at 2 by lia. rewrite nmul_add, neg_add by assumption. pose proof (nmul_on n p Op). pose proof (nmul_on (m - n) p Op).
    symmetry. apply add_cancel'; [|apply neg_on]; assumption.
Qed.
Lemma zmul_add z w p : on p -> zm (z + w) p = zm z p ⊕ zm w p.
Proof.
  intros Op.
  assert (Cs : forall z, (exists n, z = Z.of_N n) \/ (exists n, z = - Z.of_N n)%Z).
  { intros v. destruct (Z_le_gt_dec 0 v); [left; exists (Z.to_N v)|right; exists (Z.to_N (- v))]; lia. }
  destruct (Cs z) as [[n ->]|[n ->]], (Cs w) as [[m ->]|[m ->]].
  - rewrite <- N2Z.inj_add, !zmul_N. apply nmul_add. exact Op.
  - rewrite Z.add_opp_r, zmul_pos_sub, zmul_opp, !zmul_N by assumption. reflexivity.
  - rewrite Z.add_comm, Z.add_opp_r, zmul_pos_sub, zmul_opp, !zmul_N by assumption. apply add_comm; try apply neg_on; apply nmul_on; assumption.
  - rewrite <- Z.opp_add_distr, <- N2Z.inj_add, !zmul_opp, !zmul_N, nmul_add by assumption. apply neg_add.
Qed.
Lemma zmul_1 p : zm 1 p = p. Proof. apply nmul_1. Qed.
Lemma zmul_mul z w p : on p -> zm (z * w) p = zm z (zm w p).
Proof.
  intros Op. revert z. assert (P : forall n, zm (Z.of_N n * w) p = nm n (zm w p)).
  { intros n. induction n as [|n IH] using N.peano_ind; [reflexivity|]. rewrite nmul_succ, <- IH, <- zmul_add by assumption. f_equal. lia. }
  intros z. destruct (Z_le_gt_dec 0 z).
  - replace z with (Z.of_N (Z.to_N z)) by lia. rewrite P, zmul_N. reflexivity.
  - replace z with (- Z.of_N (Z.to_N (- z)))%Z by lia. rewrite Z.mul_opp_l, !zmul_opp, P, zmul_N. reflexivity.
Qed.
End Group.
