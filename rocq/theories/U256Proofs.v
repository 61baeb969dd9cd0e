(** Proofs about the additive and multiplicative U256 operations. *)
Require Import ZArith Zpow_facts Lia Bool List.
From Verif Require Import Word U256Model U256Spec.
Open Scope Z_scope.

(** Literal form of [val] and [W], convenient for [lia]. *)
Lemma val_B x : val x = l0 x + B * l1 x + B * B * l2 x + B * B * B * l3 x.
Proof. unfold val. reflexivity. Qed.
Lemma W_B : W = B * B * B * B. Proof. reflexivity. Qed.

Ltac uB := unfold u64, B in *.

Lemma u64_0 : u64 0. Proof. unfold u64, B; lia. Qed.
Lemma u64_1 : u64 1. Proof. unfold u64, B; lia. Qed.
Lemma u64_bit k : 0 <= k <= 1 -> u64 k. Proof. unfold u64, B; lia. Qed.
Lemma u64_2 k : 0 <= k <= 2 -> u64 k. Proof. unfold u64, B; lia. Qed.
#[global] Hint Resolve u64_0 u64_1 u64_bit u64_2 : limb.

Ltac side := first [assumption | solve [auto with limb] | (uB; lia)].

(** One step of a carry chain: name the results and record their equation. *)
Ltac step1 :=
  match goal with
  | |- context [let '(_, _) := mac ?a ?b ?c ?k in _] =>
      let lo := fresh "r" in let hi := fresh "c" in let E := fresh "E" in
      destruct (mac a b c k) as [lo hi] eqn:E;
      apply mac_spec in E; [destruct E as (? & ? & E)|side|side|side|side]
  | |- context [let '(_, _) := adc ?a ?b ?k in _] =>
      let lo := fresh "r" in let hi := fresh "c" in let E := fresh "E" in
      destruct (adc a b k) as [lo hi] eqn:E;
      first [ apply adc_spec1 in E; [destruct E as (? & ? & E)|side|side|solve [assumption | lia]]
            | apply adc_spec in E; [destruct E as (? & ? & E)|side|side|side] ]
  | |- context [let '(_, _) := sbb ?a ?b ?k in _] =>
      let lo := fresh "r" in let hi := fresh "c" in let E := fresh "E" in
      destruct (sbb a b k) as [lo hi] eqn:E;
      apply sbb_spec in E; [destruct E as (? & ? & E)|side|side|solve [assumption | lia]]
  | |- context [let '(_, _) := msb ?a ?b ?c ?k in _] =>
      let lo := fresh "r" in let hi := fresh "c" in let E := fresh "E" in
      destruct (msb a b c k) as [lo hi] eqn:E;
      apply msb_spec in E; [destruct E as (? & ? & E)|side|side|side|side]
  end.
Ltac steps := repeat step1.

Lemma val_range x : wf x -> 0 <= val x < W.
Proof.
  intros (H0 & H1 & H2 & H3). rewrite val_B, W_B. uB. lia.
Qed.

Lemma wf_ZERO : wf ZERO. Proof. repeat split; simpl; uB; lia. Qed.
Lemma wf_ONE : wf ONE. Proof. repeat split; simpl; uB; lia. Qed.
Lemma val_ZERO : val ZERO = 0. Proof. reflexivity. Qed.
Lemma val_ONE : val ONE = 1. Proof. reflexivity. Qed.

Lemma digit_unique a b c d : u64 a -> u64 b -> a + B * c = b + B * d -> a = b /\ c = d.
Proof.
  intros Ha Hb E. assert (c = d) by (uB; lia). subst. split; lia.
Qed.

(** [val] is injective on well-formed values. *)
Lemma val_inj x y : wf x -> wf y -> val x = val y -> x = y.
Proof.
  intros (H0 & H1 & H2 & H3) (G0 & G1 & G2 & G3). rewrite !val_B.
  destruct x as [x0 x1 x2 x3], y as [y0 y1 y2 y3]; simpl in *. intros E.
  assert (x0 = y0 /\ x1 = y1 /\ x2 = y2 /\ x3 = y3) as (-> & -> & -> & ->).
  { destruct (digit_unique x0 y0 (x1 + B * (x2 + B * x3)) (y1 + B * (y2 + B * y3))) as [-> E1]; try assumption; [unfold B in *; lia|].
    destruct (digit_unique x1 y1 (x2 + B * x3) (y2 + B * y3)) as [-> E2]; try assumption.
    destruct (digit_unique x2 y2 x3 y3) as [-> ->]; auto. }
  reflexivity.
Qed.

Lemma u_eqb_spec x y : u_eqb x y = true <-> x = y.
Proof.
  unfold u_eqb. rewrite !andb_true_iff, !Z.eqb_eq. destruct x, y; simpl.
  split; [intros (((-> & ->) & ->) & ->); reflexivity|intros E; inversion E; auto].
Qed.

(** ** Comparison *)
Lemma u_cmp_spec x y : wf x -> wf y -> u_cmp x y = (val x ?= val y).
Proof.
  intros (H0 & H1 & H2 & H3) (G0 & G1 & G2 & G3). rewrite !val_B. unfold u_cmp.
  symmetry.
  destruct (Z.compare_spec (l3 x) (l3 y)) as [E3|E3|E3];
    [|apply Z.compare_lt_iff; uB; lia|apply Z.compare_gt_iff; uB; lia].
  destruct (Z.compare_spec (l2 x) (l2 y)) as [E2|E2|E2];
    [|apply Z.compare_lt_iff; uB; lia|apply Z.compare_gt_iff; uB; lia].
  destruct (Z.compare_spec (l1 x) (l1 y)) as [E1|E1|E1];
    [|apply Z.compare_lt_iff; uB; lia|apply Z.compare_gt_iff; uB; lia].
  destruct (Z.compare_spec (l0 x) (l0 y)) as [E0|E0|E0];
    [apply Z.compare_eq_iff; uB; lia|apply Z.compare_lt_iff; uB; lia|apply Z.compare_gt_iff; uB; lia].
Qed.

Lemma u_ltb_spec x y : wf x -> wf y -> u_ltb x y = (val x <? val y).
Proof. intros. unfold u_ltb, Z.ltb. rewrite u_cmp_spec by assumption. reflexivity. Qed.
Lemma u_geb_spec x y : wf x -> wf y -> u_geb x y = (val y <=? val x).
Proof.
  intros. unfold u_geb. rewrite u_cmp_spec by assumption.
  destruct (Z.compare_spec (val x) (val y)); symmetry; apply Z.leb_le || apply Z.leb_gt; lia.
Qed.
Lemma u_gtb_spec x y : wf x -> wf y -> u_gtb x y = (val y <? val x).
Proof.
  intros. unfold u_gtb. rewrite u_cmp_spec by assumption.
  destruct (Z.compare_spec (val x) (val y)); symmetry; apply Z.ltb_lt || apply Z.ltb_ge; lia.
Qed.

(** ** Addition and subtraction *)
Lemma u_add_full_spec a b : wf a -> wf b ->
  wf (fst (u_add_full a b)) /\ 0 <= snd (u_add_full a b) <= 1 /\
  val (fst (u_add_full a b)) + W * snd (u_add_full a b) = val a + val b.
Proof.
  intros (H0 & H1 & H2 & H3) (G0 & G1 & G2 & G3). unfold u_add_full.
  steps. cbn [fst snd]. split; [repeat split; simpl; uB; lia|]. split; [lia|].
  rewrite !val_B, W_B. simpl. uB. lia.
Qed.

Lemma u_sub_full_spec a b : wf a -> wf b ->
  wf (fst (u_sub_full a b)) /\ 0 <= snd (u_sub_full a b) <= 1 /\
  val (fst (u_sub_full a b)) - W * snd (u_sub_full a b) = val a - val b.
Proof.
  intros (H0 & H1 & H2 & H3) (G0 & G1 & G2 & G3). unfold u_sub_full.
  steps. cbn [fst snd]. split; [repeat split; simpl; uB; lia|]. split; [lia|].
  rewrite !val_B, W_B. simpl. uB. lia.
Qed.

Lemma mod_eq a q r w : 0 <= r < w -> a = r + w * q -> r = a mod w.
Proof.
  intros H ->. rewrite Z.mul_comm, Z_mod_plus_full. symmetry. apply Z.mod_small. lia.
Qed.

Lemma u_add_spec a b : wf a -> wf b -> wf (u_add a b) /\ val (u_add a b) = (val a + val b) mod W.
Proof.
  intros Ha Hb. destruct (u_add_full_spec a b Ha Hb) as (H1 & H2 & H3).
  split; [exact H1|]. pose proof (val_range _ H1).
  apply mod_eq with (q := snd (u_add_full a b)); [assumption|]. unfold u_add in *. lia.
Qed.

Lemma u_sub_spec a b : wf a -> wf b -> wf (u_sub a b) /\ val (u_sub a b) = (val a - val b) mod W.
Proof.
  intros Ha Hb. destruct (u_sub_full_spec a b Ha Hb) as (H1 & H2 & H3).
  split; [exact H1|]. pose proof (val_range _ H1).
  apply mod_eq with (q := - snd (u_sub_full a b)); [assumption|]. unfold u_sub in *. lia.
Qed.

Lemma u_neg_spec a : wf a -> wf (u_neg a) /\ val (u_neg a) = (- val a) mod W.
Proof.
  intros Ha. unfold u_neg. destruct (u_sub_spec ZERO a wf_ZERO Ha) as [H1 H2].
  split; [exact H1|]. rewrite H2, val_ZERO. f_equal.
Qed.

(** ** Multiplication *)
Lemma u_mul_full_spec a b : wf a -> wf b ->
  wf (fst (u_mul_full a b)) /\ wf (snd (u_mul_full a b)) /\
  val (fst (u_mul_full a b)) + W * val (snd (u_mul_full a b)) = val a * val b.
Proof.
  intros (H0 & H1 & H2 & H3) (G0 & G1 & G2 & G3). unfold u_mul_full.
  steps. cbn [fst snd]. split; [repeat split; simpl; uB; lia|]. split; [repeat split; simpl; uB; lia|].
  rewrite !val_B, W_B. cbn [l0 l1 l2 l3]. clear - E E0 E1 E2 E3 E4 E5 E6 E7 E8 E9 E10 E11 E12 E13 E14.
  unfold B in *. lia.
Qed.

Lemma u_mul_full_u64_spec a b : wf a -> u64 b ->
  wf (fst (u_mul_full_u64 a b)) /\ u64 (snd (u_mul_full_u64 a b)) /\
  val (fst (u_mul_full_u64 a b)) + W * snd (u_mul_full_u64 a b) = val a * b.
Proof.
  intros (H0 & H1 & H2 & H3) G. unfold u_mul_full_u64.
  steps. cbn [fst snd]. split; [repeat split; simpl; uB; lia|]. split; [assumption|].
  rewrite !val_B, W_B. cbn [l0 l1 l2 l3]. unfold B in *. lia.
Qed.

Lemma u_mul_spec a b : wf a -> wf b -> wf (u_mul a b) /\ val (u_mul a b) = (val a * val b) mod W.
Proof.
  intros (H0 & H1 & H2 & H3) (G0 & G1 & G2 & G3). unfold u_mul.
  steps.
  match goal with |- wf ?r /\ _ => assert (Hwf : wf r) by (repeat split; simpl; uB; lia) end.
  split; [exact Hwf|]. apply val_range in Hwf. revert Hwf. rewrite !val_B, W_B.
  cbn [l0 l1 l2 l3]. intros Hwf.
  apply mod_eq with (q := c2 + c5 + c7 + c8 +
     (l1 a * l3 b + l2 a * l2 b + l3 a * l1 b) + B * (l2 a * l3 b + l3 a * l2 b) + B * B * (l3 a * l3 b));
    [exact Hwf|].
  clear - E E0 E1 E2 E3 E4 E5 E6 E7 E8. unfold B in *. lia.
Qed.

Lemma u_mul_u64_spec a b : wf a -> u64 b -> wf (u_mul_u64 a b) /\ val (u_mul_u64 a b) = (val a * b) mod W.
Proof.
  intros Ha Hb. destruct (u_mul_full_u64_spec a b Ha Hb) as (H1 & H2 & H3).
  split; [exact H1|]. pose proof (val_range _ H1).
  apply mod_eq with (q := snd (u_mul_full_u64 a b)); [assumption|]. unfold u_mul_u64 in *. lia.
Qed.

(** ** Squaring *)
Lemma lor_disjoint a b k : 0 <= k -> a mod 2 ^ k = 0 -> 0 <= b < 2 ^ k -> Z.lor a b = a + b.
Proof.
  intros Hk Ha Hb.
  assert (L : Z.land a b = 0).
  { apply Z.bits_inj'. intros i Hi. rewrite Z.land_spec, Z.bits_0.
    destruct (Z_lt_ge_dec i k) as [Hi2|Hi2].
    - rewrite <- (Z.mod_pow2_bits_low a k i) by lia. rewrite Ha, Z.bits_0. reflexivity.
    - rewrite <- (Z.mod_small b (2^k)) by lia. rewrite Z.mod_pow2_bits_high by lia. apply andb_false_r. }
  rewrite <- Z.lxor_lor by exact L. symmetry. apply Z.add_nocarry_lxor. exact L.
Qed.

(** (x << 1) | (y >> 63) on u64 *)
Lemma shl1_or x y : u64 x -> u64 y ->
  Z.lor (w64 (Z.shiftl x 1)) (Z.shiftr y 63) = 2 * x - B * Z.shiftr x 63 + Z.shiftr y 63.
Proof.
  intros Hx Hy.
  rewrite Z.shiftl_mul_pow2, !Z.shiftr_div_pow2 by lia.
  change (2 ^ 1) with 2. change (2 ^ 63) with 9223372036854775808.
  assert (Y: 0 <= y / 9223372036854775808 <= 1).
  { split; [apply Z.div_pos; uB; lia|]. apply Z.lt_succ_r, Z.div_lt_upper_bound; uB; lia. }
  assert (E: w64 (x * 2) = 2 * x - B * (x / 9223372036854775808)).
  { unfold w64. symmetry. apply mod_eq with (q := x / 9223372036854775808); [|lia].
    pose proof (Z.div_mod x 9223372036854775808). pose proof (Z.mod_pos_bound x 9223372036854775808).
    uB. lia. }
  rewrite E. apply lor_disjoint with (k := 1); [lia| |change (2^1) with 2; lia].
  change (2 ^ 1) with 2.
  replace (2 * x - B * (x / 9223372036854775808)) with ((x - B / 2 * (x / 9223372036854775808)) * 2)
    by (change (B/2) with 9223372036854775808; unfold B; lia).
  apply Z.mod_mul. lia.
Qed.

Lemma shl1 x : u64 x -> w64 (Z.shiftl x 1) = 2 * x - B * Z.shiftr x 63.
Proof.
  intros Hx. pose proof (shl1_or x 0 Hx u64_0) as H.
  rewrite Z.shiftr_0_l, Z.lor_0_r in H. lia.
Qed.

Lemma shr63_bit x : u64 x -> 0 <= Z.shiftr x 63 <= 1.
Proof.
  intros Hx. rewrite Z.shiftr_div_pow2 by lia. change (2 ^ 63) with 9223372036854775808.
  split; [apply Z.div_pos; uB; lia|]. apply Z.lt_succ_r, Z.div_lt_upper_bound; uB; lia.
Qed.

Lemma shl1_u64 x y : u64 x -> 0 <= y <= 1 -> u64 (2 * x - B * Z.shiftr x 63 + y).
Proof.
  intros Hx Hy. rewrite Z.shiftr_div_pow2 by lia. change (2 ^ 63) with 9223372036854775808.
  pose proof (Z.div_mod x 9223372036854775808). pose proof (Z.mod_pos_bound x 9223372036854775808).
  uB. lia.
Qed.

Lemma u_square_full_spec a : wf a ->
  wf (fst (u_square_full a)) /\ wf (snd (u_square_full a)) /\
  val (fst (u_square_full a)) + W * val (snd (u_square_full a)) = val a * val a.
Proof.
  intros (H0 & H1 & H2 & H3). unfold u_square_full.
  do 6 step1. cbv zeta. rewrite !shl1_or, shl1 by assumption.
  pose proof (shr63_bit r0 ltac:(assumption)) as S0.
  pose proof (shr63_bit r ltac:(assumption)) as S.
  pose proof (shr63_bit r2 ltac:(assumption)) as S2.
  pose proof (shr63_bit r3 ltac:(assumption)) as S3.
  pose proof (shr63_bit r4 ltac:(assumption)) as S4.
  pose proof (shr63_bit c4 ltac:(assumption)) as S5.
  pose proof (shl1_u64 r 0 ltac:(assumption) ltac:(lia)) as T. rewrite Z.add_0_r in T.
  pose proof (shl1_u64 r0 _ ltac:(assumption) S) as T0.
  pose proof (shl1_u64 r2 _ ltac:(assumption) S0) as T1.
  pose proof (shl1_u64 r3 _ ltac:(assumption) S2) as T2.
  pose proof (shl1_u64 r4 _ ltac:(assumption) S3) as T3.
  pose proof (shl1_u64 c4 _ ltac:(assumption) S4) as T4.
  set (s := Z.shiftr r 63) in *. set (s0 := Z.shiftr r0 63) in *. set (s2 := Z.shiftr r2 63) in *.
  set (s3 := Z.shiftr r3 63) in *. set (s4 := Z.shiftr r4 63) in *. set (s5 := Z.shiftr c4 63) in *.
  steps. cbn [fst snd].
  match goal with |- wf ?x /\ wf ?y /\ _ =>
    assert (W1 : wf x) by (unfold wf; simpl; auto);
    assert (W2 : wf y) by (unfold wf; simpl; auto) end.
  split; [exact W1|]. split; [exact W2|].
  (* the final carry is zero because the square is below 2^512 *)
  assert (EQ : forall rr, rr = val (mk r5 r6 r7 r8) + W * val (mk r9 r10 r11 r12) + W * W * c12 -> rr = val a * val a).
  { intros rr ->. rewrite !val_B, !W_B. cbn [l0 l1 l2 l3].
    clear - E E0 E1 E2 E3 E4 E5 E6 E7 E8 E9 E10 E11 E12. unfold B in *. lia. }
  specialize (EQ _ eq_refl).
  assert (c12 = 0).
  { pose proof (val_range _ W1). pose proof (val_range _ W2).
    pose proof (val_range a (conj H0 (conj H1 (conj H2 H3)))).
    assert (val a * val a < W * W) by nia.
    assert (0 <= c12) by lia.
    unfold W in *. change (2^256) with 115792089237316195423570985008687907853269984665640564039457584007913129639936 in *.
    nia. }
  subst c12. lia.
Qed.

Lemma u_square_spec a : wf a -> wf (u_square a) /\ val (u_square a) = (val a * val a) mod W.
Proof.
  intros Ha. destruct (u_square_full_spec a Ha) as (H1 & H2 & H3).
  split; [exact H1|]. pose proof (val_range _ H1).
  apply mod_eq with (q := val (snd (u_square_full a))); [assumption|]. unfold u_square in *. lia.
Qed.

(** ** Iterators *)
Lemma W_pos : 0 < W. Proof. reflexivity. Qed.

Lemma sum_fold_spec l : forall acc, wf acc -> Forall wf l ->
  wf (fold_left u_add l acc) /\
  val (fold_left u_add l acc) = (val acc + fold_right Z.add 0 (map val l)) mod W.
Proof.
  induction l as [|x l IH]; intros acc Ha Hl; simpl.
  - split; [assumption|]. rewrite Z.add_0_r, Z.mod_small; [reflexivity|apply val_range; assumption].
  - inversion Hl; subst. destruct (u_add_spec acc x) as [G1 G2]; [assumption..|].
    destruct (IH (u_add acc x) G1 H2) as [K1 K2]. split; [exact K1|].
    rewrite K2, G2, Zplus_mod_idemp_l. f_equal. lia.
Qed.

Lemma product_fold_spec l : forall acc, wf acc -> Forall wf l ->
  wf (fold_left u_mul l acc) /\
  val (fold_left u_mul l acc) = (val acc * fold_right Z.mul 1 (map val l)) mod W.
Proof.
  induction l as [|x l IH]; intros acc Ha Hl; simpl.
  - split; [assumption|]. rewrite Z.mul_1_r, Z.mod_small; [reflexivity|apply val_range; assumption].
  - inversion Hl; subst. destruct (u_mul_spec acc x) as [G1 G2]; [assumption..|].
    destruct (IH (u_mul acc x) G1 H2) as [K1 K2]. split; [exact K1|].
    rewrite K2, G2, Zmult_mod_idemp_l. f_equal. lia.
Qed.

(** ** Power *)
Lemma pow_loop_spec fuel : forall res sq e, wf res -> wf sq -> 0 <= e < 2 ^ Z.of_nat fuel ->
  exists r, u_pow_loop fuel res sq e = Some r /\ wf r /\ val r = (val res * val sq ^ e) mod W.
Proof.
  induction fuel as [|n IH]; intros res sq e Hr Hs He.
  - simpl. assert (e = 0) by (simpl in He; lia). subst. simpl. exists res.
    split; [reflexivity|]. split; [assumption|]. rewrite Z.mul_1_r, Z.mod_small; [reflexivity|apply val_range; assumption].
  - simpl. destruct (Z.ltb_spec 0 e).
    2: { assert (e = 0) by lia. subst. exists res.
         split; [reflexivity|]. split; [assumption|].
         rewrite Z.mul_1_r, Z.mod_small; [reflexivity|apply val_range; assumption]. }
    rewrite Z.shiftr_div_pow2 by lia. change (2 ^ 1) with 2.
    destruct (u_square_spec sq Hs) as [S1 S2].
    assert (He2 : 0 <= e / 2 < 2 ^ Z.of_nat n).
    { rewrite Nat2Z.inj_succ, Z.pow_succ_r in He by lia.
      split; [apply Z.div_pos; lia|apply Z.div_lt_upper_bound; lia]. }
    assert (P : forall x, x ^ e = (x * x) ^ (e / 2) * x ^ (e mod 2)).
    { intros x. replace (x * x) with (x ^ 2) by lia. rewrite <- Z.pow_mul_r, <- Z.pow_add_r; try lia.
      - f_equal. apply Z.div_mod. lia.
      - pose proof (Z.mod_pos_bound e 2); lia. }
    pose proof (Z.mod_pos_bound e 2 ltac:(lia)) as Hm.
    destruct (Z.eqb_spec (e mod 2) 1) as [E1|E1].
    + destruct (u_mul_spec res sq Hr Hs) as [M1 M2].
      destruct (IH (u_mul res sq) (u_square sq) (e / 2) M1 S1 He2) as (r & R1 & R2 & R3).
      exists r. split; [exact R1|]. split; [exact R2|]. rewrite R3, M2, S2, (P (val sq)), E1.
      rewrite Zmult_mod_idemp_l, <- Zmult_mod_idemp_r, <- Zpower_mod, Zmult_mod_idemp_r by reflexivity.
      f_equal. lia.
    + assert (e mod 2 = 0) by lia.
      destruct (IH res (u_square sq) (e / 2) Hr S1 He2) as (r & R1 & R2 & R3).
      exists r. split; [exact R1|]. split; [exact R2|]. rewrite R3, S2, (P (val sq)), H0.
      rewrite <- Zmult_mod_idemp_r, <- Zpower_mod, Zmult_mod_idemp_r by reflexivity.
      f_equal. lia.
Qed.

Lemma u_pow_spec x e : wf x -> u64 e ->
  exists r, u_pow x e = Some r /\ wf r /\ val r = (val x ^ e) mod W.
Proof.
  intros Hx He. destruct (pow_loop_spec 64 ONE x e wf_ONE Hx He) as (r & H1 & H2 & H3).
  exists r. rewrite val_ONE, Z.mul_1_l in H3. auto.
Qed.
