(** [non_adjacent_form] computes a non-adjacent form. *)
Require Import ZArith Lia Bool List.
From Verif Require Import Word U256Model U256Spec U256Proofs KnuthModel BinaryModel BinaryProofs Arr WnafModel WnafSpec.
Import ListNotations.
Open Scope Z_scope.

Lemma digits_upd l i d : (i < length l)%nat -> nth i l 0 = 0 -> digits_value (upd l i d) = digits_value l + d * 2 ^ Z.of_nat i.
Proof.
  revert i. induction l as [|a l IH]; intros [|i] H E; cbn [length nth upd digits_value] in *; try lia.
  rewrite IH by (try assumption; lia). rewrite Nat2Z.inj_succ, Z.pow_succ_r by lia. ring.
Qed.
Lemma digits_zero k : digits_value (repeat 0 k) = 0.
Proof. induction k; cbn [repeat digits_value]; lia. Qed.

Lemma as_i16_id x : - 2 ^ 15 <= x < 2 ^ 15 -> as_i16 x = x.
Proof. intros H. unfold as_i16. rewrite Z.mod_small by (change (2 ^ 16) with 65536; change (2 ^ 15) with 32768 in *; lia). ring. Qed.
Lemma shl1_ok s : 0 <= s < 15 -> shl1_i16 s = Some (2 ^ s).
Proof.
  intros H. unfold shl1_i16. destruct (Z.leb_spec 0 s); [|lia]. destruct (Z.ltb_spec s 16); [|lia]. cbn [andb]. rewrite as_i16_id; [reflexivity|].
  pose proof (Z.pow_pos_nonneg 2 s ltac:(lia) ltac:(lia)). pose proof (Z.pow_lt_mono_r 2 s 15 ltac:(lia) ltac:(lia) ltac:(lia)). lia.
Qed.
Lemma limb_mod x w : wf x -> 0 <= w < 64 -> Z.land (l0 x) (2 ^ w - 1) = val x mod 2 ^ w.
Proof.
  intros H Hw. replace (2 ^ w - 1) with (Z.ones w) by (rewrite Z.ones_equiv; lia). rewrite Z.land_ones by lia.
  rewrite val_B. replace (l0 x + B * l1 x + B * B * l2 x + B * B * B * l3 x) with (l0 x + (2 ^ (64 - w) * (l1 x + B * l2 x + B * B * l3 x)) * 2 ^ w).
  2:{ transitivity (l0 x + 2 ^ (64 - w) * 2 ^ w * (l1 x + B * l2 x + B * B * l3 x)); [ring|]. rewrite <- Z.pow_add_r by lia.
      replace (64 - w + w) with 64 by ring. change (2 ^ 64) with B. ring. }
  rewrite Z.mod_add by (apply Z.pow_nonzero; lia). reflexivity.
Qed.
Lemma mod_odd a w : 0 < w -> Z.odd (a mod 2 ^ w) = Z.odd a.
Proof. intros H. rewrite <- !Z.bit0_odd. apply Z.mod_pow2_bits_low. lia. Qed.

Section Naf.
Variables (w n : Z).
Hypothesis Hw : 2 <= w <= 14.

Record naf_inv (s : u256) (i : Z) (l : list Z) : Prop := {
  ni_wf : wf s;
  ni_pos : 0 <= i;
  ni_len : length l = 257%nat;
  ni_val : val s * 2 ^ i + digits_value l = n;
  ni_bound : val s = 0 \/ (i <= 256 /\ val s <= 2 ^ (256 - i));
  ni_last : forall j, nth j l 0 <> 0 -> Z.of_nat j + w <= i;
  ni_digit : forall j, nth j l 0 <> 0 -> Z.odd (nth j l 0) = true /\ Z.abs (nth j l 0) < 2 ^ (w - 1);
  ni_sparse : forall j k, (j < k)%nat -> nth j l 0 <> 0 -> nth k l 0 <> 0 -> w <= Z.of_nat k - Z.of_nat j
}.

Lemma pw k : 0 <= k -> 0 < 2 ^ k. Proof. apply Z.pow_pos_nonneg. lia. Qed.
Lemma odd_pow2 k : 0 <= k -> Z.odd (2 ^ k) = true -> k = 0.
Proof. intros H O. destruct (Z.eq_dec k 0) as [|N]; [assumption|]. rewrite Z.odd_pow in O by lia. discriminate. Qed.

Lemma naf_loop_spec fuel : forall s i l, naf_inv s i l -> (1 <= fuel)%nat -> (val s <> 0 -> 257 < Z.of_nat fuel + i) ->
  exists r, naf_loop fuel w (2 ^ w - 1) (2 ^ (w - 1)) s i l = Some r /\ length r = 257%nat /\ wnaf_form w n r.
Proof.
  induction fuel as [|fuel IH]; intros s i l I Hf1 Hf; [lia|]. cbn [naf_loop].
  destruct (u_trailing_zeros_spec s (ni_wf _ _ _ I)) as [T0 T1].
  destruct (Z.eq_dec (val s) 0) as [E|N].
  { rewrite (T0 E), Z.eqb_refl. exists l. split; [reflexivity|]. split; [apply (ni_len _ _ _ I)|].
    constructor; [|apply (ni_digit _ _ _ I)|apply (ni_sparse _ _ _ I)]. pose proof (ni_val _ _ _ I) as V. rewrite E in V. lia. }
  specialize (T1 N) as (Tr & q & Eq). destruct (Z.eqb_spec (u_trailing_zeros s) 256) as [|_]; [lia|].
  set (t := u_trailing_zeros s) in *. clearbody t. clear T0.
  (* the odd scalar and its position *)
  assert (K : exists s1 i1, (if t =? 0 then (s, i) else (u_shr s t, i + t)) = (s1, i1) /\ i1 = i + t /\ wf s1 /\ val s1 = 2 * q + 1).
  { destruct (Z.eqb_spec t 0) as [->|].
    - exists s, i. repeat split; try apply (ni_wf _ _ _ I); [lia|]. rewrite Eq. ring.
    - destruct (u_shr_spec s t (ni_wf _ _ _ I) ltac:(lia)) as [W1 V1]. eexists _, _. split; [reflexivity|]. split; [reflexivity|]. split; [exact W1|].
      rewrite V1, Eq. apply Z.div_mul. apply Z.pow_nonzero; lia. }
  destruct K as (s1 & i1 & -> & Ei & W1 & V1). set (v := val s1) in *. pose proof (ni_pos _ _ _ I) as Ipos.
  pose proof (pw t ltac:(lia)) as Pt. pose proof (pw i ltac:(lia)) as Pi.
  assert (Vs : val s = v * 2 ^ t) by (rewrite V1; exact Eq).
  assert (Ov : Z.odd v = true) by (rewrite V1; rewrite Z.odd_add, Z.odd_mul; reflexivity).
  assert (Pv : 0 < v). { pose proof (val_range s (ni_wf _ _ _ I)). assert (0 < v * 2 ^ t) by lia. nia. }
  assert (Bv : i1 <= 256 /\ v <= 2 ^ (256 - i1)).
  { destruct (ni_bound _ _ _ I) as [|[B1 B2]]; [contradiction|].
    assert (t <= 256 - i). { apply (Z.pow_le_mono_r_iff 2); try lia. }
    split; [lia|]. apply (Z.mul_le_mono_pos_r _ _ (2 ^ t)); [lia|]. rewrite <- Z.pow_add_r by lia. replace (256 - i1 + t) with (256 - i) by lia. lia. }
  destruct Bv as [Bi Bv]. clear q Eq V1.
  (* the digit *)
  rewrite (limb_mod s1 w W1) by lia. fold v. pose proof (Z.mod_pos_bound v (2 ^ w) (pw w ltac:(lia))) as Dr.
  assert (P14 : 2 ^ w <= 2 ^ 14) by (apply Z.pow_le_mono_r; lia). change (2 ^ 14) with 16384 in P14.
  rewrite as_i16_id by (change (2 ^ 15) with 32768; lia).
  assert (Od : Z.odd (v mod 2 ^ w) = true) by (rewrite mod_odd by lia; exact Ov).
  destruct (u_shr_spec s1 w W1 ltac:(lia)) as [W2 V2]. fold v in V2. pose proof (Z.div_mod v (2 ^ w) ltac:(lia)) as DM.
  assert (Hh : 2 ^ w = 2 * 2 ^ (w - 1)) by (rewrite <- Z.pow_succ_r by lia; f_equal; lia).
  pose proof (pw (w - 1) ltac:(lia)) as Ph.
  assert (Oh : 2 ^ (w - 1) <> v mod 2 ^ w). { intros E. rewrite <- E in Od. apply odd_pow2 in Od; lia. }
  assert (K : exists d s2, (if 2 ^ (w - 1) <=? v mod 2 ^ w
             then let? full := shl1_i16 w in let? n := sub_i16 (v mod 2 ^ w) full in Some (n, u_add (u_shr s1 w) ONE)
             else Some (v mod 2 ^ w, u_shr s1 w)) = Some (d, s2) /\ wf s2 /\ val s2 * 2 ^ w + d = v /\ Z.odd d = true /\ Z.abs d < 2 ^ (w - 1) /\
             (val s2 = v / 2 ^ w /\ v mod 2 ^ w < 2 ^ (w - 1) \/ val s2 = v / 2 ^ w + 1 /\ 2 ^ (w - 1) < v mod 2 ^ w)).
  { destruct (Z.leb_spec (2 ^ (w - 1)) (v mod 2 ^ w)) as [G|G].
    - rewrite shl1_ok by lia. cbn [bind]. unfold sub_i16, i16_ok.
      destruct (Z.leb_spec (- 2 ^ 15) (v mod 2 ^ w - 2 ^ w)) as [_|X]; [|change (2 ^ 15) with 32768 in X; lia].
      destruct (Z.ltb_spec (v mod 2 ^ w - 2 ^ w) (2 ^ 15)) as [_|X]; [|change (2 ^ 15) with 32768 in X; lia]. cbn [andb bind].
      destruct (u_add_spec (u_shr s1 w) ONE W2 wf_ONE) as [W3 V3]. change (val ONE) with 1 in V3.
      assert (v / 2 ^ w + 1 < W). { pose proof (val_range s1 W1) as Rs. fold v in Rs. assert (v / 2 ^ w < W / 4 + 1); [|pose proof (eq_refl : W = 2^256) as E; rewrite E in *; change (2 ^ 256 / 4) with (2^254) in *; change (2^256) with (4 * 2^254); pose proof (pw 254); lia].
        assert (v / 2 ^ w <= v / 4). { apply Z.div_le_compat_l; [lia|]. split; [lia|]. change 4 with (2 ^ 2). apply Z.pow_le_mono_r; lia. }
        pose proof (Z.div_le_mono v W 4 ltac:(lia) ltac:(lia)). lia. }
      rewrite V2, Z.mod_small in V3 by (pose proof (Z.div_pos v (2 ^ w)); lia).
      eexists _, _. split; [reflexivity|]. split; [exact W3|]. rewrite V3. split; [lia|]. split; [|split; [lia|right; split; [reflexivity|lia]]].
      rewrite Z.odd_sub, Od, Z.odd_pow by lia. reflexivity.
    - eexists _, _. split; [reflexivity|]. split; [exact W2|]. rewrite V2. split; [lia|]. split; [exact Od|]. split; [lia|]. left. split; [reflexivity|lia]. }
  destruct K as (d & s2 & -> & W3 & V3 & Odd & Ad & Cs). cbn [bind].
  assert (L1 : (Z.to_nat i1 < length l)%nat) by (rewrite (ni_len _ _ _ I); lia).
  rewrite set_ok by exact L1. cbn [bind].
  assert (Z1 : nth (Z.to_nat i1) l 0 = 0).
  { destruct (Z.eq_dec (nth (Z.to_nat i1) l 0) 0) as [|Nz]; [assumption|]. pose proof (ni_last _ _ _ I _ Nz). lia. }
  assert (Nu : forall j, nth j (upd l (Z.to_nat i1) d) 0 = if (j =? Z.to_nat i1)%nat then d else nth j l 0) by (intros j; apply nth_upd; exact L1).
  apply IH.
  - constructor.
    + exact W3.
    + lia.
    + rewrite upd_length. apply (ni_len _ _ _ I).
    + rewrite digits_upd by assumption. rewrite Z2Nat.id by lia. rewrite <- (ni_val _ _ _ I), Vs. subst i1.
      replace (i + t + w) with (w + (i + t)) by ring. rewrite (Z.pow_add_r 2 w), (Z.pow_add_r 2 i) by lia. rewrite <- V3. ring.
    + assert (Nv : i1 < 256 -> v <> 2 ^ (256 - i1)). { intros Hi Ev. rewrite Ev in Ov. apply odd_pow2 in Ov; lia. }
      destruct (Z_le_gt_dec (i1 + w) 256) as [G|G].
      * right. split; [exact G|]. assert (v < 2 ^ w * 2 ^ (256 - (i1 + w))).
        { rewrite <- Z.pow_add_r by lia. replace (w + (256 - (i1 + w))) with (256 - i1) by ring. specialize (Nv ltac:(lia)). lia. }
        assert (v / 2 ^ w < 2 ^ (256 - (i1 + w))) by (apply Z.div_lt_upper_bound; lia). lia.
      * left. assert (v < 2 ^ (w - 1)).
        { assert (2 ^ (256 - i1) <= 2 ^ (w - 1)) by (apply Z.pow_le_mono_r; lia).
          destruct (Z.eq_dec i1 256) as [->|]; [|specialize (Nv ltac:(lia)); lia]. change (2 ^ (256 - 256)) with 1 in *.
          pose proof (Z.pow_le_mono_r 2 1 (w - 1) ltac:(lia) ltac:(lia)). lia. }
        rewrite (Z.mod_small v) in Cs by lia. rewrite (Z.div_small v) in Cs by lia. lia.
    + intros j. rewrite Nu. destruct (Nat.eqb_spec j (Z.to_nat i1)) as [->|]; [lia|]. intros Nz. pose proof (ni_last _ _ _ I _ Nz). lia.
    + intros j. rewrite Nu. destruct (Nat.eqb_spec j (Z.to_nat i1)) as [->|]; [split; assumption|apply (ni_digit _ _ _ I)].
    + intros j k Hjk. rewrite !Nu. destruct (Nat.eqb_spec j (Z.to_nat i1)) as [->|], (Nat.eqb_spec k (Z.to_nat i1)) as [->|]; try lia.
      * intros _ Nz. pose proof (ni_last _ _ _ I _ Nz). lia.
      * intros Nz _. pose proof (ni_last _ _ _ I _ Nz). lia.
      * apply (ni_sparse _ _ _ I). exact Hjk.
  - specialize (Hf N). lia.
  - intros _. specialize (Hf N). lia.
Qed.
End Naf.

Lemma nth_zeros k j : nth j (repeat 0 k) 0 = 0.
Proof. revert j. induction k; intros [|j]; cbn; auto. Qed.
Theorem naf_spec s w : wf s -> 2 <= w <= 14 ->
  exists l, non_adjacent_form s w = Some l /\ length l = 257%nat /\ wnaf_form w (val s) l.
Proof.
  intros Ws Hw. unfold non_adjacent_form. destruct (Z.ltb_spec w 64); [|lia]. rewrite shl1_ok by lia. cbn [bind].
  apply (naf_loop_spec w (val s) Hw); [|lia|lia].
  constructor; try (intros j; rewrite nth_zeros; congruence); [exact Ws|lia|apply repeat_length| |].
  - rewrite digits_zero, Z.pow_0_r. ring.
  - right. split; [lia|]. pose proof (val_range s Ws). change (2 ^ (256 - 0)) with W. lia.
Qed.
(** The fuel of the model is never what ends the loop. *)
Lemma naf_loop_fuel w mask half : 0 < w -> forall f s i l, 0 <= i -> length l = 257%nat -> (257 < Z.of_nat f + i) -> (1 <= f)%nat ->
  forall k, naf_loop (f + k) w mask half s i l = naf_loop f w mask half s i l.
Proof.
  intros Hw. induction f as [|f IH]; intros s i l Hi Hl Hf H1 k; [lia|]. cbn [Nat.add naf_loop].
  destruct (_ =? 256); [reflexivity|].
  assert (K : exists s1 i1, (if u_trailing_zeros s =? 0 then (s, i) else (u_shr s (u_trailing_zeros s), i + u_trailing_zeros s)) = (s1, i1) /\ i <= i1).
  { destruct (Z.eqb_spec (u_trailing_zeros s) 0); eexists _, _; (split; [reflexivity|]); [lia|].
    unfold u_trailing_zeros. assert (C : forall x, 0 <= ctz64 x). { intros [|p|p]; cbn [ctz64]; try lia. apply ctz_pos_spec. }
    pose proof (C (l0 s)). pose proof (C (l1 s)). pose proof (C (l2 s)). pose proof (C (l3 s)). repeat destruct (_ <? _); lia. }
  destruct K as (s1 & i1 & -> & Hi1). match goal with |- bind ?r _ = _ => destruct r as [[d s2]|]; [cbn [bind]|reflexivity] end.
  unfold set. destruct (Nat.ltb_spec (Z.to_nat i1) (length l)) as [Hl1|]; [|reflexivity]. cbn [bind].
  rewrite Hl in Hl1. apply IH; try lia. rewrite upd_length. exact Hl.
Qed.
