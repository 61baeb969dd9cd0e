Require Import ZArith Lia Bool List Zpow_facts.
From Verif Require Import Word U256Model U256Spec U256Proofs KnuthModel KnuthProofs BinaryModel EncodingSpec.
Import ListNotations.
Open Scope Z_scope.

(** ** Shifts *)
Lemma shl64_spec x s : 0 < s < 64 -> u64 x ->
  shl64 x s = x * 2 ^ s - B * shr64 x (64 - s) /\ u64 (shl64 x s) /\ 0 <= shr64 x (64 - s) < 2 ^ s.
Proof.
  intros Hs Hx. destruct (shl_low x s Hs Hx) as (E & _ & R). unfold shl64, shr64.
  split; [exact E|]. split; [apply w64_range|exact R].
Qed.
Lemma shl_or_spec x y s : 0 < s < 64 -> u64 x -> u64 y ->
  Z.lor (shl64 x s) (shr64 y (64 - s)) = x * 2 ^ s - B * shr64 x (64 - s) + shr64 y (64 - s) /\
  u64 (Z.lor (shl64 x s) (shr64 y (64 - s))).
Proof. intros. apply lor_shl; assumption. Qed.
Lemma shr64_spec x s : 0 <= s -> u64 x -> shr64 x s = x / 2 ^ s /\ u64 (shr64 x s).
Proof.
  intros Hs Hx. unfold shr64. rewrite Z.shiftr_div_pow2 by lia. split; [reflexivity|].
  assert (0 < 2 ^ s) by (apply Z.pow_pos_nonneg; lia).
  unfold u64 in *. split; [apply Z.div_pos; lia|]. apply Z.le_lt_trans with x; [|lia].
  apply Z.div_le_upper_bound; nia.
Qed.
Lemma shr_or_spec x y s : 0 < s < 64 -> u64 x -> u64 y ->
  Z.lor (shr64 x s) (shl64 y (64 - s)) = x / 2 ^ s + 2 ^ (64 - s) * y - B * (y / 2 ^ s) /\
  u64 (Z.lor (shr64 x s) (shl64 y (64 - s))).
Proof.
  intros Hs Hx Hy. destruct (lor_shl y x (64 - s)) as [E U]; [lia|assumption|assumption|].
  replace (64 - (64 - s)) with s in * by lia. rewrite Z.lor_comm in E, U.
  unfold shr64, shl64. split; [|exact U]. rewrite E, !Z.shiftr_div_pow2 by lia. ring.
Qed.

Ltac shl_facts :=
  repeat match goal with
  | |- context [Z.lor (shl64 ?x ?s) (shr64 ?y ?t)] =>
      replace t with (64 - s) by lia;
      let E := fresh "E" in let U := fresh "U" in
      destruct (shl_or_spec x y s ltac:(lia) ltac:(assumption) ltac:(assumption)) as [E U];
      let v := fresh "v" in set (v := Z.lor (shl64 x s) (shr64 y (64 - s))) in *; clearbody v
  end;
  repeat match goal with
  | |- context [shl64 ?x ?s] =>
      let E := fresh "E" in let U := fresh "U" in let R := fresh "R" in
      destruct (shl64_spec x s ltac:(lia) ltac:(assumption)) as (E & U & R);
      let v := fresh "v" in set (v := shl64 x s) in *; clearbody v
  end.

Lemma mk_wf a b c d : u64 a -> u64 b -> u64 c -> u64 d -> wf (mk a b c d).
Proof. intros. unfold wf. cbn [l0 l1 l2 l3]. auto. Qed.

Lemma u_shl_spec x s : wf x -> 0 <= s -> wf (u_shl x s) /\ val (u_shl x s) = (val x * 2 ^ s) mod W.
Proof.
  intros Hwf Hs. pose proof Hwf as (H0 & H1 & H2 & H3). unfold u_shl.
  assert (Done : forall y q, wf y -> val x * 2 ^ s = val y + W * q -> wf y /\ val y = (val x * 2 ^ s) mod W).
  { intros y q Hy E. split; [assumption|]. apply mod_eq with (q := q); [apply val_range; assumption|]. assumption. }
  pose proof u64_0 as Z0.
  destruct (Z.eqb_spec s 0) as [->|N0].
  { apply Done with (q := 0); [apply mk_wf; assumption|]. rewrite !val_B. cbn [l0 l1 l2 l3]. change (2 ^ 0) with 1. ring. }
  destruct (Z.ltb_spec s 64).
  { shl_facts. apply Done with (q := shr64 (l3 x) (64 - s)); [apply mk_wf; assumption|].
    rewrite !val_B, W_B. cbn [l0 l1 l2 l3]. rewrite E, E0, E1, E2. ring. }
  destruct (Z.eqb_spec s 64) as [->|N1].
  { apply Done with (q := l3 x); [apply mk_wf; assumption|]. rewrite !val_B, W_B. cbn [l0 l1 l2 l3]. change (2 ^ 64) with B. ring. }
  destruct (Z.ltb_spec s 128).
  { assert (P : 2 ^ s = B * 2 ^ (s - 64)).
    { change B with (2 ^ 64). rewrite <- Z.pow_add_r by lia. f_equal. lia. }
    shl_facts. apply Done with (q := l3 x * 2 ^ (s - 64) + shr64 (l2 x) (64 - (s - 64))); [apply mk_wf; assumption|].
    rewrite !val_B, W_B, P. cbn [l0 l1 l2 l3]. rewrite E, E0, E1. ring. }
  destruct (Z.eqb_spec s 128) as [->|N2].
  { apply Done with (q := l2 x + B * l3 x); [apply mk_wf; assumption|]. rewrite !val_B, W_B. cbn [l0 l1 l2 l3]. change (2 ^ 128) with (B * B). ring. }
  destruct (Z.ltb_spec s 192).
  { assert (P : 2 ^ s = B * B * 2 ^ (s - 128)).
    { change (B * B) with (2 ^ 128). rewrite <- Z.pow_add_r by lia. f_equal. lia. }
    shl_facts. apply Done with (q := l2 x * 2 ^ (s - 128) + B * l3 x * 2 ^ (s - 128) + shr64 (l1 x) (64 - (s - 128))); [apply mk_wf; assumption|].
    rewrite !val_B, W_B, P. cbn [l0 l1 l2 l3]. rewrite E, E0. ring. }
  destruct (Z.eqb_spec s 192) as [->|N3].
  { apply Done with (q := l1 x + B * l2 x + B * B * l3 x); [apply mk_wf; assumption|]. rewrite !val_B, W_B. cbn [l0 l1 l2 l3]. change (2 ^ 192) with (B * B * B). ring. }
  destruct (Z.ltb_spec s 256).
  { assert (P : 2 ^ s = B * B * B * 2 ^ (s - 192)).
    { change (B * B * B) with (2 ^ 192). rewrite <- Z.pow_add_r by lia. f_equal. lia. }
    shl_facts. apply Done with (q := (l1 x + B * l2 x + B * B * l3 x) * 2 ^ (s - 192) + shr64 (l0 x) (64 - (s - 192))); [apply mk_wf; assumption|].
    rewrite !val_B, W_B, P. cbn [l0 l1 l2 l3]. rewrite E. ring. }
  assert (P : 2 ^ s = W * 2 ^ (s - 256)).
  { change W with (2 ^ 256). rewrite <- Z.pow_add_r by lia. f_equal. lia. }
  apply Done with (q := val x * 2 ^ (s - 256)); [apply mk_wf; assumption|].
  rewrite P. rewrite (val_B (mk 0 0 0 0)). cbn [l0 l1 l2 l3]. ring.
Qed.

Lemma div_limb a rest s : 0 <= s <= 64 -> (a + B * rest) / 2 ^ s = a / 2 ^ s + 2 ^ (64 - s) * rest.
Proof.
  intros Hs. assert (EB : B = 2 ^ s * 2 ^ (64 - s)).
  { rewrite <- Z.pow_add_r by lia. replace (s + (64 - s)) with 64 by lia. reflexivity. }
  assert (0 < 2 ^ s) by (apply Z.pow_pos_nonneg; lia).
  replace (a + B * rest) with (a + (2 ^ (64 - s) * rest) * 2 ^ s) by (rewrite EB; ring).
  apply Z.div_add. lia.
Qed.
Lemma div_B a rest : u64 a -> (a + B * rest) / B = rest.
Proof. intros Ha. symmetry. apply Z.div_unique with (r := a); [left; exact Ha|lia]. Qed.

Ltac shr_facts :=
  repeat match goal with
  | |- context [Z.lor (shr64 ?x ?s) (shl64 ?y ?t)] =>
      replace t with (64 - s) by lia;
      let E := fresh "E" in let U := fresh "U" in
      destruct (shr_or_spec x y s ltac:(lia) ltac:(assumption) ltac:(assumption)) as [E U];
      let v := fresh "v" in set (v := Z.lor (shr64 x s) (shl64 y (64 - s))) in *; clearbody v
  end;
  repeat match goal with
  | |- context [shr64 ?x ?s] =>
      let E := fresh "E" in let U := fresh "U" in
      destruct (shr64_spec x s ltac:(lia) ltac:(assumption)) as (E & U);
      let v := fresh "v" in set (v := shr64 x s) in *; clearbody v
  end.

Lemma u_shr_spec x s : wf x -> 0 <= s -> wf (u_shr x s) /\ val (u_shr x s) = val x / 2 ^ s.
Proof.
  intros Hwf Hs. pose proof Hwf as (H0 & H1 & H2 & H3). pose proof (val_range x Hwf) as RX. unfold u_shr.
  pose proof u64_0 as Z0.
  assert (V : val x = l0 x + B * (l1 x + B * (l2 x + B * l3 x))) by (rewrite val_B; ring).
  assert (V1 : val x / B = l1 x + B * (l2 x + B * l3 x)) by (rewrite V; apply div_B; assumption).
  assert (V2 : val x / (B * B) = l2 x + B * l3 x).
  { rewrite <- Z.div_div by (unfold B; lia). rewrite V1. apply div_B; assumption. }
  assert (V3 : val x / (B * B * B) = l3 x).
  { rewrite <- Z.div_div by (unfold B; lia). rewrite V2. apply div_B; assumption. }
  destruct (Z.eqb_spec s 0) as [->|N0].
  { split; [apply mk_wf; assumption|]. change (2 ^ 0) with 1. rewrite Z.div_1_r, !val_B. reflexivity. }
  destruct (Z.ltb_spec s 64).
  { shr_facts. split; [apply mk_wf; assumption|].
    rewrite V, div_limb, val_B by lia. cbn [l0 l1 l2 l3]. rewrite E, E0, E1, E2. ring. }
  destruct (Z.eqb_spec s 64) as [->|N1].
  { split; [apply mk_wf; assumption|]. change (2 ^ 64) with B. rewrite V1, val_B. cbn [l0 l1 l2 l3]. ring. }
  destruct (Z.ltb_spec s 128).
  { assert (P : 2 ^ s = B * 2 ^ (s - 64)).
    { change B with (2 ^ 64). rewrite <- Z.pow_add_r by lia. f_equal. lia. }
    assert (0 < 2 ^ (s - 64)) by (apply Z.pow_pos_nonneg; lia).
    shr_facts. split; [apply mk_wf; assumption|].
    rewrite P, <- Z.div_div, V1, div_limb, val_B by (unfold B; lia). cbn [l0 l1 l2 l3]. rewrite E, E0, E1. ring. }
  destruct (Z.eqb_spec s 128) as [->|N2].
  { split; [apply mk_wf; assumption|]. change (2 ^ 128) with (B * B). rewrite V2, val_B. cbn [l0 l1 l2 l3]. ring. }
  destruct (Z.ltb_spec s 192).
  { assert (P : 2 ^ s = B * B * 2 ^ (s - 128)).
    { change (B * B) with (2 ^ 128). rewrite <- Z.pow_add_r by lia. f_equal. lia. }
    assert (0 < 2 ^ (s - 128)) by (apply Z.pow_pos_nonneg; lia).
    shr_facts. split; [apply mk_wf; assumption|].
    rewrite P, <- Z.div_div, V2, div_limb, val_B by (unfold B; lia). cbn [l0 l1 l2 l3]. rewrite E, E0. ring. }
  destruct (Z.eqb_spec s 192) as [->|N3].
  { split; [apply mk_wf; assumption|]. change (2 ^ 192) with (B * B * B). rewrite V3, val_B. cbn [l0 l1 l2 l3]. ring. }
  destruct (Z.ltb_spec s 256).
  { assert (P : 2 ^ s = B * B * B * 2 ^ (s - 192)).
    { change (B * B * B) with (2 ^ 192). rewrite <- Z.pow_add_r by lia. f_equal. lia. }
    assert (0 < 2 ^ (s - 192)) by (apply Z.pow_pos_nonneg; lia).
    shr_facts. split; [apply mk_wf; assumption|].
    rewrite P, <- Z.div_div, V3, val_B by (unfold B; lia). cbn [l0 l1 l2 l3]. rewrite E. ring. }
  split; [apply mk_wf; assumption|].
  rewrite Z.div_small; [reflexivity|]. split; [lia|]. apply Z.lt_le_trans with W; [lia|].
  change W with (2 ^ 256). apply Z.pow_le_mono_r; lia.
Qed.

(** ** Bits *)
Lemma testbit_limb a rest i : u64 a -> 0 <= i ->
  Z.testbit (a + B * rest) i = if i <? 64 then Z.testbit a i else Z.testbit rest (i - 64).
Proof.
  intros Ha Hi. destruct (Z.ltb_spec i 64).
  - rewrite <- (Z.mod_pow2_bits_low (a + B * rest) 64 i) by lia.
    change (2 ^ 64) with B. rewrite (Z.mul_comm B), Z_mod_plus_full, Z.mod_small by exact Ha. reflexivity.
  - pose proof (div_B a rest Ha) as E. set (y := a + B * rest) in *. rewrite <- E.
    change B with (2 ^ 64). rewrite Z.div_pow2_bits by lia. f_equal. lia.
Qed.

Lemma testbit_val x i : wf x -> 0 <= i -> Z.testbit (val x) i =
  if i <? 64 then Z.testbit (l0 x) i else if i <? 128 then Z.testbit (l1 x) (i - 64)
  else if i <? 192 then Z.testbit (l2 x) (i - 128) else Z.testbit (l3 x) (i - 192).
Proof.
  intros (H0 & H1 & H2 & H3) Hi.
  replace (val x) with (l0 x + B * (l1 x + B * (l2 x + B * l3 x))) by (rewrite val_B; ring).
  rewrite testbit_limb by assumption.
  destruct (Z.ltb_spec i 64); [reflexivity|].
  rewrite testbit_limb by (assumption || lia).
  replace (i - 64 <? 64) with (i <? 128) by (destruct (Z.ltb_spec i 128), (Z.ltb_spec (i - 64) 64); lia).
  destruct (Z.ltb_spec i 128); [reflexivity|].
  rewrite testbit_limb by (assumption || lia).
  replace (i - 64 - 64 <? 64) with (i <? 192) by (destruct (Z.ltb_spec i 192), (Z.ltb_spec (i - 64 - 64) 64); lia).
  replace (i - 64 - 64) with (i - 128) by lia. replace (i - 128 - 64) with (i - 192) by lia. reflexivity.
Qed.

Lemma land1_testbit a i : 0 <= i -> (Z.land (shr64 a i) 1 =? 1) = Z.testbit a i.
Proof.
  intros Hi. unfold shr64. change 1 with (Z.ones 1) at 1. rewrite Z.land_ones by lia.
  rewrite Z.testbit_spec' || idtac. rewrite <- Z.testbit_odd || idtac.
  rewrite Z.testbit_odd. change (2 ^ 1) with 2. rewrite Zmod_odd. destruct (Z.odd (Z.shiftr a i)); reflexivity.
Qed.

Lemma u64_testbit_high a i : u64 a -> 64 <= i -> Z.testbit a i = false.
Proof.
  intros Ha Hi. rewrite <- (Z.mod_small a (2 ^ 64)) by exact Ha. apply Z.mod_pow2_bits_high. lia.
Qed.

Lemma u_bit_spec x i : wf x -> 0 <= i -> u_bit x i = Z.testbit (val x) i.
Proof.
  intros H Hi. rewrite testbit_val by assumption. unfold u_bit.
  destruct (Z.ltb_spec i 64); [apply land1_testbit; lia|].
  destruct (Z.ltb_spec i 128); [apply land1_testbit; lia|].
  destruct (Z.ltb_spec i 192); [apply land1_testbit; lia|].
  destruct (Z.ltb_spec i 256); [apply land1_testbit; lia|].
  symmetry. apply u64_testbit_high; [apply H|lia].
Qed.

(** Bitwise operations *)
Lemma u64_bits_op f g a b : (forall i, 0 <= i -> Z.testbit (f a b) i = g (Z.testbit a i) (Z.testbit b i)) ->
  g false false = false -> 0 <= f a b -> u64 a -> u64 b -> u64 (f a b).
Proof.
  intros Hf Hg Hpos Ha Hb. unfold u64. split; [assumption|].
  destruct (Z.eq_dec (f a b) 0) as [->|N]; [reflexivity|].
  change B with (2 ^ 64). apply Z.log2_lt_pow2; [lia|].
  destruct (Z_lt_ge_dec (Z.log2 (f a b)) 64); [assumption|]. exfalso.
  pose proof (Z.bit_log2 (f a b) ltac:(lia)) as H. rewrite Hf, !u64_testbit_high, Hg in H by (assumption || lia).
  discriminate.
Qed.

Lemma map2_spec f g x y : (forall a b i, 0 <= i -> Z.testbit (f a b) i = g (Z.testbit a i) (Z.testbit b i)) ->
  (forall a b, 0 <= a -> 0 <= b -> 0 <= f a b) -> g false false = false ->
  wf x -> wf y -> wf (map2 f x y) /\ val (map2 f x y) = f (val x) (val y).
Proof.
  intros Hf Hpos Hg Hx Hy.
  assert (HW : wf (map2 f x y)).
  { destruct Hx as (H0 & H1 & H2 & H3), Hy as (G0 & G1 & G2 & G3).
    apply mk_wf; apply (u64_bits_op f g); auto; apply Hpos; (apply H0 || apply H1 || apply H2 || apply H3 || apply G0 || apply G1 || apply G2 || apply G3). }
  split; [assumption|]. apply Z.bits_inj'. intros i Hi.
  rewrite Hf, !testbit_val by assumption. cbn [map2 l0 l1 l2 l3].
  repeat (match goal with |- context [if ?c then _ else _] => destruct c eqn:? end);
    apply Hf; lia.
Qed.

Lemma u_not_spec x : wf x -> wf (u_not x) /\ val (u_not x) = W - 1 - val x.
Proof.
  intros (H0 & H1 & H2 & H3). split; [apply mk_wf; uB; lia|].
  rewrite !val_B, W_B. cbn [u_not l0 l1 l2 l3]. ring.
Qed.

(** Leading and trailing zeros *)
Lemma clz64_log x : 0 < x -> clz64 x = 63 - Z.log2 x.
Proof. intros. unfold clz64. destruct (Z.eqb_spec x 0); [lia|]. reflexivity. Qed.

Lemma log2_limb a rest : u64 a -> 0 < rest -> Z.log2 (a + B * rest) = 64 + Z.log2 rest.
Proof.
  intros Ha Hr. apply Z.log2_unique; [pose proof (Z.log2_nonneg rest); lia|].
  destruct (Z.log2_spec rest Hr) as [L1 L2]. pose proof (Z.log2_nonneg rest).
  rewrite <- Z.add_succ_r, !Z.pow_add_r by lia. change (2 ^ 64) with B. uB. nia.
Qed.

Lemma u_leading_zeros_spec x : wf x ->
  u_leading_zeros x = if val x =? 0 then 256 else 255 - Z.log2 (val x).
Proof.
  intros (H0 & H1 & H2 & H3). unfold u_leading_zeros.
  assert (V : val x = l0 x + B * (l1 x + B * (l2 x + B * l3 x))) by (rewrite val_B; ring). rewrite V.
  destruct (Z.ltb_spec 0 (l3 x)) as [P3|P3].
  { destruct (Z.eqb_spec (l0 x + B * (l1 x + B * (l2 x + B * l3 x))) 0); [uB; lia|].
    rewrite !log2_limb, clz64_log by (assumption || uB; lia). lia. }
  replace (l3 x) with 0 by (uB; lia). rewrite Z.mul_0_r, Z.add_0_r.
  destruct (Z.ltb_spec 0 (l2 x)) as [P2|P2].
  { destruct (Z.eqb_spec (l0 x + B * (l1 x + B * l2 x)) 0); [uB; lia|].
    rewrite !log2_limb, clz64_log by (assumption || uB; lia). lia. }
  replace (l2 x) with 0 by (uB; lia). rewrite Z.mul_0_r, Z.add_0_r.
  destruct (Z.ltb_spec 0 (l1 x)) as [P1|P1].
  { destruct (Z.eqb_spec (l0 x + B * l1 x) 0); [uB; lia|].
    rewrite !log2_limb, clz64_log by (assumption || uB; lia). lia. }
  replace (l1 x) with 0 by (uB; lia). rewrite Z.mul_0_r, Z.add_0_r.
  destruct (Z.ltb_spec 0 (l0 x)) as [P0|P0].
  { destruct (Z.eqb_spec (l0 x) 0); [lia|]. rewrite clz64_log by lia. lia. }
  destruct (Z.eqb_spec (l0 x) 0); [reflexivity|]. uB; lia.
Qed.

Lemma ctz_pos_spec p : 0 <= ctz_pos p /\ exists o, Zpos p = (2 * o + 1) * 2 ^ ctz_pos p /\ 0 <= o.
Proof.
  induction p as [p IH|p IH|]; cbn [ctz_pos].
  - split; [lia|]. exists (Zpos p). change (2 ^ 0) with 1. lia.
  - destruct IH as [I1 (o & I2 & I3)]. split; [lia|]. exists o. rewrite Z.pow_add_r by lia.
    change (2 ^ 1) with 2. lia.
  - split; [lia|]. exists 0. change (2 ^ 0) with 1. lia.
Qed.
Lemma ctz64_spec x : 0 < x -> 0 <= ctz64 x /\ exists o, x = (2 * o + 1) * 2 ^ ctz64 x.
Proof.
  intros H. destruct x as [|p|p]; try lia. destruct (ctz_pos_spec p) as [I1 (o & I2 & _)].
  split; [exact I1|]. exists o. exact I2.
Qed.
Lemma ctz64_lt x : 0 < x < B -> ctz64 x < 64.
Proof.
  intros H. destruct x as [|p|p]; try lia. destruct (ctz_pos_spec p) as [I1 (o & I2 & I3)].
  cbn [ctz64]. destruct (Z_lt_ge_dec (ctz_pos p) 64); [assumption|]. exfalso.
  assert (2 ^ 64 <= 2 ^ ctz_pos p) by (apply Z.pow_le_mono_r; lia). change (2 ^ 64) with B in *. nia.
Qed.

Lemma odd_limb k o c : 0 <= k < 64 -> (2 * o + 1) * 2 ^ k + B * c = (2 * (o + 2 ^ (63 - k) * c) + 1) * 2 ^ k.
Proof.
  intros Hk. assert (E : B = 2 * 2 ^ (63 - k) * 2 ^ k).
  { change B with (2 ^ 64). rewrite <- Z.mul_assoc, <- Z.pow_add_r, <- Z.pow_succ_r by lia. f_equal. lia. }
  rewrite E. ring.
Qed.

Lemma u_trailing_zeros_spec x : wf x ->
  (val x = 0 -> u_trailing_zeros x = 256) /\
  (val x <> 0 -> 0 <= u_trailing_zeros x < 256 /\ exists o, val x = (2 * o + 1) * 2 ^ u_trailing_zeros x).
Proof.
  intros (H0 & H1 & H2 & H3). unfold u_trailing_zeros.
  assert (V : val x = l0 x + B * (l1 x + B * (l2 x + B * l3 x))) by (rewrite val_B; ring). rewrite V.
  destruct (Z.ltb_spec 0 (l0 x)) as [P|P].
  { split; [uB; lia|]. intros _. destruct (ctz64_spec _ P) as (C1 & o & C2). pose proof (ctz64_lt (l0 x) ltac:(uB; lia)).
    split; [lia|]. eexists. rewrite C2 at 1. apply odd_limb. lia. }
  replace (l0 x) with 0 by (uB; lia). rewrite Z.add_0_l.
  destruct (Z.ltb_spec 0 (l1 x)) as [P1|P1].
  { split; [uB; lia|]. intros _. destruct (ctz64_spec _ P1) as (C1 & o & C2). pose proof (ctz64_lt (l1 x) ltac:(uB; lia)).
    split; [lia|]. eexists. rewrite C2 at 1. rewrite odd_limb by lia. rewrite Z.pow_add_r by lia. change (2 ^ 64) with B. 
    rewrite (Z.mul_comm B), <- Z.mul_assoc. f_equal. apply Z.mul_comm. }
  replace (l1 x) with 0 by (uB; lia). rewrite Z.add_0_l.
  destruct (Z.ltb_spec 0 (l2 x)) as [P2|P2].
  { split; [uB; lia|]. intros _. destruct (ctz64_spec _ P2) as (C1 & o & C2). pose proof (ctz64_lt (l2 x) ltac:(uB; lia)).
    split; [lia|]. eexists. rewrite C2 at 1. rewrite odd_limb by lia. rewrite Z.pow_add_r by lia. change (2 ^ 128) with (B * B).
    rewrite (Z.mul_comm B), (Z.mul_comm B), <- !Z.mul_assoc. f_equal. ring. }
  replace (l2 x) with 0 by (uB; lia). rewrite Z.add_0_l.
  destruct (Z.ltb_spec 0 (l3 x)) as [P3|P3].
  { split; [uB; lia|]. intros _. destruct (ctz64_spec _ P3) as (C1 & o & C2). pose proof (ctz64_lt (l3 x) ltac:(uB; lia)).
    split; [lia|]. exists o. rewrite C2 at 1. rewrite Z.pow_add_r by lia. change (2 ^ 192) with (B * B * B). ring. }
  replace (l3 x) with 0 by (uB; lia). split; [reflexivity|]. intros H. exfalso. apply H. ring.
Qed.


Lemma filter_map_S (f : nat -> bool) n s : filter f (seq (S s) n) = map S (filter (fun i => f (S i)) (seq s n)).
Proof.
  revert s. induction n; intros s; [reflexivity|]. cbn [seq filter]. rewrite IHn. destruct (f (S s)); reflexivity.
Qed.

Lemma bits_set_step n x : bits_set (S n) x = (if Z.odd x then 1 else 0) + bits_set n (x / 2).
Proof.
  unfold bits_set. cbn [seq filter]. rewrite filter_map_S.
  assert (E : filter (fun i => Z.testbit x (Z.of_nat (S i))) (seq 0 n) = filter (fun i => Z.testbit (x / 2) (Z.of_nat i)) (seq 0 n)).
  { apply filter_ext. intros i. rewrite Nat2Z.inj_succ. pose proof (Z.div2_bits x (Z.of_nat i) ltac:(lia)) as D. symmetry. exact D. }
  rewrite E. change (Z.of_nat 0) with 0. rewrite Z.bit0_odd.
  destruct (Z.odd x); cbn [length]; rewrite map_length; lia.
Qed.

Lemma popcount_bits n : forall p, Zpos p < 2 ^ Z.of_nat n -> popcount_pos p = bits_set n (Zpos p).
Proof.
  induction n; intros p H.
  - change (2 ^ Z.of_nat 0) with 1 in H. lia.
  - rewrite bits_set_step. rewrite Nat2Z.inj_succ, Z.pow_succ_r in H by lia. destruct p as [p|p|].
    + replace (Z.odd (Z.pos p~1)) with true by reflexivity.
      replace (Z.pos p~1 / 2) with (Z.pos p) by (apply Z.div_unique with (r := 1); lia).
      rewrite <- IHn by lia. reflexivity.
    + replace (Z.odd (Z.pos p~0)) with false by reflexivity.
      replace (Z.pos p~0 / 2) with (Z.pos p) by (apply Z.div_unique with (r := 0); lia).
      rewrite <- IHn by lia. reflexivity.
    + replace (1 / 2) with 0 by reflexivity. cbn [Z.odd popcount_pos].
      assert (bits_set n 0 = 0) as ->; [|lia]. unfold bits_set.
      assert (Hf : forall s, filter (fun i => Z.testbit 0 (Z.of_nat i)) (seq s n) = []).
      { clear. induction n; intros s; [reflexivity|]. cbn [seq filter]. rewrite Z.bits_0. apply IHn. }
      rewrite Hf. reflexivity.
Qed.
Lemma popcount64_bits x : u64 x -> popcount64 x = bits_set 64 x.
Proof.
  intros [H1 H2]. destruct x as [|p|p]; [reflexivity| |lia]. apply popcount_bits. exact H2.
Qed.

Lemma bits_set_app a rest n m : (forall i, (i < m)%nat -> Z.testbit rest (Z.of_nat i) = Z.testbit a (Z.of_nat (n + i))) ->
  bits_set (n + m) a = bits_set n a + bits_set m rest.
Proof.
  intros H. unfold bits_set. rewrite seq_app, filter_app, app_length, Nat2Z.inj_add. f_equal. cbn [Nat.add].
  f_equal.
  assert (G : forall k s, (forall i, (i < s + k)%nat -> Z.testbit rest (Z.of_nat i) = Z.testbit a (Z.of_nat (n + i))) ->
    length (filter (fun i => Z.testbit a (Z.of_nat i)) (seq (n + s) k)) = length (filter (fun i => Z.testbit rest (Z.of_nat i)) (seq s k))).
  { induction k; intros s Hs; [reflexivity|]. cbn [seq filter]. rewrite <- Hs by lia.
    replace (S (n + s)) with (n + S s)%nat by lia.
    destruct (Z.testbit rest (Z.of_nat s)); cbn [length]; rewrite IHk by (intros; apply Hs; lia); reflexivity. }
  rewrite <- (Nat.add_0_r n) at 1. apply G. intros i Hi. apply H. lia.
Qed.

Lemma u_count_ones_spec x : wf x -> u_count_ones x = bits_set 256 (val x).
Proof.
  intros H. pose proof H as (H0 & H1 & H2 & H3). unfold u_count_ones. rewrite !popcount64_bits by assumption.
  assert (V : val x = l0 x + B * (l1 x + B * (l2 x + B * l3 x))) by (rewrite val_B; ring). rewrite V.
  assert (step : forall a rest m, u64 a -> bits_set (64 + m) (a + B * rest) = bits_set 64 a + bits_set m rest).
  { intros a rest m Ha. rewrite (bits_set_app (a + B * rest) rest 64 m).
    - f_equal. unfold bits_set. f_equal. f_equal. apply filter_ext_in. intros i Hi. apply in_seq in Hi.
      rewrite testbit_limb by (assumption || lia). destruct (Z.ltb_spec (Z.of_nat i) 64); [reflexivity|lia].
    - intros i Hi. rewrite testbit_limb by (assumption || lia).
      destruct (Z.ltb_spec (Z.of_nat (64 + i)) 64); [lia|]. f_equal. lia. }
  change 256%nat with (64 + (64 + (64 + 64)))%nat. rewrite !step by assumption. lia.
Qed.
