Require Import ZArith Lia Bool List Zpow_facts.
From Verif Require Import Word U256Model U256Spec U256Proofs KnuthModel KnuthProofs BinaryModel BinaryProofs EncodingSpec EncodingModel.
Import ListNotations.
Open Scope Z_scope.


Lemma num_acc base l : forall acc, fold_left (fun acc d => acc * base + d) l acc = acc * base ^ Z.of_nat (length l) + num base l.
Proof.
  unfold num. induction l as [|d l IH]; intros acc.
  - cbn [fold_left length]. change (Z.of_nat 0) with 0. rewrite Z.pow_0_r. ring.
  - cbn [fold_left length]. rewrite IH, (IH (0 * base + d)), Nat2Z.inj_succ, Z.pow_succ_r by lia. ring.
Qed.
Lemma num_cons base d l : num base (d :: l) = d * base ^ Z.of_nat (length l) + num base l.
Proof. unfold num at 1. cbn [fold_left]. rewrite num_acc. ring. Qed.
Lemma num_app base a b : num base (a ++ b) = num base a * base ^ Z.of_nat (length b) + num base b.
Proof. unfold num at 1. rewrite fold_left_app, num_acc. reflexivity. Qed.
Lemma num_snoc base a d : num base (a ++ [d]) = num base a * base + d.
Proof. unfold num. rewrite fold_left_app. reflexivity. Qed.
Lemma num_range base l : 1 < base -> Forall (digit base) l -> 0 <= num base l < base ^ Z.of_nat (length l).
Proof.
  intros Hb H. induction H as [|d l Hd Hl IH]; [cbn; lia|].
  rewrite num_cons. cbn [length]. rewrite Nat2Z.inj_succ, Z.pow_succ_r by lia.
  unfold digit in Hd. assert (d * base ^ Z.of_nat (length l) <= (base - 1) * base ^ Z.of_nat (length l)) by (apply Z.mul_le_mono_nonneg_r; lia).
  assert (0 <= d * base ^ Z.of_nat (length l)) by (apply Z.mul_nonneg_nonneg; lia). lia.
Qed.
Lemma num_inj base a : forall b, 1 < base -> Forall (digit base) a -> Forall (digit base) b ->
  length a = length b -> num base a = num base b -> a = b.
Proof.
  induction a as [|x a IH]; intros [|y b] Hb Ha Hb' L E; try discriminate; [reflexivity|].
  inversion Ha; inversion Hb'; subst. injection L as L. rewrite !num_cons, L in E.
  pose proof (num_range base a Hb H2). pose proof (num_range base b Hb H6). rewrite L in H.
  assert (x = y) by nia. subst y. f_equal. apply IH; auto. lia.
Qed.

(** ** Bytes *)
Lemma from_bytes_be_spec n : length n = 32%nat -> Forall (digit 256) n ->
  wf (from_bytes_be n) /\ val (from_bytes_be n) = num 256 n.
Proof.
  intros L H.
  assert (S1 : n = firstn 8 n ++ firstn 8 (skipn 8 n) ++ firstn 8 (skipn 16 n) ++ firstn 8 (skipn 24 n)).
  { do 32 (destruct n as [|? n]; [discriminate|]). destruct n; [reflexivity|discriminate]. }
  assert (Hw : forall k, (k <= 24)%nat -> length (firstn 8 (skipn k n)) = 8%nat /\ u64 (num 256 (firstn 8 (skipn k n)))).
  { intros k Hk. assert (L8 : length (firstn 8 (skipn k n)) = 8%nat) by (rewrite firstn_length, skipn_length; lia).
    split; [assumption|].
    pose proof (num_range 256 (firstn 8 (skipn k n)) ltac:(lia)) as R. rewrite L8 in R.
    change (256 ^ Z.of_nat 8) with B in R. apply R. apply Forall_forall. intros x Hx.
    rewrite Forall_forall in H. apply H. 
    rewrite <- (firstn_skipn k n). apply in_or_app. right.
    rewrite <- (firstn_skipn 8 (skipn k n)). apply in_or_app. left. exact Hx. }
  destruct (Hw 0%nat) as [L0 U0]; [lia|]. destruct (Hw 8%nat) as [L1 U1]; [lia|].
  destruct (Hw 16%nat) as [L2 U2]; [lia|]. destruct (Hw 24%nat) as [L3 U3]; [lia|].
  change (skipn 0 n) with n in *.
  split; [apply mk_wf; assumption|].
  rewrite S1 at 2. rewrite !num_app, !app_length, L1, L2, L3.
  change (256 ^ Z.of_nat (8 + (8 + 8))) with (B * B * B). change (256 ^ Z.of_nat (8 + 8)) with (B * B). change (256 ^ Z.of_nat 8) with B.
  rewrite val_B. cbn [from_bytes_be l0 l1 l2 l3].
  change (u64_from_be (firstn 8 n)) with (num 256 (firstn 8 n)).
  change (u64_from_be (firstn 8 (skipn 8 n))) with (num 256 (firstn 8 (skipn 8 n))).
  change (u64_from_be (firstn 8 (skipn 16 n))) with (num 256 (firstn 8 (skipn 16 n))).
  change (u64_from_be (firstn 8 (skipn 24 n))) with (num 256 (firstn 8 (skipn 24 n))). ring.
Qed.

Lemma low_byte x : wf x -> l0 x mod 256 = val x mod 256.
Proof.
  intros H. replace (val x) with (l0 x + (2 ^ 56 * (l1 x + B * (l2 x + B * l3 x))) * 256) by (rewrite val_B; uB; ring).
  rewrite Z_mod_plus_full. reflexivity.
Qed.
Lemma to_bytes_loop_spec k : forall n acc, wf n ->
  exists d, to_bytes_loop k n acc = d ++ acc /\ length d = k /\ Forall (digit 256) d /\ num 256 d = val n mod 256 ^ Z.of_nat k.
Proof.
  induction k; intros n acc Hn.
  - exists []. cbn [to_bytes_loop app length]. split; [reflexivity|]. split; [reflexivity|]. split; [constructor|].
    change (256 ^ Z.of_nat 0) with 1. rewrite Z.mod_1_r. reflexivity.
  - cbn [to_bytes_loop]. destruct (u_shr_spec n 8 Hn ltac:(lia)) as [W1 V1].
    destruct (IHk (u_shr n 8) (l0 n mod 256 :: acc) W1) as (d & E & L & F & N).
    exists (d ++ [l0 n mod 256]). rewrite E, <- app_assoc. split; [reflexivity|].
    split; [rewrite app_length, L; cbn; lia|].
    assert (R : digit 256 (l0 n mod 256)) by (apply Z.mod_pos_bound; lia).
    split; [apply Forall_app; split; auto|].
    rewrite num_snoc, N, V1, low_byte by assumption. change (2 ^ 8) with 256.
    rewrite Nat2Z.inj_succ, Z.pow_succ_r by lia.
    assert (0 < 256 ^ Z.of_nat k) by (apply Z.pow_pos_nonneg; lia).
    rewrite Z.rem_mul_r by lia. ring.
Qed.
Lemma to_bytes_be_spec x : wf x ->
  length (to_bytes_be x) = 32%nat /\ Forall (digit 256) (to_bytes_be x) /\ num 256 (to_bytes_be x) = val x.
Proof.
  intros H. unfold to_bytes_be. destruct (to_bytes_loop_spec 32 x [] H) as (d & E & L & F & N).
  rewrite E, app_nil_r. split; [assumption|]. split; [assumption|]. rewrite N. apply Z.mod_small. exact (val_range x H).
Qed.
Lemma from_to_bytes x : wf x -> from_bytes_be (to_bytes_be x) = x.
Proof.
  intros H. destruct (to_bytes_be_spec x H) as (L & F & N). destruct (from_bytes_be_spec _ L F) as [W1 V1].
  apply val_inj; auto. congruence.
Qed.
Lemma to_from_bytes n : length n = 32%nat -> Forall (digit 256) n -> to_bytes_be (from_bytes_be n) = n.
Proof.
  intros L F. destruct (from_bytes_be_spec _ L F) as [W1 V1]. destruct (to_bytes_be_spec _ W1) as (L' & F' & N').
  apply (num_inj 256); auto; try lia.
Qed.

(** ** Decimal *)
Lemma from_uint_spec n : u64 n -> wf (from_uint n) /\ val (from_uint n) = n.
Proof.
  intros H. unfold from_uint, w64. rewrite Z.mod_small by exact H. split; [apply mk_wf; auto using u64_0|].
  rewrite val_B. cbn [l0 l1 l2 l3]. ring.
Qed.
Definition M10 : Z := 0x199999999999999999999999999999999999999999999999999999999999999a.
Lemma max10_spec : wf max10 /\ val max10 = M10 /\ 10 * M10 = W + 4.
Proof. split; [apply mk_wf; uB; lia|]. split; reflexivity. Qed.

Lemma decimal_step result s d : wf result -> digit 10 d ->
  from_decimal_loop result (48 + d :: s) =
    if M10 <? val result then Some POverflow
    else if (val result <? M10) && (W <=? 10 * val result + d) then Some POverflow
    else from_decimal_loop (u_add (u_mul result (from_uint 10)) (from_uint d)) s.
Proof.
  intros Hr Hd. destruct max10_spec as (Wm & Vm & E10). unfold digit in Hd.
  cbn [from_decimal_loop]. rewrite u_gtb_spec, Vm by assumption.
  destruct (Z.ltb_spec M10 (val result)); [reflexivity|].
  replace (128 <=? 48 + d) with false by (symmetry; apply Z.leb_gt; lia).
  replace ((48 <=? 48 + d) && (48 + d <=? 57)) with true by (symmetry; apply andb_true_intro; split; apply Z.leb_le; lia).
  replace (48 + d - 48) with d by lia.
  destruct (from_uint_spec 10) as [W10 V10]; [uB; lia|]. destruct (from_uint_spec d) as [Wd Vd]; [uB; lia|].
  destruct (u_mul_spec result (from_uint 10) Hr W10) as [Wm' Vm']. rewrite V10 in Vm'.
  destruct (u_add_spec _ (from_uint d) Wm' Wd) as [Wa Va]. rewrite Vd in Va.
  rewrite u_ltb_spec by assumption. rewrite Va.
  pose proof (val_range result Hr) as RR. assert (100 < W) by reflexivity.
  destruct (Z.ltb_spec (val result) M10) as [Hlt|Hge].
  - replace (val result * 10) with (10 * val result) in * by ring.
    rewrite Z.mod_small in Vm' by lia. rewrite Vm'. cbn [andb].
    destruct (Z.leb_spec W (10 * val result + d)) as [Ho|Ho].
    + replace ((10 * val result + d) mod W) with (10 * val result + d - W) by (apply mod_eq with (q := 1); lia).
      replace (10 * val result + d - W <? 10 * val result) with true by (symmetry; apply Z.ltb_lt; lia). reflexivity.
    + rewrite Z.mod_small by lia.
      replace (10 * val result + d <? 10 * val result) with false by (symmetry; apply Z.ltb_ge; lia). reflexivity.
  - assert (EM : val result = M10) by lia. cbn [andb].
    replace (val result * 10) with (10 * val result) in * by ring. rewrite EM, E10 in *.
    assert (E4 : (W + 4) mod W = 4) by reflexivity. rewrite E4 in Vm'. rewrite Vm'.
    rewrite Z.mod_small by (change W with (2 ^ 256); lia).
    replace (4 + d <? 4) with false by (symmetry; apply Z.ltb_ge; lia). reflexivity.
Qed.

Lemma decimal_next result d : wf result -> digit 10 d ->
  wf (u_add (u_mul result (from_uint 10)) (from_uint d)) /\
  val (u_add (u_mul result (from_uint 10)) (from_uint d)) = (10 * val result + d) mod W.
Proof.
  intros Hr Hd. unfold digit in Hd. destruct (from_uint_spec 10) as [W10 V10]; [uB; lia|].
  destruct (from_uint_spec d) as [Wd Vd]; [uB; lia|].
  destruct (u_mul_spec result (from_uint 10) Hr W10) as [Wm' Vm'].
  destruct (u_add_spec _ (from_uint d) Wm' Wd) as [Wa Va]. split; [assumption|].
  rewrite Va, Vm', Vd, V10, Zplus_mod_idemp_l. f_equal. ring.
Qed.


(** Consuming a prefix of digits that stays below 2^256. *)
Lemma decimal_prefix ds : forall acc result rest, wf result -> Forall (digit 10) ds -> val result = acc ->
  acc * 10 ^ Z.of_nat (length ds) + num 10 ds < W ->
  exists r, from_decimal_loop result (text ds ++ rest) = from_decimal_loop r rest /\ wf r /\
    val r = acc * 10 ^ Z.of_nat (length ds) + num 10 ds.
Proof.
  induction ds as [|d ds IH]; intros acc result rest Hr Hd V L.
  - exists result. split; [reflexivity|]. split; [assumption|]. cbn. lia.
  - inversion Hd as [|? ? Hd1 Hd2]; subst. pose proof (val_range result Hr).
    rewrite num_cons in *. cbn [length] in *. rewrite Nat2Z.inj_succ, Z.pow_succ_r in * by lia.
    set (P := 10 ^ Z.of_nat (length ds)) in *. assert (0 < P) by (apply Z.pow_pos_nonneg; lia).
    pose proof (num_range 10 ds ltac:(lia) Hd2) as RN. unfold digit in Hd1.
    assert (Hsum : val result * (10 * P) + (d * P + num 10 ds) = (10 * val result + d) * P + num 10 ds) by ring.
    assert (Hlt : 10 * val result + d < W) by nia.
    destruct max10_spec as (_ & _ & E10).
    cbn [text map app]. rewrite decimal_step by assumption.
    replace (M10 <? val result) with false by (symmetry; apply Z.ltb_ge; lia).
    replace (W <=? 10 * val result + d) with false by (symmetry; apply Z.leb_gt; lia). rewrite andb_false_r.
    destruct (decimal_next result d Hr Hd1) as [Wn Vn]. rewrite Z.mod_small in Vn by lia.
    destruct (IH (10 * val result + d) _ rest Wn Hd2 Vn) as (r & E & Wr & Vr); [fold P; lia|].
    exists r. split; [exact E|]. split; [assumption|]. rewrite Vr. fold P. lia.
Qed.

(** First overflowing prefix. *)
Lemma first_overflow ds : Forall (digit 10) ds -> W <= num 10 ds ->
  exists p d rest, ds = p ++ d :: rest /\ num 10 p < W /\ W <= num 10 (p ++ [d]).
Proof.
  induction ds as [|x ds IH] using rev_ind; intros H O.
  - change (num 10 []) with 0 in O. change W with (2 ^ 256) in O. lia.
  - apply Forall_app in H as [H1 H2]. destruct (Z_lt_ge_dec (num 10 ds) W).
    + exists ds, x, []. auto.
    + destruct (IH H1 ltac:(lia)) as (p & d & rest & E & A & C). exists p, d, (rest ++ [x]).
      rewrite E, <- app_assoc. auto.
Qed.

Lemma decimal_overflow ds : Forall (digit 10) ds -> W <= num 10 ds ->
  (forall p q, ds = p ++ q -> ~ (W + 4 <= num 10 p <= W + 13)) ->
  from_decimal_loop ZERO (text ds) = Some POverflow.
Proof.
  intros H O Hno. destruct (first_overflow ds H O) as (p & d & rest & E & A & C).
  subst ds. apply Forall_app in H as [H1 H2]. inversion H2 as [|? ? Hd Hr]; subst.
  unfold text. rewrite map_app. cbn [map]. fold (text p) (text rest).
  destruct (decimal_prefix p 0 ZERO (48 + d :: text rest) wf_ZERO H1 val_ZERO) as (r & Er & Wr & Vr).
  { rewrite Z.mul_0_l. lia. }
  rewrite Er, decimal_step by assumption. rewrite Z.mul_0_l, Z.add_0_l in Vr.
  rewrite num_snoc in C. specialize (Hno (p ++ [d]) rest). rewrite <- app_assoc, num_snoc in Hno. specialize (Hno eq_refl).
  destruct max10_spec as (_ & _ & E10). unfold digit in Hd. rewrite Vr.
  destruct (Z.ltb_spec M10 (num 10 p)); [reflexivity|].
  destruct (Z.ltb_spec (num 10 p) M10); cbn [andb].
  - replace (W <=? 10 * num 10 p + d) with true by (symmetry; apply Z.leb_le; lia). reflexivity.
  - exfalso. apply Hno. lia.
Qed.

(** Printing *)
Lemma small_divisor dbg x : wf x -> exists q r, u_div dbg x (from_uint 10) = Some q /\ u_rem dbg x (from_uint 10) = Some r /\
  wf q /\ val q = val x / 10 /\ l0 r = val x mod 10 /\ val r = val x mod 10.
Proof.
  intros Hx. destruct (from_uint_spec 10) as [W10 V10]; [uB; lia|].
  destruct (u_div_rem_spec dbg x (from_uint 10) Hx W10) as (q & r & E & Hq & Hr & V & L).
  { rewrite V10; lia. }
  { rewrite V10. apply no_clash_small. lia. }
  exists q, r. unfold u_div, u_rem. rewrite E. cbn [bind]. rewrite V10 in *. pose proof (val_range r Hr) as RR.
  split; [reflexivity|]. split; [reflexivity|]. split; [assumption|].
  split; [apply Z.div_unique with (r := val r); lia|].
  assert (EM : val r = val x mod 10) by (apply Z.mod_unique with (q := val q); lia).
  split; [|assumption]. rewrite <- EM.
  destruct Hr as (R0 & R1 & R2 & R3). rewrite val_B in L |- *. uB. lia.
Qed.

Lemma to_decimal_loop_spec dbg fuel : forall x, wf x -> val x < 10 ^ Z.of_nat fuel ->
  exists ds, to_decimal_loop fuel dbg x = Some (text ds) /\ Forall (digit 10) ds /\ num 10 (rev ds) = val x /\
    (0 < val x -> exists t, rev ds = t /\ hd 0 t <> 0).
Proof.
  induction fuel; intros x Hx L; pose proof (val_range x Hx) as RX.
  - change (10 ^ Z.of_nat 0) with 1 in L. exists []. cbn [to_decimal_loop].
    rewrite u_gtb_spec, val_ZERO by auto using wf_ZERO.
    replace (0 <? val x) with false by (symmetry; apply Z.ltb_ge; lia).
    split; [reflexivity|]. split; [constructor|]. split; [cbn; lia|]. lia.
  - cbn [to_decimal_loop]. rewrite u_gtb_spec, val_ZERO by auto using wf_ZERO.
    destruct (Z.ltb_spec 0 (val x)) as [P|P].
    + destruct (small_divisor dbg x Hx) as (q & r & E1 & E2 & Wq & Vq & L0 & _).
      rewrite E1, E2. cbn [bind]. rewrite Nat2Z.inj_succ, Z.pow_succ_r in L by lia.
      destruct (IHfuel q Wq) as (ds & E & F & N & HD). { rewrite Vq. apply Z.div_lt_upper_bound; lia. }
      rewrite E. cbn [bind]. rewrite L0. exists (val x mod 10 :: ds). split; [reflexivity|].
      pose proof (Z.mod_pos_bound (val x) 10 ltac:(lia)) as MB.
      split; [constructor; [exact MB|assumption]|].
      cbn [rev]. rewrite num_snoc, N, Vq. pose proof (Z.div_mod (val x) 10 ltac:(lia)) as DM.
      split; [lia|]. intros _. eexists. split; [reflexivity|].
      destruct (Z_lt_ge_dec 0 (val q)) as [Pq|Pq].
      * destruct (HD Pq) as (t & Et & Ht). rewrite Et. destruct t; [cbn in Ht; lia|exact Ht].
      * pose proof (val_range q Wq). assert (val q = 0) by lia.
        rewrite Vq in *. assert (ds = []) as ->.
        { destruct fuel; cbn [to_decimal_loop] in E; rewrite u_gtb_spec, val_ZERO in E by auto using wf_ZERO;
            rewrite Vq in E; replace (0 <? val x / 10) with false in E by (symmetry; apply Z.ltb_ge; lia);
            injection E as E; destruct ds; [reflexivity|discriminate|reflexivity|discriminate]. }
        cbn. lia.
    + exists []. split; [reflexivity|]. split; [constructor|]. split; [cbn; lia|]. lia.
Qed.

Lemma to_decimal_string_spec dbg x : wf x ->
  exists ds, to_decimal_string dbg x = Some (text ds) /\ Forall (digit 10) ds /\ num 10 ds = val x /\
    ds <> [] /\ (hd 0 ds <> 0 \/ ds = [0]).
Proof.
  intros Hx. unfold to_decimal_string. pose proof (val_range x Hx) as RX. destruct (u_eqb x ZERO) eqn:E.
  - apply u_eqb_spec in E. subst x. exists [0]. split; [reflexivity|]. split; [constructor; [unfold digit; lia|constructor]|].
    split; [reflexivity|]. split; [discriminate|]. auto.
  - assert (val x <> 0).
    { intros V. assert (x = ZERO) by (apply val_inj; auto using wf_ZERO). subst. rewrite (proj2 (u_eqb_spec ZERO ZERO) eq_refl) in E. discriminate. }
    destruct (to_decimal_loop_spec dbg 78 x Hx) as (ds & EL & F & N & HD).
    { apply Z.lt_le_trans with W; [lia|]. vm_compute. discriminate. }
    rewrite EL. cbn [bind]. exists (rev ds). split; [f_equal; unfold text; rewrite map_rev; reflexivity|].
    split; [apply Forall_rev; assumption|]. split; [assumption|].
    destruct (HD ltac:(lia)) as (t & Et & Ht). rewrite Et. split; [|auto]. intros ->. apply Ht. reflexivity.
Qed.

(** ** Hexadecimal *)
Lemma hex_digit_char d : digit 16 d -> hex_digit (hex_char d) = Some d.
Proof.
  intros H. unfold digit in H. unfold hex_char, hex_digit. destruct (Z.ltb_spec d 10).
  - replace ((48 <=? 48 + d) && (48 + d <=? 57)) with true by (symmetry; apply andb_true_intro; split; apply Z.leb_le; lia).
    f_equal. lia.
  - replace (87 + d <=? 57) with false by (symmetry; apply Z.leb_gt; lia). rewrite andb_false_r.
    replace ((97 <=? 87 + d) && (87 + d <=? 102)) with true by (symmetry; apply andb_true_intro; split; apply Z.leb_le; lia).
    f_equal. lia.
Qed.
Lemma hex_digit_range c d : hex_digit c = Some d -> digit 16 d.
Proof.
  unfold hex_digit, digit. intros H.
  repeat match type of H with context [if ?b then _ else _] => destruct b eqn:? end; try discriminate;
  injection H as <-; repeat match goal with X : _ && _ = true |- _ => apply andb_prop in X; destruct X end;
  repeat match goal with X : (_ <=? _) = true |- _ => apply Z.leb_le in X end; lia.
Qed.


Lemma hex_value_digit c v : hex_value c v <-> hex_digit c = Some v.
Proof.
  unfold hex_value, hex_digit. split.
  - intros [(H & ->) | [(H & ->) | (H & ->)]].
    + replace ((48 <=? c) && (c <=? 57)) with true by (symmetry; apply andb_true_intro; split; apply Z.leb_le; lia). reflexivity.
    + replace (c <=? 57) with false by (symmetry; apply Z.leb_gt; lia). rewrite andb_false_r.
      replace ((97 <=? c) && (c <=? 102)) with true by (symmetry; apply andb_true_intro; split; apply Z.leb_le; lia).
      f_equal. lia.
    + replace (c <=? 57) with false by (symmetry; apply Z.leb_gt; lia). rewrite andb_false_r.
      replace (97 <=? c) with false by (symmetry; apply Z.leb_gt; lia). cbn [andb].
      replace ((65 <=? c) && (c <=? 70)) with true by (symmetry; apply andb_true_intro; split; apply Z.leb_le; lia).
      f_equal. lia.
  - intros H. repeat match type of H with context [if ?b then _ else _] => destruct b eqn:? end; try discriminate;
    injection H as <-; repeat match goal with X : _ && _ = true |- _ => apply andb_prop in X; destruct X end;
    repeat match goal with X : (_ <=? _) = true |- _ => apply Z.leb_le in X end; lia.
Qed.
Lemma spells_iff s vs : spells s vs <-> Forall2 (fun c v => hex_digit c = Some v) s vs.
Proof.
  unfold spells. split; induction 1; constructor; auto; apply hex_value_digit; assumption.
Qed.

Lemma spells_digits s vs : spells s vs -> Forall (digit 16) vs.
Proof. intros H. apply spells_iff in H. induction H; constructor; eauto using hex_digit_range. Qed.

Fixpoint pairs (vs : list Z) : list Z :=
  match vs with a :: b :: t => 16 * a + b :: pairs t | _ => [] end.

Lemma two_ind (P : list Z -> Prop) : P [] -> (forall a, P [a]) -> (forall a b t, P t -> P (a :: b :: t)) -> forall l, P l.
Proof.
  intros P0 P1 P2. fix F 1. intros [|a [|b t]]; [exact P0|apply P1|apply P2, F].
Qed.

Lemma hex_decode_spells s vs : spells s vs -> hex_decode s = if Nat.even (length s) then Some (pairs vs) else None.
Proof.
  revert vs. induction s using two_ind; intros vs H.
  - inversion H; subst. reflexivity.
  - reflexivity.
  - inversion H as [|? v1 ? t1 A1 H1]; subst. inversion H1 as [|? v2 ? t2 A2 H2]; subst. apply hex_value_digit in A1, A2.
    cbn [hex_decode length Nat.even pairs]. rewrite A1, A2. cbn [bind]. rewrite (IHs t2 H2).
    destruct (Nat.even (length s)); reflexivity.
Qed.
Lemma hex_decode_invalid s c : In c s -> hex_digit c = None -> hex_decode s = None.
Proof.
  induction s using two_ind; intros H N.
  - destruct H.
  - reflexivity.
  - cbn [hex_decode]. destruct (hex_digit a) eqn:Ea; cbn [bind]; [|reflexivity].
    destruct (hex_digit b) eqn:Eb; cbn [bind]; [|reflexivity].
    destruct H as [->|[->|H]]; [congruence|congruence|]. rewrite IHs; auto.
Qed.
Lemma pairs_spec vs : Forall (digit 16) vs -> Nat.even (length vs) = true ->
  num 256 (pairs vs) = num 16 vs /\ Forall (digit 256) (pairs vs) /\ (2 * length (pairs vs) = length vs)%nat.
Proof.
  induction vs using two_ind; intros F E.
  - repeat split; constructor.
  - discriminate.
  - inversion F as [|? ? Fa F1]; subst. inversion F1 as [|? ? Fb F2]; subst. cbn [length Nat.even] in E.
    destruct (IHvs F2 E) as (A & C & D). cbn [pairs length]. unfold digit in Fa, Fb.
    split; [|split; [constructor; [unfold digit; lia|assumption]|lia]].
    rewrite !num_cons, A. cbn [length]. rewrite <- D.
    replace (Z.of_nat (S (2 * length (pairs vs)))) with (2 * Z.of_nat (length (pairs vs)) + 1) by lia.
    replace (Z.of_nat (2 * length (pairs vs))) with (2 * Z.of_nat (length (pairs vs))) by lia.
    rewrite Z.pow_add_r, Z.pow_mul_r by lia. change (16 ^ 2) with 256. change (16 ^ 1) with 16. ring.
Qed.
Lemma pairs_firstn n : forall vs, firstn n (pairs vs) = pairs (firstn (2 * n) vs).
Proof.
  induction n; intros vs; [destruct vs as [|? [|? ?]]; reflexivity|].
  replace (2 * S n)%nat with (S (S (2 * n))) by lia.
  destruct vs as [|a [|b t]]; [reflexivity|reflexivity|]. cbn [pairs firstn]. f_equal. apply IHn.
Qed.

Lemma hex_encode_spells bytes : Forall (digit 256) bytes ->
  exists ds, hex_encode bytes = map hex_char ds /\ Forall (digit 16) ds /\ length ds = (2 * length bytes)%nat /\ num 16 ds = num 256 bytes /\ pairs ds = bytes.
Proof.
  induction 1 as [|b l Hb Hl IH].
  - exists []. repeat split; constructor.
  - destruct IH as (ds & E & F & L & N & P). unfold digit in Hb.
    exists (b / 16 :: b mod 16 :: ds). cbn [hex_encode flat_map]. fold (hex_encode l). rewrite E.
    split; [reflexivity|].
    assert (0 <= b / 16 < 16) by (split; [apply Z.div_pos; lia|apply Z.div_lt_upper_bound; lia]).
    pose proof (Z.mod_pos_bound b 16 ltac:(lia)). pose proof (Z.div_mod b 16 ltac:(lia)) as DM.
    split; [constructor; [assumption|constructor; assumption]|].
    split; [cbn [length]; lia|]. split.
    + rewrite !num_cons, N. cbn [length]. rewrite L.
      replace (Z.of_nat (S (2 * length l))) with (2 * Z.of_nat (length l) + 1) by lia.
      replace (Z.of_nat (2 * length l)) with (2 * Z.of_nat (length l)) by lia.
      rewrite Z.pow_add_r, Z.pow_mul_r by lia. change (16 ^ 2) with 256. change (16 ^ 1) with 16.
      rewrite DM at 3. ring.
    + cbn [pairs]. rewrite <- DM, P. reflexivity.
Qed.
Lemma spells_chars ds : Forall (digit 16) ds -> spells (map hex_char ds) ds.
Proof. intros H. apply spells_iff. induction H; constructor; auto using hex_digit_char. Qed.

Lemma trim_spells s vs : spells s vs -> trim_0x s = s.
Proof.
  intros H. destruct s as [|a [|b s]]; [reflexivity|reflexivity|]. cbn [trim_0x].
  destruct (Z.eqb_spec a 48); cbn [andb]; [|reflexivity]. destruct (Z.eqb_spec b 120); [|reflexivity].
  subst. inversion H as [|? ? ? ? ? H1]; subst. inversion H1 as [|? ? ? ? X]; subst. apply hex_value_digit in X. discriminate.
Qed.
Lemma trim_prefix k s vs : spells s vs -> trim_0x (prefix_0x k s) = s.
Proof. intros H. induction k; [eapply trim_spells; eassumption|]. cbn. exact IHk. Qed.

Lemma spells_app a b va vb : spells a va -> spells b vb -> spells (a ++ b) (va ++ vb).
Proof. apply Forall2_app. Qed.
Lemma spells_zeros n : spells (repeat 48 n) (repeat 0 n).
Proof. induction n; constructor; auto. unfold hex_value. lia. Qed.
Lemma num_zeros base n vs : num base (repeat 0 n ++ vs) = num base vs.
Proof. induction n; [reflexivity|]. cbn [repeat app]. rewrite num_cons, IHn. ring. Qed.
Lemma Forall2_len A C (R : A -> C -> Prop) l l' : Forall2 R l l' -> length l = length l'.
Proof. induction 1; cbn; congruence. Qed.

Lemma from_hex_short k s vs : spells s vs -> (length s <= 64)%nat ->
  exists x, from_hex_str (prefix_0x k s) = Some x /\ wf x /\ val x = num 16 vs.
Proof.
  intros H L. unfold from_hex_str. rewrite (trim_prefix k s vs H).
  pose proof (spells_app _ _ _ _ (spells_zeros (64 - length s)) H) as HS.
  rewrite (hex_decode_spells _ _ HS). rewrite app_length, repeat_length.
  replace (64 - length s + length s)%nat with 64%nat by lia. cbn [Nat.even bind].
  pose proof (Forall2_len _ _ _ _ _ H) as LE.
  destruct (pairs_spec _ (spells_digits _ _ HS)) as (P1 & P2 & P3).
  { rewrite app_length, repeat_length, <- LE. replace (64 - length s + length s)%nat with 64%nat by lia. reflexivity. }
  rewrite app_length, repeat_length, <- LE in P3.
  rewrite firstn_all2 by lia.
  set (bs := pairs _) in *. assert (L32 : length bs = 32%nat) by lia.
  destruct (from_bytes_be_spec _ L32 P2) as [W1 V1]. eexists. split; [reflexivity|].
  split; [assumption|]. rewrite V1, P1. apply num_zeros.
Qed.
Lemma Forall2_firstn A C (R : A -> C -> Prop) n : forall l l', Forall2 R l l' -> Forall2 R (firstn n l) (firstn n l').
Proof. induction n; intros l l' H; [constructor|]. destruct H; cbn; constructor; auto. Qed.
Lemma from_hex_long k s vs : spells s vs -> (64 < length s)%nat ->
  if Nat.even (length s) then exists x, from_hex_str (prefix_0x k s) = Some x /\ wf x /\ val x = num 16 (firstn 64 vs)
  else from_hex_str (prefix_0x k s) = None.
Proof.
  intros H L. unfold from_hex_str. rewrite (trim_prefix k s vs H).
  replace (64 - length s)%nat with O by lia. cbn [repeat app]. rewrite (hex_decode_spells _ _ H).
  destruct (Nat.even (length s)) eqn:E; [|reflexivity]. cbn [bind].
  pose proof (Forall2_len _ _ _ _ _ H) as LE.
  rewrite pairs_firstn. change (2 * 32)%nat with 64%nat.
  assert (F64 : Forall (digit 16) (firstn 64 vs)) by (eapply spells_digits, Forall2_firstn; exact H).
  assert (L64 : length (firstn 64 vs) = 64%nat) by (rewrite firstn_length; lia).
  destruct (pairs_spec _ F64) as (P1 & P2 & P3); [rewrite L64; reflexivity|].
  set (bs := pairs _) in *. assert (L32 : length bs = 32%nat) by lia.
  destruct (from_bytes_be_spec _ L32 P2) as [W1 V1]. eexists. split; [reflexivity|]. split; [assumption|]. congruence.
Qed.
Lemma from_hex_invalid s c : In c (trim_0x s) -> hex_digit c = None -> from_hex_str s = None.
Proof.
  intros H N. unfold from_hex_str. rewrite (hex_decode_invalid _ c); [reflexivity| |assumption].
  apply in_or_app. auto.
Qed.

Lemma to_hex_spec x : wf x -> exists ds, to_hex_string x = prefix_0x 1 (map hex_char ds) /\ Forall (digit 16) ds /\ length ds = 64%nat /\ num 16 ds = val x.
Proof.
  intros H. destruct (to_bytes_be_spec x H) as (L & F & N). destruct (hex_encode_spells _ F) as (ds & E & F' & L' & N' & _).
  exists ds. unfold to_hex_string. rewrite E. rewrite L in L'. repeat split; try assumption. congruence.
Qed.
Lemma hex_fixed_spec k : forall x, 0 <= x < 16 ^ Z.of_nat k ->
  exists ds, hex_fixed k x = map hex_char ds /\ Forall (digit 16) ds /\ length ds = k /\ num 16 ds = x.
Proof.
  induction k; intros x H.
  - exists []. change (16 ^ Z.of_nat 0) with 1 in H. repeat split; try constructor. cbn. lia.
  - rewrite Nat2Z.inj_succ, Z.pow_succ_r in H by lia.
    destruct (IHk (x / 16)) as (ds & E & F & L & N). { split; [apply Z.div_pos; lia|apply Z.div_lt_upper_bound; lia]. }
    pose proof (Z.mod_pos_bound x 16 ltac:(lia)) as MB. pose proof (Z.div_mod x 16 ltac:(lia)).
    exists (ds ++ [x mod 16]). cbn [hex_fixed]. rewrite E, map_app. split; [reflexivity|].
    split; [apply Forall_app; split; auto|]. split; [rewrite app_length; cbn; lia|]. rewrite num_snoc, N. lia.
Qed.
Lemma display_spec x : wf x -> exists ds, display x = map hex_char ds /\ Forall (digit 16) ds /\ length ds = 64%nat /\ num 16 ds = val x.
Proof.
  intros (H0 & H1 & H2 & H3). unfold display.
  destruct (hex_fixed_spec 16 (l0 x) H0) as (d0 & E0 & F0 & L0 & N0).
  destruct (hex_fixed_spec 16 (l1 x) H1) as (d1 & E1 & F1 & L1 & N1).
  destruct (hex_fixed_spec 16 (l2 x) H2) as (d2 & E2 & F2 & L2 & N2).
  destruct (hex_fixed_spec 16 (l3 x) H3) as (d3 & E3 & F3 & L3 & N3).
  exists (d3 ++ d2 ++ d1 ++ d0). rewrite E0, E1, E2, E3, !map_app. split; [reflexivity|].
  split; [repeat (apply Forall_app; split); assumption|].
  rewrite !app_length, !num_app, !app_length, L0, L1, L2, L3, N0, N1, N2, N3. split; [reflexivity|].
  rewrite val_B. change (16 ^ Z.of_nat (16 + (16 + 16))) with (B * B * B). change (16 ^ Z.of_nat (16 + 16)) with (B * B).
  change (16 ^ Z.of_nat 16) with B. ring.
Qed.

(** ** Primitive conversions *)
Lemma from_u128_spec n : u128 n -> wf (from_u128 n) /\ val (from_u128 n) = n.
Proof.
  intros H. unfold from_u128, w64, u128 in *. rewrite Z.shiftr_div_pow2 by lia. change (2 ^ 64) with B.
  assert (0 <= n / B < B).
  { split; [apply Z.div_pos; uB; lia|]. apply Z.div_lt_upper_bound; [uB; lia|]. unfold BB in H. uB. lia. }
  assert (BP : 0 < B) by reflexivity.
  pose proof (Z.mod_pos_bound n B BP). pose proof (Z.div_mod n B ltac:(lia)).
  rewrite (Z.mod_small (n / B)) by assumption.
  split; [apply mk_wf; auto using u64_0|]. rewrite val_B. cbn [l0 l1 l2 l3]. lia.
Qed.
Lemma from_int_spec n : - 2 ^ 63 <= n < 2 ^ 63 -> wf (from_int n) /\ val (from_int n) = n mod W.
Proof.
  intros H. unfold from_int, w64. assert (BP : 0 < B) by reflexivity. pose proof (Z.mod_pos_bound n B BP) as MB.
  assert (u64 (B - 1)) by (uB; lia). pose proof u64_0.
  destruct (Z.leb_spec 0 n).
  - split; [apply mk_wf; assumption|]. rewrite val_B. cbn [l0 l1 l2 l3].
    rewrite Z.mod_small by (uB; lia). rewrite Z.mod_small by (change W with (2 ^ 256); lia). ring.
  - split; [apply mk_wf; assumption|]. rewrite val_B. cbn [l0 l1 l2 l3].
    replace (n mod B) with (n + B) by (apply mod_eq with (q := -1); uB; lia).
    replace (n mod W) with (n + W) by (apply mod_eq with (q := -1); change W with (2 ^ 256); lia). rewrite W_B. ring.
Qed.
Lemma from_i128_spec n : - 2 ^ 127 <= n < 2 ^ 127 -> wf (from_i128 n) /\ val (from_i128 n) = n mod W.
Proof.
  intros H. unfold from_i128, w64. rewrite Z.shiftr_div_pow2 by lia. change (2 ^ 64) with B.
  assert (BP : 0 < B) by reflexivity. pose proof (Z.mod_pos_bound n B BP) as MB.
  pose proof (Z.mod_pos_bound (n / B) B BP) as MB1. pose proof (Z.div_mod n B ltac:(lia)) as DM.
  assert (u64 (B - 1)) by (uB; lia). pose proof u64_0.
  destruct (Z.leb_spec 0 n).
  - assert (0 <= n / B < B).
    { split; [apply Z.div_pos; lia|]. apply Z.div_lt_upper_bound; [lia|]. uB. lia. }
    split; [apply mk_wf; assumption|]. rewrite val_B. cbn [l0 l1 l2 l3].
    rewrite (Z.mod_small (n / B)) by assumption. rewrite (Z.mod_small n W) by (change W with (2 ^ 256); lia). lia.
  - split; [apply mk_wf; assumption|]. rewrite val_B. cbn [l0 l1 l2 l3].
    assert (- B <= n / B < 0).
    { split; [apply Z.div_le_lower_bound; [lia|]; uB; lia|]. apply Z.div_lt_upper_bound; lia. }
    replace ((n / B) mod B) with (n / B + B) by (apply mod_eq with (q := -1); lia).
    replace (n mod W) with (n + W) by (apply mod_eq with (q := -1); change W with (2 ^ 256); lia). rewrite W_B. lia.
Qed.
Lemma as_uint_spec bits x : wf x -> 0 <= bits <= 64 -> as_uint bits x = val x mod 2 ^ bits.
Proof.
  intros H Hb. unfold as_uint.
  assert (E : B = 2 ^ (64 - bits) * 2 ^ bits). { rewrite <- Z.pow_add_r by lia. replace (64 - bits + bits) with 64 by lia. reflexivity. }
  replace (val x) with (l0 x + (2 ^ (64 - bits) * (l1 x + B * (l2 x + B * l3 x))) * 2 ^ bits).
  - rewrite Z_mod_plus_full. reflexivity.
  - rewrite val_B. replace (2 ^ (64 - bits) * (l1 x + B * (l2 x + B * l3 x)) * 2 ^ bits) with ((2 ^ (64 - bits) * 2 ^ bits) * (l1 x + B * (l2 x + B * l3 x))) by ring.
    rewrite <- E. ring.
Qed.
Lemma as_u128_val x : wf x -> as_u128 x = val x mod 2 ^ 128 /\ as_u128 x = l0 x + B * l1 x.
Proof.
  intros (H0 & H1 & H2 & H3). assert (E : as_u128 x = l0 x + B * l1 x).
  { unfold as_u128. rewrite Z.lor_comm. apply (val_2_spec (l0 x) (l1 x)); assumption. }
  split; [|exact E]. rewrite E. apply mod_eq with (q := l2 x + B * l3 x).
  - change (2 ^ 128) with (B * B). uB. lia.
  - rewrite val_B. change (2 ^ 128) with (B * B). ring.
Qed.
Lemma to_signed_spec bits n : 0 < bits -> 0 <= n < 2 ^ bits ->
  - 2 ^ (bits - 1) <= to_signed bits n < 2 ^ (bits - 1) /\ to_signed bits n mod 2 ^ bits = n.
Proof.
  intros Hb H. unfold to_signed. assert (2 ^ bits = 2 * 2 ^ (bits - 1)) by (rewrite <- Z.pow_succ_r by lia; f_equal; lia).
  destruct (Z.ltb_spec n (2 ^ (bits - 1))).
  - split; [lia|]. apply Z.mod_small. lia.
  - split; [lia|]. symmetry. apply mod_eq with (q := -1); lia.
Qed.

(** ** Inverse modulo 2^256 *)
Definition inverse_mod (m c r : Z) : Prop := (c * r) mod m = 1 mod m.

Lemma newton_step k c c' r r' : 0 < k -> c mod 2 ^ (2 * k) = c' mod 2 ^ (2 * k) -> inverse_mod (2 ^ k) c r ->
  r' mod 2 ^ (2 * k) = (r * (2 - c' * r)) mod 2 ^ (2 * k) -> inverse_mod (2 ^ (2 * k)) c r'.
Proof.
  intros Hk Hc H Hr. unfold inverse_mod in *. set (m := 2 ^ k) in *. assert (0 < m) by (apply Z.pow_pos_nonneg; lia).
  assert (E2 : 2 ^ (2 * k) = m * m) by (rewrite Z.mul_comm, Z.pow_mul_r by lia; apply Z.pow_2_r).
  rewrite E2 in *.
  assert (exists t, c * r = 1 + m * t) as (t & Ht).
  { apply (f_equal (fun z => z - 0)) in H. exists ((c * r) / m - 1 / m).
    pose proof (Z.div_mod (c * r) m ltac:(lia)). pose proof (Z.div_mod 1 m ltac:(lia)). lia. }
  rewrite Z.mul_mod, Hr, <- Z.mul_mod by nia.
  assert (exists s, c' = c + m * m * s) as (s & Hs).
  { exists (c' / (m * m) - c / (m * m)). pose proof (Z.div_mod c (m * m) ltac:(nia)). pose proof (Z.div_mod c' (m * m) ltac:(nia)). lia. }
  replace (c * (r * (2 - c' * r))) with (1 + (- (t * t) - s * r * (c * r)) * (m * m)).
  - apply Z_mod_plus_full.
  - rewrite Hs. replace (c * (r * (2 - (c + m * m * s) * r))) with (2 * (c * r) - (c * r) * (c * r) - (c * r) * (m * m * s * r)) by ring.
    rewrite Ht. ring.
Qed.

Lemma mod_mod_pow a k n : 0 <= k <= n -> (a mod 2 ^ n) mod 2 ^ k = a mod 2 ^ k.
Proof.
  intros H. assert (2 ^ n = 2 ^ k * 2 ^ (n - k)) as ->. { rewrite <- Z.pow_add_r by lia. f_equal. lia. }
  assert (0 < 2 ^ k) by (apply Z.pow_pos_nonneg; lia). assert (0 < 2 ^ (n - k)) by (apply Z.pow_pos_nonneg; lia).
  rewrite Z.rem_mul_r, (Z.mul_comm (2 ^ k)), Z_mod_plus_full by lia. apply Z.mod_mod. lia.
Qed.

Lemma newton64_spec k c r : 0 < k -> 2 * k <= 64 -> inverse_mod (2 ^ k) c r -> inverse_mod (2 ^ (2 * k)) c (newton64 c r).
Proof.
  intros H0 H1 H. apply newton_step with (k := k) (c' := c) (r := r); auto.
  unfold newton64, w64. change B with (2 ^ 64).
  rewrite mod_mod_pow by lia. rewrite Z.mul_mod by (apply Z.pow_nonzero; lia).
  rewrite mod_mod_pow by lia. rewrite (Zminus_mod 2), mod_mod_pow, <- Zminus_mod by lia.
  rewrite <- Z.mul_mod by (apply Z.pow_nonzero; lia). reflexivity.
Qed.

Lemma lxor2_mod16 y : Z.lxor y 2 mod 16 = Z.lxor (y mod 16) 2.
Proof.
  change 16 with (2 ^ 4). apply Z.bits_inj'. intros i Hi. rewrite Z.lxor_spec.
  destruct (Z_lt_ge_dec i 4).
  - rewrite !Z.mod_pow2_bits_low by lia. apply Z.lxor_spec.
  - rewrite !Z.mod_pow2_bits_high by lia. replace (Z.testbit 2 i) with false; [reflexivity|].
    symmetry. apply Z.bits_above_log2; [lia|]. change (Z.log2 2) with 1. lia.
Qed.

Lemma newton_init c : Z.odd c = true -> inverse_mod (2 ^ 4) c (Z.lxor (w64 (3 * c)) 2).
Proof.
  intros H. unfold inverse_mod. change (2 ^ 4) with 16. rewrite Z.mul_mod, lxor2_mod16 by lia.
  unfold w64. change B with (2 ^ 64). change 16 with (2 ^ 4) at 2. rewrite mod_mod_pow by lia. change (2 ^ 4) with 16.
  rewrite (Z.mul_mod 3) by lia. pose proof (Z.mod_pos_bound c 16 ltac:(lia)) as MB.
  assert (Ho : Z.odd (c mod 16) = true).
  { rewrite <- H. rewrite (Z.div_mod c 16) at 2 by lia. rewrite Z.odd_add, Z.odd_mul. change (Z.odd 16) with false. cbn [andb]. destruct (Z.odd (c mod 16)); reflexivity. }
  set (d := c mod 16) in *. clearbody d.
  assert (C : d = 0 \/ d = 1 \/ d = 2 \/ d = 3 \/ d = 4 \/ d = 5 \/ d = 6 \/ d = 7 \/ d = 8 \/ d = 9 \/ d = 10 \/ d = 11 \/ d = 12 \/ d = 13 \/ d = 14 \/ d = 15) by lia.
  repeat (destruct C as [-> | C]; [first [discriminate Ho | reflexivity]|]). subst d. reflexivity.
Qed.

Lemma u_inv_spec x : wf x ->
  match u_inv x with
  | Some r => Z.odd (val x) = true /\ wf r /\ (val x * val r) mod W = 1
  | None => Z.odd (val x) = false
  end.
Proof.
  intros Hx. unfold u_inv. rewrite u_bit_spec, Z.bit0_odd by (assumption || lia).
  destruct (Z.odd (val x)) eqn:Ho; [|reflexivity]. split; [reflexivity|].
  pose proof Hx as (H0 & _).
  assert (Hc : Z.odd (l0 x) = true).
  { rewrite <- Ho. rewrite val_B. rewrite !Z.odd_add, !Z.odd_mul. change (Z.odd B) with false. cbn. rewrite !xorb_false_r. reflexivity. }
  set (r0 := Z.lxor (w64 (3 * l0 x)) 2).
  pose proof (newton_init (l0 x) Hc) as I0. fold r0 in I0.
  pose proof (newton64_spec 4 _ _ ltac:(lia) ltac:(lia) I0) as I1. set (r1 := newton64 (l0 x) r0) in *.
  pose proof (newton64_spec 8 _ _ ltac:(lia) ltac:(lia) I1) as I2. set (r2 := newton64 (l0 x) r1) in *.
  pose proof (newton64_spec 16 _ _ ltac:(lia) ltac:(lia) I2) as I3. set (r3 := newton64 (l0 x) r2) in *.
  pose proof (newton64_spec 32 _ _ ltac:(lia) ltac:(lia) I3) as I4. set (r4 := newton64 (l0 x) r3) in *.
  change (2 * 32) with 64 in I4.
  assert (L64 : val x mod 2 ^ 64 = l0 x).
  { symmetry. apply mod_eq with (q := l1 x + B * (l2 x + B * l3 x)); [exact H0|]. rewrite val_B. change (2 ^ 64) with B. ring. }
  assert (I4' : inverse_mod (2 ^ 64) (val x) r4).
  { unfold inverse_mod in *. rewrite Z.mul_mod, L64 by lia. rewrite <- I4. rewrite Zmult_mod_idemp_r. reflexivity. }
  destruct (as_u128_val x Hx) as [A1 _].
  set (r5 := w128 (r4 * w128 (2 - w128 (as_u128 x * r4)))).
  assert (I5 : inverse_mod (2 ^ 128) (val x) r5).
  { change 128 with (2 * 64). apply newton_step with (c' := as_u128 x) (r := r4); [lia| |assumption|].
    - rewrite A1. change (2 * 64) with 128. rewrite mod_mod_pow by lia. reflexivity.
    - unfold r5, w128. change BB with (2 ^ 128). change (2 * 64) with 128.
      rewrite Z.mod_mod by lia. rewrite Zmult_mod_idemp_r, Z.mul_mod, Zminus_mod_idemp_r, <- Z.mul_mod by lia. reflexivity. }
  assert (R5 : u128 r5) by (apply Z.mod_pos_bound; reflexivity).
  destruct (from_u128_spec r5 R5) as [W5 V5]. destruct (from_uint_spec 2) as [W2 V2]; [uB; lia|].
  destruct (u_mul_spec (from_u128 r5) x W5 Hx) as [Wa Va].
  destruct (u_sub_spec (from_uint 2) _ W2 Wa) as [Wb Vb].
  destruct (u_mul_spec (from_u128 r5) _ W5 Wb) as [Wc Vc].
  split; [assumption|].
  assert (I6 : inverse_mod (2 ^ 256) (val x) (val (u_mul (from_u128 r5) (u_sub (from_uint 2) (u_mul (from_u128 r5) x))))).
  { change 256 with (2 * 128). apply newton_step with (c' := val x) (r := r5); [lia|reflexivity|assumption|].
    rewrite Vc, Vb, Va, V5, V2. change (2 ^ (2 * 128)) with W.
    rewrite Z.mod_mod by discriminate. rewrite Zmult_mod_idemp_r, (Z.mul_mod r5), Zminus_mod_idemp_r, <- Z.mul_mod by discriminate.
    f_equal. ring. }
  unfold inverse_mod in I6. change W with (2 ^ 256). exact I6.
Qed.
