(** Correctness of the multi-limb division. *)
Require Import ZArith Lia Bool List Zpow_facts.
From Verif Require Import Word U256Model U256Spec U256Proofs KnuthModel.
Import ListNotations.
Open Scope Z_scope.

(** Value of a little-endian limb list. *)
Fixpoint lval (l : list Z) : Z := match l with [] => 0 | x :: r => x + B * lval r end.

Definition BP (n : nat) : Z := B ^ Z.of_nat n.
Lemma BP_0 : BP 0 = 1. Proof. reflexivity. Qed.
Lemma BP_S n : BP (S n) = B * BP n.
Proof. unfold BP. rewrite Nat2Z.inj_succ, Z.pow_succ_r by lia. reflexivity. Qed.
Lemma BP_pos n : 0 < BP n.
Proof. unfold BP. apply Z.pow_pos_nonneg; unfold B; lia. Qed.
Lemma BP_add a b : BP (a + b) = BP a * BP b.
Proof. unfold BP. rewrite Nat2Z.inj_add, Z.pow_add_r by lia. reflexivity. Qed.

Lemma lval_app a b : lval (a ++ b) = lval a + BP (length a) * lval b.
Proof. induction a; cbn [app lval length]; [rewrite BP_0; lia|]. rewrite IHa, BP_S. lia. Qed.
Lemma lval_range l : Forall u64 l -> 0 <= lval l < BP (length l).
Proof.
  induction 1; cbn [lval length]; [rewrite BP_0; lia|]. rewrite BP_S.
  unfold u64 in *. pose proof B_pos. nia.
Qed.

Lemma val_2_spec lo hi : u64 lo -> u64 hi -> val_2 lo hi = lo + B * hi.
Proof.
  intros Hl Hh. unfold val_2. rewrite Z.shiftl_mul_pow2 by lia. change (2^64) with B.
  rewrite w128_small by (unfold u64, u128, B, BB in *; lia).
  rewrite lor_disjoint with (k := 64); [lia|lia| |exact Hl].
  change (2 ^ 64) with B. apply Z.mod_mul. discriminate.
Qed.
Lemma mul_2_spec a b : u64 a -> u64 b -> mul_2 a b = a * b.
Proof.
  intros Ha Hb. unfold mul_2. apply w128_small. pose proof (mul_bound_u64 a b Ha Hb).
  unfold u128, BB, B in *. lia.
Qed.

Lemma dassert_true dbg c : c = true -> dassert dbg c = Some tt.
Proof. intros ->. unfold dassert. destruct dbg; reflexivity. Qed.
Lemma dsub_spec dbg m a b : 0 <= b <= a -> a < m -> dsub dbg m a b = Some (a - b).
Proof.
  intros H Hm. unfold dsub. destruct (Z.ltb_spec a b); [lia|]. rewrite andb_false_r.
  rewrite Z.mod_small by lia. reflexivity.
Qed.

Lemma divrem_2by1_spec dbg lo hi d : u64 lo -> u64 hi -> u64 d -> hi < d ->
  exists q r, divrem_2by1 dbg lo hi d = Some (q, r) /\ u64 q /\ 0 <= r < d /\ lo + B * hi = q * d + r.
Proof.
  intros Hl Hh Hd Hlt. unfold divrem_2by1. rewrite val_2_spec by assumption.
  rewrite (dassert_true dbg (0 <? d)) by (unfold u64 in *; apply Z.ltb_lt; lia).
  rewrite (dassert_true dbg (hi <? d)) by (apply Z.ltb_lt; lia). cbn [bind].
  destruct (Z.eqb_spec d 0); [unfold u64 in *; lia|].
  pose proof (Z.mod_pos_bound (lo + B * hi) d ltac:(unfold u64 in *; lia)).
  pose proof (Z.div_mod (lo + B * hi) d ltac:(lia)).
  assert (u64 ((lo + B * hi) / d)).
  { unfold u64, B in *. split; [apply Z.div_pos; lia|]. apply Z.div_lt_upper_bound; lia. }
  rewrite dassert_true by (apply Z.ltb_lt; apply H1). cbn [bind].
  exists ((lo + B * hi) / d), ((lo + B * hi) mod d).
  rewrite !w64_small by (unfold u64 in *; lia). repeat split; try apply H1; lia.
Qed.

Lemma divrem_nby1_spec dbg l d : Forall u64 l -> u64 d -> 0 < d ->
  exists q r, divrem_nby1 dbg l d = Some (q, r) /\ Forall u64 q /\ length q = length l /\
    0 <= r < d /\ lval l = lval q * d + r.
Proof.
  intros Hl Hd Hpos. induction Hl as [|x l Hx Hl IH].
  - exists [], 0. cbn. rewrite dassert_true by (apply Z.ltb_lt; lia). cbn. repeat split; auto; lia.
  - destruct IH as (q & r & E & Hq & Lq & Hr & V). cbn [divrem_nby1]. rewrite E. cbn [bind].
    destruct (divrem_2by1_spec dbg x r d) as (q0 & r0 & E0 & Hq0 & Hr0 & V0); [assumption|unfold u64 in *; lia|assumption|lia|].
    rewrite E0. cbn [bind]. exists (q0 :: q), r0. split; [reflexivity|]. split; [auto|].
    split; [cbn; lia|]. split; [lia|]. cbn [lval]. nia.
Qed.

(** ** div_3by2 is the exact quotient when it fits *)
Lemma div_3by2_spec dbg n0 n1 n2 d0 d1 :
  u64 n0 -> u64 n1 -> u64 n2 -> u64 d0 -> u64 d1 -> B <= 2 * d1 ->
  n1 + B * n2 < d0 + B * d1 ->
  exists q, div_3by2 dbg n0 n1 n2 d0 d1 = Some q /\ u64 q /\
    q * (d0 + B * d1) <= n0 + B * n1 + B * B * n2 < (q + 1) * (d0 + B * d1).
Proof.
  intros H0 H1 H2 G0 G1 Hn Hlt. unfold div_3by2.
  rewrite !val_2_spec by (assumption || unfold u64, B; lia).
  rewrite (dassert_true dbg (Z.shiftr d1 63 =? 1)).
  2: { apply Z.eqb_eq. rewrite Z.shiftr_div_pow2 by lia. symmetry.
       apply Z.div_unique with (r := d1 - 2 ^ 63); uB; lia. }
  rewrite dassert_true by (apply Z.ltb_lt; lia). cbn [bind].
  destruct (Z.eqb_spec n2 d1) as [->|Hne].
  - rewrite dassert_true by (apply Z.ltb_lt; lia). cbn [bind].
    rewrite dsub_spec by (unfold BB; uB; lia). cbn [bind].
    destruct (Z.ltb_spec (d0 + B * d1) (0 + B * d0 - (n0 + B * n1))).
    + exists 0xfffffffffffffffe. split; [reflexivity|]. split; [uB; lia|]. uB. lia.
    + exists 0xffffffffffffffff. split; [reflexivity|]. split; [uB; lia|]. uB. lia.
  - assert (n2 < d1) by (uB; lia).
    destruct (divrem_2by1_spec dbg n1 n2 d1) as (q & r & E & Hq & Hr & V); auto.
    rewrite E. cbn [bind]. rewrite val_2_spec by (assumption || unfold u64 in *; lia).
    rewrite mul_2_spec by assumption.
    assert (Q0 : 0 <= q * d0 <= (B - 1) * (B - 1)) by (apply mul_bound_u64; assumption).
    assert (Q1 : 0 <= q) by apply Hq.
    assert (Q2 : q * d0 <= q * (B - 1)) by (apply Z.mul_le_mono_nonneg_l; uB; lia).
    destruct (Z.ltb_spec (n0 + B * r) (q * d0)) as [L|L].
    + assert (0 < q) by (uB; nia).
      rewrite dsub_spec by (uB; lia). cbn [bind]. unfold wadd, w64.
      destruct (Z_lt_ge_dec (r + d1) B) as [Ho|Ho].
      * rewrite (Z.mod_small (r + d1)) by (uB; lia).
        destruct (Z.ltb_spec (r + d1) d1); [lia|]. cbn [negb andb].
        rewrite val_2_spec by (assumption || uB; lia).
        rewrite mul_2_spec by (assumption || uB; lia).
        destruct (Z.ltb_spec (n0 + B * (r + d1)) ((q - 1) * d0)) as [L2|L2].
        -- assert (1 < q) by (uB; nia). rewrite dsub_spec by (uB; lia).
           exists (q - 1 - 1). split; [reflexivity|]. split; [uB; lia|]. split.
           ++ uB. nia.
           ++ uB. nia.
        -- exists (q - 1). split; [reflexivity|]. split; [uB; lia|]. split; uB; nia.
      * replace ((r + d1) mod B) with (r + d1 - B).
        2: { apply mod_eq with (q := 1); uB; lia. }
        destruct (Z.ltb_spec (r + d1 - B) d1); [|uB; lia]. cbn [negb andb].
        exists (q - 1). split; [reflexivity|]. split; [uB; lia|]. split; uB; nia.
    + exists q. split; [reflexivity|]. split; [assumption|]. split; uB; nia.
Qed.

(** In a debug build the assertion fires exactly when the quotient does not fit. *)
Lemma div_3by2_panics n0 n1 n2 d0 d1 :
  u64 n0 -> u64 n1 -> u64 n2 -> u64 d0 -> u64 d1 ->
  d0 + B * d1 <= n1 + B * n2 -> div_3by2 true n0 n1 n2 d0 d1 = None.
Proof.
  intros H0 H1 H2 G0 G1 Hge. unfold div_3by2.
  rewrite !val_2_spec by assumption. unfold dassert at 1.
  destruct (true && negb (Z.shiftr d1 63 =? 1)); [reflexivity|]. cbn [bind].
  unfold dassert at 1. destruct (Z.ltb_spec (n1 + B * n2) (d0 + B * d1)); [lia|]. reflexivity.
Qed.

(** ** Window operations *)
Lemma mul_sub_spec q d : Forall u64 d -> u64 q -> forall w k, Forall u64 w -> length w = length d -> u64 k ->
  forall w' b, mul_sub w q d k = (w', b) ->
  Forall u64 w' /\ length w' = length d /\ u64 b /\
  lval w' - BP (length d) * b = lval w - q * lval d - k.
Proof.
  intros Hd Hq. induction Hd as [|y d Hy Hd IH]; intros w k Hw L Hk w' b E.
  - destruct w; [|discriminate]. cbn in E. apply pair_equal_spec in E. destruct E as [<- <-].
    cbn. rewrite BP_0. repeat split; auto; try apply Hk; lia.
  - destruct w as [|x w]; [discriminate|]. inversion Hw; subst. cbn [mul_sub] in E.
    destruct (msb x q y k) as [a b1] eqn:Em.
    destruct (msb_spec x q y k) with (lo := a) (hi := b1) as (A1 & A2 & A3); auto.
    destruct (mul_sub w q d b1) as [rest b2] eqn:Er.
    destruct (IH w b1) with (w' := rest) (b := b2) as (I1 & I2 & I3 & I4); auto.
    apply pair_equal_spec in E. destruct E as [<- <-].
    split; [auto|]. split; [cbn; lia|]. split; [auto|].
    cbn [lval length]. rewrite BP_S. nia.
Qed.

Lemma add_back_spec d : Forall u64 d -> forall w k, Forall u64 w -> length w = length d -> 0 <= k <= 1 ->
  forall w' b, add_back w d k = (w', b) ->
  Forall u64 w' /\ length w' = length d /\ 0 <= b <= 1 /\
  lval w' + BP (length d) * b = lval w + lval d + k.
Proof.
  induction 1 as [|y d Hy Hd IH]; intros w k Hw L Hk w' b E.
  - destruct w; [|discriminate]. cbn in E. apply pair_equal_spec in E. destruct E as [<- <-].
    cbn. rewrite BP_0. repeat split; auto; lia.
  - destruct w as [|x w]; [discriminate|]. inversion Hw; subst. cbn [add_back] in E.
    destruct (adc x y k) as [a b1] eqn:Em.
    destruct (adc_spec1 x y k) with (lo := a) (hi := b1) as (A1 & A2 & A3); auto.
    destruct (add_back w d b1) as [rest b2] eqn:Er.
    destruct (IH w b1) with (w' := rest) (b := b2) as (I1 & I2 & I3 & I4); auto.
    apply pair_equal_spec in E. destruct E as [<- <-].
    split; [auto|]. split; [cbn; lia|]. split; [auto|].
    cbn [lval length]. rewrite BP_S. nia.
Qed.

(** Splitting off the two leading limbs. *)
Lemma split_top2 l n : length l = S (S n) ->
  l = firstn n l ++ [nth n l 0; nth (S n) l 0].
Proof.
  revert l. induction n; intros l L.
  - destruct l as [|a [|b [|? ?]]]; try discriminate. reflexivity.
  - destruct l as [|a l]; [discriminate|]. cbn [firstn nth app]. f_equal. apply IHn. cbn in L. lia.
Qed.

Lemma digit_step_shape (pre win : list Z) top post n :
  length win = n ->
  firstn n (skipn (length pre) (pre ++ win ++ [top] ++ post)) = win /\
  nth (length pre + n) (pre ++ win ++ [top] ++ post) 0 = top /\
  firstn (length pre) (pre ++ win ++ [top] ++ post) = pre /\
  skipn (length pre + n + 1) (pre ++ win ++ [top] ++ post) = post.
Proof.
  intros <-. split; [|split; [|split]].
  - rewrite skipn_app, skipn_all, Nat.sub_diag, skipn_O, app_nil_l, firstn_app, firstn_all, Nat.sub_diag, firstn_O, app_nil_r. reflexivity.
  - rewrite app_nth2 by lia. rewrite app_nth2 by lia. replace (_ - _ - _)%nat with O by lia. reflexivity.
  - rewrite firstn_app, firstn_all, Nat.sub_diag, firstn_O, app_nil_r. reflexivity.
  - rewrite skipn_app. rewrite skipn_all2 by lia. rewrite skipn_app, skipn_all2 by lia.
    cbn [app]. replace (length pre + length win + 1 - length pre - length win)%nat with 1%nat by lia. reflexivity.
Qed.

Lemma win_nth (pre win : list Z) rest i n : length win = n -> (i < n)%nat ->
  nth (length pre + i) (pre ++ win ++ rest) 0 = nth i win 0.
Proof.
  intros <- Hi. rewrite app_nth2 by lia. replace (length pre + i - length pre)%nat with i by lia.
  apply app_nth1. assumption.
Qed.

(** Arithmetic core of one quotient digit. [Nh], [Dh]: leading parts, [P] = B^(n-2). *)
Lemma qhat_bounds P Nh Dh nl dl q : 0 < P -> 0 <= nl < P -> 0 <= dl < P -> 0 <= q < B ->
  B <= Dh -> q * Dh <= Nh < (q + 1) * Dh ->
  - (Dh * P + dl) < (Nh * P + nl) - q * (Dh * P + dl) < Dh * P + dl.
Proof.
  intros HP Hn Hd Hq HD [H1 H2].
  assert (0 <= (Nh - q * Dh) * P) by nia.
  assert ((Nh + 1 - (q + 1) * Dh) * P <= 0) by nia.
  assert (0 <= q * dl <= (B - 1) * P) by nia.
  assert (B * P <= Dh * P) by nia. split; nia.
Qed.

Lemma nth_u64 l i : Forall u64 l -> u64 (nth i l 0).
Proof.
  intros H. destruct (Nat.lt_ge_cases i (length l)).
  - rewrite Forall_forall in H. apply H. apply nth_In. assumption.
  - rewrite nth_overflow by assumption. apply u64_0.
Qed.

Lemma list_split_at (l : list Z) a b : length l = (a + b)%nat ->
  exists x y, l = x ++ y /\ length x = a /\ length y = b.
Proof.
  intros L. exists (firstn a l), (skipn a l). rewrite firstn_skipn, firstn_length_le, skipn_length by lia.
  repeat split; lia.
Qed.

Section Div.
Variable d : list Z.
Hypothesis Hd : Forall u64 d.
Variable n2 : nat.
Hypothesis Ld : length d = S (S n2).
Hypothesis Hnorm : B <= 2 * nth (S n2) d 0.

Let D := lval d.
Let P := BP n2.
Let Dh := nth n2 d 0 + B * nth (S n2) d 0.


Lemma D_split : D = Dh * P + lval (firstn n2 d) /\ 0 <= lval (firstn n2 d) < P.
Proof.
  unfold D, Dh, P. rewrite (split_top2 d n2 Ld) at 1. rewrite lval_app. cbn [lval].
  rewrite firstn_length_le by lia. split; [ring|].
  pose proof (lval_range (firstn n2 d)) as R. rewrite firstn_length_le in R by lia.
  apply R. apply Forall_forall. intros x Hx. rewrite Forall_forall in Hd. apply Hd.
  rewrite <- (firstn_skipn n2 d). apply in_or_app. auto.
Qed.

Lemma Dh_div : D / P = Dh.
Proof.
  destruct D_split as [E R]. symmetry. apply Z.div_unique with (r := lval (firstn n2 d)); [lia|]. lia.
Qed.

Lemma D_pos : B * P <= D < BP (S (S n2)).
Proof.
  destruct D_split as [E R]. pose proof (nth_u64 d n2 Hd). unfold u64 in *.
  assert (B <= Dh) by (unfold Dh; uB; lia).
  split; [nia|]. unfold D. rewrite <- Ld. apply lval_range. exact Hd.
Qed.

(** The condition under which a digit step is exact: the two leading limbs of the
    running remainder differ from the two leading limbs of the divisor. *)
Definition clash (r : Z) : Prop := r / P = D / P.

Lemma digit_step_spec dbg pre win top post :
  length win = S (S n2) -> Forall u64 win -> u64 top ->
  lval (win ++ [top]) < B * D -> ~ clash (lval (win ++ [top]) / B) ->
  exists q R, digit_step dbg (pre ++ win ++ [top] ++ post) d (length pre) = Some (pre ++ R ++ [q] ++ post) /\
    u64 q /\ Forall u64 R /\ length R = S (S n2) /\
    lval (win ++ [top]) = q * D + lval R /\ lval R < D.
Proof.
  intros Lw Hw Ht Hlt Hc. unfold digit_step. rewrite Ld.
  destruct (digit_step_shape pre win top post (S (S n2)) Lw) as (E1 & E2 & E3 & E4).
  rewrite E1, E2, E3, E4.
  replace (length pre + S (S n2) - 2)%nat with (length pre + n2)%nat by lia.
  replace (length pre + S (S n2) - 1)%nat with (length pre + S n2)%nat by lia.
  rewrite !(win_nth pre win _ _ (S (S n2))) by (assumption || lia).
  replace (S (S n2) - 2)%nat with n2 by lia. replace (S (S n2) - 1)%nat with (S n2) by lia.
  set (w0 := nth n2 win 0) in *. set (w1 := nth (S n2) win 0) in *.
  pose proof (nth_u64 win n2 Hw : u64 w0) as U0. pose proof (nth_u64 win (S n2) Hw : u64 w1) as U1.
  destruct D_split as [ED RD]. pose proof D_pos as PD. pose proof (BP_pos n2) as PP. fold P in PP.
  (* the window's value, split *)
  assert (EW : lval win = (w0 + B * w1) * P + lval (firstn n2 win)).
  { rewrite (split_top2 win n2 Lw) at 1. rewrite lval_app. cbn [lval].
    rewrite firstn_length_le by lia. fold P. unfold w0, w1. ring. }
  assert (RW : 0 <= lval (firstn n2 win) < P).
  { pose proof (lval_range (firstn n2 win)) as R. rewrite firstn_length_le in R by lia.
    apply R. apply Forall_forall. intros x Hx. rewrite Forall_forall in Hw. apply Hw.
    rewrite <- (firstn_skipn n2 win). apply in_or_app. auto. }
  assert (EN : lval (win ++ [top]) = (w0 + B * w1 + B * B * top) * P + lval (firstn n2 win)).
  { rewrite lval_app, EW, Lw. cbn [lval]. rewrite !BP_S. fold P. ring. }
  (* the two leading limbs *)
  assert (Htop : w1 + B * top < Dh).
  { assert (E : lval (win ++ [top]) / B / P = w1 + B * top).
    { rewrite Z.div_div by (unfold B; lia).
      symmetry. apply Z.div_unique with (r := w0 * P + lval (firstn n2 win)); [left; uB; nia|].
      rewrite EN. ring. }
    unfold clash in Hc. rewrite E, Dh_div in Hc.
    assert (w1 + B * top <= Dh); [|lia].
    rewrite <- E, <- Dh_div. apply Z.div_le_mono; [lia|]. apply Z.div_le_upper_bound; [unfold B; lia|]. lia. }
  destruct (div_3by2_spec dbg w0 w1 top (nth n2 d 0) (nth (S n2) d 0)) as (q & Eq & Uq & Bq);
    auto using nth_u64. fold Dh in Bq.
  rewrite Eq. cbn [bind].
  destruct (mul_sub win q d 0) as [w' b] eqn:Em.
  destruct (mul_sub_spec q d Hd Uq win 0 Hw ltac:(congruence) u64_0 w' b Em) as (M1 & M2 & M3 & M4).
  rewrite Ld in M4. fold D in M4.
  pose proof (lval_range w' M1) as RW'. rewrite M2, Ld in RW'.
  set (BPn := BP (S (S n2))) in *.
  pose proof (qhat_bounds P (w0 + B * w1 + B * B * top) Dh (lval (firstn n2 win)) (lval (firstn n2 d)) q) as QB.
  rewrite <- ED, <- EN in QB.
  specialize (QB PP RW RD Uq). assert (HDh : B <= Dh).
  { unfold Dh. pose proof (nth_u64 d n2 Hd). uB; lia. }
  specialize (QB HDh Bq).
  assert (EN2 : lval (win ++ [top]) = lval win + BPn * top) by (rewrite lval_app, Lw; cbn [lval]; fold BPn; ring).
  assert (EX : lval (win ++ [top]) - q * D = lval w' + BPn * (top - b)) by lia.
  destruct (Z.ltb_spec top b) as [Lb|Lb].
  - destruct (add_back w' d 0) as [w2 c] eqn:Ea.
    destruct (add_back_spec d Hd w' 0 M1 ltac:(congruence) ltac:(lia) w2 c Ea) as (A1 & A2 & A3 & A4).
    rewrite Ld in A4. fold D BPn in A4.
    pose proof (lval_range w2 A1) as RW2. rewrite A2, Ld in RW2. fold BPn in RW2.
    assert (top - b = -1) by nia. assert (c = 1) by nia. subst c.
    assert (0 < q). { destruct (Z_lt_ge_dec 0 q); [lia|]. assert (q = 0) by (uB; lia). subst q.
      rewrite Z.mul_0_l, Z.sub_0_r in EX. pose proof (lval_range (win ++ [top])) as RR.
      assert (0 <= lval (win ++ [top])) by (apply RR; apply Forall_app; auto). nia. }
    rewrite dsub_spec by (uB; lia). cbn [bind].
    rewrite dassert_true.
    2: { apply Z.eqb_eq. unfold wadd, wsub, w64. replace (top - b) with (-1) by lia. reflexivity. }
    cbn [bind]. exists (q - 1), w2. split; [reflexivity|]. split; [uB; lia|]. split; [assumption|].
    split; [congruence|]. split; nia.
  - assert (top = b) by nia. subst b.
    rewrite dassert_true by (unfold wsub; rewrite Z.sub_diag; reflexivity).
    cbn [bind]. exists q, w'. split; [reflexivity|]. split; [assumption|]. split; [assumption|].
    split; [congruence|]. split; nia.
Qed.

Lemma digit_step_panics pre win top post :
  length win = S (S n2) -> Forall u64 win -> u64 top ->
  clash (lval (win ++ [top]) / B) ->
  digit_step true (pre ++ win ++ [top] ++ post) d (length pre) = None.
Proof.
  intros Lw Hw Ht Hc. unfold digit_step. rewrite Ld.
  destruct (digit_step_shape pre win top post (S (S n2)) Lw) as (E1 & E2 & E3 & E4).
  rewrite E1, E2, E3, E4.
  replace (length pre + S (S n2) - 2)%nat with (length pre + n2)%nat by lia.
  replace (length pre + S (S n2) - 1)%nat with (length pre + S n2)%nat by lia.
  rewrite !(win_nth pre win _ _ (S (S n2))) by (assumption || lia).
  replace (S (S n2) - 2)%nat with n2 by lia. replace (S (S n2) - 1)%nat with (S n2) by lia.
  set (w0 := nth n2 win 0) in *. set (w1 := nth (S n2) win 0) in *.
  pose proof (nth_u64 win n2 Hw : u64 w0) as U0. pose proof (nth_u64 win (S n2) Hw : u64 w1) as U1.
  pose proof (BP_pos n2) as PP. fold P in PP.
  assert (EW : lval win = (w0 + B * w1) * P + lval (firstn n2 win)).
  { rewrite (split_top2 win n2 Lw) at 1. rewrite lval_app. cbn [lval].
    rewrite firstn_length_le by lia. fold P. unfold w0, w1. ring. }
  assert (RW : 0 <= lval (firstn n2 win) < P).
  { pose proof (lval_range (firstn n2 win)) as R. rewrite firstn_length_le in R by lia.
    apply R. apply Forall_forall. intros x Hx. rewrite Forall_forall in Hw. apply Hw.
    rewrite <- (firstn_skipn n2 win). apply in_or_app. auto. }
  assert (EN : lval (win ++ [top]) = (w0 + B * w1 + B * B * top) * P + lval (firstn n2 win)).
  { rewrite lval_app, EW, Lw. cbn [lval]. rewrite !BP_S. fold P. ring. }
  rewrite div_3by2_panics; auto using nth_u64. fold Dh.
  assert (E : lval (win ++ [top]) / B / P = w1 + B * top).
  { rewrite Z.div_div by (unfold B; lia).
    symmetry. apply Z.div_unique with (r := w0 * P + lval (firstn n2 win)); [left; uB; nia|].
    rewrite EN. ring. }
  unfold clash in Hc. rewrite E, Dh_div in Hc. lia.
Qed.

(** ** The digit loop *)
Definition good (N : Z) (j : nat) : Prop := forall k, (k <= j)%nat -> ~ clash ((N / BP (S k)) mod D).

Lemma Dpos : 0 < D.
Proof. pose proof D_pos. pose proof (BP_pos n2 : 0 < P). unfold B in *. lia. Qed.


Lemma low_shape low j : length low = (j + S (S n2) + 1)%nat -> Forall u64 low ->
  exists pre win top, low = pre ++ win ++ [top] /\ length pre = j /\ length win = S (S n2) /\
    Forall u64 pre /\ Forall u64 win /\ u64 top /\
    lval low = lval pre + BP j * lval (win ++ [top]) /\ 0 <= lval pre < BP j.
Proof.
  intros L H. destruct (list_split_at low j (S (S n2) + 1) ltac:(lia)) as (pre & r & -> & Lp & Lr).
  destruct (list_split_at r (S (S n2)) 1 Lr) as (win & t & -> & Lw & Lt).
  destruct t as [|top [|? ?]]; try discriminate.
  apply Forall_app in H. destruct H as [H1 H2]. pose proof H2 as H3. apply Forall_app in H3. destruct H3 as [H3 H4].
  inversion H4; subst. exists pre, win, top. repeat split; auto; try apply H5.
  - apply lval_app.
  - apply lval_range; assumption.
  - apply lval_range; assumption.
Qed.

Lemma digit_loop_spec dbg j : forall low post, length low = (j + S (S n2) + 1)%nat -> Forall u64 low ->
  lval low < BP (S j) * D -> good (lval low) j ->
  exists R Q, digit_loop dbg (low ++ post) d j = Some (R ++ Q ++ post) /\
    Forall u64 R /\ Forall u64 Q /\ length R = S (S n2) /\ length Q = S j /\
    lval low = lval Q * D + lval R /\ lval R < D.
Proof.
  pose proof Dpos as PD.
  induction j as [|j IH]; intros low post L H Hlt Hg;
  destruct (low_shape low _ L H) as (pre & win & top & -> & Lp & Lw & Hp & Hw & Ht & V & Rp).
  - destruct pre; [|discriminate]. cbn [app lval] in *. rewrite BP_0, Z.mul_1_l, Z.add_0_l in V.
    assert (C : ~ clash (lval (win ++ [top]) / B)).
    { pose proof (Hg 0%nat ltac:(lia)) as G. rewrite BP_S, BP_0, Z.mul_1_r in G.
      rewrite BP_S, BP_0, Z.mul_1_r in Hlt.
      rewrite Z.mod_small in G; [exact G|]. split.
      - apply Z.div_pos; [|unfold B; lia]. apply lval_range. apply Forall_app; auto.
      - apply Z.div_lt_upper_bound; [unfold B; lia|]. lia. }
    rewrite BP_S, BP_0, Z.mul_1_r in Hlt.
    destruct (digit_step_spec dbg [] win top post Lw Hw Ht Hlt C) as (q & R & E & Uq & HR & LR & VR & RR).
    cbn [app length] in E. cbn [digit_loop]. rewrite <- app_assoc. cbn [app]. rewrite E. cbn [bind].
    exists R, [q]. split; [reflexivity|]. split; [assumption|]. split; [auto|]. split; [assumption|].
    split; [reflexivity|]. cbn [lval]. split; [lia|assumption].
  - set (Wn := lval (win ++ [top])) in *.
    assert (W0 : 0 <= Wn) by (apply lval_range, Forall_app; auto).
    assert (HW : Wn < B * D).
    { rewrite !BP_S in *. pose proof (BP_pos j). nia. }
    assert (C : ~ clash (Wn / B)).
    { pose proof (Hg (S j) ltac:(lia)) as G.
      replace (lval (pre ++ win ++ [top]) / BP (S (S j))) with (Wn / B) in G.
      - rewrite Z.mod_small in G; [exact G|]. split; [apply Z.div_pos; [lia|unfold B; lia]|].
        apply Z.div_lt_upper_bound; [unfold B; lia|]. lia.
      - rewrite (BP_S (S j)), (Z.mul_comm B), <- Z.div_div by (try apply Z.neq_sym, Z.lt_neq; try apply BP_pos; unfold B; lia).
        f_equal. apply Z.div_unique with (r := lval pre); [lia|]. lia. }
    destruct (digit_step_spec dbg pre win top post Lw Hw Ht HW C) as (q & R & E & Uq & HR & LR & VR & RR).
    cbn [digit_loop]. rewrite Lp in E.
    replace ((pre ++ win ++ [top]) ++ post) with (pre ++ win ++ [top] ++ post) by (rewrite !app_assoc; reflexivity).
    rewrite E. cbn [bind].
    assert (VL : lval (pre ++ R) = lval (pre ++ win ++ [top]) - q * BP (S j) * D).
    { rewrite lval_app, Lp, V. fold Wn in VR. nia. }
    assert (RR0 : 0 <= lval R) by (apply lval_range; assumption).
    destruct (IH (pre ++ R) ([q] ++ post)) as (R' & Q & E' & HR' & HQ & LR' & LQ & VQ & RQ).
    + rewrite app_length, Lp, LR. lia.
    + apply Forall_app; auto.
    + rewrite lval_app, Lp. pose proof (BP_pos (S j)). nia.
    + intros k Hk. pose proof (Hg k ltac:(lia)) as G. rewrite VL.
      replace (lval (pre ++ win ++ [top]) - q * BP (S j) * D)
        with (lval (pre ++ win ++ [top]) + (- q * BP (j - k) * D) * BP (S k)).
      2: { assert (EB : BP (S j) = BP (j - k) * BP (S k)) by (rewrite <- BP_add; f_equal; lia). rewrite EB. ring. }
      rewrite Z.div_add by (pose proof (BP_pos (S k)); lia).
      rewrite Z_mod_plus_full. exact G.
    + replace (pre ++ R ++ [q] ++ post) with ((pre ++ R) ++ [q] ++ post) by (rewrite !app_assoc; reflexivity).
      rewrite E'. exists R', (Q ++ [q]). rewrite <- !app_assoc. split; [reflexivity|].
      split; [assumption|]. split; [apply Forall_app; auto|]. split; [assumption|].
      split; [rewrite app_length, LQ; cbn; lia|].
      rewrite (lval_app Q), LQ. cbn [lval]. split; [|assumption]. nia.
Qed.

Lemma clash_dec r : {clash r} + {~ clash r}.
Proof. apply Z.eq_dec. Qed.

Lemma digit_loop_panics j : forall low post, length low = (j + S (S n2) + 1)%nat -> Forall u64 low ->
  lval low < BP (S j) * D -> (exists k, (k <= j)%nat /\ clash ((lval low / BP (S k)) mod D)) ->
  digit_loop true (low ++ post) d j = None.
Proof.
  pose proof Dpos as PD.
  induction j as [|j IH]; intros low post L H Hlt (k & Hk & Hc);
  destruct (low_shape low _ L H) as (pre & win & top & -> & Lp & Lw & Hp & Hw & Ht & V & Rp).
  - destruct pre; [|discriminate]. cbn [app lval] in *. rewrite BP_0, Z.mul_1_l, Z.add_0_l in V.
    assert (k = 0)%nat by lia. subst k. rewrite BP_S, BP_0, Z.mul_1_r in Hc, Hlt.
    rewrite Z.mod_small in Hc.
    2: { split; [apply Z.div_pos; [|unfold B; lia]; apply lval_range; apply Forall_app; auto|].
         apply Z.div_lt_upper_bound; [unfold B; lia|]. lia. }
    cbn [digit_loop]. rewrite <- app_assoc. pose proof (digit_step_panics [] win top post Lw Hw Ht Hc) as E.
    cbn [app length] in *. rewrite E. reflexivity.
  - set (Wn := lval (win ++ [top])) in *.
    assert (W0 : 0 <= Wn) by (apply lval_range, Forall_app; auto).
    assert (HW : Wn < B * D).
    { rewrite !BP_S in *. pose proof (BP_pos j). nia. }
    assert (EW : (lval (pre ++ win ++ [top]) / BP (S (S j))) mod D = Wn / B).
    { replace (lval (pre ++ win ++ [top]) / BP (S (S j))) with (Wn / B).
      - apply Z.mod_small. split; [apply Z.div_pos; [lia|unfold B; lia]|].
        apply Z.div_lt_upper_bound; [unfold B; lia|]. lia.
      - rewrite (BP_S (S j)), (Z.mul_comm B), <- Z.div_div by (try apply Z.neq_sym, Z.lt_neq; try apply BP_pos; unfold B; lia).
        f_equal. apply Z.div_unique with (r := lval pre); [lia|]. lia. }
    cbn [digit_loop].
    replace ((pre ++ win ++ [top]) ++ post) with (pre ++ win ++ [top] ++ post) by (rewrite !app_assoc; reflexivity).
    destruct (clash_dec (Wn / B)) as [C|C].
    { pose proof (digit_step_panics pre win top post Lw Hw Ht C) as E. rewrite Lp in E. rewrite E. reflexivity. }
    assert (k <= j)%nat. { destruct (Nat.eq_dec k (S j)); [|lia]. subst k. rewrite EW in Hc. contradiction. }
    destruct (digit_step_spec true pre win top post Lw Hw Ht HW C) as (q & R & E & Uq & HR & LR & VR & RR).
    rewrite Lp in E. rewrite E. cbn [bind].
    assert (VL : lval (pre ++ R) = lval (pre ++ win ++ [top]) - q * BP (S j) * D).
    { rewrite lval_app, Lp, V. fold Wn in VR. nia. }
    assert (RR0 : 0 <= lval R) by (apply lval_range; assumption).
    replace (pre ++ R ++ [q] ++ post) with ((pre ++ R) ++ [q] ++ post) by (rewrite !app_assoc; reflexivity).
    apply IH.
    + rewrite app_length, Lp, LR. lia.
    + apply Forall_app; auto.
    + rewrite lval_app, Lp. pose proof (BP_pos (S j)). nia.
    + exists k. split; [assumption|]. rewrite VL.
      replace (lval (pre ++ win ++ [top]) - q * BP (S j) * D)
        with (lval (pre ++ win ++ [top]) + (- q * BP (j - k) * D) * BP (S k)).
      2: { assert (EB : BP (S j) = BP (j - k) * BP (S k)) by (rewrite <- BP_add; f_equal; lia). rewrite EB. ring. }
      rewrite Z.div_add by (pose proof (BP_pos (S k)); lia).
      rewrite Z_mod_plus_full. exact Hc.
Qed.
End Div.

(** ** Normalisation shifts *)
Lemma pow2_split s : 0 < s < 64 -> B = 2 ^ s * 2 ^ (64 - s) /\ 0 < 2 ^ s /\ 0 < 2 ^ (64 - s).
Proof.
  intros Hs. rewrite <- Z.pow_add_r by lia. replace (s + (64 - s)) with 64 by lia.
  split; [reflexivity|]. split; apply Z.pow_pos_nonneg; lia.
Qed.

(** One limb of x << s: the low part, and what moves into the next limb. *)
Lemma shl_low x s : 0 < s < 64 -> u64 x ->
  w64 (Z.shiftl x s) = x * 2 ^ s - B * Z.shiftr x (64 - s) /\
  w64 (Z.shiftl x s) mod 2 ^ s = 0 /\ 0 <= Z.shiftr x (64 - s) < 2 ^ s.
Proof.
  intros Hs Hx. destruct (pow2_split s Hs) as (EB & P1 & P2).
  rewrite Z.shiftl_mul_pow2, Z.shiftr_div_pow2 by lia.
  pose proof (Z.div_mod x (2 ^ (64 - s)) ltac:(lia)) as DM.
  pose proof (Z.mod_pos_bound x (2 ^ (64 - s)) P2) as MB.
  set (q := x / 2 ^ (64 - s)) in *. set (r := x mod 2 ^ (64 - s)) in *.
  assert (E : x * 2 ^ s - B * q = r * 2 ^ s) by (rewrite DM, EB; ring).
  assert (E2 : w64 (x * 2 ^ s) = r * 2 ^ s).
  { unfold w64. symmetry. apply mod_eq with (q := q); [|lia]. rewrite EB. nia. }
  rewrite E2, E. split; [reflexivity|]. split; [apply Z.mod_mul; lia|].
  split; [apply Z.div_pos; uB; lia|]. apply Z.div_lt_upper_bound; [lia|]. rewrite Z.mul_comm, <- EB. apply Hx.
Qed.

Lemma lor_shl x y s : 0 < s < 64 -> u64 x -> u64 y ->
  Z.lor (w64 (Z.shiftl x s)) (Z.shiftr y (64 - s)) = x * 2 ^ s - B * Z.shiftr x (64 - s) + Z.shiftr y (64 - s) /\
  u64 (Z.lor (w64 (Z.shiftl x s)) (Z.shiftr y (64 - s))).
Proof.
  intros Hs Hx Hy. destruct (shl_low x s Hs Hx) as (E & M & R). destruct (shl_low y s Hs Hy) as (_ & _ & R2).
  assert (EL : Z.lor (w64 (Z.shiftl x s)) (Z.shiftr y (64 - s)) = w64 (Z.shiftl x s) + Z.shiftr y (64 - s)).
  { apply lor_disjoint with (k := s); [lia|assumption|assumption]. }
  rewrite EL. split; [lia|].
  destruct (pow2_split s Hs) as (EB & P1 & P2).
  pose proof (w64_range (Z.shiftl x s)) as WR.
  apply Z.mod_divide in M; [|lia]. destruct M as [c M]. rewrite M in *. unfold u64 in *.
  assert (c < 2 ^ (64 - s)) by (apply Z.mul_lt_mono_pos_r with (p := 2 ^ s); lia).
  assert ((c + 1) * 2 ^ s <= 2 ^ (64 - s) * 2 ^ s) by (apply Z.mul_le_mono_nonneg_r; lia). lia.
Qed.

Lemma last_cons (l : list Z) : forall x d, last (x :: l) d = last l x.
Proof.
  induction l as [|y l IH]; intros x d; [reflexivity|].
  change (last (x :: y :: l) d) with (last (y :: l) d). rewrite !IH. reflexivity.
Qed.

Lemma shl_rest_spec s : 0 < s < 64 -> forall l prev, u64 prev -> Forall u64 l ->
  Forall u64 (shl_rest s prev l) /\ length (shl_rest s prev l) = length l /\
  lval (shl_rest s prev l) + BP (length l) * Z.shiftr (last l prev) (64 - s)
   = lval l * 2 ^ s + Z.shiftr prev (64 - s).
Proof.
  intros Hs. induction l as [|x l IH]; intros prev Hp Hl.
  - cbn. rewrite BP_0. split; [auto|]. split; [auto|]. lia.
  - inversion Hl; subst. destruct (IH x) as (I1 & I2 & I3); auto.
    destruct (lor_shl x prev s Hs) as [E U]; auto. cbn [shl_rest length lval].
    split; [auto|]. split; [lia|].
    replace (last (x :: l) prev) with (last l x) by (symmetry; apply last_cons).
    rewrite BP_S, E. nia.
Qed.


Lemma shl_limbs_spec s l : 0 < s < 64 -> Forall u64 l ->
  Forall u64 (shl_limbs s l) /\ length (shl_limbs s l) = length l /\
  lval (shl_limbs s l) + BP (length l) * Z.shiftr (last l 0) (64 - s) = lval l * 2 ^ s.
Proof.
  intros Hs Hl. destruct l as [|x l].
  - cbn. rewrite BP_0. split; [auto|]. split; [auto|]. rewrite Z.shiftr_0_l. lia.
  - inversion Hl; subst. destruct (shl_rest_spec s Hs l x) as (I1 & I2 & I3); auto.
    destruct (shl_low x s Hs) as (E & M & R); auto. cbn [shl_limbs length lval].
    split; [constructor; [apply w64_range|assumption]|]. split; [lia|].
    rewrite last_cons, BP_S, E. nia.
Qed.

Lemma shr_limbs_spec s l : 0 < s < 64 -> Forall u64 l ->
  Forall u64 (shr_limbs s l) /\ length (shr_limbs s l) = length l /\
  lval (shr_limbs s l) = lval l / 2 ^ s.
Proof.
  intros Hs. destruct (pow2_split s Hs) as (EB & P1 & P2).
  induction 1 as [|x l Hx Hl IH].
  - cbn. rewrite Z.div_0_l by lia. auto.
  - destruct IH as (I1 & I2 & I3). cbn [shr_limbs]. destruct l as [|y l].
    + cbn [lval length]. rewrite Z.shiftr_div_pow2 by lia.
      rewrite Z.mul_0_r, !Z.add_0_r. split; [|auto]. constructor; [|auto].
      unfold u64 in *. split; [apply Z.div_pos; lia|]. apply Z.le_lt_trans with x; [|lia].
      apply Z.div_le_upper_bound; [lia|]. nia.
    + inversion Hl; subst.
      assert (Hs' : 0 < 64 - s < 64) by lia.
      destruct (lor_shl y x (64 - s) Hs') as [E U]; auto.
      replace (64 - (64 - s)) with s in * by lia. rewrite Z.lor_comm in E, U.
      split; [constructor; auto|]. split; [cbn [length] in *; lia|].
      change (lval (?a :: ?b)) with (a + B * lval b) at 1. rewrite E, I3. cbn [lval].
      set (T := lval l). rewrite !Z.shiftr_div_pow2 by lia.
      assert (Q : (x + B * (y + B * T)) / 2 ^ s = x / 2 ^ s + 2 ^ (64 - s) * (y + B * T)).
      { replace (x + B * (y + B * T)) with (x + (2 ^ (64 - s) * (y + B * T)) * 2 ^ s) by (rewrite EB; ring).
        apply Z.div_add. lia. }
      rewrite Q.
      assert (Q2 : (y + B * T) / 2 ^ s = y / 2 ^ s + 2 ^ (64 - s) * T).
      { replace (y + B * T) with (y + (2 ^ (64 - s) * T) * 2 ^ s) by (rewrite EB; ring).
        apply Z.div_add. lia. }
      rewrite Q2. ring.
Qed.

Lemma clz64_spec x : 0 < x < B -> 0 <= clz64 x < 64 /\ B <= 2 * (x * 2 ^ clz64 x) /\ x * 2 ^ clz64 x < B.
Proof.
  intros Hx. unfold clz64. destruct (Z.eqb_spec x 0); [lia|].
  destruct (Z.log2_spec x) as [L1 L2]; [lia|]. pose proof (Z.log2_nonneg x).
  assert (Z.log2 x < 64) by (apply Z.log2_lt_pow2; [lia|exact (proj2 Hx)]).
  split; [lia|].
  assert (E : 2 ^ Z.log2 x * 2 ^ (63 - Z.log2 x) = 2 ^ 63) by (rewrite <- Z.pow_add_r by lia; f_equal; lia).
  assert (0 < 2 ^ (63 - Z.log2 x)) by (apply Z.pow_pos_nonneg; lia).
  rewrite Z.pow_succ_r in L2 by lia. change (2 ^ 63) with (B / 2) in E. change (B / 2) with 9223372036854775808 in E.
  unfold B. nia.
Qed.

(** The leading limb of the shifted divisor is the shifted leading limb plus carry-in. *)
Lemma last_shl s l : 0 < s < 64 -> Forall u64 l -> last l 0 * 2 ^ s < B ->
  last (shl_limbs s l) 0 >= last l 0 * 2 ^ s.
Proof.
  intros Hs Hl Hb.
  destruct l as [|x l]; [cbn; lia|]. cbn [shl_limbs]. rewrite last_cons in *.
  rewrite last_cons.
  revert x Hl Hb. induction l as [|y l IH]; intros x Hl Hb; inversion Hl as [|? ? Hx Hr]; subst.
  - cbn [shl_rest last] in *. unfold w64. rewrite Z.shiftl_mul_pow2 by lia.
    rewrite Z.mod_small; [lia|]. split; [|assumption]. apply Z.mul_nonneg_nonneg; [apply Hx|apply Z.pow_nonneg; lia].
  - cbn [shl_rest]. rewrite last_cons in *. rewrite last_cons. inversion Hr as [|? ? Hy Hr']; subst.
    destruct l as [|z l].
    + cbn [shl_rest last] in *. destruct (lor_shl y x s Hs Hy Hx) as [E _]. rewrite E.
      destruct (shl_low x s Hs Hx) as (_ & _ & R).
      destruct (shl_low y s Hs Hy) as (EW & _ & Ry).
      assert (Z.shiftr y (64 - s) = 0).
      { destruct (pow2_split s Hs) as (EB & P1 & P2). rewrite Z.shiftr_div_pow2 by lia.
        apply Z.div_small. split; [apply Hy|]. rewrite EB in Hb. rewrite Z.mul_comm in Hb.
        apply Z.mul_lt_mono_pos_l in Hb; lia. }
      lia.
    + specialize (IH y Hr). cbn [shl_rest] in *. rewrite last_cons in *. rewrite !last_cons in IH.
      rewrite last_cons. apply IH. exact Hb.
Qed.

Lemma last_nth (l : list Z) n : length l = S n -> last l 0 = nth n l 0.
Proof.
  revert l. induction n; intros l L.
  - destruct l as [|a [|? ?]]; try discriminate. reflexivity.
  - destruct l as [|a [|b l]]; try discriminate. change (last (a :: b :: l) 0) with (last (b :: l) 0).
    cbn [nth]. apply IHn. cbn in *. lia.
Qed.

Lemma lval_last_bound d n : Forall u64 d -> length d = S n -> last d 0 * BP n <= lval d.
Proof.
  intros H L. destruct (list_split_at d n 1 ltac:(lia)) as (x & y & -> & Lx & Ly).
  destruct y as [|t [|? ?]]; try discriminate. rewrite lval_app, Lx, last_last. cbn [lval].
  apply Forall_app in H. pose proof (lval_range x (proj1 H)). lia.
Qed.

(** The normalised operands. *)
Lemma normalise l d n2 m : Forall u64 l -> Forall u64 d -> length d = S (S n2) ->
  length l = (S (S n2) + m)%nat -> 0 < last d 0 ->
  let s := clz64 (last d 0) in
  exists num' d',
    (if 0 <? s then (shl_limbs s (firstn (S (S n2) + m) (l ++ [0])) ++
         [Z.shiftr (nth (S (S n2) + m - 1) (l ++ [0]) 0) (64 - s)], shl_limbs s d)
     else (l ++ [0], d)) = (num', d') /\
    Forall u64 num' /\ length num' = (m + S (S n2) + 1)%nat /\ lval num' = lval l * 2 ^ s /\
    Forall u64 d' /\ length d' = S (S n2) /\ lval d' = lval d * 2 ^ s /\ B <= 2 * nth (S n2) d' 0.
Proof.
  intros Hl Hd Ld Ll Hlast s.
  assert (Ulast : u64 (last d 0)) by (rewrite (last_nth d (S n2) Ld); apply nth_u64; assumption).
  destruct (clz64_spec (last d 0)) as (S1 & S2 & S3); [uB; lia|]. fold s in S1, S2, S3.
  destruct (Z.ltb_spec 0 s) as [Hs|Hs].
  - rewrite firstn_app, firstn_all2 by lia. replace (S (S n2) + m - length l)%nat with O by lia.
    rewrite firstn_O, app_nil_r. rewrite app_nth1 by lia.
    eexists _, _. split; [reflexivity|].
    destruct (shl_limbs_spec s l) as (A1 & A2 & A3); [lia|assumption|].
    destruct (shl_limbs_spec s d) as (E1 & E2 & E3); [lia|assumption|].
    assert (NL : nth (S (S n2) + m - 1) l 0 = last l 0).
    { symmetry. apply last_nth. lia. }
    rewrite NL.
    assert (UL : u64 (last l 0)) by (rewrite <- NL; apply nth_u64; assumption).
    destruct (shl_low (last l 0) s ltac:(lia) UL) as (_ & _ & R).
    destruct (pow2_split s ltac:(lia)) as (EB & P1 & P2).
    split. { apply Forall_app. split; [assumption|]. constructor; [|auto]. unfold u64. nia. }
    split. { rewrite app_length, A2, Ll. cbn. lia. }
    split. { rewrite lval_app, A2. cbn [lval]. lia. }
    split; [assumption|]. split; [congruence|].
    assert (Z0 : Z.shiftr (last d 0) (64 - s) = 0).
    { rewrite Z.shiftr_div_pow2 by lia. apply Z.div_small. split; [lia|].
      rewrite EB in S3. rewrite Z.mul_comm in S3. apply Z.mul_lt_mono_pos_l in S3; lia. }
    split. { rewrite Z0 in E3. lia. }
    pose proof (last_shl s d ltac:(lia) Hd S3) as LS.
    rewrite (last_nth (shl_limbs s d) (S n2)) in LS by congruence. lia.
  - assert (E0 : s = 0) by lia. rewrite E0, Z.pow_0_r, !Z.mul_1_r in *.
    eexists _, _. split; [reflexivity|].
    split. { apply Forall_app. split; [assumption|]. constructor; [apply u64_0|auto]. }
    split. { rewrite app_length, Ll. cbn. lia. }
    split. { rewrite lval_app. cbn [lval]. lia. }
    split; [assumption|]. split; [assumption|]. split; [reflexivity|].
    rewrite <- (last_nth d (S n2) Ld). exact S2.
Qed.

(** The leading step never clashes. *)
Lemma no_clash_top l d n2 m : Forall u64 l -> Forall u64 d -> length d = S (S n2) ->
  length l = (S (S n2) + m)%nat -> 0 < last d 0 ->
  let s := clz64 (last d 0) in
  let N := lval l * 2 ^ s in let D := lval d * 2 ^ s in
  N < BP (S m) * D /\ ((N / BP (S m)) mod D) / BP n2 <> D / BP n2.
Proof.
  intros Hl Hd Ld Ll Hlast s N D.
  assert (Ulast : u64 (last d 0)) by (rewrite (last_nth d (S n2) Ld); apply nth_u64; assumption).
  destruct (clz64_spec (last d 0)) as (S1 & S2 & S3); [uB; lia|]. fold s in S1, S2, S3.
  assert (Ps : 0 < 2 ^ s) by (apply Z.pow_pos_nonneg; lia).
  assert (Ps2 : 2 ^ s <= 2 ^ 63) by (apply Z.pow_le_mono_r; lia).
  pose proof (lval_range l Hl) as RN. rewrite Ll in RN.
  pose proof (lval_last_bound d (S n2) Hd Ld) as LB.
  pose proof (BP_pos n2) as Pn. pose proof (BP_pos m) as Pm.
  rewrite BP_add, !BP_S in RN. rewrite BP_S in LB.
  assert (HN : N < BP (S m) * D).
  { unfold N, D. rewrite BP_S.
    assert (lval l < B * BP m * lval d); [|nia].
    apply Z.lt_le_trans with (B * (B * BP n2) * BP m); [lia|].
    assert (PB : 0 < B * BP n2) by (unfold B in *; lia).
    assert (B * BP n2 <= lval d).
    { apply Z.le_trans with (last d 0 * (B * BP n2)); [|assumption].
      rewrite <- (Z.mul_1_l (B * BP n2)) at 1. apply Z.mul_le_mono_nonneg_r; lia. }
    replace (B * (B * BP n2) * BP m) with (B * BP m * (B * BP n2)) by ring.
    apply Z.mul_le_mono_nonneg_l; [|assumption]. unfold B in *. lia. }
  split; [exact HN|].
  assert (N0 : 0 <= N) by (unfold N; nia).
  assert (D0 : 0 < D) by (unfold D, B in *; nia).
  rewrite (Z.mod_small (N / BP (S m))).
  2: { split; [apply Z.div_pos; [lia|apply BP_pos]|]. apply Z.div_lt_upper_bound; [apply BP_pos|]. lia. }
  rewrite Z.div_div by (pose proof (BP_pos (S m)); lia).
  assert (L1 : N / (BP (S m) * BP n2) < 2 ^ 63 * B).
  { apply Z.div_lt_upper_bound; [pose proof (BP_pos (S m)); nia|]. rewrite BP_S.
    apply Z.lt_le_trans with (B * (B * BP n2) * BP m * 2 ^ s); [unfold N; nia|].
    replace (B * BP m * BP n2 * (2 ^ 63 * B)) with (B * (B * BP n2) * BP m * 2 ^ 63) by ring.
    apply Z.mul_le_mono_nonneg_l; [|assumption]. unfold B in *. nia. }
  assert (L2 : 2 ^ 63 * B <= D / BP n2).
  { apply Z.div_le_lower_bound; [lia|]. unfold D.
    assert (B <= 2 * (last d 0 * 2 ^ s)) by lia.
    assert (last d 0 * 2 ^ s * (B * BP n2) <= lval d * 2 ^ s) by nia.
    assert (2 ^ 63 * (B * BP n2) <= last d 0 * 2 ^ s * (B * BP n2)).
    { apply Z.mul_le_mono_nonneg_r; [unfold B in *; nia|]. change B with (2 * 2 ^ 63) in H. lia. }
    lia. }
  lia.
Qed.

Definition clash_free (N D : Z) (n2 m : nat) : Prop :=
  forall k, (k < m)%nat -> ((N / BP (S k)) mod D) / BP n2 <> D / BP n2.

Lemma divrem_nbym_spec dbg l d n2 m : Forall u64 l -> Forall u64 d -> length d = S (S n2) ->
  length l = (S (S n2) + m)%nat -> 0 < last d 0 ->
  let s := clz64 (last d 0) in
  clash_free (lval l * 2 ^ s) (lval d * 2 ^ s) n2 m ->
  exists R Q, divrem_nbym dbg (l ++ [0]) d = Some (R ++ Q) /\
    Forall u64 R /\ Forall u64 Q /\ length R = S (S n2) /\ length Q = S m /\
    lval l = lval Q * lval d + lval R /\ lval R < lval d.
Proof.
  intros Hl Hd Ld Ll Hlast s Hc. unfold divrem_nbym.
  rewrite Ld, app_length, Ll, last_last. cbn [length].
  rewrite dassert_true by reflexivity.
  rewrite dassert_true by (apply Nat.ltb_lt; lia).
  rewrite dassert_true by (apply Z.ltb_lt; lia).
  rewrite dassert_true by reflexivity. cbn [bind].
  replace (S (S n2) + m + 1 - S (S n2) - 1)%nat with m by lia.
  replace (S (S n2) - 1)%nat with (S n2) by lia.
  rewrite <- (last_nth d (S n2) Ld). fold s.
  destruct (normalise l d n2 m Hl Hd Ld Ll Hlast) as (num' & d' & E & Hn & Ln & Vn & Hd' & Ld' & Vd & Nd).
  fold s in E, Vn, Vd. rewrite E. cbv zeta.
  destruct (no_clash_top l d n2 m Hl Hd Ld Ll Hlast) as [T1 T2]. fold s in T1, T2.
  destruct (digit_loop_spec d' Hd' n2 Ld' Nd dbg m num' []) as (R & Q & EL & HR & HQ & LR & LQ & VQ & RQ); auto.
  { rewrite Vn, Vd. exact T1. }
  { intros k Hk. unfold clash. rewrite Vn, Vd. destruct (Nat.eq_dec k m) as [->|]; [exact T2|].
    apply Hc. lia. }
  rewrite app_nil_r in EL. rewrite EL, app_nil_r. cbn [bind].
  rewrite Vn, Vd in VQ. rewrite Vd in RQ.
  assert (Ulast : u64 (last d 0)) by (rewrite (last_nth d (S n2) Ld); apply nth_u64; assumption).
  destruct (clz64_spec (last d 0)) as (S1 & S2 & S3); [uB; lia|]. fold s in S1, S2, S3.
  assert (Ps : 0 < 2 ^ s) by (apply Z.pow_pos_nonneg; lia).
  assert (VR : lval R = (lval l - lval Q * lval d) * 2 ^ s) by nia.
  destruct (Z.ltb_spec 0 s) as [Hs|Hs].
  - rewrite firstn_app, <- LR, firstn_all, Nat.sub_diag, firstn_O, app_nil_r.
    rewrite skipn_app, skipn_all, Nat.sub_diag, skipn_O, app_nil_l.
    destruct (shr_limbs_spec s R) as (W1 & W2 & W3); [lia|assumption|].
    rewrite VR, Z.div_mul in W3 by lia.
    exists (shr_limbs s R), Q. split; [reflexivity|]. split; [assumption|]. split; [assumption|].
    split; [congruence|]. split; [assumption|]. split; [lia|].
    rewrite W3. apply Z.mul_lt_mono_pos_r with (p := 2 ^ s); lia.
  - assert (E0 : s = 0) by lia. rewrite E0, Z.pow_0_r, !Z.mul_1_r in *.
    exists R, Q. repeat split; auto; lia.
Qed.

Lemma divrem_nbym_panics l d n2 m : Forall u64 l -> Forall u64 d -> length d = S (S n2) ->
  length l = (S (S n2) + m)%nat -> 0 < last d 0 ->
  let s := clz64 (last d 0) in
  (exists k, (k < m)%nat /\ ((lval l * 2 ^ s / BP (S k)) mod (lval d * 2 ^ s)) / BP n2 = (lval d * 2 ^ s) / BP n2) ->
  divrem_nbym true (l ++ [0]) d = None.
Proof.
  intros Hl Hd Ld Ll Hlast s (k & Hk & Hc). unfold divrem_nbym.
  rewrite Ld, app_length, Ll, last_last. cbn [length].
  rewrite dassert_true by reflexivity.
  rewrite dassert_true by (apply Nat.ltb_lt; lia).
  rewrite dassert_true by (apply Z.ltb_lt; lia).
  rewrite dassert_true by reflexivity. cbn [bind].
  replace (S (S n2) + m + 1 - S (S n2) - 1)%nat with m by lia.
  replace (S (S n2) - 1)%nat with (S n2) by lia.
  rewrite <- (last_nth d (S n2) Ld). fold s.
  destruct (normalise l d n2 m Hl Hd Ld Ll Hlast) as (num' & d' & E & Hn & Ln & Vn & Hd' & Ld' & Vd & Nd).
  fold s in E, Vn, Vd. rewrite E. cbv zeta.
  destruct (no_clash_top l d n2 m Hl Hd Ld Ll Hlast) as [T1 T2]. fold s in T1, T2.
  pose proof (digit_loop_panics d' Hd' n2 Ld' Nd m num' []) as EL. rewrite app_nil_r in EL.
  rewrite EL; auto.
  { rewrite Vn, Vd. exact T1. }
  { exists k. split; [lia|]. unfold clash. rewrite Vn, Vd. exact Hc. }
Qed.

(** ** Arithmetic description of the clash *)
Definition limbs_of (y : Z) : Z := Z.log2 y / 64 + 1.
Definition shift_of (y : Z) : Z := 64 * limbs_of y - 1 - Z.log2 y.

(** [total]: number of limbs of the dividend. *)
Definition knuth_clash (total x y : Z) : Prop :=
  3 <= limbs_of y /\ exists k, 0 <= k < total - limbs_of y /\
    ((x * 2 ^ shift_of y / 2 ^ (64 * (k + 1))) mod (y * 2 ^ shift_of y)) / 2 ^ (64 * (limbs_of y - 2))
    = (y * 2 ^ shift_of y) / 2 ^ (64 * (limbs_of y - 2)).

Lemma BP_pow n : BP n = 2 ^ (64 * Z.of_nat n).
Proof. unfold BP. rewrite Z.pow_mul_r by lia. reflexivity. Qed.

Lemma limbs_shift d n : Forall u64 d -> length d = S n -> 0 < last d 0 ->
  limbs_of (lval d) = Z.of_nat (S n) /\ shift_of (lval d) = clz64 (last d 0) /\ 0 < lval d.
Proof.
  intros Hd Ld Hl. pose proof (lval_last_bound d n Hd Ld) as LB.
  assert (UB : lval d < (last d 0 + 1) * BP n).
  { destruct (list_split_at d n 1 ltac:(lia)) as (x & y & -> & Lx & Ly).
    destruct y as [|t [|? ?]]; try discriminate. rewrite lval_app, Lx, last_last in *. cbn [lval] in *.
    apply Forall_app in Hd. pose proof (lval_range x (proj1 Hd)) as R. rewrite Lx in R. lia. }
  pose proof (BP_pos n) as Pn.
  assert (UL : last d 0 < B). { rewrite (last_nth d n Ld). apply nth_u64. assumption. }
  destruct (Z.log2_spec (last d 0) Hl) as [L1 L2].
  pose proof (Z.log2_nonneg (last d 0)) as L0.
  assert (L3 : Z.log2 (last d 0) < 64) by (apply Z.log2_lt_pow2; [lia|exact UL]).
  assert (EL : Z.log2 (lval d) = 64 * Z.of_nat n + Z.log2 (last d 0)).
  { apply Z.log2_unique; [lia|]. rewrite Z.add_comm, <- Z.add_succ_l, !Z.pow_add_r by lia.
    rewrite <- BP_pow. nia. }
  unfold shift_of, limbs_of. rewrite EL.
  assert (EQ : (64 * Z.of_nat n + Z.log2 (last d 0)) / 64 = Z.of_nat n).
  { symmetry. apply Z.div_unique with (r := Z.log2 (last d 0)); lia. }
  rewrite EQ. unfold clz64. destruct (Z.eqb_spec (last d 0) 0); [lia|]. nia.
Qed.

Lemma clash_iff l d n2 m : (1 <= n2)%nat -> Forall u64 d -> length d = S (S n2) -> 0 < last d 0 ->
  let s := clz64 (last d 0) in
  ((exists k, (k < m)%nat /\ ((lval l * 2 ^ s / BP (S k)) mod (lval d * 2 ^ s)) / BP n2 = (lval d * 2 ^ s) / BP n2)
  <-> knuth_clash (Z.of_nat (S (S n2) + m)) (lval l) (lval d)).
Proof.
  intros Hn2 Hd Ld Hl s. destruct (limbs_shift d (S n2) Hd Ld Hl) as (E1 & E2 & P).
  unfold knuth_clash. rewrite E1, E2. fold s. split.
  - intros (k & Hk & H). split; [lia|]. exists (Z.of_nat k). split; [lia|]. rewrite !BP_pow in H.
    replace (64 * (Z.of_nat k + 1)) with (64 * Z.of_nat (S k)) by lia.
    replace (64 * (Z.of_nat (S (S n2)) - 2)) with (64 * Z.of_nat n2) by lia. exact H.
  - intros (_ & k & Hk & H). exists (Z.to_nat k). split; [lia|]. rewrite !BP_pow.
    replace (64 * (k + 1)) with (64 * Z.of_nat (S (Z.to_nat k))) in H by lia.
    replace (64 * (Z.of_nat (S (S n2)) - 2)) with (64 * Z.of_nat n2) in H by lia. exact H.
Qed.

(** Divisors of at most two limbs never clash. *)
Lemma no_clash_small total x y : 0 < y < 2 ^ 128 -> ~ knuth_clash total x y.
Proof.
  intros Hy (H & _).
  assert (L : Z.log2 y < 128) by (apply Z.log2_lt_pow2; lia).
  unfold limbs_of in H. assert (Z.log2 y / 64 < 2) by (apply Z.div_lt_upper_bound; lia). lia.
Qed.
Lemma clash_free_0 N D m : 0 < D -> clash_free N D 0 m.
Proof.
  intros HD k Hk E. rewrite BP_0, !Z.div_1_r in E.
  pose proof (Z.mod_pos_bound (N / BP (S k)) D HD). lia.
Qed.

(** ** U256 division *)
Lemma u_div_rem_u64_spec x d : wf x -> u64 d -> 0 < d ->
  exists q r, u_div_rem_u64 x d = Some (Some (q, r)) /\ wf q /\ 0 <= r < d /\ val x = val q * d + r.
Proof.
  intros (H0 & H1 & H2 & H3) Hd Hp. unfold u_div_rem_u64.
  destruct (Z.eqb_spec d 0); [lia|].
  destruct (div_2_1_spec (l3 x) 0 d) as (q3 & r3 & E3 & U3 & R3 & V3); auto using u64_0. rewrite E3. cbn [bind].
  destruct (div_2_1_spec (l2 x) r3 d) as (q2 & r2 & E2 & U2 & R2 & V2); auto; [uB; lia|lia|]. rewrite E2. cbn [bind].
  destruct (div_2_1_spec (l1 x) r2 d) as (q1 & r1 & E1 & U1 & R1 & V1); auto; [uB; lia|lia|]. rewrite E1. cbn [bind].
  destruct (div_2_1_spec (l0 x) r1 d) as (q0 & r0 & E0 & U0 & R0 & V0); auto; [uB; lia|lia|]. rewrite E0. cbn [bind].
  exists (mk q0 q1 q2 q3), r0. split; [reflexivity|]. split; [unfold wf; cbn; auto|]. split; [lia|].
  rewrite !val_B. cbn [l0 l1 l2 l3]. nia.
Qed.

Lemma list4 (l : list Z) : length l = 4%nat -> exists a b c d, l = [a; b; c; d].
Proof. destruct l as [|a [|b [|c [|d [|? ?]]]]]; try discriminate. eauto. Qed.
Lemma list3 (l : list Z) : length l = 3%nat -> exists a b c, l = [a; b; c].
Proof. destruct l as [|a [|b [|c [|? ?]]]]; try discriminate. eauto. Qed.
Lemma list2 (l : list Z) : length l = 2%nat -> exists a b, l = [a; b].
Proof. destruct l as [|a [|b [|? ?]]]; try discriminate. eauto. Qed.
Lemma list1 (l : list Z) : length l = 1%nat -> exists a, l = [a].
Proof. destruct l as [|a [|? ?]]; try discriminate. eauto. Qed.

Ltac inv_forall := repeat match goal with
  | H : Forall _ (_ :: _) |- _ => inversion H; clear H; subst
  | H : Forall _ [] |- _ => clear H end.
Ltac lists := repeat match goal with
  | H : length ?l = 1%nat |- _ => destruct (list1 l H) as (? & ->); clear H
  | H : length ?l = 2%nat |- _ => destruct (list2 l H) as (? & ? & ->); clear H
  | H : length ?l = 3%nat |- _ => destruct (list3 l H) as (? & ? & ? & ->); clear H
  | H : length ?l = 4%nat |- _ => destruct (list4 l H) as (? & ? & ? & ? & ->); clear H end.

Ltac fl := repeat (apply Forall_cons; [assumption|]); apply Forall_nil.

Definition div_ok (dbg : bool) (x y : u256) : Prop :=
  exists q r, u_div_rem dbg x y = Some (Some (q, r)) /\ wf q /\ wf r /\
    val x = val q * val y + val r /\ val r < val y.

Lemma u_div_rem_spec dbg x y : wf x -> wf y -> 0 < val y ->
  ~ knuth_clash 4 (val x) (val y) -> div_ok dbg x y.
Proof.
  intros (H0 & H1 & H2 & H3) (G0 & G1 & G2 & G3) Hp Hc. unfold div_ok, u_div_rem.
  rewrite (val_B x), (val_B y) in *. set (X := [l0 x; l1 x; l2 x; l3 x]).
  assert (EX : lval X = l0 x + B * l1 x + B * B * l2 x + B * B * B * l3 x) by (cbn [X lval]; ring).
  rewrite <- EX in *.
  assert (HX : Forall u64 X) by fl.
  change [l0 x; l1 x; l2 x; l3 x; 0] with (X ++ [0]).
  destruct (Z.ltb_spec 0 (l3 y)) as [P3|P3].
  { set (Y := [l0 y; l1 y; l2 y; l3 y]).
    assert (HY : Forall u64 Y) by fl.
    assert (EY : lval Y = l0 y + B * l1 y + B * B * l2 y + B * B * B * l3 y) by (cbn [Y lval]; ring).
    rewrite <- EY in *.
    destruct (divrem_nbym_spec dbg X Y 2 0) as (R & Q & E & UR & UQ & LR & LQ & V & L); auto.
    { intros k Hk. lia. }
    rewrite E. cbn [bind]. lists. inv_forall. cbn [at_ nth app].
    eexists _, _. split; [reflexivity|]. unfold at_; cbn [nth].
    split; [unfold wf; cbn [l0 l1 l2 l3]; auto 10 using u64_0|].
    split; [unfold wf; cbn [l0 l1 l2 l3]; auto 10 using u64_0|].
    rewrite !val_B. cbn [l0 l1 l2 l3]. cbn [lval] in V, L. split; [nia|lia]. }
  assert (E3 : l3 y = 0) by (uB; lia). rewrite E3 in *.
  destruct (Z.ltb_spec 0 (l2 y)) as [P2|P2].
  { set (Y := [l0 y; l1 y; l2 y]).
    assert (HY : Forall u64 Y) by fl.
    assert (EY : lval Y = l0 y + B * l1 y + B * B * l2 y + B * B * B * 0) by (cbn [Y lval]; ring).
    rewrite <- EY in *.
    destruct (divrem_nbym_spec dbg X Y 1 1) as (R & Q & E & UR & UQ & LR & LQ & V & L); auto.
    { intros k Hk E. apply Hc. change 4 with (Z.of_nat (3 + 1)).
      apply clash_iff; auto. exists k. auto. }
    rewrite E. cbn [bind]. lists. inv_forall. cbn [app]. unfold at_; cbn [nth].
    eexists _, _. split; [reflexivity|].
    split; [unfold wf; cbn [l0 l1 l2 l3]; auto 10 using u64_0|].
    split; [unfold wf; cbn [l0 l1 l2 l3]; auto 10 using u64_0|].
    rewrite !val_B. cbn [l0 l1 l2 l3]. cbn [lval] in V, L. split; [nia|lia]. }
  assert (E2 : l2 y = 0) by (uB; lia). rewrite E2 in *.
  destruct (Z.ltb_spec 0 (l1 y)) as [P1|P1].
  { set (Y := [l0 y; l1 y]).
    assert (HY : Forall u64 Y) by fl.
    assert (EY : lval Y = l0 y + B * l1 y + B * B * 0 + B * B * B * 0) by (cbn [Y lval]; ring).
    rewrite <- EY in *.
    destruct (divrem_nbym_spec dbg X Y 0 2) as (R & Q & E & UR & UQ & LR & LQ & V & L); auto.
    { apply clash_free_0. apply Z.mul_pos_pos; [lia|]. apply Z.pow_pos_nonneg; [lia|].
      change (last Y 0) with (l1 y). apply clz64_spec. uB; lia. }
    rewrite E. cbn [bind]. lists. inv_forall. cbn [app]. unfold at_; cbn [nth].
    eexists _, _. split; [reflexivity|].
    split; [unfold wf; cbn [l0 l1 l2 l3]; auto 10 using u64_0|].
    split; [unfold wf; cbn [l0 l1 l2 l3]; auto 10 using u64_0|].
    rewrite !val_B. cbn [l0 l1 l2 l3]. cbn [lval] in V, L. split; [nia|lia]. }
  assert (E1 : l1 y = 0) by (uB; lia). rewrite E1 in *.
  destruct (Z.ltb_spec 0 (l0 y)) as [P0|P0]; [|lia].
  destruct (divrem_nby1_spec dbg (X ++ [0]) (l0 y)) as (q & r & E & Uq & Lq & R & V); auto.
  { apply Forall_app. split; [assumption|]. constructor; [apply u64_0|constructor]. }
  rewrite E. cbn [bind]. cbn [X app length] in Lq. destruct q as [|q0 [|q1 [|q2 [|q3 [|q4 [|? ?]]]]]]; try discriminate.
  pose proof (lval_range X HX) as RX. change (length X) with 4%nat in RX.
  change [q0; q1; q2; q3; q4] with ([q0; q1; q2; q3] ++ [q4]) in Uq, V.
  apply Forall_app in Uq. destruct Uq as [Uq Uq4].
  pose proof (lval_range _ Uq) as Rq. inv_forall. unfold at_; cbn [nth].
  rewrite !lval_app in V. cbn [length] in V. change (length X) with 4%nat in V.
  cbn [length] in Rq. change (lval [0]) with 0 in V. change (lval [q4]) with (q4 + B * 0) in V.
  pose proof (BP_pos 4) as P4.
  assert (q4 = 0).
  { match goal with H : u64 q4 |- _ => destruct H as [Hq _] end.
    destruct (Z_le_gt_dec q4 0); [lia|]. exfalso.
    assert (BP 4 * 1 <= BP 4 * q4) by (apply Z.mul_le_mono_nonneg_l; lia).
    assert ((lval [q0; q1; q2; q3] + BP 4 * q4) * 1 <= (lval [q0; q1; q2; q3] + BP 4 * q4) * l0 y)
      by (apply Z.mul_le_mono_nonneg_l; lia).
    rewrite !Z.mul_0_r, !Z.add_0_r in V. lia. }
  subst q4. rewrite ?Z.mul_0_r, ?Z.add_0_r, ?Z.mul_0_r, ?Z.add_0_r in V.
  eexists _, _. split; [reflexivity|].
  split; [unfold wf; cbn [l0 l1 l2 l3]; auto|].
  split; [unfold wf; cbn [l0 l1 l2 l3]; repeat split; uB; lia|].
  rewrite V, !val_B. cbn [l0 l1 l2 l3 lval]. split; [ring|lia].
Qed.

(** In a debug build a clash panics. *)
Lemma u_div_rem_panics x y : wf x -> wf y -> 0 < val y ->
  knuth_clash 4 (val x) (val y) -> u_div_rem true x y = None.
Proof.
  intros (H0 & H1 & H2 & H3) (G0 & G1 & G2 & G3) Hp Hc. unfold u_div_rem.
  pose proof (val_range y (conj G0 (conj G1 (conj G2 G3)))) as Ry.
  rewrite (val_B x), (val_B y) in *. set (X := [l0 x; l1 x; l2 x; l3 x]).
  assert (EX : lval X = l0 x + B * l1 x + B * B * l2 x + B * B * B * l3 x) by (cbn [X lval]; ring).
  rewrite <- EX in *.
  assert (HX : Forall u64 X) by fl. pose proof (lval_range X HX) as RX.
  change [l0 x; l1 x; l2 x; l3 x; 0] with (X ++ [0]).
  destruct (Z.ltb_spec 0 (l3 y)) as [P3|P3].
  { exfalso. set (Y := [l0 y; l1 y; l2 y; l3 y]) in *.
    assert (HY : Forall u64 Y) by fl.
    assert (EY : lval Y = l0 y + B * l1 y + B * B * l2 y + B * B * B * l3 y) by (cbn [Y lval]; ring).
    rewrite <- EY in *. change 4 with (Z.of_nat (4 + 0)) in Hc. apply clash_iff in Hc; auto.
    destruct Hc as (k & Hk & _). lia. }
  assert (E3 : l3 y = 0) by (uB; lia). rewrite E3 in *.
  destruct (Z.ltb_spec 0 (l2 y)) as [P2|P2].
  { set (Y := [l0 y; l1 y; l2 y]).
    assert (HY : Forall u64 Y) by fl.
    assert (EY : lval Y = l0 y + B * l1 y + B * B * l2 y + B * B * B * 0) by (cbn [Y lval]; ring).
    rewrite <- EY in *.
    rewrite (divrem_nbym_panics X Y 1 1); auto.
    change 4 with (Z.of_nat (3 + 1)) in Hc. apply clash_iff in Hc; auto. }
  assert (E2 : l2 y = 0) by (uB; lia). rewrite E2 in *.
  exfalso. revert Hc. apply no_clash_small. uB; lia.
Qed.

(** ** mulmod *)
Lemma at_app1 (R Q : list Z) i : (i < length R)%nat -> at_ (R ++ Q) i = nth i R 0.
Proof. intros. apply app_nth1. assumption. Qed.

Definition mulmod_ok (dbg : bool) (x y m : u256) : Prop :=
  exists r, u_mulmod dbg x y m = Some r /\ wf r /\ val r = (val x * val y) mod val m.

Lemma u_mulmod_spec dbg x y m : wf x -> wf y -> wf m -> 0 < val m ->
  ~ knuth_clash 8 (val x * val y) (val m) -> mulmod_ok dbg x y m.
Proof.
  intros Hx Hy (G0 & G1 & G2 & G3) Hp Hc. unfold mulmod_ok, u_mulmod.
  destruct (u_mul_full_spec x y Hx Hy) as (L1 & L2 & L3).
  destruct (u_mul_full x y) as [lo hi]. cbn [fst snd] in *.
  destruct L1 as (A0 & A1 & A2 & A3), L2 as (A4 & A5 & A6 & A7).
  set (X := [l0 lo; l1 lo; l2 lo; l3 lo; l0 hi; l1 hi; l2 hi; l3 hi]).
  assert (HX : Forall u64 X) by fl.
  assert (EX : lval X = val x * val y).
  { rewrite <- L3, !val_B, W_B. cbn [X lval]. ring. }
  rewrite <- EX in *. rewrite (val_B m) in *.
  change [l0 lo; l1 lo; l2 lo; l3 lo; l0 hi; l1 hi; l2 hi; l3 hi; 0] with (X ++ [0]).
  destruct (Z.ltb_spec 0 (l3 m)) as [P3|P3].
  { set (Y := [l0 m; l1 m; l2 m; l3 m]).
    assert (HY : Forall u64 Y) by fl.
    assert (EY : lval Y = l0 m + B * l1 m + B * B * l2 m + B * B * B * l3 m) by (cbn [Y lval]; ring).
    rewrite <- EY in *.
    destruct (divrem_nbym_spec dbg X Y 2 4) as (R & Q & E & UR & UQ & LR & LQ & V & L); auto.
    { intros k Hk E. apply Hc. change 8 with (Z.of_nat (4 + 4)). apply clash_iff; auto. exists k. auto. }
    rewrite E. cbn [bind]. pose proof (lval_range R UR) as RR. lists. inv_forall. unfold at_; cbn [nth app].
    eexists. split; [reflexivity|]. split; [unfold wf; cbn [l0 l1 l2 l3]; auto|].
    rewrite V, Z.add_comm, Z_mod_plus_full, Z.mod_small by lia.
    rewrite !val_B. cbn [l0 l1 l2 l3 lval]. ring. }
  assert (E3 : l3 m = 0) by (uB; lia). rewrite E3 in *.
  destruct (Z.ltb_spec 0 (l2 m)) as [P2|P2].
  { set (Y := [l0 m; l1 m; l2 m]).
    assert (HY : Forall u64 Y) by fl.
    assert (EY : lval Y = l0 m + B * l1 m + B * B * l2 m + B * B * B * 0) by (cbn [Y lval]; ring).
    rewrite <- EY in *.
    destruct (divrem_nbym_spec dbg X Y 1 5) as (R & Q & E & UR & UQ & LR & LQ & V & L); auto.
    { intros k Hk E. apply Hc. change 8 with (Z.of_nat (3 + 5)). apply clash_iff; auto. exists k. auto. }
    rewrite E. cbn [bind]. pose proof (lval_range R UR) as RR. lists. inv_forall. unfold at_; cbn [nth app].
    eexists. split; [reflexivity|]. split; [unfold wf; cbn [l0 l1 l2 l3]; auto using u64_0|].
    rewrite V, Z.add_comm, Z_mod_plus_full, Z.mod_small by lia.
    rewrite !val_B. cbn [l0 l1 l2 l3 lval]. ring. }
  assert (E2 : l2 m = 0) by (uB; lia). rewrite E2 in *.
  destruct (Z.ltb_spec 0 (l1 m)) as [P1|P1].
  { set (Y := [l0 m; l1 m]).
    assert (HY : Forall u64 Y) by fl.
    assert (EY : lval Y = l0 m + B * l1 m + B * B * 0 + B * B * B * 0) by (cbn [Y lval]; ring).
    rewrite <- EY in *.
    destruct (divrem_nbym_spec dbg X Y 0 6) as (R & Q & E & UR & UQ & LR & LQ & V & L); auto.
    { apply clash_free_0. apply Z.mul_pos_pos; [lia|]. apply Z.pow_pos_nonneg; [lia|].
      change (last Y 0) with (l1 m). apply clz64_spec. uB; lia. }
    rewrite E. cbn [bind]. pose proof (lval_range R UR) as RR. lists. inv_forall. unfold at_; cbn [nth app].
    eexists. split; [reflexivity|]. split; [unfold wf; cbn [l0 l1 l2 l3]; auto using u64_0|].
    rewrite V, Z.add_comm, Z_mod_plus_full, Z.mod_small by lia.
    rewrite !val_B. cbn [l0 l1 l2 l3 lval]. ring. }
  assert (E1 : l1 m = 0) by (uB; lia). rewrite E1 in *.
  destruct (Z.ltb_spec 0 (l0 m)) as [P0|P0]; [|lia].
  destruct (divrem_nby1_spec dbg (X ++ [0]) (l0 m)) as (q & r & E & Uq & Lq & R & V); auto.
  { apply Forall_app. split; [assumption|]. constructor; [apply u64_0|constructor]. }
  rewrite E. cbn [bind]. eexists. split; [reflexivity|].
  split; [unfold wf; cbn [l0 l1 l2 l3]; repeat split; uB; lia|].
  rewrite lval_app in V. change (lval [0]) with 0 in V. rewrite Z.mul_0_r, Z.add_0_r in V.
  rewrite !Z.mul_0_r, !Z.add_0_r. rewrite V, Z.add_comm, Z_mod_plus_full, Z.mod_small by lia.
  rewrite !val_B. cbn [l0 l1 l2 l3]. ring.
Qed.

Lemma u_mulmod_panics x y m : wf x -> wf y -> wf m -> 0 < val m ->
  knuth_clash 8 (val x * val y) (val m) -> u_mulmod true x y m = None.
Proof.
  intros Hx Hy (G0 & G1 & G2 & G3) Hp Hc. unfold u_mulmod.
  destruct (u_mul_full_spec x y Hx Hy) as (L1 & L2 & L3).
  destruct (u_mul_full x y) as [lo hi]. cbn [fst snd] in *.
  destruct L1 as (A0 & A1 & A2 & A3), L2 as (A4 & A5 & A6 & A7).
  set (X := [l0 lo; l1 lo; l2 lo; l3 lo; l0 hi; l1 hi; l2 hi; l3 hi]).
  assert (HX : Forall u64 X) by fl.
  assert (EX : lval X = val x * val y).
  { rewrite <- L3, !val_B, W_B. cbn [X lval]. ring. }
  rewrite <- EX in *. rewrite (val_B m) in *.
  change [l0 lo; l1 lo; l2 lo; l3 lo; l0 hi; l1 hi; l2 hi; l3 hi; 0] with (X ++ [0]).
  destruct (Z.ltb_spec 0 (l3 m)) as [P3|P3].
  { set (Y := [l0 m; l1 m; l2 m; l3 m]).
    assert (HY : Forall u64 Y) by fl.
    assert (EY : lval Y = l0 m + B * l1 m + B * B * l2 m + B * B * B * l3 m) by (cbn [Y lval]; ring).
    rewrite <- EY in *.
    rewrite (divrem_nbym_panics X Y 2 4); auto.
    change 8 with (Z.of_nat (4 + 4)) in Hc. apply clash_iff in Hc; auto. }
  assert (E3 : l3 m = 0) by (uB; lia). rewrite E3 in *.
  destruct (Z.ltb_spec 0 (l2 m)) as [P2|P2].
  { set (Y := [l0 m; l1 m; l2 m]).
    assert (HY : Forall u64 Y) by fl.
    assert (EY : lval Y = l0 m + B * l1 m + B * B * l2 m + B * B * B * 0) by (cbn [Y lval]; ring).
    rewrite <- EY in *.
    rewrite (divrem_nbym_panics X Y 1 5); auto.
    change 8 with (Z.of_nat (3 + 5)) in Hc. apply clash_iff in Hc; auto. }
  assert (E2 : l2 m = 0) by (uB; lia). rewrite E2 in *.
  exfalso. revert Hc. apply no_clash_small. uB; lia.
Qed.
