(** [lehmer_double] returns a step of Euclid's algorithm: proofs for C06, C07. *)
Require Import ZArith Lia Bool List Arith.
From Verif Require Import Word U256Model U256Spec U256Proofs BinaryModel BinaryProofs KnuthModel LehmerModel LehmerSpec LehmerProofs LehmerLoop.
Import ListNotations.
Open Scope Z_scope.

Lemma mat_mul_spec a b x y z w : wf a -> wf b -> u64 x -> u64 y -> u64 z -> u64 w ->
  wf (fst (mat_mul a b x y z w)) /\ wf (snd (mat_mul a b x y z w)) /\
  val (fst (mat_mul a b x y z w)) = (x * val a - y * val b) mod W /\ val (snd (mat_mul a b x y z w)) = (w * val b - z * val a) mod W.
Proof.
  intros (H0 & H1 & H2 & H3) (G0 & G1 & G2 & G3) Hx Hy Hz Hw. unfold mat_mul. steps. cbn [fst snd].
  match goal with |- wf ?r /\ wf ?s /\ _ => assert (W1 : wf r) by (repeat split; simpl; uB; lia); assert (W2 : wf s) by (repeat split; simpl; uB; lia) end.
  split; [exact W1|]. split; [exact W2|]. apply val_range in W1, W2. revert W1 W2. rewrite !val_B, W_B. cbn [l0 l1 l2 l3]. intros W1 W2.
  split.
  - apply mod_eq with (q := c5 - c13); [exact W1|]. clear - E E1 E3 E5 E7 E9 E11 E13. unfold B in *. lia.
  - apply mod_eq with (q := c6 - c14); [exact W2|]. clear - E0 E2 E4 E6 E8 E10 E12 E14. unfold B in *. lia.
Qed.

(** The entries of the matrix of a list of quotients are words as soon as the largest is. *)
Lemma entries_u64 qs : pos qs -> cv1 (cof qs) < B -> cu1 (cof qs) < B ->
  u64 (cu0 (cof qs)) /\ u64 (cv0 (cof qs)) /\ u64 (cu1 (cof qs)) /\ u64 (cv1 (cof qs)).
Proof.
  intros Hp Hv Hu. destruct (cof_pos qs Hp) as (P0 & P1 & P2 & P3 & P4 & P5). unfold u64.
  destruct qs; [cbn; uB; lia|]. destruct (P5 ltac:(discriminate)) as (P6 & P7 & P8 & P9 & P10). lia.
Qed.
Lemma update_spec a b qs : wf a -> wf b -> pos qs -> cv1 (cof qs) < B -> cu1 (cof qs) < B ->
  wf (fst (lehmer_update a b (mx qs))) /\ wf (snd (lehmer_update a b (mx qs))) /\
  val (fst (lehmer_update a b (mx qs))) = fst (rem qs (val a) (val b)) mod W /\
  val (snd (lehmer_update a b (mx qs))) = snd (rem qs (val a) (val b)) mod W.
Proof.
  intros Ha Hb Hp Hv Hu. destruct (entries_u64 qs Hp Hv Hu) as (U0 & V0 & U1 & V1).
  unfold lehmer_update, mx. cbn [evenp q00 q01 q10 q11]. rewrite (rem_lin qs). destruct (par qs).
  - apply mat_mul_spec; assumption.
  - destruct (mat_mul_spec a b _ _ _ _ Ha Hb U1 V1 U0 V0) as (W1 & W2 & E1 & E2).
    destruct (mat_mul a b (cu1 (cof qs)) (cv1 (cof qs)) (cu0 (cof qs)) (cv0 (cof qs))) as [x y]. cbn [fst snd] in *. auto.
Qed.
Lemma rem_bound qs R0 R1 : pos qs -> 0 <= R1 <= R0 -> 0 <= snd (rem qs R0 R1) -> 0 <= fst (rem qs R0 R1) -> fst (rem qs R0 R1) <= R0.
Proof.
  intros Hp HR H1 H2. destruct (rem_inv qs R0 R1) as [I1 _]. destruct (cof_pos qs Hp) as (P0 & P1 & P2 & P3 & _). nia.
Qed.
Lemma update_rem a b qs : wf a -> wf b -> val b <= val a -> pos qs -> cv1 (cof qs) < B -> cu1 (cof qs) < B ->
  0 <= snd (rem qs (val a) (val b)) < fst (rem qs (val a) (val b)) ->
  exists a' b', lehmer_update a b (mx qs) = (a', b') /\ wf a' /\ wf b' /\ val a' = fst (rem qs (val a) (val b)) /\ val b' = snd (rem qs (val a) (val b)).
Proof.
  intros Ha Hb Hab Hp Hv Hu Ho. destruct (update_spec a b qs Ha Hb Hp Hv Hu) as (W1 & W2 & E1 & E2).
  pose proof (val_range a Ha). pose proof (val_range b Hb). pose proof (rem_bound qs (val a) (val b) Hp ltac:(lia) ltac:(lia) ltac:(lia)).
  rewrite Z.mod_small in E1 by lia. rewrite Z.mod_small in E2 by lia.
  destruct (lehmer_update a b (mx qs)) as [a' b']. exists a', b'. auto.
Qed.

(** The leading limbs of a normalized pair. *)
Lemma top_limb x : wf x -> exists lo, 0 <= lo < 2 ^ 192 /\ val x = l3 x * 2 ^ 192 + lo /\ 0 <= l3 x < B.
Proof.
  intros (H0 & H1 & H2 & H3). exists (l0 x + 2 ^ 64 * l1 x + 2 ^ 128 * l2 x). unfold val. uB. lia.
Qed.
Lemma shl_pair r0 r1 : wf r0 -> wf r1 -> val r1 <= val r0 -> 0 < val r0 ->
  let s := u_leading_zeros r0 in
  0 <= s < 256 /\ 2 ^ 255 <= val r0 * 2 ^ s < 2 ^ 256 /\
  exists x y, let A0 := l3 (u_shl r0 s) in let A1 := l3 (u_shl r1 s) in
    0 <= x < 2 ^ 192 /\ 0 <= y < 2 ^ 192 /\ val r0 * 2 ^ s = A0 * 2 ^ 192 + x /\ val r1 * 2 ^ s = A1 * 2 ^ 192 + y /\
    2 ^ 63 <= A0 < B /\ 0 <= A1 <= A0.
Proof.
  intros H0 H1 Hle Hp s. pose proof (val_range r0 H0) as R0. pose proof (val_range r1 H1) as R1.
  assert (Es : s = 255 - Z.log2 (val r0)).
  { unfold s. rewrite u_leading_zeros_spec by assumption. destruct (Z.eqb_spec (val r0) 0); [lia|reflexivity]. }
  pose proof (Z.log2_spec (val r0) Hp) as [L1 L2]. pose proof (Z.log2_nonneg (val r0)) as L3.
  assert (L4 : Z.log2 (val r0) < 256) by (apply Z.log2_lt_pow2; [lia|]; change (2 ^ 256) with W; lia).
  assert (Hs : 0 <= s < 256) by lia.
  assert (P : 0 < 2 ^ s) by (apply Z.pow_pos_nonneg; lia).
  assert (N1 : 2 ^ 255 <= val r0 * 2 ^ s).
  { replace (2 ^ 255) with (2 ^ Z.log2 (val r0) * 2 ^ s) by (rewrite <- Z.pow_add_r by lia; f_equal; lia). nia. }
  assert (N2 : val r0 * 2 ^ s < 2 ^ 256).
  { replace (2 ^ 256) with (2 ^ Z.succ (Z.log2 (val r0)) * 2 ^ s) by (rewrite <- Z.pow_add_r by lia; f_equal; lia). nia. }
  split; [lia|]. split; [lia|].
  destruct (u_shl_spec r0 s H0 ltac:(lia)) as [S0 E0]. destruct (u_shl_spec r1 s H1 ltac:(lia)) as [S1 E1].
  assert (N3 : 0 <= val r1 * 2 ^ s <= val r0 * 2 ^ s) by nia.
  change W with (2 ^ 256) in E0, E1. rewrite Z.mod_small in E0 by lia. rewrite Z.mod_small in E1 by lia.
  destruct (top_limb _ S0) as (x & Hx & X & X3). destruct (top_limb _ S1) as (y & Hy & Y & Y3).
  exists x, y. cbv zeta. rewrite <- E0, <- E1. rewrite <- E0 in N1, N2, N3. rewrite <- E1 in N3. clear E0 E1 P.
  set (A0 := l3 (u_shl r0 s)) in *. set (A1 := l3 (u_shl r1 s)) in *. clearbody A0 A1.
  set (X0 := val (u_shl r0 s)) in *. set (Y0 := val (u_shl r1 s)) in *. clearbody X0 Y0. lia.
Qed.

Lemma m_mul_ok dbg qn qs : pos qn -> pos qs -> qs <> [] -> cv1 (cof (qn ++ qs)) < B -> m_mul dbg (mx qn) (mx qs) = Some (mx (qn ++ qs)).
Proof.
  intros Hn Hs Ne Hv.
  assert (Hp : pos (qn ++ qs)) by (apply Forall_app; split; assumption).
  assert (Ne2 : qn ++ qs <> []) by (destruct qn; [assumption|discriminate]).
  destruct (cof_pos _ Hp) as (P0 & P1 & P2 & P3 & P4 & P5). destruct (P5 Ne2) as (P6 & P7 & P8 & P9 & P10).
  destruct (cof_pos _ Hn) as (N0 & N1 & N2 & N3 & _). destruct (cof_pos _ Hs) as (S0 & S1 & S2 & S3 & _).
  unfold m_mul, mx. cbn [q00 q01 q10 q11 evenp]. rewrite par_app. rewrite cof_app in *. cbn [cu0 cv0 cu1 cv1] in *.
  set (n := cof qn) in *. set (c := cof qs) in *. clearbody n c.
  assert (Q : forall a b, 0 <= a -> 0 <= b -> 0 <= a * b) by (intros; apply Z.mul_nonneg_nonneg; assumption).
  pose proof (Q _ _ N0 S0). pose proof (Q _ _ N1 S2). pose proof (Q _ _ N0 S1). pose proof (Q (cv0 n) (cv1 c) N1 ltac:(lia)).
  pose proof (Q _ _ N2 S0). pose proof (Q (cv1 n) (cu1 c) ltac:(lia) S2). pose proof (Q _ _ N2 S1). pose proof (Q (cv1 n) (cv1 c) ltac:(lia) ltac:(lia)).
  rewrite !lmul_ok by lia. rewrite !bnd. rewrite !ladd_ok by lia. rewrite !bnd. reflexivity.
Qed.

(** ** [lehmer_double] *)
Lemma lgood_rem R0 R1 s A0 A1 x y qs : 0 <= s -> 0 <= x < 2 ^ 192 -> 0 <= y < 2 ^ 192 -> R0 * 2 ^ s = A0 * 2 ^ 192 + x -> R1 * 2 ^ s = A1 * 2 ^ 192 + y ->
  lgood A0 A1 qs ->
  0 < snd (rem qs R0 R1) < fst (rem qs R0 R1) /\ fst (rem qs A0 A1) * 2 ^ 192 <= 2 * (fst (rem qs R0 R1) * 2 ^ s) /\
  (par qs = false -> snd (rem qs R0 R1) * 2 ^ s <= (snd (rem qs A0 A1) + cu1 (cof qs)) * 2 ^ 192).
Proof.
  intros Hs Hx Hy E0 E1 [Hp Hn Hv Hj Hd Hc].
  pose proof (jebelean qs A0 A1 (2 ^ 192) x y Hp Hn Hx Hy Hj Hd) as J. cbv zeta in J. rewrite <- E0, <- E1, rem_scale in J. cbn [fst snd] in J.
  assert (P : 0 < 2 ^ s) by (apply Z.pow_pos_nonneg; lia). destruct J as (J1 & J2 & J3).
  split; [|split; [exact J2|exact J3]]. split; apply (Z.mul_lt_mono_pos_r (2 ^ s)); lia.
Qed.
(** The bound on the product of two matrices. *)
Lemma double_bound R0 R1 s s' A0 A1 x y c d qs qn : 0 <= s -> 0 <= s' <= s + 32 -> R0 * 2 ^ s < 2 ^ 256 -> pos qs -> cv1 (cof qs) < LIMIT ->
  rem qs R0 R1 = (c, d) -> 0 < d < c -> 0 <= A1 ->
  0 <= x < 2 ^ 192 -> 0 <= y < 2 ^ 192 -> c * 2 ^ s' = A0 * 2 ^ 192 + x -> d * 2 ^ s' = A1 * 2 ^ 192 + y -> lgood A0 A1 qn ->
  cv1 (cof (qn ++ qs)) < B.
Proof.
  intros Hs Hs' HR Hp HvL Er Hcd HA1 Hx Hy E0 E1 G.
  destruct (lgood_rem c d s' A0 A1 x y qn ltac:(lia) Hx Hy E0 E1 G) as (O1 & O2 & O3). destruct G as [Gp Gn Gv Gj Gd Gc].
  destruct (cof_pos _ Gp) as (N0 & N1 & N2 & N3 & N4 & N5). destruct (N5 Gn) as (_ & N6 & N7 & _ & N8).
  destruct (cof_pos _ Hp) as (S0 & S1 & S2 & S3 & S4 & _).
  destruct (rem_inv qs R0 R1) as [I1 _]. rewrite Er in I1. cbn [fst snd] in I1.
  destruct (rem_inv qn A0 A1) as [I2 _].
  rewrite cof_app. cbn [cv1].
  assert (RS : R0 * 2 ^ s' < 2 ^ 288).
  { assert (2 ^ s' <= 2 ^ s * 2 ^ 32) by (rewrite <- Z.pow_add_r by lia; apply Z.pow_le_mono_r; lia).
    assert (0 <= R0) by nia. change (2 ^ 288) with (2 ^ 256 * 2 ^ 32). nia. }
  pose proof (rem_lin qn c d) as RL. cbv zeta in RL. unfold jcond in Gj.
  set (V := cu1 (cof qn) * cv0 (cof qs) + cv1 (cof qn) * cv1 (cof qs)).
  set (T := cu1 (cof qn) * c - cv1 (cof qn) * d).
  assert (VE : V * c = cv1 (cof qn) * R0 + cv0 (cof qs) * T) by (unfold V, T; rewrite I1; ring).
  assert (P : 0 < 2 ^ s') by (apply Z.pow_pos_nonneg; lia).
  assert (VE2 : V * (c * 2 ^ s') = cv1 (cof qn) * (R0 * 2 ^ s') + cv0 (cof qs) * (T * 2 ^ s')) by (rewrite Z.mul_assoc, VE; ring).
  assert (V0 : 0 <= V) by (unfold V; apply Z.add_nonneg_nonneg; apply Z.mul_nonneg_nonneg; lia).
  set (bj := fst (rem qn A0 A1)) in *. set (bk := snd (rem qn A0 A1)) in *. set (v' := cv1 (cof qn)) in *. set (v0' := cv0 (cof qn)) in *.
  assert (CL : A0 * 2 ^ 192 <= c * 2 ^ s') by lia.
  set (c2 := c * 2 ^ s') in *. set (R2 := R0 * 2 ^ s') in *.
  destruct (par qn).
  - assert (T < 0) by (unfold T; rewrite RL in O1; cbn [snd] in O1; lia).
    assert (V * c2 <= v' * R2) by nia.
    assert (v' * 2 ^ 224 <= c2). { change (2 ^ 224) with (LIMIT * 2 ^ 192). unfold LIMIT in *. nia. }
    assert (V * 2 ^ 224 <= R2) by nia. uB. lia.
  - assert (TE : T = snd (rem qn c d)) by (unfold T; rewrite RL; reflexivity). specialize (O3 eq_refl). rewrite <- TE in O3, O1.
    set (T2 := T * 2 ^ s') in *. assert (T2 <= 2 * bk * 2 ^ 192) by (clear - O3 Gj N8; lia).
    assert (Q1 : cv0 (cof qs) * T2 <= bk * 2 ^ 225).
    { assert (0 <= T2) by (unfold T2; apply Z.mul_nonneg_nonneg; lia). assert (cv0 (cof qs) <= LIMIT) by lia.
      transitivity (LIMIT * T2); [apply Z.mul_le_mono_nonneg_r; assumption|]. unfold LIMIT. clear - H. lia. }
    assert (Q2 : v' * R2 < v' * 2 ^ 288) by nia.
    assert (Q3 : v' * 2 ^ 288 + bk * 2 ^ 256 <= B * c2).
    { assert (v' * LIMIT + bk <= A0) by (clear - I2 Gc N6 N3 Gd; clearbody v' v0' bj bk; rewrite I2; apply Z.add_le_mono; nia). change B with (2 ^ 64). unfold LIMIT in *. match goal with X : _ <= A0 |- _ => clear - X CL end. lia. }
    assert (V * c2 < B * c2) by lia. assert (0 < c2) by (unfold c2; apply Z.mul_pos_pos; lia). apply (Z.mul_lt_mono_pos_r c2); assumption.
Qed.
Lemma lehmer_double_ok dbg r0 r1 : wf r0 -> wf r1 -> val r1 <= val r0 ->
  exists m, lehmer_double dbg r0 r1 = Some m /\ good_matrix (val r0) (val r1) m.
Proof.
  intros H0 H1 Hle. pose proof (val_range r0 H0) as V0. pose proof (val_range r1 H1) as V1.
  unfold lehmer_double. rewrite dassert_ok by (rewrite u_geb_spec by assumption; apply Z.leb_le; assumption). rewrite bnd.
  assert (LZ : forall x, wf x -> (192 <=? u_leading_zeros x) = (val x <? B)).
  { intros x Hx. rewrite u_leading_zeros_spec by assumption. pose proof (val_range x Hx). destruct (Z.eqb_spec (val x) 0) as [->|Nz]; [reflexivity|].
    pose proof (Z.log2_lt_pow2 (val x) 64 ltac:(lia)) as L. change (2 ^ 64) with B in L.
    destruct (Z.ltb_spec (val x) B); [apply Z.leb_le|apply Z.leb_gt]; lia. }
  assert (SM : forall x, wf x -> val x < B -> l0 x = val x).
  { intros x (X0 & X1 & X2 & X3) Hx. rewrite val_B in *. uB. lia. }
  rewrite LZ by assumption. destruct (Z.ltb_spec (val r0) B) as [HB|HB].
  - rewrite LZ by assumption. rewrite !SM by (assumption || lia).
    rewrite !dassert_ok by (apply Z.leb_le || apply Z.ltb_lt; lia). rewrite !bnd. apply lehmer_small_ok; lia.
  - destruct (shl_pair r0 r1 H0 H1 Hle ltac:(uB; lia)) as (Hs & Hn & x & y & Hx & Hy & E0 & E1 & HA0 & HA1).
    cbv zeta. set (s := u_leading_zeros r0) in *. set (A0 := l3 (u_shl r0 s)) in *. set (A1 := l3 (u_shl r1 s)) in *.
    destruct (lehmer_loop_ok dbg A0 A1 HA0 HA1) as (qs & EL & G). rewrite EL, bnd.
    destruct G as [->|G]; [exists IDENTITY; split; [reflexivity|apply good_identity]|].
    destruct (m_eqb (mx qs) IDENTITY) eqn:EI; [elim (lg_ne _ _ _ G); apply mx_inj; [apply (lg_pos _ _ _ G)|assumption]|].
    assert (s192 : s < 192). { pose proof (LZ r0 H0) as L. fold s in L. destruct (Z.leb_spec 192 s); [|assumption]. symmetry in L. apply Z.ltb_lt in L. lia. }
    destruct (lgood_rem (val r0) (val r1) s A0 A1 x y qs ltac:(lia) Hx Hy E0 E1 G) as (O1 & O2 & _).
    assert (LB : LIMIT < B) by reflexivity. pose proof (lg_v _ _ _ G) as GV.
    destruct (cof_pos _ (lg_pos _ _ _ G)) as (_ & _ & _ & _ & _ & P5). destruct (P5 (lg_ne _ _ _ G)) as (_ & _ & _ & _ & P6).
    destruct (update_rem r0 r1 qs H0 H1 Hle (lg_pos _ _ _ G) ltac:(lia) ltac:(lia) ltac:(lia)) as (a & b & EU & Wa & Wb & Va & Vb).
    rewrite EU. destruct (shl_pair a b Wa Wb ltac:(lia) ltac:(lia)) as (Hs' & Hn' & x' & y' & Hx' & Hy' & E0' & E1' & HA0' & HA1').
    cbv zeta. set (s' := u_leading_zeros a) in *. set (A0' := l3 (u_shl a s')) in *. set (A1' := l3 (u_shl b s')) in *.
    destruct (lehmer_loop_ok dbg A0' A1' HA0' HA1') as (qn & EL' & G'). rewrite EL', bnd.
    assert (Ss : s' <= s + 32).
    { destruct (Z_le_gt_dec s' (s + 32)); [assumption|exfalso]. pose proof (lg_c _ _ _ G) as GC.
      assert (2 ^ 223 <= val a * 2 ^ s). { rewrite Va. unfold LIMIT in GC. clear - O2 GC. lia. }
      assert (2 ^ s * 2 ^ 33 <= 2 ^ s') by (rewrite <- Z.pow_add_r by lia; apply Z.pow_le_mono_r; lia).
      assert (0 < val a) by lia. assert (val a * (2 ^ s * 2 ^ 33) <= val a * 2 ^ s') by (apply Z.mul_le_mono_nonneg_l; lia).
      assert (2 ^ 223 * 2 ^ 33 <= val a * 2 ^ s * 2 ^ 33) by (apply Z.mul_le_mono_nonneg_r; [lia|assumption]).
      change (2 ^ 223 * 2 ^ 33) with (2 ^ 256) in *. lia. }
    assert (Hqn : pos qn) by (destruct G' as [->|G']; [constructor|apply (lg_pos _ _ _ G')]).
    assert (CB : cv1 (cof (qn ++ qs)) < B).
    { destruct G' as [->|G']; [cbn [app]; lia|]. destruct (rem qs (val r0) (val r1)) as [c d] eqn:ER. cbn [fst snd] in *. subst c d.
      apply (double_bound (val r0) (val r1) s s' A0' A1' x' y' (val a) (val b) qs qn); try assumption; try lia. apply (lg_pos _ _ _ G). }
    exists (mx (qn ++ qs)). split; [apply m_mul_ok; try assumption; [apply (lg_pos _ _ _ G)|apply (lg_ne _ _ _ G)]|].
    assert (Pa : pos (qn ++ qs)) by (apply Forall_app; split; [assumption|apply (lg_pos _ _ _ G)]).
    assert (Ne : qn ++ qs <> []) by (destruct qn; [apply (lg_ne _ _ _ G)|discriminate]).
    destruct (cof_pos _ Pa) as (_ & _ & _ & _ & _ & P7). destruct (P7 Ne) as (_ & _ & _ & _ & P8).
    assert (OO : 0 < snd (rem (qn ++ qs) (val r0) (val r1)) < fst (rem (qn ++ qs) (val r0) (val r1))).
    { rewrite rem_app, <- Va, <- Vb. destruct G' as [->|G']; [cbn [rem fst snd]; lia|].
      apply (lgood_rem (val a) (val b) s' A0' A1' x' y' qn ltac:(lia) Hx' Hy' E0' E1' G'). }
    exists (qn ++ qs). split; [assumption|]. split; [reflexivity|]. split; [assumption|]. split; [lia|]. split; [lia|].
    apply chain_euclid; assumption.
Qed.
