(** [lehmer_loop] returns quotients that satisfy Jebelean's condition: proofs for C06, C07. *)
Require Import ZArith Lia Bool List Arith.
From Verif Require Import Word U256Model U256Spec U256Proofs BinaryModel BinaryProofs KnuthModel LehmerModel LehmerSpec LehmerProofs.
Import ListNotations.
Open Scope Z_scope.

Definition pack (u v : Z) : Z := u * LIMIT + v.
Lemma pack_range u v : 0 <= u < LIMIT -> 0 <= v < LIMIT -> 0 <= pack u v < B.
Proof. unfold pack, LIMIT. change B with (4294967296 * 4294967296). nia. Qed.
Lemma unpack_u u v : 0 <= v < LIMIT -> Z.shiftr (pack u v) 32 = u.
Proof.
  intros H. rewrite Z.shiftr_div_pow2 by lia. change (2 ^ 32) with LIMIT. unfold pack. rewrite Z.add_comm, Z.div_add by (unfold LIMIT; lia).
  rewrite Z.div_small by assumption. reflexivity.
Qed.
Lemma unpack_v u v : 0 <= v < LIMIT -> pack u v mod LIMIT = v.
Proof. intros H. unfold pack. rewrite Z.add_comm, Z.mod_add by (unfold LIMIT; lia). apply Z.mod_small. assumption. Qed.
Lemma mx_inj qs : pos qs -> m_eqb (mx qs) IDENTITY = true -> qs = [].
Proof.
  intros Hp. destruct qs as [|q qs]; [reflexivity|]. destruct (cof_pos _ Hp) as (_ & _ & _ & _ & _ & P). destruct (P ltac:(discriminate)) as (_ & P1 & _).
  unfold m_eqb, mx. cbn [q01 IDENTITY]. destruct (Z.eqb_spec (cv0 (cof (q :: qs))) 0); [lia|]. rewrite !andb_false_r. discriminate.
Qed.
Lemma m_eqb_identity : m_eqb IDENTITY IDENTITY = true. Proof. reflexivity. Qed.

(** ** The loop *)
Record winv (A0 A1 : Z) (qs : list Z) (q2 q3 a1 a2 a3 k0 k1 k2 k3 : Z) : Prop := {
  w_pos : pos (q3 :: q2 :: qs);
  w_r1 : exists a', rem qs A0 A1 = (a', a1) /\ a1 <= a';
  w_r2 : rem (q2 :: qs) A0 A1 = (a1, a2);
  w_r3 : rem (q3 :: q2 :: qs) A0 A1 = (a2, a3);
  w_ord : 0 <= a3 < a2 /\ a2 < a1;
  w_lim : LIMIT <= a2;
  w_k0 : k0 = pack (cu0 (cof qs)) (cv0 (cof qs));
  w_k1 : k1 = pack (cu1 (cof qs)) (cv1 (cof qs));
  w_k2 : k2 = pack (cu1 (cof (q2 :: qs))) (cv1 (cof (q2 :: qs)));
  w_k3 : k3 = pack (cu1 (cof (q3 :: q2 :: qs))) (cv1 (cof (q3 :: q2 :: qs)))
}.
(** Cofactors of a chain whose first remainder is at least LIMIT fit in 32 bits. *)
Lemma cof_small A0 A1 qs c d : 0 <= A1 <= A0 -> A0 < B -> pos qs -> rem qs A0 A1 = (c, d) -> LIMIT <= c -> 0 <= d ->
  cv1 (cof qs) < LIMIT /\ (qs <> [] -> cu1 (cof qs) < LIMIT).
Proof.
  intros HA HB Hp E Hc Hd. destruct (rem_inv qs A0 A1) as [I1 _]. rewrite E in I1. cbn [fst snd] in I1.
  destruct (cof_pos _ Hp) as (P0 & P1 & P2 & P3 & P4 & P5). assert (cv1 (cof qs) < LIMIT) by (unfold LIMIT in *; change B with (4294967296 * 4294967296) in *; nia).
  split; [assumption|]. intros N. destruct (P5 N) as (_ & _ & _ & _ & P6). lia.
Qed.
Lemma w_step dbg A0 A1 qs q2 q3 a1 a2 a3 k0 k1 k2 k3 : 0 <= A1 <= A0 -> A0 < B -> winv A0 A1 qs q2 q3 a1 a2 a3 k0 k1 k2 k3 -> LIMIT <= a3 ->
  exists q4 k4, lehmer_unroll dbg a3 a2 k3 k2 = Some (a2 mod a3, k4) /\ winv A0 A1 (q2 :: qs) q3 q4 a2 a3 (a2 mod a3) k1 k2 k3 k4.
Proof.
  intros HA HB W H3. destruct W as [Hp H1 H2 E3 Ho Hl K0 K1 K2 K3]. exists (a2 / a3).
  assert (L0 : 0 < LIMIT) by reflexivity.
  pose proof (Z.div_mod a2 a3 ltac:(lia)) as DM. pose proof (Z.mod_pos_bound a2 a3 ltac:(lia)) as MB.
  assert (Q1 : 1 <= a2 / a3) by (apply Z.div_le_lower_bound; lia). set (q4 := a2 / a3) in *.
  assert (Hp4 : pos (q4 :: q3 :: q2 :: qs)) by (constructor; assumption).
  assert (E4 : rem (q4 :: q3 :: q2 :: qs) A0 A1 = (a3, a2 mod a3)) by (remember (q3 :: q2 :: qs) as C; cbn [rem]; rewrite E3; cbn [fst snd]; f_equal; lia).
  destruct (cof_small _ _ _ _ _ HA HB Hp4 E4 H3 ltac:(lia)) as [V4 U4]. specialize (U4 ltac:(discriminate)).
  destruct (cof_pos _ Hp4) as (P0 & P1 & P2 & P3 & P4 & P5).
  assert (EK : k2 + q4 * k3 = pack (cu1 (cof (q4 :: q3 :: q2 :: qs))) (cv1 (cof (q4 :: q3 :: q2 :: qs)))).
  { rewrite K2, K3. remember (q2 :: qs) as A. cbn [cof cu0 cv0 cu1 cv1]. unfold pack. ring. }
  assert (R : 0 <= k2 + q4 * k3 < B) by (rewrite EK; apply pack_range; lia).
  assert (a2 < B).
  { destruct (rem_inv (q3 :: q2 :: qs) A0 A1) as [I1 _]. rewrite E3 in I1. cbn [fst snd] in I1. destruct (cof_pos _ Hp) as (? & ? & ? & ? & _). nia. }
  inversion Hp as [|? ? Hq3 Hp2]; subst.
  destruct (cof_pos _ Hp2) as (N0 & N1 & N2 & N3 & _). destruct (cof_pos _ Hp) as (O0 & O1 & O2 & O3 & _).
  exists (pack (cu1 (cof (q2 :: qs))) (cv1 (cof (q2 :: qs))) + q4 * pack (cu1 (cof (q3 :: q2 :: qs))) (cv1 (cof (q3 :: q2 :: qs)))).
  split.
  - apply unroll_ok; try lia; unfold pack; nia.
  - constructor; try assumption; try lia; try reflexivity.
    exists a1. split; [assumption|lia].
Qed.
Lemma while_ok dbg A0 A1 : 0 <= A1 <= A0 -> A0 < B -> forall fuel qs q2 q3 a1 a2 a3 k0 k1 k2 k3, winv A0 A1 qs q2 q3 a1 a2 a3 k0 k1 k2 k3 -> par qs = true ->
  a3 < 2 ^ Z.of_nat fuel ->
  exists qs' q2' q3' a1' a2' a3' k0' k1' k2' k3', while_loop dbg fuel a1 a2 a3 k0 k1 k2 k3 = Some (LS a1' a2' a3' k0' k1' k2' k3' (par qs')) /\
    winv A0 A1 qs' q2' q3' a1' a2' a3' k0' k1' k2' k3' /\ a3' < LIMIT.
Proof.
  intros HA HB. assert (L0 : 0 < LIMIT) by reflexivity. induction fuel as [|fuel IH]; intros qs q2 q3 a1 a2 a3 k0 k1 k2 k3 W Hpar Hf; cbn [while_loop].
  - change (2 ^ Z.of_nat 0) with 1 in Hf. destruct (Z.leb_spec LIMIT a3); [lia|].
    exists qs, q2, q3, a1, a2, a3, k0, k1, k2, k3. rewrite Hpar. split; [reflexivity|]. split; assumption.
  - destruct (Z.leb_spec LIMIT a3) as [H3|H3].
    2: { exists qs, q2, q3, a1, a2, a3, k0, k1, k2, k3. rewrite Hpar. split; [reflexivity|]. split; assumption. }
    destruct (w_step dbg _ _ _ _ _ _ _ _ _ _ _ _ HA HB W H3) as (q4 & k4 & E4 & W4). rewrite E4. cbn [bind].
    destruct (Z.ltb_spec (a2 mod a3) LIMIT) as [H4|H4].
    + exists (q2 :: qs), q3, q4, a2, a3, (a2 mod a3), k1, k2, k3, k4. rewrite par_cons, Hpar. split; [reflexivity|]. split; assumption.
    + destruct (w_step dbg _ _ _ _ _ _ _ _ _ _ _ _ HA HB W4 H4) as (q5 & k5 & E5 & W5). rewrite E5. cbn [bind].
      apply (IH _ _ _ _ _ _ _ _ _ _ W5); [rewrite !par_cons, Hpar; reflexivity|].
      pose proof (w_ord _ _ _ _ _ _ _ _ _ _ _ _ W5) as [O1 O2]. pose proof (w_r3 _ _ _ _ _ _ _ _ _ _ _ _ W5) as R3.
      pose proof (Z.div_mod a3 (a2 mod a3) ltac:(lia)) as DM. assert (1 <= a3 / (a2 mod a3)) by (apply Z.div_le_lower_bound; lia).
      rewrite Nat2Z.inj_succ, Z.pow_succ_r in Hf by lia. nia.
Qed.

(** ** What [lehmer_loop] returns *)
Record lgood (A0 A1 : Z) (qs : list Z) : Prop := {
  lg_pos : pos qs;
  lg_ne : qs <> [];
  lg_v : cv1 (cof qs) < LIMIT;
  lg_j : jcond qs (fst (rem qs A0 A1)) (snd (rem qs A0 A1));
  lg_d : 0 < snd (rem qs A0 A1);
  lg_c : LIMIT <= fst (rem qs A0 A1)
}.
Lemma choose_ok dbg A0 A1 qs q2 q3 a1 a2 a3 k0 k1 k2 k3 : 0 <= A1 <= A0 -> A0 < B -> winv A0 A1 qs q2 q3 a1 a2 a3 k0 k1 k2 k3 -> a3 < LIMIT ->
  exists qs', choose dbg (LS a1 a2 a3 k0 k1 k2 k3 (par qs)) = Some (mx qs') /\ (qs' = [] \/ lgood A0 A1 qs').
Proof.
  intros HA HB W H3. destruct W as [Hp H1 H2 E3 Ho Hl K0 K1 K2 K3]. destruct H1 as (a' & E1 & Ha').
  assert (L0 : 0 < LIMIT) by reflexivity. assert (LB : LIMIT + LIMIT < B) by reflexivity.
  inversion Hp as [|? ? Hq3 Hp2]; subst. inversion Hp2 as [|? ? Hq2 Hp1]; subst.
  destruct (cof_small _ _ _ _ _ HA HB Hp E3 Hl ltac:(lia)) as [V3 U3]. specialize (U3 ltac:(discriminate)).
  destruct (cof_small _ _ _ _ _ HA HB Hp2 H2 ltac:(lia) ltac:(lia)) as [V2 U2]. specialize (U2 ltac:(discriminate)).
  destruct (cof_pos _ Hp) as (O0 & O1 & O2 & O3 & O4 & O5). specialize (O5 ltac:(discriminate)).
  destruct (cof_pos _ Hp2) as (N0 & N1 & N2 & N3 & N4 & N5). specialize (N5 ltac:(discriminate)).
  destruct (cof_pos _ Hp1) as (M0 & M1 & M2 & M3 & M4 & M5).
  assert (C2 : cof (q2 :: qs) = CF (cu1 (cof qs)) (cv1 (cof qs)) (cu0 (cof qs) + q2 * cu1 (cof qs)) (cv0 (cof qs) + q2 * cv1 (cof qs))) by reflexivity.
  assert (C3 : cu0 (cof (q3 :: q2 :: qs)) = cu1 (cof (q2 :: qs)) /\ cv0 (cof (q3 :: q2 :: qs)) = cv1 (cof (q2 :: qs))) by (split; reflexivity).
  destruct C3 as [C3 C4].
  assert (D2 : cu0 (cof (q2 :: qs)) = cu1 (cof qs) /\ cv0 (cof (q2 :: qs)) = cv1 (cof qs)) by (split; reflexivity). destruct D2 as [D2 D3].
  assert (Eu : cu1 (cof (q2 :: qs)) = cu0 (cof qs) + q2 * cu1 (cof qs)) by (rewrite C2; reflexivity).
  assert (Ev : cv1 (cof (q2 :: qs)) = cv0 (cof qs) + q2 * cv1 (cof qs)) by (rewrite C2; reflexivity).
  assert (E2 : a2 = a' - q2 * a1) by (cbn [rem] in H2; rewrite E1 in H2; cbn [fst snd] in H2; congruence).
  set (c3 := cof (q3 :: q2 :: qs)) in *. set (c2 := cof (q2 :: qs)) in *. set (c1 := cof qs) in *.
  assert (U1 : 0 <= cu1 c1 < LIMIT) by nia. assert (U0 : 0 <= cu0 c1 < LIMIT) by nia.
  assert (V1 : 0 <= cv1 c1 < LIMIT) by nia. assert (V0 : 0 <= cv0 c1 < LIMIT) by nia.
  assert (S1 : cu0 c1 + cu1 c1 <= cu1 c2) by nia. assert (S2 : cv0 c1 + cv1 c1 <= cv1 c2) by nia.
  assert (A1B : a1 < B).
  { destruct (rem_inv (q2 :: qs) A0 A1) as [I1 _]. rewrite H2 in I1. cbn [fst snd] in I1. fold c2 in I1. nia. }
  assert (Ga : a1 + a2 <= a') by nia.
  clear C2 Eu Ev E2 O4 N4 M4 M5.
  assert (G3 : forall (J : jcond (q3 :: q2 :: qs) a2 a3), 0 < a3 -> lgood A0 A1 (q3 :: q2 :: qs)).
  { intros J Hd. constructor; rewrite ?E3; cbn [fst snd]; try assumption; discriminate. }
  assert (G2 : forall (J : jcond (q2 :: qs) a1 a2), lgood A0 A1 (q2 :: qs)).
  { intros J. constructor; rewrite ?H2; cbn [fst snd]; try assumption; try discriminate; lia. }
  assert (G1 : qs = [] \/ lgood A0 A1 qs).
  { destruct qs as [|q qs']; [left; reflexivity|right]. constructor; rewrite ?E1; cbn [fst snd]; try assumption; try discriminate; try lia.
    - fold c1. lia.
    - unfold jcond. fold c1. destruct (par (q :: qs')); lia. }
  assert (X3 : mx (q3 :: q2 :: qs) = Mx (cu1 c2) (cv1 c2) (cu1 c3) (cv1 c3) (par qs)).
  { unfold mx. fold c3. rewrite !par_cons, negb_involutive, C3, C4. reflexivity. }
  assert (X2 : mx (q2 :: qs) = Mx (cu1 c1) (cv1 c1) (cu1 c2) (cv1 c2) (negb (par qs))).
  { unfold mx. fold c2. rewrite !par_cons, D2, D3. reflexivity. }
  assert (X1 : mx qs = Mx (cu0 c1) (cv0 c1) (cu1 c1) (cv1 c1) (par qs)) by reflexivity.
  assert (J3 : jcond (q3 :: q2 :: qs) a2 a3 = if par qs then cu1 c3 <= a3 /\ cv1 c2 + cv1 c3 <= a2 - a3 else cv1 c3 <= a3 /\ cu1 c2 + cu1 c3 <= a2 - a3).
  { unfold jcond. rewrite !par_cons, negb_involutive. fold c3. rewrite C3, C4. reflexivity. }
  assert (J2 : jcond (q2 :: qs) a1 a2 = if negb (par qs) then cu1 c2 <= a2 /\ cv1 c1 + cv1 c2 <= a1 - a2 else cv1 c2 <= a2 /\ cu1 c1 + cu1 c2 <= a1 - a2).
  { unfold jcond. rewrite !par_cons. fold c2. rewrite D2, D3. reflexivity. }
  rewrite J3 in G3. rewrite J2 in G2. clear J3 J2 H2 E3 E1. clearbody c1 c2 c3.
  unfold choose. cbn [s_a1 s_a2 s_a3 s_k0 s_k1 s_k2 s_k3 s_even].
  rewrite !unpack_u, !unpack_v by lia.
  rewrite !dassert_ok by (apply Z.leb_le || apply Z.ltb_lt; lia). rewrite !bnd.
  destruct (par qs); cbn [negb] in *; rewrite ?dassert_ok by (apply Z.leb_le; lia); rewrite ?bnd; rewrite lsub_ok by lia; rewrite bnd; rewrite ladd_ok by lia; rewrite bnd.
  - destruct (Z.leb_spec (cu1 c2 + cu1 c1) (a1 - a2)).
    + destruct (Z.leb_spec (cu1 c3) a3); [|exists (q2 :: qs); rewrite X2; split; [reflexivity|right; apply G2; lia]].
      rewrite lsub_ok by lia; rewrite bnd; rewrite ladd_ok by lia; rewrite bnd.
      destruct (Z.leb_spec (cv1 c3 + cv1 c2) (a2 - a3)); [exists (q3 :: q2 :: qs); rewrite X3; split; [reflexivity|right; apply G3; lia]|].
      exists (q2 :: qs); rewrite X2; split; [reflexivity|right; apply G2; lia].
    + exists qs. rewrite X1. split; [reflexivity|assumption].
  - destruct (Z.leb_spec (cv1 c2 + cv1 c1) (a1 - a2)).
    + destruct (Z.leb_spec (cv1 c3) a3); [|exists (q2 :: qs); rewrite X2; split; [reflexivity|right; apply G2; lia]].
      rewrite lsub_ok by lia; rewrite bnd; rewrite ladd_ok by lia; rewrite bnd.
      destruct (Z.leb_spec (cu1 c3 + cu1 c2) (a2 - a3)); [exists (q3 :: q2 :: qs); rewrite X3; split; [reflexivity|right; apply G3; lia]|].
      exists (q2 :: qs); rewrite X2; split; [reflexivity|right; apply G2; lia].
    + exists qs. rewrite X1. split; [reflexivity|assumption].
Qed.

Lemma lehmer_loop_ok dbg A0 A1 : 2 ^ 63 <= A0 < B -> 0 <= A1 <= A0 ->
  exists qs, lehmer_loop dbg A0 A1 = Some (mx qs) /\ (qs = [] \/ lgood A0 A1 qs).
Proof.
  intros H0 H1. assert (L0 : 0 < LIMIT) by reflexivity. assert (LB : LIMIT * LIMIT = B) by reflexivity. assert (LB2 : LIMIT + LIMIT < B) by reflexivity.
  unfold lehmer_loop. rewrite !dassert_ok by (apply Z.leb_le; lia). rewrite !bnd. cbv zeta.
  assert (TRIV : exists qs, Some IDENTITY = Some (mx qs) /\ (qs = [] \/ lgood A0 A1 qs)) by (exists []; split; [reflexivity|left; reflexivity]).
  destruct (Z.ltb_spec A1 LIMIT) as [|H1L]; [exact TRIV|].
  destruct (div1_ok dbg A0 A1 ltac:(lia) ltac:(lia)) as (D1 & Q1 & M1 & EM1). rewrite D1, bnd. set (q := A0 / A1) in *.
  assert (QL : q < LIMIT) by (apply Z.div_lt_upper_bound; nia).
  rewrite lmul_ok by nia. rewrite bnd. rewrite lsub_ok by nia. rewrite bnd. rewrite lmul_ok by lia. rewrite bnd. rewrite ladd_ok by lia. rewrite bnd.
  replace (LIMIT + q * 1) with (pack 1 q) by (unfold pack; ring).
  assert (E1 : rem [q] A0 A1 = (A1, A0 - q * A1)) by reflexivity.
  assert (C1 : cof [q] = CF 0 1 1 q) by (cbn [cof cu0 cv0 cu1 cv1]; f_equal; ring).
  assert (Hp1 : pos [q]) by (constructor; [assumption|constructor]).
  set (a2 := A0 - q * A1) in *.
  destruct (Z.ltb_spec a2 LIMIT) as [H2L|H2L].
  - rewrite unpack_u, unpack_v by lia. destruct (Z.leb_spec q a2); [|exact TRIV].
    rewrite lsub_ok by lia. rewrite bnd. destruct (Z.leb_spec 1 (A1 - a2)); [|exact TRIV].
    exists [q]. unfold mx. rewrite C1. split; [reflexivity|]. right. constructor; rewrite ?E1, ?C1; cbn [fst snd cv1]; try assumption; try discriminate; try lia.
    unfold jcond. rewrite C1. cbn. lia.
  - destruct (div1_ok dbg A1 a2 ltac:(lia) ltac:(lia)) as (D2 & Q2 & M2 & EM2). rewrite D2, bnd. set (q' := A1 / a2) in *.
    assert (QL2 : q' < LIMIT) by (apply Z.div_lt_upper_bound; nia).
    assert (Hp2 : pos [q'; q]) by (constructor; assumption).
    assert (E2 : rem [q'; q] A0 A1 = (a2, A1 - q' * a2)) by reflexivity.
    assert (C2 : cof [q'; q] = CF 1 q q' (1 + q' * q)) by (change (cof [q'; q]) with (let c := cof [q] in CF (cu1 c) (cv1 c) (cu0 c + q' * cu1 c) (cv0 c + q' * cv1 c)); rewrite C1; cbn [cof cu0 cv0 cu1 cv1]; f_equal; ring).
    destruct (cof_small A0 A1 _ a2 (A1 - q' * a2) ltac:(lia) ltac:(lia) Hp2 E2 H2L ltac:(lia)) as [V3 U3]. specialize (U3 ltac:(discriminate)). rewrite C2 in V3, U3. cbn [cu1 cv1] in V3, U3.
    assert (EK : 1 + q' * pack 1 q = pack q' (1 + q' * q)) by (unfold pack; ring).
    pose proof (pack_range q' (1 + q' * q) ltac:(lia) ltac:(nia)) as PR. pose proof (pack_range 1 q ltac:(unfold LIMIT in *; lia) ltac:(lia)) as PR2.
    assert (PP : 0 <= q' * pack 1 q) by (apply Z.mul_nonneg_nonneg; lia). rewrite <- EK in PR.
    rewrite lmul_ok by nia. rewrite bnd. rewrite lsub_ok by nia. rewrite bnd. rewrite lmul_ok by lia. rewrite bnd. rewrite ladd_ok by lia. rewrite bnd.
    rewrite EK. set (a3 := A1 - q' * a2) in *.
    assert (W : winv A0 A1 [] q q' A1 a2 a3 LIMIT 1 (pack 1 q) (pack q' (1 + q' * q))).
    { constructor; rewrite ?C1, ?C2; try reflexivity; try assumption; try lia. exists A0. split; [reflexivity|lia]. }
    destruct (while_ok dbg A0 A1 ltac:(lia) ltac:(lia) 64 _ _ _ _ _ _ _ _ _ _ W eq_refl) as (qs' & q2' & q3' & a1' & a2' & a3' & k0' & k1' & k2' & k3' & EW & W' & L').
    { change (2 ^ Z.of_nat 64) with B. lia. }
    rewrite EW, bnd. apply (choose_ok dbg A0 A1 _ _ _ _ _ _ _ _ _ _ ltac:(lia) ltac:(lia) W' L').
Qed.
