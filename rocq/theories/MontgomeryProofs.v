Require Import ZArith Znumtheory Zpow_facts Lia Bool List.
From Verif Require Import Word U256Model U256Spec U256Proofs MontgomeryModel.
Open Scope Z_scope.

(** Limb constants satisfy their documentation (traits/mod.rs:281-294). *)
Definition valid_modulus (m : u256) (m64 : Z) : Prop :=
  wf m /\ u64 m64 /\ (val m * m64) mod B = B - 1.

(** ** Conditional subtraction *)
Lemma cond_sub_spec r m : wf r -> wf m -> 0 < val m -> val r < 2 * val m ->
  let s := if u_geb r m then u_sub r m else r in
  wf s /\ 0 <= val s < val m /\ (val s = val r \/ val s = val r - val m).
Proof.
  intros Hr Hm Hp Hlt s. unfold s. rewrite u_geb_spec by assumption.
  pose proof (val_range r Hr). pose proof (val_range m Hm).
  destruct (Z.leb_spec (val m) (val r)).
  - destruct (u_sub_spec r m Hr Hm) as [H3 H4]. rewrite Z.mod_small in H4 by lia.
    split; [exact H3|]. lia.
  - split; [assumption|]. lia.
Qed.

(** k = -a0/m0 makes the lowest limb vanish *)
Lemma redc_digit m0 m64 a0 : u64 a0 -> (m0 * m64) mod B = B - 1 ->
  forall r c, u64 r -> r + B * c = a0 + wmul a0 m64 * m0 + 0 -> r = 0.
Proof.
  intros Ha Hm r c Hr E.
  assert (D : (a0 + wmul a0 m64 * m0) mod B = 0).
  { unfold wmul, w64. rewrite <- Zplus_mod_idemp_r, Zmult_mod_idemp_l, Zplus_mod_idemp_r.
    replace (a0 + a0 * m64 * m0) with (a0 * (1 + m0 * m64)) by ring.
    rewrite <- Zmult_mod_idemp_r, <- Zplus_mod_idemp_r, Hm.
    replace (1 + (B - 1)) with B by ring. rewrite Z_mod_same_full, Z.mul_0_r. reflexivity. }
  rewrite <- (Z.mod_small r B) by exact Hr.
  replace r with (a0 + wmul a0 m64 * m0 + (- c) * B) by lia.
  rewrite Z_mod_plus_full. exact D.
Qed.

Lemma m0_inv m m64 : valid_modulus m m64 -> (l0 m * m64) mod B = B - 1.
Proof.
  intros (_ & _ & H). rewrite val_B in H.
  replace ((l0 m + B * l1 m + B * B * l2 m + B * B * B * l3 m) * m64)
    with (l0 m * m64 + ((l1 m + B * l2 m + B * B * l3 m) * m64) * B) in H by ring.
  rewrite Z_mod_plus_full in H. exact H.
Qed.

Lemma wmul_u64 a b : u64 (wmul a b). Proof. apply w64_range. Qed.
Lemma wadd_u64 a b : u64 (wadd a b). Proof. apply w64_range. Qed.
#[global] Hint Resolve wmul_u64 wadd_u64 : limb.

(** The Montgomery congruence: v*2^256 = t + k*m characterises v mod m. *)
Definition mont_of (m t v : Z) : Prop := 0 <= v < m /\ exists j, v * W = t + j * m.



(** After a carry chain: the limbs cancelled by a Montgomery digit are zero, and
    the digits themselves are only known to be u64. *)
Ltac zero_digits Hinv :=
  repeat match goal with
  | E : ?r + B * ?c = ?a + wmul ?a ?m64 * ?m0 + 0, H : u64 ?r, Ha : u64 ?a |- _ =>
      let Z := fresh in
      pose proof (redc_digit m0 m64 a Ha Hinv r c H E) as Z; clear H; subst r
  end.
Ltac abstract_digits :=
  repeat match goal with
  | E : context [wmul ?a ?b] |- _ =>
      let k := fresh "k" in let Hk := fresh "Hk" in
      pose proof (wmul_u64 a b) as Hk; set (k := wmul a b) in *; clearbody k
  end.

Lemma mont_finish r m t j : wf r -> wf m -> 0 < val m -> val r * W = t + j * val m -> val r < 2 * val m ->
  let s := if u_geb r m then u_sub r m else r in
  wf s /\ mont_of (val m) t (val s).
Proof.
  intros Hr Hm Hp E Hlt s. destruct (cond_sub_spec r m Hr Hm Hp Hlt) as (H1 & H2 & H3).
  split; [exact H1|]. split; [exact H2|]. fold s in H3.
  destruct H3 as [-> | ->]; [exists j; assumption|]. exists (j - W). lia.
Qed.

(** 4-limb number *)
Definition v4 a b c d := a + B * b + B * B * c + B * B * B * d.
Lemma v4_range a b c d : u64 a -> u64 b -> u64 c -> u64 d -> 0 <= v4 a b c d < W.
Proof. intros. unfold v4. rewrite W_B. uB. lia. Qed.

Lemma g_redc_spec M lo hi : valid_modulus (MODULUS M) (M64 M) -> 2 * val (MODULUS M) <= W ->
  wf lo -> wf hi -> val hi < val (MODULUS M) ->
  wf (g_redc M lo hi) /\ mont_of (val (MODULUS M)) (val lo + W * val hi) (val (g_redc M lo hi)).
Proof.
  intros HM Hsz Hlo Hhi Hlt. pose proof (m0_inv _ _ HM) as Hinv.
  destruct HM as (Hm & Hm64 & _).
  pose proof (val_range lo Hlo) as Vlo. pose proof (val_range hi Hhi) as Vhi.
  pose proof (val_range _ Hm) as Vm.
  destruct Hlo as (L0 & L1 & L2 & L3), Hhi as (H0 & H1 & H2 & H3).
  pose proof Hm as (M0 & M1 & M2 & M3).
  unfold g_redc. cbv zeta. set (m := MODULUS M) in *. set (m64 := M64 M) in *. clearbody m m64.
  steps. zero_digits Hinv. abstract_digits.
  match goal with |- context [u_geb ?r m] => set (R := r) in * end.
  assert (HR : wf R) by (unfold wf, R; simpl; auto).
  pose proof (v4_range k2 k1 k0 k ltac:(assumption) ltac:(assumption) ltac:(assumption) ltac:(assumption)) as VK.
  pose proof (val_range R HR) as VR.
  assert (EQ : (val R + W * c18) * W = val lo + W * val hi + v4 k2 k1 k0 k * val m).
  { unfold R, v4. rewrite !val_B, !W_B. cbn [l0 l1 l2 l3].
    clear - E E0 E1 E2 E3 E4 E5 E6 E7 E8 E9 E10 E11 E12 E13 E14 E15 E16 E17 E18. unfold B in *. lia. }
  assert (val R + W * c18 < 2 * val m) by (unfold W in *; nia).
  assert (c18 = 0) by (unfold W in *; nia). subst c18.
  apply mont_finish with (j := v4 k2 k1 k0 k); [assumption|assumption|lia|lia|lia].
Qed.

(** ** Interleaved multiplication: one row *)
Definition row (x y0 y1 y2 y3 : Z) (m : u256) (m64 a0 a1 a2 a3 : Z) : option (Z * Z * Z * Z) :=
  let '(a0, carry) := mac a0 x y0 0 in
  let '(a1, carry) := mac a1 x y1 carry in
  let '(a2, carry) := mac a2 x y2 carry in
  let '(a3, carry) := mac a3 x y3 carry in
  let a4 := carry in
  let k := wmul a0 m64 in
  let '(_, carry) := mac a0 k (l0 m) 0 in
  let '(a0, carry) := mac a1 k (l1 m) carry in
  let '(a1, carry) := mac a2 k (l2 m) carry in
  let '(a2, carry) := mac a3 k (l3 m) carry in
  let? a3 := add64 a4 carry in
  Some (a0, a1, a2, a3).

Lemma row_spec x y m m64 a0 a1 a2 a3 :
  valid_modulus m m64 -> wf y -> u64 x -> u64 a0 -> u64 a1 -> u64 a2 -> u64 a3 ->
  val y + val m <= W -> v4 a0 a1 a2 a3 < val y + val m ->
  exists b0 b1 b2 b3 k, row x (l0 y) (l1 y) (l2 y) (l3 y) m m64 a0 a1 a2 a3 = Some (b0, b1, b2, b3) /\
    u64 b0 /\ u64 b1 /\ u64 b2 /\ u64 b3 /\ u64 k /\
    v4 b0 b1 b2 b3 < val y + val m /\
    v4 b0 b1 b2 b3 * B = v4 a0 a1 a2 a3 + x * val y + k * val m.
Proof.
  intros HM Hy Hx A0 A1 A2 A3 Hsz Hlt. pose proof (m0_inv _ _ HM) as Hinv.
  destruct HM as (Hm & Hm64 & _). pose proof (val_range _ Hm) as Vm. pose proof (val_range _ Hy) as Vy.
  destruct Hy as (Y0 & Y1 & Y2 & Y3). destruct Hm as (M0 & M1 & M2 & M3).
  unfold row. cbv zeta. steps. zero_digits Hinv. abstract_digits.
  assert (EQ : v4 r4 r5 r6 (c2 + c6) * B = v4 a0 a1 a2 a3 + x * val y + k * val m).
  { unfold v4. rewrite !val_B. clear - E E0 E1 E2 E3 E4 E5 E6. unfold B in *. lia. }
  assert (LT : v4 r4 r5 r6 (c2 + c6) < val y + val m).
  { clear - EQ Hlt Hx Hk Vy Vm. unfold u64 in *. revert EQ Hlt.
    assert (x * val y <= (B - 1) * val y) by (apply Z.mul_le_mono_nonneg_r; lia).
    assert (k * val m <= (B - 1) * val m) by (apply Z.mul_le_mono_nonneg_r; lia).
    generalize dependent (x * val y). generalize dependent (k * val m).
    generalize (v4 r4 r5 r6 (c2 + c6)), (v4 a0 a1 a2 a3). unfold B in *. intros. lia. }
  unfold add64. destruct (Z.ltb_spec (c2 + c6) B) as [Hc|Hc].
  2: { exfalso. clear - Hc LT Hsz H8 H9 H10 H11 H12 H13 H14. unfold v4 in LT. rewrite W_B in Hsz. uB. lia. }
  cbn [bind]. exists r4, r5, r6, (c2 + c6), k. repeat (split; [first [reflexivity|assumption|(uB; lia)]|]). exact EQ.
Qed.

Definition rows (x y m : u256) (m64 : Z) : option (Z * Z * Z * Z) :=
  let? (a0, a1, a2, a3) := row (l0 x) (l0 y) (l1 y) (l2 y) (l3 y) m m64 0 0 0 0 in
  let? (a0, a1, a2, a3) := row (l1 x) (l0 y) (l1 y) (l2 y) (l3 y) m m64 a0 a1 a2 a3 in
  let? (a0, a1, a2, a3) := row (l2 x) (l0 y) (l1 y) (l2 y) (l3 y) m m64 a0 a1 a2 a3 in
  row (l3 x) (l0 y) (l1 y) (l2 y) (l3 y) m m64 a0 a1 a2 a3.

Lemma rows_spec x y m m64 : valid_modulus m m64 -> wf x -> wf y -> val y < val m -> 2 * val m <= W ->
  exists b0 b1 b2 b3 j, rows x y m m64 = Some (b0, b1, b2, b3) /\
    u64 b0 /\ u64 b1 /\ u64 b2 /\ u64 b3 /\
    v4 b0 b1 b2 b3 < 2 * val m /\
    v4 b0 b1 b2 b3 * W = val x * val y + j * val m.
Proof.
  intros HM Hx Hy Hlt Hsz. pose proof Hx as (X0 & X1 & X2 & X3).
  pose proof (val_range _ Hy). pose proof HM as (Hm & _). pose proof (val_range _ Hm).
  assert (S : val y + val m <= W) by lia.
  unfold rows.
  destruct (row_spec (l0 x) y m m64 0 0 0 0) as (a0 & a1 & a2 & a3 & k0 & E0 & A0 & A1 & A2 & A3 & _ & L0 & Q0);
    auto with limb; [unfold v4; lia|]. rewrite E0; cbn [bind].
  destruct (row_spec (l1 x) y m m64 a0 a1 a2 a3) as (b0 & b1 & b2 & b3 & k1 & E1 & B0 & B1 & B2 & B3 & _ & L1 & Q1);
    auto. rewrite E1; cbn [bind].
  destruct (row_spec (l2 x) y m m64 b0 b1 b2 b3) as (c0 & c1 & c2 & c3 & k2 & E2 & C0 & C1 & C2 & C3 & _ & L2 & Q2);
    auto. rewrite E2; cbn [bind].
  destruct (row_spec (l3 x) y m m64 c0 c1 c2 c3) as (d0 & d1 & d2 & d3 & k3 & E3 & D0 & D1 & D2 & D3 & _ & L3 & Q3);
    auto.
  exists d0, d1, d2, d3, (k0 + B * k1 + B * B * k2 + B * B * B * k3).
  repeat (split; [first [assumption|lia]|]).
  rewrite (val_B x), W_B.
  clear - Q0 Q1 Q2 Q3.
  replace (v4 0 0 0 0) with 0 in Q0 by reflexivity.
  generalize dependent (v4 a0 a1 a2 a3). generalize dependent (v4 b0 b1 b2 b3).
  generalize dependent (v4 c0 c1 c2 c3). generalize dependent (v4 d0 d1 d2 d3).
  generalize (val y) (val m). unfold B in *. intros. lia.
Qed.

Lemma g_mul_redc_rows M x y : g_mul_redc M x y =
  let? (a0, a1, a2, a3) := rows x y (MODULUS M) (M64 M) in
  Some (if u_geb (mk a0 a1 a2 a3) (MODULUS M) then u_sub (mk a0 a1 a2 a3) (MODULUS M) else mk a0 a1 a2 a3).
Proof.
  unfold g_mul_redc, rows, row. cbv zeta.
  repeat (match goal with
          | |- bind (add64 ?a ?b) _ = _ => destruct (add64 a b); cbn [bind]; [|reflexivity]
          | |- (let '(_, _) := mac ?a ?b ?c ?k in _) = _ => destruct (mac a b c k)
          end).
  reflexivity.
Qed.

Lemma g_mul_redc_spec M x y : valid_modulus (MODULUS M) (M64 M) -> 2 * val (MODULUS M) <= W ->
  wf x -> wf y -> val y < val (MODULUS M) ->
  exists r, g_mul_redc M x y = Some r /\ wf r /\ mont_of (val (MODULUS M)) (val x * val y) (val r).
Proof.
  intros HM Hsz Hx Hy Hlt.
  destruct (rows_spec x y (MODULUS M) (M64 M)) as (b0 & b1 & b2 & b3 & j & E & B0 & B1 & B2 & B3 & LT & EQ); auto.
  rewrite g_mul_redc_rows, E. cbn [bind]. eexists. split; [reflexivity|].
  assert (V : val (mk b0 b1 b2 b3) = v4 b0 b1 b2 b3) by apply val_B.
  pose proof HM as (Hm & _). pose proof (val_range y Hy).
  apply mont_finish with (j := j); [unfold wf; simpl; auto|assumption|lia| |]; rewrite V; assumption.
Qed.

(** ** The compile-time conversion *)
Lemma k_const a x y m64 : u64 a -> u64 x -> u64 y ->
  wmul (wadd (wmul x y) a) m64 = wmul (fst (mac a x y 0)) m64.
Proof.
  intros Ha Hx Hy. destruct (mac a x y 0) as [lo hi] eqn:E.
  apply mac_spec in E; try assumption; auto with limb. destruct E as (H1 & H2 & E). simpl.
  unfold wmul at 1 3. unfold wadd, wmul, w64. f_equal. f_equal.
  rewrite Zplus_mod_idemp_l. symmetry. apply mod_eq with (q := hi); [exact H1|lia].
Qed.

Lemma k_const0 x y m64 : u64 x -> u64 y -> wmul (wmul x y) m64 = wmul (fst (mac 0 x y 0)) m64.
Proof.
  intros Hx Hy. rewrite <- k_const by auto with limb. unfold wadd. rewrite Z.add_0_r.
  rewrite (w64_small (wmul x y)) by apply wmul_u64. reflexivity.
Qed.

Definition final_const (m : u256) (a0 a1 a2 a3 : Z) : option u256 :=
  let '(a0, borrow) := sbb a0 (l0 m) 0 in
  let '(a1, borrow) := sbb a1 (l1 m) borrow in
  let '(a2, borrow) := sbb a2 (l2 m) borrow in
  let '(a3, borrow) := sbb a3 (l3 m) borrow in
  let? m0 := mul64 borrow (l0 m) in
  let? m1 := mul64 borrow (l1 m) in
  let? m2 := mul64 borrow (l2 m) in
  let? m3 := mul64 borrow (l3 m) in
  let '(a0, carry) := adc a0 m0 0 in
  let '(a1, carry) := adc a1 m1 carry in
  let '(a2, carry) := adc a2 m2 carry in
  let '(a3, _) := adc a3 m3 carry in
  Some (mk a0 a1 a2 a3).

Lemma mul64_bit b m : 0 <= b <= 1 -> u64 m -> mul64 b m = Some (b * m) /\ u64 (b * m).
Proof.
  intros Hb Hm. unfold mul64. assert (u64 (b * m)) by (assert (b = 0 \/ b = 1) as [-> | ->] by lia; uB; lia).
  split; [|assumption]. destruct (Z.ltb_spec (b * m) B); [reflexivity|uB; lia].
Qed.

Lemma final_const_spec m a0 a1 a2 a3 : wf m -> 0 < val m -> u64 a0 -> u64 a1 -> u64 a2 -> u64 a3 ->
  v4 a0 a1 a2 a3 < 2 * val m -> 2 * val m <= W ->
  exists r, final_const m a0 a1 a2 a3 = Some r /\ wf r /\ 0 <= val r < val m /\
    (val r = v4 a0 a1 a2 a3 \/ val r = v4 a0 a1 a2 a3 - val m).
Proof.
  intros Hm Hp A0 A1 A2 A3 LT Hsz. pose proof (val_range m Hm).
  pose proof (v4_range a0 a1 a2 a3 A0 A1 A2 A3).
  pose proof Hm as (M0 & M1 & M2 & M3). unfold final_const. steps.
  destruct (mul64_bit c2 (l0 m)) as [X0 Y0]; [assumption..|]. rewrite X0; cbn [bind].
  destruct (mul64_bit c2 (l1 m)) as [X1 Y1]; [assumption..|]. rewrite X1; cbn [bind].
  destruct (mul64_bit c2 (l2 m)) as [X2 Y2]; [assumption..|]. rewrite X2; cbn [bind].
  destruct (mul64_bit c2 (l3 m)) as [X3 Y3]; [assumption..|]. rewrite X3; cbn [bind].
  clear X0 X1 X2 X3. steps. eexists. split; [reflexivity|].
  match goal with |- wf ?x /\ _ => assert (HR : wf x) by (unfold wf; simpl; auto); set (R := x) in * end.
  split; [exact HR|]. pose proof (val_range R HR) as VR.
  assert (EQ1 : v4 r r0 r1 r2 - W * c2 = v4 a0 a1 a2 a3 - val m).
  { unfold v4. rewrite val_B, W_B. clear - E E0 E1 E2. unfold B in *; lia. }
  assert (EQ2 : val R + W * c6 = v4 r r0 r1 r2 + c2 * val m).
  { unfold R, v4. rewrite !val_B, W_B. cbn [l0 l1 l2 l3]. clear - E3 E4 E5 E6. unfold B in *; lia. }
  pose proof (v4_range r r0 r1 r2 ltac:(assumption) ltac:(assumption) ltac:(assumption) ltac:(assumption)).
  assert (c2 = 0 \/ c2 = 1) as [-> | ->] by lia.
  - assert (c6 = 0) by (unfold W in *; lia). subst c6. lia.
  - assert (c6 = 1) by (unfold W in *; lia). subst c6. lia.
Qed.

Lemma to_montgomery_const_rows x m m64 r2 : wf x -> wf r2 -> valid_modulus m m64 ->
  val r2 < val m -> 2 * val m <= W ->
  to_montgomery_const x m m64 r2 =
  let? (a0, a1, a2, a3) := rows x r2 m m64 in final_const m a0 a1 a2 a3.
Proof.
  intros (X0 & X1 & X2 & X3) HR HM Hlt Hsz.
  assert (S : val r2 + val m <= W) by lia.
  pose proof HM as (Hm & Hm64 & _).
  pose proof HR as (Y0 & Y1 & Y2 & Y3). pose proof Hm as (M0 & M1 & M2 & M3).
  unfold to_montgomery_const, rows. cbv zeta.
  rewrite (k_const0 (l0 x)) by assumption.
  pose proof (val_range r2 HR). pose proof (val_range m Hm).
  destruct (row_spec (l0 x) r2 m m64 0 0 0 0) as (a0 & a1 & a2 & a3 & k0 & E0 & A0 & A1 & A2 & A3 & _ & L0 & Q0);
    auto with limb; [unfold v4; lia|].
  rewrite E0; cbn [bind]. unfold row in E0; cbv zeta in E0.
  destruct (mac 0 (l0 x) (l0 r2) 0) as [? ?] eqn:F0. cbn [fst]. 
  repeat (match type of E0 with
          | bind (add64 ?a ?b) _ = _ => destruct (add64 a b); cbn [bind] in E0 |- *; [|discriminate E0]
          | (let '(_, _) := mac ?a ?b ?c ?k in _) = _ => destruct (mac a b c k)
          end).
  inversion E0; subst; clear E0 F0.
  rewrite (k_const a0 (l1 x) (l0 r2)) by assumption.
  destruct (row_spec (l1 x) r2 m m64 a0 a1 a2 a3) as (b0 & b1 & b2 & b3 & k1 & E1 & B0 & B1 & B2 & B3 & _ & L1 & Q1);
    auto.
  rewrite E1; cbn [bind]. unfold row in E1; cbv zeta in E1.
  destruct (mac a0 (l1 x) (l0 r2) 0) as [? ?] eqn:F0. cbn [fst].
  repeat (match type of E1 with
          | bind (add64 ?a ?b) _ = _ => destruct (add64 a b); cbn [bind] in E1 |- *; [|discriminate E1]
          | (let '(_, _) := mac ?a ?b ?c ?k in _) = _ => destruct (mac a b c k)
          end).
  inversion E1; subst; clear E1 F0.
  rewrite (k_const b0 (l2 x) (l0 r2)) by assumption.
  destruct (row_spec (l2 x) r2 m m64 b0 b1 b2 b3) as (c0 & c1 & c2 & c3 & k2 & E2 & C0 & C1 & C2 & C3 & _ & L2 & Q2);
    auto.
  rewrite E2; cbn [bind]. unfold row in E2; cbv zeta in E2.
  destruct (mac b0 (l2 x) (l0 r2) 0) as [? ?] eqn:F0. cbn [fst].
  repeat (match type of E2 with
          | bind (add64 ?a ?b) _ = _ => destruct (add64 a b); cbn [bind] in E2 |- *; [|discriminate E2]
          | (let '(_, _) := mac ?a ?b ?c ?k in _) = _ => destruct (mac a b c k)
          end).
  inversion E2; subst; clear E2 F0.
  rewrite (k_const c0 (l3 x) (l0 r2)) by assumption.
  destruct (row_spec (l3 x) r2 m m64 c0 c1 c2 c3) as (d0 & d1 & d2 & d3 & k3 & E3 & D0 & D1 & D2 & D3 & _ & L3 & Q3);
    auto.
  rewrite E3; cbn [bind]. unfold row in E3; cbv zeta in E3.
  destruct (mac c0 (l3 x) (l0 r2) 0) as [? ?] eqn:F0. cbn [fst].
  repeat (match type of E3 with
          | bind (add64 ?a ?b) _ = _ => destruct (add64 a b); cbn [bind] in E3 |- *; [|discriminate E3]
          | (let '(_, _) := mac ?a ?b ?c ?k in _) = _ => destruct (mac a b c k)
          end).
  inversion E3; subst; clear E3 F0.
  reflexivity.
Qed.

Lemma to_montgomery_const_spec x m m64 r2 : wf x -> wf r2 -> valid_modulus m m64 ->
  val r2 < val m -> 2 * val m <= W ->
  exists r, to_montgomery_const x m m64 r2 = Some r /\ wf r /\ mont_of (val m) (val x * val r2) (val r).
Proof.
  intros Hx HR HM Hlt Hsz. rewrite to_montgomery_const_rows by assumption.
  destruct (rows_spec x r2 m m64) as (b0 & b1 & b2 & b3 & j & E & B0 & B1 & B2 & B3 & LT & EQ); auto.
  rewrite E. cbn [bind]. pose proof HM as (Hm & _). pose proof (val_range r2 HR).
  destruct (final_const_spec m b0 b1 b2 b3) as (r & F1 & F2 & F3 & F4); auto; [lia|].
  exists r. split; [exact F1|]. split; [exact F2|]. split; [exact F3|].
  destruct F4 as [-> | ->]; [exists j; assumption|exists (j - W); lia].
Qed.

(** ** Proth moduli *)
Definition proth_m (m3 : Z) : Z := 1 + B * B * B * m3.

Lemma p_redc_spec m3 lo hi : u64 m3 -> 0 < m3 -> 2 * proth_m m3 <= W ->
  wf lo -> wf hi -> val hi < proth_m m3 ->
  wf (p_redc m3 lo hi) /\ mont_of (proth_m m3) (val lo + W * val hi) (val (p_redc m3 lo hi)).
Proof.
  intros Hm Hp Hsz Hlo Hhi Hlt.
  pose proof (val_range lo Hlo) as Vlo. pose proof (val_range hi Hhi) as Vhi.
  destruct Hlo as (L0 & L1 & L2 & L3), Hhi as (H0 & H1 & H2 & H3).
  unfold p_redc. steps.
  pose proof (v4_range r r1 r2 r3 ltac:(assumption) ltac:(assumption) ltac:(assumption) ltac:(assumption)) as VK.
  pose proof (v4_range r5 r7 r9 r11 ltac:(assumption) ltac:(assumption) ltac:(assumption) ltac:(assumption)) as VR.
  pose proof (v4_range r12 r13 r14 r15 ltac:(assumption) ltac:(assumption) ltac:(assumption) ltac:(assumption)) as VS.
  assert (EQ : (v4 r5 r7 r9 r11 + W * (c10 + c11)) * W = val lo + W * val hi + v4 r r1 r2 r3 * proth_m m3).
  { unfold v4, proth_m. rewrite !val_B, !W_B.
    clear - E E0 E1 E2 E3 E4 E5 E6 E7 E8 E9 E10 E11. unfold B in *. lia. }
  assert (EQ2 : v4 r12 r13 r14 r15 - W * c15 = v4 r5 r7 r9 r11 - proth_m m3).
  { unfold v4, proth_m. rewrite !W_B. clear - E12 E13 E14 E15. unfold B in *. lia. }
  assert (PM : 0 < proth_m m3) by (unfold proth_m, B; lia).
  set (K := v4 r r1 r2 r3) in *. set (V := v4 r5 r7 r9 r11) in *. set (V' := v4 r12 r13 r14 r15) in *.
  set (m := proth_m m3) in *.
  assert (LT : V + W * (c10 + c11) < 2 * m).
  { clear - EQ VK Hlt Vlo Vhi PM. assert (K * m <= (W - 1) * m) by (apply Z.mul_le_mono_nonneg_r; lia).
    generalize dependent (K * m). unfold W in *. intros. lia. }
  assert (Z0 : c10 + c11 = 0) by (unfold W in *; lia). rewrite Z0 in *.
  assert (A : wf (mk r12 r13 r14 r15)) by (unfold wf; simpl; auto).
  assert (A' : wf (mk r5 r7 r9 r11)) by (unfold wf; simpl; auto).
  destruct (Z.eqb_spec c15 0) as [->|NZ].
  - split; [exact A|]. unfold mont_of. rewrite val_B; cbn [l0 l1 l2 l3].
    change (0 <= V' < m /\ exists j, V' * W = val lo + W * val hi + j * m).
    split; [lia|]. exists (K - W). lia.
  - assert (c15 = 1) by lia. subst c15.
    split; [exact A'|]. unfold mont_of. rewrite val_B; cbn [l0 l1 l2 l3].
    change (0 <= V < m /\ exists j, V * W = val lo + W * val hi + j * m).
    split; [lia|]. exists K. lia.
Qed.

Lemma p_mul_redc_spec m3 x y : u64 m3 -> 0 < m3 -> 2 * proth_m m3 <= W ->
  wf x -> wf y -> val y < proth_m m3 ->
  exists r, p_mul_redc m3 x y = Some r /\ wf r /\ mont_of (proth_m m3) (val x * val y) (val r).
Proof.
  intros Hm Hp Hsz Hx Hy Hlt.
  pose proof (val_range x Hx) as Vx. pose proof (val_range y Hy) as Vy.
  destruct Hx as (X0 & X1 & X2 & X3), Hy as (Y0 & Y1 & Y2 & Y3).
  unfold p_mul_redc. cbv zeta. steps.
  pose proof (v4_range r3 r9 r15 r22 ltac:(assumption) ltac:(assumption) ltac:(assumption) ltac:(assumption)) as VK.
  assert (EQ : v4 r23 r24 r25 (c20 + c25 + c21) * W = val x * val y + v4 r3 r9 r15 r22 * proth_m m3).
  { unfold v4, proth_m. rewrite !val_B, !W_B.
    clear - E E0 E1 E2 E3 E4 E5 E6 E7 E8 E9 E10 E11 E12 E13 E14 E15 E16 E17 E18 E19 E20 E21 E22 E23 E24 E25.
    unfold B in *. lia. }
  assert (PM : 0 < proth_m m3) by (unfold proth_m, B; lia).
  set (K := v4 r3 r9 r15 r22) in *.
  assert (LT : v4 r23 r24 r25 (c20 + c25 + c21) < 2 * proth_m m3).
  { clear - EQ VK Hlt Vx Vy PM. set (V := v4 r23 r24 r25 (c20 + c25 + c21)) in *. set (m := proth_m m3) in *.
    assert (K * m <= (W - 1) * m) by (apply Z.mul_le_mono_nonneg_r; lia).
    assert (val x * val y <= W * val y) by (apply Z.mul_le_mono_nonneg_r; lia).
    generalize dependent (K * m). generalize dependent (val x * val y). unfold W in *. intros. lia. }
  assert (SUM : c20 + c25 + c21 < B).
  { unfold v4 in LT. rewrite W_B in Hsz. unfold u64 in *. unfold B in *. lia. }
  unfold add64 at 1. destruct (Z.ltb_spec (c20 + c25) B); [|unfold u64 in *; lia]. cbn [bind].
  unfold add64. destruct (Z.ltb_spec (c20 + c25 + c21) B); [|lia]. cbn [bind].
  eexists. split; [reflexivity|].
  assert (U : u64 (c20 + c25 + c21)) by (unfold u64 in *; lia).
  assert (PV : val (mk 1 0 0 m3) = proth_m m3) by (rewrite val_B; unfold proth_m; simpl; lia).
  rewrite <- PV in *.
  apply mont_finish with (j := K); [unfold wf; simpl; auto|unfold wf; simpl; auto with limb|assumption| |];
    rewrite (val_B (mk r23 _ _ _)); cbn [l0 l1 l2 l3]; assumption.
Qed.

(** ** Dispatch *)

(** The declared parameters satisfy their documentation and leave the top bit free. *)
Definition valid_params (M : mparams) : Prop :=
  valid_modulus (MODULUS M) (M64 M) /\ 1 < val (MODULUS M) /\ 2 * val (MODULUS M) <= W /\
  wf (R1 M) /\ val (R1 M) = W mod val (MODULUS M) /\
  wf (R2 M) /\ val (R2 M) = (W * W) mod val (MODULUS M) /\
  wf (R3 M) /\ val (R3 M) = (W * W * W) mod val (MODULUS M).

Lemma is_proth_spec M : wf (MODULUS M) -> 1 < val (MODULUS M) -> is_proth M = true ->
  val (MODULUS M) = proth_m (l3 (MODULUS M)) /\ u64 (l3 (MODULUS M)) /\ 0 < l3 (MODULUS M).
Proof.
  unfold is_proth. rewrite !andb_true_iff, !Z.eqb_eq. intros (_ & _ & _ & H) Hgt ((E0 & E1) & E2).
  rewrite val_B in *. rewrite E0, E1, E2 in *. unfold proth_m. uB. lia.
Qed.

Lemma redc_spec M lo hi : valid_modulus (MODULUS M) (M64 M) -> 1 < val (MODULUS M) ->
  2 * val (MODULUS M) <= W -> wf lo -> wf hi -> val hi < val (MODULUS M) ->
  wf (redc M lo hi) /\ mont_of (val (MODULUS M)) (val lo + W * val hi) (val (redc M lo hi)).
Proof.
  intros HM Hgt Hsz Hlo Hhi Hlt. unfold redc. destruct (is_proth M) eqn:P.
  - destruct (is_proth_spec M) as (E & H3 & Hp); [apply HM|assumption..|]. rewrite E in *.
    apply p_redc_spec; assumption.
  - apply g_redc_spec; assumption.
Qed.

Lemma mul_redc_spec M x y : valid_modulus (MODULUS M) (M64 M) -> 1 < val (MODULUS M) ->
  2 * val (MODULUS M) <= W -> wf x -> wf y -> val y < val (MODULUS M) ->
  exists r, mul_redc M x y = Some r /\ wf r /\ mont_of (val (MODULUS M)) (val x * val y) (val r).
Proof.
  intros HM Hgt Hsz Hx Hy Hlt. unfold mul_redc. destruct (is_proth M) eqn:P.
  - destruct (is_proth_spec M) as (E & H3 & Hp); [apply HM|assumption..|]. rewrite E in *.
    apply p_mul_redc_spec; assumption.
  - apply g_mul_redc_spec; assumption.
Qed.

(** ** Montgomery representation facts *)
Lemma mont_of_mod m t v : 0 < m -> mont_of m t v -> 0 <= v < m /\ (v * W) mod m = t mod m.
Proof.
  intros Hm (H & j & E). split; [exact H|]. rewrite E. apply Z_mod_plus_full.
Qed.

(** 2^256 is invertible modulo an odd modulus. *)
Lemma valid_odd m m64 : valid_modulus m m64 -> Z.gcd (val m) W = 1.
Proof.
  intros (Hm & _ & H).
  assert (R : rel_prime (val m) 2).
  { apply bezout_rel_prime.
    pose proof (Z.div_mod (val m * m64) B ltac:(discriminate)) as D. rewrite H in D.
    apply Bezout_intro with (u := - m64) (v := (val m * m64 / B + 1) * 9223372036854775808). unfold B in *. lia. }
  apply Zgcd_1_rel_prime. unfold W. apply rel_prime_Zpower_r; [lia|assumption].
Qed.

Lemma mont_unique m t v v' : 0 < m -> Z.gcd m W = 1 -> mont_of m t v -> mont_of m t v' -> v = v'.
Proof.
  intros Hm G (H & j & E) (H' & j' & E').
  assert (D : (m | v - v')).
  { apply Gauss with (b := W); [|apply Zgcd_1_rel_prime; exact G].
    exists (j - j'). lia. }
  destruct D as [q D]. assert (q = 0) by nia. subst q. lia.
Qed.

(** ** Conversions *)
Lemma cancel_W m a b : 0 < m -> Z.gcd m W = 1 -> 0 <= a < m -> (a * W) mod m = (b * W) mod m -> a = b mod m.
Proof.
  intros Hm G Ha E.
  assert (D : (m | a - b)).
  { apply Gauss with (b := W); [|apply Zgcd_1_rel_prime; exact G].
    replace (W * (a - b)) with (a * W - b * W) by ring.
    apply Z.mod_divide; [lia|]. rewrite Zminus_mod, E, Z.sub_diag. reflexivity. }
  destruct D as [q D]. replace b with (a + (- q) * m) by lia.
  rewrite Z_mod_plus_full. symmetry. apply Z.mod_small. exact Ha.
Qed.

Lemma to_montgomery_spec M x : valid_params M -> wf x ->
  exists r, to_montgomery M x = Some r /\ wf r /\ val r = (val x * W) mod val (MODULUS M).
Proof.
  intros (HM & Hgt & Hsz & _ & _ & Hw2 & E2 & _) Hx. unfold to_montgomery.
  pose proof (Z.mod_pos_bound (W * W) (val (MODULUS M)) ltac:(lia)).
  destruct (mul_redc_spec M x (R2 M)) as (r & F & Hr & Mo); auto; [lia|].
  exists r. split; [exact F|]. split; [exact Hr|].
  destruct (mont_of_mod (val (MODULUS M)) (val x * val (R2 M)) (val r)) as [H1 H2]; [lia|assumption|].
  apply cancel_W; [lia|eapply valid_odd; eassumption|assumption|].
  rewrite H2, E2, Zmult_mod_idemp_r. f_equal. ring.
Qed.

Lemma from_montgomery_spec M x : valid_params M -> wf x ->
  wf (from_montgomery M x) /\ 0 <= val (from_montgomery M x) < val (MODULUS M) /\
  (val (from_montgomery M x) * W) mod val (MODULUS M) = val x mod val (MODULUS M).
Proof.
  intros (HM & Hgt & Hsz & _) Hx. unfold from_montgomery.
  destruct (redc_spec M x ZERO) as (Hr & Mo); auto using wf_ZERO; [rewrite val_ZERO; lia|].
  split; [exact Hr|].
  apply mont_of_mod in Mo; [|lia]. rewrite val_ZERO, Z.mul_0_r, Z.add_0_r in Mo. exact Mo.
Qed.

Lemma to_montgomery_const_spec2 M x : valid_params M -> wf x ->
  to_montgomery_const x (MODULUS M) (M64 M) (R2 M) = to_montgomery M x.
Proof.
  intros (HM & Hgt & Hsz & _ & _ & Hw2 & E2 & _) Hx.
  pose proof (Z.mod_pos_bound (W * W) (val (MODULUS M)) ltac:(lia)).
  destruct (mul_redc_spec M x (R2 M)) as (r & F & Hr & Mo); auto; [lia|].
  destruct (to_montgomery_const_spec x (MODULUS M) (M64 M) (R2 M)) as (r' & F' & Hr' & Mo'); auto; [lia|].
  unfold to_montgomery. rewrite F, F'. f_equal. apply val_inj; auto.
  eapply mont_unique with (m := val (MODULUS M)); [lia|eapply valid_odd; eassumption|eassumption|eassumption].
Qed.

Lemma square_redc_spec M x : valid_params M -> wf x -> val x < val (MODULUS M) ->
  wf (square_redc M x) /\ mont_of (val (MODULUS M)) (val x * val x) (val (square_redc M x)).
Proof.
  intros (HM & Hgt & Hsz & _) Hx Hlt. unfold square_redc.
  destruct (u_square_full_spec x Hx) as (H1 & H2 & H3).
  destruct (u_square_full x) as [lo hi]. cbn [fst snd] in *. rewrite <- H3.
  apply redc_spec; auto. pose proof (val_range x Hx). pose proof (val_range lo H1).
  assert (val x * val x <= (val (MODULUS M) - 1) * W) by nia. unfold W in *. nia.
Qed.

Lemma mul_mod_spec M x y : valid_params M -> wf x -> wf y -> val y < val (MODULUS M) ->
  exists r, mul_mod M x y = Some r /\ wf r /\ val r = (val x * val y) mod val (MODULUS M).
Proof.
  intros HP Hx Hy Hlt. destruct (to_montgomery_spec M x HP Hx) as (t & E & Ht & Vt).
  pose proof HP as (HM & Hgt & Hsz & _).
  destruct (mul_redc_spec M t y) as (r & F & Hr & Mo); auto.
  exists r. unfold mul_mod. unfold to_montgomery in E. rewrite E. cbn [bind]. split; [exact F|]. split; [exact Hr|].
  apply mont_of_mod in Mo; [|lia]. destruct Mo as [H1 H2].
  apply cancel_W; [lia|eapply valid_odd; eassumption|assumption|].
  rewrite H2, Vt, Zmult_mod_idemp_l. f_equal. ring.
Qed.
