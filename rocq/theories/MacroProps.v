(** C52: the literals are the numbers they spell. *)
Require Import ZArith Lia Bool List.
From Verif Require Import Word U256Model U256Spec U256Proofs MontgomeryModel MontgomeryProofs MontgomeryProps BinaryModel EncodingModel EncodingSpec EncodingProofs
  Primes FieldModel FieldSpec FieldProofs FieldInstance MacroModel.
Import ListNotations.
Open Scope Z_scope.

Lemma convert_rows x m m64 r2 : wf x -> wf r2 -> valid_modulus m m64 ->
  val r2 < val m -> 2 * val m <= W ->
  convert_with x m m64 r2 =
  let? (a0, a1, a2, a3) := rows x r2 m m64 in final_macro m a0 a1 a2 a3.
Proof.
  intros (X0 & X1 & X2 & X3) HR HM Hlt Hsz.
  assert (S : val r2 + val m <= W) by lia.
  pose proof HM as (Hm & Hm64 & _).
  pose proof HR as (Y0 & Y1 & Y2 & Y3). pose proof Hm as (M0 & M1 & M2 & M3).
  unfold convert_with, rows. cbv zeta.
  rewrite (k_const0 (l0 x)) by assumption.
  pose proof (val_range r2 HR). pose proof (val_range m Hm).
  destruct (row_spec (l0 x) r2 m m64 0 0 0 0) as (a0 & a1 & a2 & a3 & k0 & E0 & A0 & A1 & A2 & A3 & _ & L0 & Q0);
    auto with limb; [unfold v4; lia|].
  rewrite E0; cbn [bind]. unfold row in E0; cbv zeta in E0.
  destruct (mac 0 (l0 x) (l0 r2) 0) as [? ?] eqn:F0. cbn [fst]. 
  repeat (match type of E0 with
          | bind (add64 ?a ?b) _ = _ => destruct (add64 a b); cbn [bind] in E0 |- *; [|discriminate E0]
          | (let '(_, _) := mac ?a ?b ?c ?k in _) = _ => destruct (mac a b c k)
          end).
  inversion E0; subst; clear E0 F0.
  rewrite (k_const a0 (l1 x) (l0 r2)) by assumption.
  destruct (row_spec (l1 x) r2 m m64 a0 a1 a2 a3) as (b0 & b1 & b2 & b3 & k1 & E1 & B0 & B1 & B2 & B3 & _ & L1 & Q1);
    auto.
  rewrite E1; cbn [bind]. unfold row in E1; cbv zeta in E1.
  destruct (mac a0 (l1 x) (l0 r2) 0) as [? ?] eqn:F0. cbn [fst].
  repeat (match type of E1 with
          | bind (add64 ?a ?b) _ = _ => destruct (add64 a b); cbn [bind] in E1 |- *; [|discriminate E1]
          | (let '(_, _) := mac ?a ?b ?c ?k in _) = _ => destruct (mac a b c k)
          end).
  inversion E1; subst; clear E1 F0.
  rewrite (k_const b0 (l2 x) (l0 r2)) by assumption.
  destruct (row_spec (l2 x) r2 m m64 b0 b1 b2 b3) as (c0 & c1 & c2 & c3 & k2 & E2 & C0 & C1 & C2 & C3 & _ & L2 & Q2);
    auto.
  rewrite E2; cbn [bind]. unfold row in E2; cbv zeta in E2.
  destruct (mac b0 (l2 x) (l0 r2) 0) as [? ?] eqn:F0. cbn [fst].
  repeat (match type of E2 with
          | bind (add64 ?a ?b) _ = _ => destruct (add64 a b); cbn [bind] in E2 |- *; [|discriminate E2]
          | (let '(_, _) := mac ?a ?b ?c ?k in _) = _ => destruct (mac a b c k)
          end).
  inversion E2; subst; clear E2 F0.
  rewrite (k_const c0 (l3 x) (l0 r2)) by assumption.
  destruct (row_spec (l3 x) r2 m m64 c0 c1 c2 c3) as (d0 & d1 & d2 & d3 & k3 & E3 & D0 & D1 & D2 & D3 & _ & L3 & Q3);
    auto.
  rewrite E3; cbn [bind]. unfold row in E3; cbv zeta in E3.
  destruct (mac c0 (l3 x) (l0 r2) 0) as [? ?] eqn:F0. cbn [fst].
  repeat (match type of E3 with
          | bind (add64 ?a ?b) _ = _ => destruct (add64 a b); cbn [bind] in E3 |- *; [|discriminate E3]
          | (let '(_, _) := mac ?a ?b ?c ?k in _) = _ => destruct (mac a b c k)
          end).
  inversion E3; subst; clear E3 F0.
  reflexivity.
Qed.


(** ** The final reduction *)
Lemma macro_sbb_spec a b (c : Z) : u64 a -> u64 b -> 0 <= c <= 1 ->
  exists r c', macro_sbb a b (c * (B - 1)) = (r, c' * (B - 1)) /\ u64 r /\ 0 <= c' <= 1 /\ r - B * c' = a - b - c.
Proof.
  intros Ha Hb Hc. unfold macro_sbb.
  assert (E : Z.shiftr (c * (B - 1)) 63 = c) by (assert (c = 0 \/ c = 1) as [-> | ->] by lia; reflexivity). rewrite E.
  change (2 ^ 128) with (B * B). rewrite Z.shiftr_div_pow2 by lia. change (2 ^ 64) with B.
  destruct (Z.le_gt_cases (b + c) a) as [H|H].
  - exists (a - (b + c)), 0. rewrite (Z.mod_small (a - (b + c)) (B * B)) by (uB; lia). rewrite Z.mod_small, Z.div_small by (uB; lia).
    split; [reflexivity|]. split; [uB; lia|]. split; [lia|]. lia.
  - exists (a - (b + c) + B), 1.
    assert (M : (a - (b + c)) mod (B * B) = (a - (b + c) + B) + (B - 1) * B).
    { symmetry. apply Z.mod_unique with (-1); [left; uB; lia|uB; lia]. }
    rewrite M, Z_mod_plus_full, Z_div_plus_full by (unfold B; lia). rewrite Z.mod_small, Z.div_small by (uB; lia).
    split; [reflexivity|]. split; [uB; lia|]. split; [lia|]. lia.
Qed.
Lemma tuple_geb_spec a0 a1 a2 a3 m : wf m -> u64 a0 -> u64 a1 -> u64 a2 -> u64 a3 ->
  tuple_geb a3 a2 a1 a0 m = (val m <=? v4 a0 a1 a2 a3).
Proof.
  intros (M0 & M1 & M2 & M3) A0 A1 A2 A3. unfold tuple_geb, v4. rewrite val_B. symmetry.
  assert (X : forall b c : bool, (b = true <-> c = true) -> b = c) by (intros [] []; intuition congruence).
  apply X. clear X. rewrite Z.leb_le. uB.
  destruct (Z.eqb_spec a3 (l3 m)); [destruct (Z.eqb_spec a2 (l2 m)); [destruct (Z.eqb_spec a1 (l1 m))|]|]; rewrite ?Z.leb_le, ?Z.ltb_lt; split; intros; lia.
Qed.
Lemma final_macro_spec m a0 a1 a2 a3 : wf m -> 0 < val m -> u64 a0 -> u64 a1 -> u64 a2 -> u64 a3 ->
  v4 a0 a1 a2 a3 < 2 * val m ->
  exists r, final_macro m a0 a1 a2 a3 = Some r /\ wf r /\ 0 <= val r < val m /\
    (val r = v4 a0 a1 a2 a3 \/ val r = v4 a0 a1 a2 a3 - val m).
Proof.
  intros Hm Hp A0 A1 A2 A3 LT. pose proof (v4_range a0 a1 a2 a3 A0 A1 A2 A3) as VA. unfold final_macro. rewrite tuple_geb_spec by assumption.
  pose proof Hm as (M0 & M1 & M2 & M3). destruct (Z.leb_spec (val m) (v4 a0 a1 a2 a3)) as [H|H].
  - destruct (macro_sbb_spec a0 (l0 m) 0 A0 M0 ltac:(lia)) as (r0 & c0 & E0 & U0 & C0 & Q0). change (0 * (B - 1)) with 0 in E0. rewrite E0.
    destruct (macro_sbb_spec a1 (l1 m) c0 A1 M1 C0) as (r1 & c1 & E1 & U1 & C1 & Q1). rewrite E1.
    destruct (macro_sbb_spec a2 (l2 m) c1 A2 M2 C1) as (r2 & c2 & E2 & U2 & C2 & Q2). rewrite E2.
    destruct (macro_sbb_spec a3 (l3 m) c2 A3 M3 C2) as (r3 & c3 & E3 & U3 & C3 & Q3). rewrite E3.
    eexists. split; [reflexivity|]. set (R := mk r0 r1 r2 r3). assert (HR : wf R) by (unfold wf; cbn; auto). split; [exact HR|].
    assert (EQ : val R - W * c3 = v4 a0 a1 a2 a3 - val m).
    { unfold R, v4. rewrite !val_B, W_B. cbn [l0 l1 l2 l3]. clear - Q0 Q1 Q2 Q3. unfold B in *; lia. }
    pose proof (val_range R HR). pose proof (val_range m Hm). assert (c3 = 0 \/ c3 = 1) as [-> | ->] by lia; [lia|unfold W in *; lia].
  - eexists. split; [reflexivity|]. assert (E : val (mk a0 a1 a2 a3) = v4 a0 a1 a2 a3) by (rewrite val_B; reflexivity). rewrite E.
    split; [unfold wf; cbn; auto|]. split; [lia|left; reflexivity].
Qed.
Lemma convert_spec x m m64 r2 : wf x -> wf r2 -> valid_modulus m m64 -> val r2 < val m -> 2 * val m <= W ->
  exists r, convert_with x m m64 r2 = Some r /\ wf r /\ mont_of (val m) (val x * val r2) (val r).
Proof.
  intros Hx HR HM Hlt Hsz. rewrite convert_rows by assumption.
  destruct (rows_spec x r2 m m64) as (b0 & b1 & b2 & b3 & j & E & B0 & B1 & B2 & B3 & LT & EQ); auto.
  rewrite E. cbn [bind]. pose proof HM as (Hm & _). pose proof (val_range r2 HR).
  destruct (final_macro_spec m b0 b1 b2 b3) as (r & F1 & F2 & F3 & F4); auto; [lia|].
  exists r. split; [exact F1|]. split; [exact F2|]. split; [exact F3|].
  destruct F4 as [-> | ->]; [exists j; assumption|exists (j - W); lia].
Qed.
Lemma montgomery_convert_spec x v : denotes x v -> exists r, montgomery_convert x = Some r /\ represents p_field r (v mod p_field).
Proof.
  intros [Hx <-].
  assert (V : valid_params (fmp proth_field)) by (apply (consistent_valid _ p_field), (g_cons _ proth_good)).
  destruct (to_montgomery_spec (fmp proth_field) x V Hx) as (r0 & F0 & Hr0 & E0).
  pose proof V as (HM & Hgt & Hsz & _ & _ & Hw2 & E2 & _).
  assert (P : 0 < p_field) by reflexivity.
  destruct (convert_spec x (MODULUS (fmp proth_field)) (M64 (fmp proth_field)) (R2 (fmp proth_field))) as (r & F & Hr & Mo);
    [exact Hx|exact Hw2|exact HM|rewrite E2; apply Z.mod_pos_bound; lia|exact Hsz|].
  exists r. split; [exact F|]. split; [apply Z.mod_pos_bound, P|]. split; [exact Hr|].
  assert (D : 0 < val (MODULUS (fmp proth_field))) by lia.
  destruct (mont_of_mod _ _ _ D Mo) as [H1 H2].
  change p_field with (val (MODULUS (fmp proth_field))). rewrite Zmult_mod_idemp_l. change (2 ^ 256) with W.
  apply cancel_W; [exact D|exact (valid_odd _ _ HM)|exact H1|].
  rewrite H2, E2, Zmult_mod_idemp_r. f_equal. ring.
Qed.

(** ** The limbs of the byte string *)
Fixpoint le (l : list Z) : Z := match l with [] => 0 | d :: l => d + 256 * le l end.
Lemma num_le l : num 256 l = le (rev l).
Proof.
  rewrite <- (rev_involutive l) at 1. generalize (rev l) as k. clear l. induction k as [|d k IH]; [reflexivity|]. cbn [rev le]. rewrite num_snoc, IH. ring.
Qed.
Lemma le_range l : Forall (digit 256) l -> 0 <= le l < 256 ^ Z.of_nat (length l).
Proof.
  induction 1 as [|d l Hd Hl IH]; [cbn; lia|]. cbn [le length]. rewrite Nat2Z.inj_succ, Z.pow_succ_r by lia. unfold digit in Hd. lia.
Qed.
Lemma fill_limb_spec k : forall j limb iter, Forall (digit 256) iter -> 0 <= j -> j + Z.of_nat k <= 8 -> 0 <= limb < 256 ^ j ->
  fill_limb k j limb iter = (limb + 256 ^ j * le (firstn k iter), if (k <=? length iter)%nat then Some (skipn k iter) else None).
Proof.
  induction k as [|k IH]; intros j limb iter F Hj Hk Hl; cbn [fill_limb].
  - cbn [firstn le skipn Nat.leb]. f_equal. ring.
  - destruct F as [|d iter Hd F].
    + cbn [firstn le length]. f_equal. ring.
    + assert (P : 256 ^ j = 2 ^ (8 * j)) by (rewrite Z.pow_mul_r by lia; reflexivity).
      assert (Q : 256 ^ (j + 1) = 256 * 256 ^ j) by (rewrite Z.pow_add_r by lia; change (256 ^ 1) with 256; ring).
      assert (R : 256 ^ (j + 1) <= B). { replace B with (256 ^ 8) by reflexivity. apply Z.pow_le_mono_r; lia. }
      assert (S0 : Z.lor limb (Z.shiftl d (8 * j) mod B) = limb + 256 ^ j * d).
      { unfold digit in Hd. rewrite Z.shiftl_mul_pow2 by lia. rewrite <- P. rewrite Z.mod_small by nia. rewrite Z.lor_comm. rewrite lor_disjoint with (k := 8 * j); [ring|lia| |lia]. rewrite P. apply Z.mod_mul. lia. }
      rewrite S0, IH; [|exact F|lia|lia|unfold digit in Hd; nia].
      cbn [firstn le skipn length Nat.leb]. f_equal. rewrite Q. ring.
Qed.
Fixpoint limbs_val (l : list Z) : Z := match l with [] => 0 | d :: l => d + B * limbs_val l end.
Lemma le_app a b : le (a ++ b) = le a + 256 ^ Z.of_nat (length a) * le b.
Proof. induction a as [|d a IH]; cbn [app le length]; [change (256 ^ Z.of_nat 0) with 1; ring|]. rewrite IH, Nat2Z.inj_succ, Z.pow_succ_r by lia. ring. Qed.
Lemma Forall_take_drop {A} (P : A -> Prop) n l : Forall P l -> Forall P (firstn n l) /\ Forall P (skipn n l).
Proof. intros F. rewrite <- (firstn_skipn n l) in F. apply Forall_app, F. Qed.
Lemma fill_limbs_spec n : forall iter, Forall (digit 256) iter -> (length iter <= 8 * n)%nat ->
  length (fill_limbs n iter) = n /\ Forall u64 (fill_limbs n iter) /\ limbs_val (fill_limbs n iter) = le iter.
Proof.
  induction n as [|n IH]; intros iter F L; cbn [fill_limbs].
  - destruct iter; [|cbn in L; lia]. repeat split. constructor.
  - rewrite fill_limb_spec; [|assumption|lia|lia|split; [lia|reflexivity]]. change (256 ^ 0) with 1. rewrite Z.mul_1_l, Z.add_0_l.
    pose proof (le_range (firstn 8 iter) (proj1 (Forall_take_drop _ _ _ F))) as R. rewrite firstn_length in R.
    assert (U : u64 (le (firstn 8 iter))).
    { assert (256 ^ Z.of_nat (Nat.min 8 (length iter)) <= 256 ^ 8) by (apply Z.pow_le_mono_r; lia). change (256 ^ 8) with B in *. uB. lia. }
    destruct (Nat.leb_spec 8 (length iter)) as [H|H].
    + destruct (IH (skipn 8 iter)) as (I1 & I2 & I3); [apply (proj2 (Forall_take_drop _ _ _ F))|rewrite skipn_length; lia|].
      cbn [length limbs_val]. split; [congruence|]. split; [constructor; assumption|]. rewrite I3. rewrite <- (firstn_skipn 8 iter) at 3. rewrite le_app, firstn_length, Nat.min_l by lia. reflexivity.
    + cbn [length limbs_val]. rewrite repeat_length. split; [reflexivity|]. split.
      * constructor; [exact U|]. apply Forall_forall. intros y Hy. apply repeat_spec in Hy. subst y. uB. lia.
      * rewrite firstn_all2 by lia. assert (Z0 : limbs_val (repeat 0 n) = 0) by (clear; induction n as [|n IH]; cbn [repeat limbs_val]; [reflexivity|rewrite IH; reflexivity]). rewrite Z0. ring.
Qed.
Lemma bytes_to_limbs_spec bytes : Forall (digit 256) bytes -> (length bytes <= 32)%nat ->
  exists x, bytes_to_limbs bytes = Some x /\ denotes x (num 256 bytes).
Proof.
  intros F L. unfold bytes_to_limbs. destruct (Nat.ltb_spec 32 (length bytes)); [lia|].
  destruct (fill_limbs_spec 4 (rev bytes)) as (L4 & FU & V); [apply Forall_rev, F|rewrite rev_length; lia|].
  destruct (fill_limbs 4 (rev bytes)) as [|c0 [|c1 [|c2 [|c3 [|]]]]]; try discriminate L4.
  eexists. split; [reflexivity|]. inversion FU as [|? ? HU0 FU1]; inversion FU1 as [|? ? HU1 FU2]; inversion FU2 as [|? ? HU2 FU3]; inversion FU3 as [|? ? HU3 FU4]; subst.
  split; [unfold wf; cbn; auto|]. rewrite num_le, <- V, val_B. cbn [l0 l1 l2 l3 limbs_val]. ring.
Qed.

(** The literal of a string of at most 64 hexadecimal digits (an even number of them) is the number
    it spells; everything else is a compile error. *)
Theorem C52_u256h : forall s vs, spells s vs -> Nat.even (length s) = true -> (length s <= 64)%nat ->
  exists x, u256h s = Some x /\ denotes x (num 16 vs).
Proof.
  intros s vs H E L. unfold u256h. rewrite (hex_decode_spells s vs H), E. cbn [bind]. pose proof (Forall2_len _ _ _ _ _ H) as Ln. rewrite Ln in E.
  destruct (pairs_spec vs (spells_digits _ _ H) E) as (P1 & P2 & P3). rewrite <- P1. apply bytes_to_limbs_spec; [exact P2|lia].
Qed.
Print Assumptions C52_u256h.
Theorem C52_compile_error : forall s,
  (forall vs, spells s vs -> Nat.even (length s) = false \/ (64 < length s)%nat -> u256h s = None /\ field_element_literal s = None) /\
  (forall c, In c s -> (forall v, ~ hex_value c v) -> u256h s = None /\ field_element_literal s = None).
Proof.
  intros s. split.
  - intros vs H K. unfold u256h, field_element_literal. rewrite (hex_decode_spells s vs H). destruct (Nat.even (length s)) eqn:E; [|split; reflexivity].
    destruct K as [K|K]; [discriminate K|]. cbn [bind]. pose proof (Forall2_len _ _ _ _ _ H) as Ln. rewrite Ln in E. destruct (pairs_spec vs (spells_digits _ _ H) E) as (P1 & P2 & P3).
    assert (X : bytes_to_limbs (pairs vs) = None) by (unfold bytes_to_limbs; destruct (Nat.ltb_spec 32 (length (pairs vs))); [reflexivity|lia]). rewrite X. split; reflexivity.
  - intros c Hc N. assert (X : hex_digit c = None). { destruct (hex_digit c) as [v|] eqn:E; [|reflexivity]. exfalso. apply (N v). unfold hex_digit in E. unfold hex_value.
      destruct (Z.leb_spec 48 c), (Z.leb_spec c 57), (Z.leb_spec 97 c), (Z.leb_spec c 102), (Z.leb_spec 65 c), (Z.leb_spec c 70); cbn in E; try discriminate E; injection E as <-; lia. }
    unfold u256h, field_element_literal. rewrite (hex_decode_invalid s c Hc X). split; reflexivity.
Qed.
Print Assumptions C52_compile_error.

(** The field literal has the representation of the number it spells, reduced modulo the field's
    prime; no addition in the macro overflows. *)
Theorem C52_field_element : forall s vs, spells s vs -> Nat.even (length s) = true -> (length s <= 64)%nat ->
  exists r, field_element_literal s = Some r /\ represents p_field r (num 16 vs mod p_field).
Proof.
  intros s vs H E L. destruct (C52_u256h s vs H E L) as (x & Ex & Dx). unfold u256h in Ex. unfold field_element_literal.
  destruct (hex_decode s) as [bytes|]; [|discriminate Ex]. cbn [bind] in *. rewrite Ex. cbn [bind]. apply montgomery_convert_spec, Dx.
Qed.
Print Assumptions C52_field_element.

(** It is the limbs that from_uint gives at run time, and those of the constant function
    [to_montgomery_const], for every value below the modulus. *)
Theorem C52_same_as_from_uint : forall x v, denotes x v -> v < p_field ->
  montgomery_convert x = pf_from_uint proth_field x /\
  montgomery_convert x = to_montgomery_const x (MODULUS (fmp proth_field)) (M64 (fmp proth_field)) (R2 (fmp proth_field)).
Proof.
  intros x v Dx Hv. destruct (montgomery_convert_spec x v Dx) as (r & E & Rr).
  assert (C := g_cons _ proth_good). change (val (p_modulus proth_field)) with p_field in C.
  assert (0 <= v) by (destruct Dx as [Wx <-]; apply val_range, Wx). rewrite (Z.mod_small v p_field) in Rr by lia.
  destruct (pf_from_uint_spec proth_field p_field C x v Dx Hv) as (r' & E' & Rr').
  assert (r = r') by exact (rep_inj p_field r r' v Rr Rr'). subst r'. split; [congruence|].
  destruct (C15_to_montgomery_const (fmp proth_field) p_field x v C Dx) as (r2 & E2 & D2). rewrite E, E2. f_equal.
  destruct Rr as [_ [W1 V1]], D2 as [W2 V2]. apply val_inj; congruence.
Qed.
Print Assumptions C52_same_as_from_uint.
Example C52_ex : (exists vs, spells [48; 49] vs) /\ field_element_literal [48; 49] = Some (R1 (fmp proth_field)) /\
  field_element_literal [48; 51] = Some (GENERATOR proth_field) /\ u256h [48; 49; 97; 66] = Some (mk 0x01ab 0 0 0).
Proof. split; [exists [0; 1]; repeat constructor; unfold hex_value; lia|]. split; [vm_compute; reflexivity|]. split; vm_compute; reflexivity. Qed.
