(** A valid signature that [verify] rejects: private key 1, nonce 1 and the x coordinate of the
    generator as digest. Both factors are then (n + 1) / 2, their leading digits meet, and the mixed
    addition adds the generator to itself. *)
Require Import ZArith NArith Lia Bool List Znumtheory Ring_theory Field_theory.
From Verif Require Import Word U256Model U256Spec U256Proofs MontgomeryModel KnuthModel BinaryModel FieldModel FieldSpec FieldProofs Primes FieldSig FieldInstance FieldAlgModel Arr
  CurveModel CurveSpec CurveGroup CurveProofs WnafModel WnafSpec WnafProofs ScalarMulProofs CurveInstance CurveOrder CurveBase SignModel SignSpec SignProofs.
Import ListNotations.
Open Scope Z_scope.

(** Adding a point with x <> y twice to the point at infinity by the mixed formula gives the point at infinity. *)
Lemma add_twice_zero {F} (o : ops F) (L : lawful o) (r : jacobian F) x y : a_from_jacobian o r = AZero -> x <> y ->
  j_add_affine o (j_add_affine o r (APoint x y)) (APoint x y) = j_zero o.
Proof.
  intros E N. assert (Ez : jz r = f0 o).
  { revert E. unfold a_from_jacobian. destruct (inv_opt o (jz r)) eqn:E; [discriminate|]. intros _. apply (inv_opt_none o L). exact E. }
  destruct r as [x0 y0 z]. cbn [jz] in Ez. subst z. assert (Rf : forall v, feqb o v v = true) by (intros v; apply (law_eqb o L); reflexivity).
  unfold j_add_affine at 2. rewrite Rf. unfold j_add_affine. pose proof (F_R (law_field o L)) as R.
  assert (N1 : feqb o (f1 o) (f0 o) = false).
  { destruct (feqb o (f1 o) (f0 o)) eqn:C; [|reflexivity]. apply (law_eqb o L) in C. destruct (F_1_neq_0 (law_field o L) C). }
  assert (OneR : forall v, fmul o v (f1 o) = v) by (intros v; rewrite (Rmul_comm R); apply (Rmul_1_l R)).
  rewrite N1. unfold sqr. rewrite !OneR, Rf. destruct (feqb o x y) eqn:C; [|reflexivity]. apply (law_eqb o L) in C. contradiction.
Qed.

Definition digest1 : Scalar := fe_of_Z order_good gx.
Lemma digest1_val : fe_val digest1 = gx.
Proof. unfold digest1. rewrite fe_of_Z_val. reflexivity. Qed.
Definition one_s : Scalar := f1 scalar_ops.
Lemma one_s_val : fe_val one_s = 1. Proof. exact (fe1_val order_good). Qed.
Lemma one_not : fe_val one_s <> p_order - 94. Proof. rewrite one_s_val. discriminate. Qed.
Lemma g_one : G_times 1 = GENERATOR. Proof. unfold G_times. rewrite (zmul_1 felt_ops). reflexivity. Qed.
Lemma neg_g_one : G_times (- (1)) = opposite felt_ops GENERATOR.
Proof. unfold G_times. rewrite (zmul_opp felt_ops felt_lawful), (zmul_1 felt_ops). reflexivity. Qed.
Lemma gen_eq : GENERATOR = APoint GEN_X GEN_Y. Proof. reflexivity. Qed.
Lemma gx_val : fe_val GEN_X = gx. Proof. apply gen_val. Qed.

Definition or_nil (x : option (list Z)) : list Z := match x with Some l => l | None => [] end.
Definition naf7 : list Z := or_nil (non_adjacent_form (u_of_Z half_n) 7).
Definition naf5 : list Z := or_nil (non_adjacent_form (u_of_Z half_n) 5).
Definition low : list (Z * Z) := firstn 250 (combine naf7 naf5).
Lemma naf7_eq : non_adjacent_form (u_of_Z half_n) 7 = Some naf7. Proof. vm_compute. reflexivity. Qed.
Lemma naf5_eq : non_adjacent_form (u_of_Z half_n) 5 = Some naf5. Proof. vm_compute. reflexivity. Qed.
Lemma digits_split : combine naf7 naf5 = low ++ (1, 1) :: repeat (0, 0) 6. Proof. vm_compute. reflexivity. Qed.
Lemma low_trace : snd (trace 1 0 low) = true /\ fst (trace 1 0 low) = p_order + 1 - 2 ^ 251. Proof. vm_compute. split; reflexivity. Qed.
Lemma gx_ne : gx <> 0 /\ gx < p_order /\ (gx + gx) mod p_order <> 0 /\ phi gx <> phi gy.
Proof.
  split; [discriminate|]. split; [reflexivity|]. split; [vm_compute; discriminate|]. intros E. apply phi_inj in E; [discriminate E|split; [discriminate|reflexivity]|split; [discriminate|reflexivity]].
Qed.
Lemma gx_small a : 0 <= a < p_field -> a mod p_order = gx -> a = gx.
Proof.
  intros H E. assert (D : a / p_order = 0 \/ a / p_order = 1).
  { assert (0 <= a / p_order < 2); [|lia]. split; [apply Z.div_pos; [lia|reflexivity]|]. apply Z.div_lt_upper_bound; [reflexivity|]. assert (p_field < p_order * 2) by reflexivity. lia. }
  pose proof (Z.div_mod a p_order ltac:(discriminate)) as Ea. rewrite E in Ea. destruct D as [D|D]; rewrite D in Ea; [lia|].
  exfalso. assert (p_field < p_order * 1 + gx) by reflexivity. lia.
Qed.
Lemma final_multiple : G_times (p_order + 1 - 2 ^ 251) <> GENERATOR /\ G_times (p_order + 1 - 2 ^ 251) <> G_times (- (1)).
Proof.
  rewrite <- g_one. split; intros E; apply g_eq_inv, vanishes_spec in E; vm_compute in E; discriminate E.
Qed.
Lemma half_fact v : 0 <= v < p_order -> (v + v) mod p_order = 1 -> v = half_n.
Proof.
  intros H E. assert (D : (v + v) / p_order = 0 \/ (v + v) / p_order = 1).
  { assert (0 <= (v + v) / p_order < 2); [|lia]. split; [apply Z.div_pos; [lia|reflexivity]|]. apply Z.div_lt_upper_bound; [reflexivity|]. lia. }
  pose proof (Z.div_mod (v + v) p_order ltac:(discriminate)) as Ea. rewrite E in Ea. assert (Eh : half_n + half_n = p_order + 1) by (vm_compute; reflexivity).
  destruct D as [D|D]; rewrite D in Ea; lia.
Qed.

Local Opaque felt_ops p_order scalar_ops GENERATOR phi gx gy half_n p_field low naf7 naf5.
Lemma sign_one hash : hash 0%nat = one_s -> exists s, sign one_s digest1 hash = Some s /\ sig_r s = digest1 /\ sig_w s <> f0 scalar_ops /\
  fe_val (digest1 *s sig_w s) = half_n.
Proof.
  intros Eh. pose proof gx_ne as (N0 & Lx & N2 & _).
  assert (E : exists s, sign_try one_s digest1 one_s = Some (Some s) /\ sig_r s = digest1).
  { unfold sign_try. rewrite s_eqb, one_s_val, s_zero. change (1 =? 0) with false. cbv iota. rewrite (generator_mul_ok one_s one_not), one_s_val, g_one. cbn [bind].
    rewrite gen_eq. destruct (f_uint_spec GEN_X) as (u & -> & D). cbn [bind]. rewrite gx_val in D. destruct (s_from_spec u _ D) as (r & -> & Er). cbn [bind].
    assert (Gx : 0 <= gx < p_order) by (split; [|exact Lx]; rewrite <- digest1_val; apply (fe_val_range order_good)).
    rewrite Z.mod_small in Er by exact Gx. rewrite s_eqb, Er, s_zero. destruct (Z.eqb_spec gx 0) as [C|_]; [contradiction|].
    assert (r = digest1) as -> by (apply (fe_val_inj order_good); rewrite Er, digest1_val; reflexivity).
    rewrite (inv_opt_ne scalar_ops scalar_lawful). { eexists. split; reflexivity. }
    intros Z. apply N2. rewrite <- digest1_val. assert (E1 : digest1 *s one_s = digest1) by (pose proof (F_R (law_field scalar_ops scalar_lawful)) as R; rewrite (Rmul_comm R); apply (Rmul_1_l R)).
    rewrite E1 in Z. rewrite <- s_add, Z. apply s_zero. }
  destruct E as (s & E & Er). exists s. split; [|split; [exact Er|]].
  - unfold sign. change (seq 0 1000) with (0%nat :: seq 1 999). cbn [sign_loop]. rewrite Eh, E. reflexivity.
  - destruct (sign_try_spec one_s digest1 one_s) as (t & Et & Ht). rewrite E in Et. injection Et as <-. destruct (Ht s eq_refl) as (_ & _ & _ & Ew). split.
    + intros Z. rewrite Z in Ew. apply (f_equal fe_val) in Ew. rewrite s_mul, s_zero, one_s_val, Z.mul_0_l, Z.mod_0_l in Ew by discriminate. discriminate Ew.
    + apply half_fact; [apply s_range|]. rewrite <- one_s_val, <- Ew, Er, s_mul, s_mul, s_add, s_mul, one_s_val.
      rewrite <- Z.add_mod, Z.mul_mod_idemp_r, <- Z.mul_mod_idemp_r, Z.add_mod_idemp_l, Z.mul_mod_idemp_r by discriminate.
      apply (f_equal (fun v => v mod p_order)). generalize (fe_val digest1) (fe_val (sig_w s)). intros x y. ring.
Qed.
Lemma run_zero t u n r0 : aff r0 = AZero -> exists r, for_each (repeat (0, 0) n) (fun r '(x, y) => let? r := digit_step (j_add_affine felt_ops) (j_sub_affine felt_ops) t (j_double felt_ops r) x in
      digit_step (j_add_affine felt_ops) (j_sub_affine felt_ops) u r y) r0 = Some r /\ aff r = AZero.
Proof.
  revert r0. induction n as [|n IH]; intros r0 E0; cbn [repeat for_each]; [exists r0; split; [reflexivity|exact E0]|].
  unfold digit_step at 1 2. change (0 <? 0) with false. cbv iota. cbn [bind]. apply IH. rewrite (aff_double felt_ops felt_lawful (sm_two _ _ _ stark_smooth)), E0. reflexivity.
Qed.
Lemma add_twice (r : jacobian Felt) : aff r = AZero -> j_add_affine felt_ops (j_add_affine felt_ops r GENERATOR) GENERATOR = j_zero felt_ops.
Proof. intros E. rewrite gen_phi. apply (add_twice_zero felt_ops felt_lawful); [exact E|]. apply gx_ne. Qed.
Lemma first_entry t q n : (0 < n)%nat -> odd_table felt_ops (fun x => x) q n t -> get t 0 = Some q.
Proof. intros Hn [_ Ht]. destruct (Ht 0%nat Hn) as (x & -> & ->). f_equal. change (2 * Z.of_nat 0 + 1) with 1. symmetry. rewrite (zmul_1 felt_ops). reflexivity. Qed.
Lemma verify_one s : sig_r s = digest1 -> sig_w s <> f0 scalar_ops -> fe_val (digest1 *s sig_w s) = half_n -> verify (G_times 1) digest1 s = Some false.
Proof.
  intros Er Nw Eh. destruct generator_table_spec as (t & Et & Ht). pose proof gx_ne as (N0 & Lx & N2 & _).
  destruct (s_uint_spec (digest1 *s sig_w s)) as (a & Ua & Da). assert (Ub : s_uint (sig_r s *s sig_w s) = Some a) by (rewrite Er; exact Ua).
  assert (Ea : a = u_of_Z half_n) by (rewrite <- Eh; apply u_of_denotes; [exact Da|]; pose proof (s_range (digest1 *s sig_w s)); pose proof order_W; lia).
  assert (N1 : ~ (p_order | 1)) by (intros C; apply vanishes_spec in C; discriminate C).
  assert (F7 : non_adjacent_form a 7 = Some naf7) by (rewrite Ea; exact naf7_eq). assert (F5 : non_adjacent_form a 5 = Some naf5) by (rewrite Ea; exact naf5_eq).
  destruct (double_base_mul_run felt_ops felt_lawful BETA stark_smooth (G_times 1) t a a naf7 naf5 (g_on 1) (proj1 Da) (proj1 Da) (fun i => odd_nonzero 1 i N1) F7 F5) as (u & Hu & Oa & Ob & _ & _ & Run).
  rewrite digits_split in Run, Oa, Ob. rewrite rev_app_distr in Run. cbn [rev] in Run. change (rev (repeat (0, 0) 6)) with (repeat (0, 0) 6) in Run. rewrite !for_each_app in Run.
  destruct (run_zero t u 6 (j_zero felt_ops) (aff_zero felt_ops felt_lawful _ _)) as (r6 & E6 & A6). rewrite E6 in Run. cbn [bind for_each] in Run.
  unfold digit_step at 1 2 in Run. change (0 <? 1) with true in Run. change (Z.to_nat (Z.shiftr 1 1)) with 0%nat in Run. cbv iota in Run.
  rewrite (first_entry t _ 32 ltac:(lia) Ht), (first_entry u _ 8 ltac:(lia) Hu) in Run. cbn [bind] in Run. rewrite g_one, add_twice in Run.
  2:{ rewrite (aff_double felt_ops felt_lawful (sm_two _ _ _ stark_smooth)), A6. reflexivity. }
  destruct (trace_run 1 t u low Ht Hu) with (start := 0) (r0 := j_zero felt_ops) as (j & Ej & Aj).
  - intros x Hx. apply Oa. rewrite map_app. apply in_or_app. left. exact Hx.
  - intros x Hx. apply Ob. rewrite map_app. apply in_or_app. left. exact Hx.
  - exact (aff_zero felt_ops felt_lawful _ _).
  - apply low_trace.
  - rewrite Ej in Run. rewrite (proj2 low_trace) in Aj. rewrite <- g_one in Run.
    assert (Nr : sig_r s <> f0 scalar_ops) by (rewrite Er; intros Z; apply N0; rewrite <- digest1_val, Z; apply s_zero).
    destruct (verify_by t (G_times 1) digest1 s a a j Et Nr Nw (g_on 1) Ua Ub Run) as (v & Ev & Hv).
    rewrite Ev. f_equal. destruct v; [|reflexivity]. exfalso. destruct Hv as [Hv _]. specialize (Hv eq_refl). rewrite Aj, Er in Hv. unfold x_matches in Hv.
    destruct (G_times (p_order + 1 - 2 ^ 251)) as [|x y] eqn:EG; [contradiction|]. rewrite digest1_val in Hv. apply gx_small in Hv; [|exact (fe_val_range proth_good x)].
    assert (x = phi gx) as -> by (rewrite <- Hv; symmetry; apply phi_fe).
    pose proof (g_on (p_order + 1 - 2 ^ 251)) as O1. pose proof gen_on as O2. pose proof final_multiple as [D1 D2]. rewrite EG in O1, D1, D2. rewrite gen_phi in O2, D1.
    destruct (same_x felt_ops felt_lawful _ _ _ _ _ O2 O1) as [H|H].
    + apply D1. rewrite H. reflexivity.
    + apply D2. rewrite neg_g_one, gen_phi. cbn [opposite]. rewrite H. reflexivity.
Qed.
