(** C34: ECDSA signatures on the crate's curve. *)
Require Import ZArith NArith Lia Bool List Znumtheory.
From Verif Require Import Word U256Model U256Spec U256Proofs MontgomeryModel FieldModel Primes FieldSig FieldInstance FieldAlgModel Arr
  CurveModel CurveSpec CurveGroup CurveProofs WnafModel WnafSpec WnafProofs ScalarMulProofs CurveInstance CurveOrder CurveBase SignModel SignSpec SignProofs SignCollision.
Import ListNotations.
Open Scope Z_scope.

Lemma g_neg z : G_times (- z) = opposite felt_ops (G_times z). Proof. exact (zmul_opp felt_ops felt_lawful (f1 felt_ops) z GENERATOR). Qed.
Local Opaque felt_ops p_order scalar_ops GENERATOR G_times fe_val.
(** The factors [verify] derives from a digest and a signature. *)
Notation u1 h s := (fe_val (fmul scalar_ops h (sig_w s))).
Notation u2 s := (fe_val (fmul scalar_ops (sig_r s) (sig_w s))).

(** A public key is the private key times the generator; the two keys 0 and n - 94 give zero. *)
Theorem C34_public_key : forall d : Scalar,
  public_key d = Some (if (fe_val d =? p_order - 94) then AZero else G_times (fe_val d)) /\
  (G_times (fe_val d) = AZero <-> fe_val d = 0).
Proof.
  intros d. split.
  - unfold public_key. destruct (Z.eqb_spec (fe_val d) (p_order - 94)) as [E|N]; [apply generator_mul_exception; exact E|apply generator_mul_ok; exact N].
  - rewrite <- vanishes_zero. unfold vanishes. rewrite Z.mod_small by apply s_range. apply Z.eqb_eq.
Qed.
Print Assumptions C34_public_key.

(** A signature made with key d is accepted under the public key of d: for every digest and every
    nonce stream, provided the run of [verify] adds no two points with the same x. *)
Theorem C34_sign_verify : forall (d h : Scalar) hash s Q,
  sign d h hash = Some s -> public_key d = Some Q -> fe_val d <> 0 -> fe_val d <> p_order - 94 ->
  collision_free (fe_val d) (u1 h s) (u2 s) ->
  verify Q h s = Some true.
Proof.
  intros d h hash s Q E EQ N0 N94 Cf. unfold public_key in EQ. rewrite (generator_mul_ok d N94) in EQ. injection EQ as <-.
  destruct (sign_spec d h hash s E) as (n & _ & _ & Nr & Nw & X & Eu).
  assert (Nd : ~ (p_order | fe_val d)). { intros C. apply vanishes_spec, vanishes_zero in C. apply N0. apply (proj2 (C34_public_key d)). exact C. }
  destruct (verify_multiple (fe_val d) h s Nd Nr Nw Cf) as (v & -> & Hv). f_equal. apply Hv. rewrite <- g_mod, Eu. exact X.
Qed.
Print Assumptions C34_sign_verify.

(** What [verify] accepts, for any point of the curve as public key: exactly the textbook equation. *)
Theorem C34_verify_equation : forall Q (h : Scalar) s da db,
  fe_val (sig_r s) <> 0 -> fe_val (sig_w s) <> 0 -> on_curve felt_ops (f1 felt_ops) BETA Q ->
  (forall i, (i < 8)%nat -> zmul felt_ops (f1 felt_ops) (2 * Z.of_nat i + 1) Q <> AZero) ->
  non_adjacent_form (u_of_Z (u1 h s)) 7 = Some da -> non_adjacent_form (u_of_Z (u2 s)) 5 = Some db ->
  clash_free2 felt_ops GENERATOR Q (combine da db) ->
  exists v, verify Q h s = Some v /\
    (v = true <-> x_matches (padd felt_ops (f1 felt_ops) (G_times (u1 h s)) (zmul felt_ops (f1 felt_ops) (u2 s) Q)) (sig_r s)).
Proof.
  intros Q h s da db Nr Nw Oq Nq Ea Eb Cf. pose proof (s_range (fmul scalar_ops h (sig_w s))) as Ra. pose proof (s_range (fmul scalar_ops (sig_r s) (sig_w s))) as Rb. pose proof order_W as OW.
  refine (verify_general Q h s da db _ _ Oq Nq _ _ Cf).
  - intros C. apply Nr. rewrite C. apply s_zero.
  - intros C. apply Nw. rewrite C. apply s_zero.
  - intros a D. rewrite (u_of_denotes a _ D) by lia. exact Ea.
  - intros a D. rewrite (u_of_denotes a _ D) by lia. exact Eb.
Qed.
Print Assumptions C34_verify_equation.

Lemma neg_mod x n : (- (x mod n)) mod n = (- x) mod n.
Proof. replace (- (x mod n)) with (0 - x mod n) by ring. rewrite Zminus_mod_idemp_r. f_equal. Qed.
(** Malleability: if (r, w) is accepted then so is (r, -w). *)
Theorem C34_malleable : forall (d h : Scalar) s, fe_val d <> 0 ->
  verify (G_times (fe_val d)) h s = Some true ->
  let s' := Sig (sig_r s) (fneg scalar_ops (sig_w s)) in
  collision_free (fe_val d) (u1 h s) (u2 s) -> collision_free (fe_val d) (u1 h s') (u2 s') ->
  verify (G_times (fe_val d)) h s' = Some true.
Proof.
  intros d h s N0 E s' Cf Cf'.
  assert (Nd : ~ (p_order | fe_val d)). { intros C. apply vanishes_spec, vanishes_zero in C. apply N0. apply (proj2 (C34_public_key d)). exact C. }
  assert (Nr : sig_r s <> f0 scalar_ops). { intros C. revert E. unfold verify. rewrite (proj2 (law_eqb scalar_ops scalar_lawful _ _) C). discriminate. }
  assert (Nw : sig_w s <> f0 scalar_ops). { intros C. revert E. unfold verify. rewrite (proj2 (law_eqb scalar_ops scalar_lawful _ _) C). destruct (feqb _ _ _); discriminate. }
  assert (Nw' : sig_w s' <> f0 scalar_ops) by (intros C; apply Nw, (fneg_0_iff scalar_ops scalar_lawful), C).
  destruct (verify_multiple (fe_val d) h s Nd Nr Nw Cf) as (v & Ev & Hv). rewrite E in Ev. injection Ev as <-. destruct Hv as [Hv _]. specialize (Hv eq_refl).
  destruct (verify_multiple (fe_val d) h s' Nd Nr Nw' Cf') as (v & Ev' & Hv'). rewrite Ev'. f_equal. apply Hv'. cbn [sig_r s'].
  assert (K : forall a : Scalar, fe_val (fmul scalar_ops a (sig_w s')) = (- fe_val (fmul scalar_ops a (sig_w s))) mod p_order).
  { intros a. cbn [s' sig_w]. rewrite !s_mul. assert (En : fe_val (fneg scalar_ops (sig_w s)) = (- fe_val (sig_w s)) mod p_order) by exact (fe_neg_val order_good (sig_w s)).
    rewrite En, Z.mul_mod_idemp_r by discriminate. rewrite Z.mul_opp_r. symmetry. apply neg_mod. }
  change (sig_r s) with (sig_r s') in Hv |- *. rewrite !K.
  assert (Eg : G_times ((- u1 h s) mod p_order + fe_val d * ((- fe_val (fmul scalar_ops (sig_r s') (sig_w s))) mod p_order)) = opposite felt_ops (G_times (u1 h s + fe_val d * fe_val (fmul scalar_ops (sig_r s') (sig_w s))))).
  { rewrite <- g_neg. apply g_eq. apply Z.mod_divide; [discriminate|].
    rewrite <- Zminus_mod_idemp_l, Z.add_mod_idemp_l, <- Z.add_mod_idemp_r, Z.mul_mod_idemp_r, Z.add_mod_idemp_r, Zminus_mod_idemp_l by discriminate.
    match goal with |- ?a mod _ = 0 => replace a with 0 by ring end. reflexivity. }
  rewrite Eg. destruct (G_times (u1 h s + fe_val d * fe_val (fmul scalar_ops (sig_r s') (sig_w s)))); exact Hv.
Qed.
Print Assumptions C34_malleable.

(** Panics: a zero r or w, a public key off the curve, and the zero public key, whatever the rest. *)
Theorem C34_verify_panics : forall Q (h : Scalar) s,
  (sig_r s = f0 scalar_ops \/ sig_w s = f0 scalar_ops \/ ~ on_curve felt_ops (f1 felt_ops) BETA Q \/ Q = AZero) -> verify Q h s = None.
Proof.
  intros Q h s H. unfold verify. destruct (feqb scalar_ops (sig_r s) (f0 scalar_ops)) eqn:Er; [reflexivity|]. destruct (feqb scalar_ops (sig_w s) (f0 scalar_ops)) eqn:Ew; [reflexivity|].
  destruct (is_on_curve felt_ops BETA Q) eqn:Eq; [|reflexivity]. cbn [negb]. destruct H as [H|[H|[H|H]]].
  - apply (law_eqb scalar_ops scalar_lawful) in H. rewrite H in Er. discriminate Er.
  - apply (law_eqb scalar_ops scalar_lawful) in H. rewrite H in Ew. discriminate Ew.
  - destruct H. destruct Q as [|x y]; [exact I|]. cbn [is_on_curve] in Eq. apply (law_eqb felt_ops felt_lawful) in Eq. cbn [on_curve]. rewrite Eq. f_equal. f_equal. symmetry.
    apply (Ring_theory.Rmul_1_l (Field_theory.F_R (law_field felt_ops felt_lawful))).
  - subst Q. destruct generator_table_spec as (t & -> & _). cbn [bind]. destruct (s_uint_spec (fmul scalar_ops h (sig_w s))) as (a & -> & _). destruct (s_uint_spec (fmul scalar_ops (sig_r s) (sig_w s))) as (b & -> & Wb & _). cbn [bind].
    rewrite (double_base_mul_zero felt_ops felt_lawful BETA stark_smooth t a b Wb). reflexivity.
Qed.
Print Assumptions C34_verify_panics.
(** Hence the valid private key n - 94 (and 0) has a public key under which every verification panics. *)
Theorem C34_exceptional_key_panics : forall (d h : Scalar) s Q, (fe_val d = p_order - 94 \/ fe_val d = 0) -> public_key d = Some Q -> verify Q h s = None.
Proof.
  intros d h s Q H E. apply C34_verify_panics. right. right. right. rewrite (proj1 (C34_public_key d)) in E. destruct (Z.eqb_spec (fe_val d) (p_order - 94)) as [_|N]; [congruence|].
  destruct H as [H|H]; [contradiction|]. rewrite <- (proj2 (proj2 (C34_public_key d) ) H). congruence.
Qed.
Print Assumptions C34_exceptional_key_panics.

(** [sign] panics only when a thousand consecutive nonces all fail. *)
Theorem C34_sign_total : forall (d h : Scalar) hash, sign d h hash = None -> forall n, (n < 1000)%nat -> sign_try d h (hash n) = Some None.
Proof. intros d h hash E n Hn. apply (sign_loop_none d h hash (seq 0 1000) E). apply in_seq. lia. Qed.
Print Assumptions C34_sign_total.

(** The proviso of [C34_sign_verify] is necessary: with private key 1, the digest equal to the x
    coordinate of the generator and nonce 1, [sign] succeeds and [verify] rejects its signature. *)
Theorem C34_sign_verify_refuted : forall hash, hash 0%nat = f1 scalar_ops ->
  exists d h s Q, fe_val d = 1 /\ sign d h hash = Some s /\ public_key d = Some Q /\ verify Q h s = Some false.
Proof.
  intros hash Eh. destruct (sign_one hash Eh) as (s & Es & Er & Nw & Ew). exists one_s, digest1, s, (G_times 1).
  split; [exact one_s_val|]. split; [exact Es|]. split; [|apply verify_one; assumption].
  unfold public_key. rewrite (generator_mul_ok one_s one_not), one_s_val. reflexivity.
Qed.
Print Assumptions C34_sign_verify_refuted.

(** The hypotheses of [C34_sign_verify] are met by private key 2, the digest 1 - 2 x(G) and nonce 1:
    the signature is (x(G), 1). *)
Definition two_s : Scalar := fe_of_Z order_good 2.
Definition digest2 : Scalar := fe_of_Z order_good (1 - 2 * gx).
Example C34_ex : collision_free 2 (fe_val (fmul scalar_ops digest2 one_s)) (fe_val (fmul scalar_ops digest1 one_s)) /\
  fadd scalar_ops (fmul scalar_ops digest1 two_s) digest2 = one_s /\ fe_val two_s = 2.
Proof.
  assert (E2 : fe_val two_s = 2) by (unfold two_s; rewrite fe_of_Z_val; reflexivity). assert (E3 : fe_val digest2 = (1 - 2 * gx) mod p_order) by (unfold digest2; rewrite fe_of_Z_val; reflexivity).
  split; [|split; [|exact E2]].
  - rewrite !s_mul, one_s_val, digest1_val, E3. vm_compute. reflexivity.
  - apply (fe_val_inj order_good). rewrite s_add, s_mul, one_s_val, digest1_val, E2, E3. vm_compute. reflexivity.
Qed.
