(** Proofs about ECDSA on the concrete curve. *)
Require Import ZArith NArith Lia Bool List Znumtheory Ring_theory Field_theory.
From Verif Require Import Word U256Model U256Spec U256Proofs MontgomeryModel KnuthModel BinaryModel FieldModel FieldSpec FieldProofs Primes FieldSig FieldInstance FieldAlgModel Arr
  CurveModel CurveSpec CurveGroup CurveProofs WnafModel WnafSpec WnafProofs ScalarMulProofs CurveInstance CurveOrder CurveBase SignModel SignSpec.
Import ListNotations.
Open Scope Z_scope.

Notation aff := (a_from_jacobian felt_ops).
Notation padd' := (padd felt_ops (f1 felt_ops)).
Notation on := (on_curve felt_ops (f1 felt_ops) BETA).
Notation "a '*s' b" := (fmul scalar_ops a b) (at level 40).

Lemma s_uint_spec (k : Scalar) : exists u, s_uint k = Some u /\ denotes u (fe_val k).
Proof. exact (pf_to_uint_spec order_field _ (g_cons _ order_good) (raw k) (fe_val k) (fe_rep order_good k)). Qed.
Lemma f_uint_spec (x : Felt) : exists u, f_uint x = Some u /\ denotes u (fe_val x).
Proof. exact (pf_to_uint_spec proth_field _ (g_cons _ proth_good) (raw x) (fe_val x) (fe_rep proth_good x)). Qed.
Lemma s_from_spec u v : denotes u v -> exists r, s_from u = Some r /\ fe_val r = v mod p_order.
Proof.
  intros D. destruct (pf_from_uint_reduce_spec order_field _ (g_cons _ order_good) u v D) as (x & E & R). unfold s_from. rewrite E. cbn [bind].
  pose proof (canon_rep order_good x _ R) as Cx. destruct (bool_dec (canon order_field x) true) as [H|N]; [|contradiction].
  exists (exist _ x H). split; [reflexivity|]. apply (fe_val_rep order_good). exact R.
Qed.
Lemma s_range (k : Scalar) : 0 <= fe_val k < p_order. Proof. exact (fe_val_range order_good k). Qed.
Lemma order_pos : 0 < p_order. Proof. reflexivity. Qed.
Lemma s_eqb (a b : Scalar) : feqb scalar_ops a b = (fe_val a =? fe_val b).
Proof.
  destruct (Z.eqb_spec (fe_val a) (fe_val b)) as [E|N].
  - apply (law_eqb scalar_ops scalar_lawful). apply (fe_val_inj order_good). exact E.
  - destruct (feqb scalar_ops a b) eqn:E; [|reflexivity]. apply (law_eqb scalar_ops scalar_lawful) in E. congruence.
Qed.
Lemma s_mul (a b : Scalar) : fe_val (a *s b) = (fe_val a * fe_val b) mod p_order. Proof. exact (fe_mul_val order_good a b). Qed.
Lemma s_add (a b : Scalar) : fe_val (fadd scalar_ops a b) = (fe_val a + fe_val b) mod p_order. Proof. exact (fe_add_val order_good a b). Qed.
Lemma s_zero : fe_val (f0 scalar_ops) = 0. Proof. exact (fe0_val order_good). Qed.

Lemma vanishes_spec z : vanishes z = true <-> (p_order | z).
Proof. unfold vanishes. rewrite Z.eqb_eq. apply Z.mod_divide. discriminate. Qed.
Lemma vanishes_zero z : vanishes z = true <-> G_times z = AZero.
Proof. rewrite vanishes_spec. symmetry. exact (zmul_zero felt_ops felt_lawful BETA stark_smooth GENERATOR p_order gen_on gen_nonzero prime_order generator_order z). Qed.
Lemma g_eq z z' : (p_order | z - z') -> G_times z = G_times z'.
Proof. exact (proj2 (zmul_eq felt_ops felt_lawful BETA stark_smooth GENERATOR p_order gen_on gen_nonzero prime_order generator_order z z')). Qed.
Lemma g_eq_inv z z' : G_times z = G_times z' -> (p_order | z - z').
Proof. exact (proj1 (zmul_eq felt_ops felt_lawful BETA stark_smooth GENERATOR p_order gen_on gen_nonzero prime_order generator_order z z')). Qed.
Lemma g_mod z : G_times (z mod p_order) = G_times z.
Proof. apply g_eq. exists (- (z / p_order)). pose proof (Z.div_mod z p_order ltac:(discriminate)). lia. Qed.
Lemma g_on z : on (G_times z). Proof. exact (zm_on z). Qed.
Lemma g_add z w : padd' (G_times z) (G_times w) = G_times (z + w). Proof. symmetry. exact (zm_add z w). Qed.
Lemma g_mul z w : zmul felt_ops (f1 felt_ops) z (G_times w) = G_times (z * w). Proof. symmetry. exact (zm_mul z w). Qed.
Lemma apart_spec z t : apart z t = true -> ~ clash (G_times z) (G_times t).
Proof.
  intros A Cl. apply (proj1 (clash_iff felt_ops felt_lawful BETA stark_smooth GENERATOR p_order gen_on gen_nonzero prime_order generator_order z t)) in Cl.
  destruct Cl as (N1 & N2 & D). rewrite <- !vanishes_spec in *. unfold apart in A.
  destruct (vanishes z); [apply N1; reflexivity|]. destruct (vanishes t); [apply N2; reflexivity|]. cbn [orb] in A.
  destruct D as [D|D]; rewrite D in A; [discriminate A|]. rewrite orb_true_r in A. discriminate A.
Qed.

Local Opaque felt_ops p_order scalar_ops GENERATOR.
Lemma trace_run d t u l : odd_table felt_ops (fun x => x) GENERATOR 32 t -> odd_table felt_ops (fun x => x) (G_times d) 8 u ->
  digits_ok 32 (map fst l) -> digits_ok 8 (map snd l) -> forall start r0, aff r0 = G_times start -> snd (trace d start l) = true ->
  exists r, for_each (rev l) (fun r '(x, y) => let? r := digit_step (j_add_affine felt_ops) (j_sub_affine felt_ops) t (j_double felt_ops r) x in
      digit_step (j_add_affine felt_ops) (j_sub_affine felt_ops) u r y) r0 = Some r /\ aff r = G_times (fst (trace d start l)).
Proof.
  intros Ht Hu Hd He start r0 E0. induction l as [|[x y] l IH]; intros Hc.
  - exists r0. split; [reflexivity|exact E0].
  - cbn [map fst snd] in Hd, He. cbn [trace] in Hc |- *. destruct (trace d start l) as [acc ok]. cbn [fst snd] in Hc, IH |- *. apply andb_prop in Hc as [Hc A2]. apply andb_prop in Hc as [Hc A1].
    destruct IH as (r & E & Er); [intros v Hv; apply Hd; right; exact Hv|intros v Hv; apply He; right; exact Hv|exact Hc|].
    cbn [rev]. rewrite for_each_app, E. cbn [bind for_each].
    assert (E2 : aff (j_double felt_ops r) = G_times (2 * acc)).
    { rewrite (aff_double felt_ops felt_lawful (sm_two _ _ _ stark_smooth)), Er, g_add. f_equal. lia. }
    assert (Ex : zmul felt_ops (f1 felt_ops) x GENERATOR = G_times x) by reflexivity.
    destruct (a_digit felt_ops felt_lawful BETA stark_smooth GENERATOR 32 t (j_double felt_ops r) x gen_on Ht) as (r' & -> & E'); [apply Hd; left; reflexivity|intros _; rewrite E2, Ex; apply apart_spec, A1|].
    cbn [bind]. rewrite E2, Ex, g_add in E'.
    destruct (a_digit felt_ops felt_lawful BETA stark_smooth (G_times d) 8 u r' y (g_on d) Hu) as (r'' & -> & E''); [apply He; left; reflexivity|intros _; rewrite E', g_mul, (Z.mul_comm y); apply apart_spec, A2|].
    cbn [bind]. exists r''. split; [reflexivity|]. rewrite E'', E', g_mul, g_add. f_equal. lia.
Qed.
Lemma trace_value d l start : fst (trace d start l) = start * 2 ^ Z.of_nat (length l) + digits_value (map fst l) + d * digits_value (map snd l).
Proof.
  induction l as [|[x y] l IH]; cbn [trace]; [cbn [fst length map digits_value]; rewrite Z.pow_0_r; lia|].
  destruct (trace d start l) as [acc ok]. cbn [fst snd map digits_value length] in *. rewrite Nat2Z.inj_succ, Z.pow_succ_r by lia. rewrite IH. ring.
Qed.
Lemma odd_nonzero d i : ~ (p_order | d) -> (i < 8)%nat -> zmul felt_ops (f1 felt_ops) (2 * Z.of_nat i + 1) (G_times d) <> AZero.
Proof.
  intros Nd Hi. rewrite g_mul. intros E. apply vanishes_zero, vanishes_spec in E. apply prime_mult in E; [|exact prime_order].
  destruct E as [E|E]; [|contradiction]. apply Z.divide_pos_le in E; [|lia]. pose proof order_big. lia.
Qed.

Lemma x_test x r : exists b, (let? u := f_uint x in let? r' := s_from u in Some (feqb scalar_ops r' r)) = Some b /\ (b = true <-> fe_val x mod p_order = fe_val r).
Proof.
  destruct (f_uint_spec x) as (u & -> & D). cbn [bind]. destruct (s_from_spec u _ D) as (r' & -> & E). cbn [bind]. eexists. split; [reflexivity|].
  rewrite s_eqb, E. apply Z.eqb_eq.
Qed.
Lemma verify_by t Q h s a b j : generator_table = Some t -> sig_r s <> f0 scalar_ops -> sig_w s <> f0 scalar_ops -> on Q ->
  s_uint (h *s sig_w s) = Some a -> s_uint (sig_r s *s sig_w s) = Some b -> double_base_mul felt_ops t a Q b = Some j ->
  exists v, verify Q h s = Some v /\ (v = true <-> x_matches (aff j) (sig_r s)).
Proof.
  intros Et Nr Nw Oq Ea Eb Ej. unfold verify.
  destruct (feqb scalar_ops (sig_r s) (f0 scalar_ops)) eqn:E1; [apply (law_eqb scalar_ops scalar_lawful) in E1; contradiction|].
  destruct (feqb scalar_ops (sig_w s) (f0 scalar_ops)) eqn:E2; [apply (law_eqb scalar_ops scalar_lawful) in E2; contradiction|].
  assert (E3 : is_on_curve felt_ops BETA Q = true).
  { destruct Q as [|x y]; [reflexivity|]. cbn [is_on_curve]. apply (law_eqb felt_ops felt_lawful). cbn [on_curve] in Oq. rewrite Oq. f_equal. f_equal.
    apply (Rmul_1_l (F_R (law_field felt_ops felt_lawful))). }
  rewrite E3. cbn [negb]. rewrite Et, Ea, Eb. cbn [bind]. rewrite Ej. cbn [bind]. unfold x_matches. destruct (aff j) as [|x y].
  - exists false. split; [reflexivity|]. split; [discriminate|contradiction].
  - apply x_test.
Qed.
(** The general verification equation, for any point of the curve. *)
Lemma verify_general Q h s da db :  sig_r s <> f0 scalar_ops -> sig_w s <> f0 scalar_ops -> on Q ->
  (forall i, (i < 8)%nat -> zmul felt_ops (f1 felt_ops) (2 * Z.of_nat i + 1) Q <> AZero) ->
  (forall a, denotes a (fe_val (h *s sig_w s)) -> non_adjacent_form a 7 = Some da) ->
  (forall b, denotes b (fe_val (sig_r s *s sig_w s)) -> non_adjacent_form b 5 = Some db) ->
  clash_free2 felt_ops GENERATOR Q (combine da db) ->
  exists v, verify Q h s = Some v /\
    (v = true <-> x_matches (padd' (G_times (fe_val (h *s sig_w s))) (zmul felt_ops (f1 felt_ops) (fe_val (sig_r s *s sig_w s)) Q)) (sig_r s)).
Proof.
  intros Nr Nw Oq Nq Ea Eb Cf. destruct generator_table_spec as (t & Et & Ht).
  destruct (s_uint_spec (h *s sig_w s)) as (a & Ua & Da). destruct (s_uint_spec (sig_r s *s sig_w s)) as (b & Ub & Db).
  destruct (double_base_mul_spec felt_ops felt_lawful BETA stark_smooth GENERATOR Q t a b da db gen_on Oq Ht (proj1 Da) (proj1 Db) Nq (Ea a Da) (Eb b Db) Cf) as (j & Ej & Aj).
  destruct (verify_by t Q h s a b j Et Nr Nw Oq Ua Ub Ej) as (v & Ev & Hv). exists v. split; [exact Ev|].
  rewrite Hv, Aj, (proj2 Da), (proj2 Db). reflexivity.
Qed.
Lemma u_of_denotes u v : denotes u v -> 0 <= v < W -> u = u_of_Z v.
Proof. intros [Wu Eu] H. destruct (u_of_Z_spec v H) as [H1 H2]. apply val_inj; [exact Wu|exact H1|congruence]. Qed.
Lemma order_W : p_order < W. Proof. reflexivity. Qed.
(** A public key that is a multiple of the generator. *)
Lemma verify_multiple d h s : ~ (p_order | d) -> sig_r s <> f0 scalar_ops -> sig_w s <> f0 scalar_ops ->
  collision_free d (fe_val (h *s sig_w s)) (fe_val (sig_r s *s sig_w s)) ->
  exists v, verify (G_times d) h s = Some v /\
    (v = true <-> x_matches (G_times (fe_val (h *s sig_w s) + d * fe_val (sig_r s *s sig_w s))) (sig_r s)).
Proof.
  intros Nd Nr Nw Cf. destruct generator_table_spec as (t & Et & Ht).
  destruct (s_uint_spec (h *s sig_w s)) as (a & Ua & Da). destruct (s_uint_spec (sig_r s *s sig_w s)) as (b & Ub & Db).
  pose proof (s_range (h *s sig_w s)) as Ra. pose proof (s_range (sig_r s *s sig_w s)) as Rb. pose proof order_W as OW.
  unfold collision_free in Cf. rewrite <- (u_of_denotes a _ Da), <- (u_of_denotes b _ Db) in Cf by lia.
  destruct (non_adjacent_form a 7) as [da|] eqn:Ea; [|contradiction]. destruct (non_adjacent_form b 5) as [db|] eqn:Eb; [|contradiction].
  destruct (double_base_mul_run felt_ops felt_lawful BETA stark_smooth (G_times d) t a b da db (g_on d) (proj1 Da) (proj1 Db) (fun i => odd_nonzero d i Nd) Ea Eb) as (u & Hu & Oa & Ob & Va & Vb & Er).
  destruct (trace_run d t u (combine da db) Ht Hu Oa Ob 0 (j_zero felt_ops)) as (j & Ej & Aj); [exact (aff_zero felt_ops felt_lawful (f1 felt_ops) (f1 felt_ops))|exact Cf|].
  rewrite <- Er in Ej. destruct (verify_by t (G_times d) h s a b j Et Nr Nw (g_on d) Ua Ub Ej) as (v & Ev & Hv). exists v. split; [exact Ev|].
  rewrite Hv, Aj, trace_value, Va, Vb, (proj2 Da), (proj2 Db). rewrite Z.mul_0_l, Z.add_0_l. reflexivity.
Qed.

(** *** Multiples of the generator, and signing *)
Lemma generator_mul_ok (k : Scalar) : fe_val k <> p_order - 94 -> generator_mul k = Some (G_times (fe_val k)).
Proof.
  intros Nk. destruct generator_table_spec as (t & Et & Ht). unfold generator_mul. rewrite Et. destruct (s_uint_spec k) as (u & -> & Wu & Eu). cbn [bind].
  rewrite <- Eu in Nk. pose proof (s_range k) as R. rewrite <- Eu in R. destruct (base_ok t u Wu R Ht Nk) as (r & -> & Er). cbn [bind]. rewrite Er, Eu. reflexivity.
Qed.
Lemma generator_mul_exception (k : Scalar) : fe_val k = p_order - 94 -> generator_mul k = Some AZero.
Proof.
  intros Ek. destruct generator_table_spec as (t & Et & Ht). unfold generator_mul. rewrite Et. destruct (s_uint_spec k) as (u & -> & Wu & Eu). cbn [bind].
  rewrite <- Eu in Ek. destruct (base_exception t u Wu Ek Ht) as (r & -> & Er). cbn [bind]. rewrite Er. reflexivity.
Qed.
Lemma sign_try_spec key h k : exists t, sign_try key h k = Some t /\ forall s, t = Some s ->
  fe_val k <> 0 /\ sig_r s <> f0 scalar_ops /\ x_matches (G_times (fe_val k)) (sig_r s) /\
  sig_w s *s fadd scalar_ops (sig_r s *s key) h = k.
Proof.
  unfold sign_try. destruct (feqb scalar_ops k (f0 scalar_ops)) eqn:E0; [exists None; split; [reflexivity|discriminate]|].
  rewrite s_eqb, s_zero in E0. apply Z.eqb_neq in E0.
  destruct (Z.eq_dec (fe_val k) (p_order - 94)) as [Ek|Nk].
  { rewrite (generator_mul_exception k Ek). cbn [bind]. exists None. split; [reflexivity|discriminate]. }
  rewrite (generator_mul_ok k Nk). cbn [bind]. destruct (G_times (fe_val k)) as [|x y] eqn:EG; [exists None; split; [reflexivity|discriminate]|].
  destruct (f_uint_spec x) as (u & -> & D). cbn [bind]. destruct (s_from_spec u _ D) as (r & -> & Er). cbn [bind].
  destruct (feqb scalar_ops r (f0 scalar_ops)) eqn:E1; [exists None; split; [reflexivity|discriminate]|].
  destruct (inv_opt scalar_ops (fadd scalar_ops (r *s key) h)) as [i|] eqn:Ei; [|exists None; split; [reflexivity|discriminate]].
  eexists. split; [reflexivity|]. intros s [= <-]. cbn [sig_r sig_w]. split; [exact E0|]. split; [|split].
  - apply (eqb_ne scalar_ops scalar_lawful). exact E1.
  - cbn [x_matches]. symmetry. exact Er.
  - apply (inv_opt_some scalar_ops scalar_lawful) in Ei. pose proof (F_R (law_field scalar_ops scalar_lawful)) as R.
    rewrite <- (Rmul_assoc R), (Rmul_comm R i), Ei, (Rmul_comm R). apply (Rmul_1_l R).
Qed.
Lemma sign_loop_spec key h hash l s : sign_loop key h hash l = Some s -> exists n, In n l /\ sign_try key h (hash n) = Some (Some s).
Proof.
  induction l as [|n l IH]; cbn [sign_loop]; [discriminate|]. destruct (sign_try key h (hash n)) as [[t|]|] eqn:E; cbn [bind].
  - intros [= <-]. exists n. split; [left; reflexivity|exact E].
  - intros H. destruct (IH H) as (n' & Hn & E'). exists n'. split; [right; exact Hn|exact E'].
  - discriminate.
Qed.
Lemma sign_loop_none key h hash l : sign_loop key h hash l = None -> forall n, In n l -> sign_try key h (hash n) = Some None.
Proof.
  induction l as [|n l IH]; cbn [sign_loop]; [contradiction|]. destruct (sign_try_spec key h (hash n)) as (t & E & _). rewrite E. cbn [bind].
  destruct t as [t|]; [discriminate|]. intros H n' [<-|Hn]; [exact E|]. apply IH; assumption.
Qed.
Lemma sign_spec key h hash s : sign key h hash = Some s -> exists n, (n < 1000)%nat /\ let k := hash n in
  fe_val k <> 0 /\ sig_r s <> f0 scalar_ops /\ sig_w s <> f0 scalar_ops /\ x_matches (G_times (fe_val k)) (sig_r s) /\
  (fe_val (h *s sig_w s) + fe_val key * fe_val (sig_r s *s sig_w s)) mod p_order = fe_val k.
Proof.
  intros E. apply sign_loop_spec in E as (n & Hn & E). apply in_seq in Hn. exists n. split; [lia|]. cbv zeta.
  destruct (sign_try_spec key h (hash n)) as (t & Et & Ht). rewrite E in Et. injection Et as <-. destruct (Ht s eq_refl) as (Nk & Nr & X & Ew).
  split; [exact Nk|]. split; [exact Nr|]. split; [|split; [exact X|]].
  - intros Ez. rewrite Ez in Ew. apply Nk. rewrite <- Ew, s_mul, s_zero, Z.mul_0_l. apply Z.mod_0_l. discriminate.
  - rewrite <- Ew. rewrite !s_mul, s_add, s_mul.
    rewrite <- (Z.add_mod_idemp_r (fe_val h * fe_val (sig_w s) mod p_order)) by discriminate.
    rewrite Z.mul_mod_idemp_r by discriminate. rewrite Z.add_mod_idemp_r, Z.add_mod_idemp_l, Z.mul_mod_idemp_r by discriminate.
    rewrite <- Z.mul_mod_idemp_r by discriminate. rewrite Z.add_mod_idemp_l by discriminate. rewrite Z.mul_mod_idemp_r by discriminate. f_equal. ring.
Qed.
