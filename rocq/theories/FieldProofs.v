(** Limb-level field operations implement arithmetic modulo m. *)
Require Import ZArith NArith Lia Bool List.
From Verif Require Import Word U256Model U256Spec U256Proofs MontgomeryModel MontgomeryProofs MontgomeryProps
  BinaryModel BinaryProofs EncodingProofs FieldSig FieldSpec FieldModel.
Import ListNotations.
Open Scope Z_scope.


Section Raw.
Variables (P : fparams) (m : Z).
Hypothesis C : consistent (fmp P) m.
Let HM : denotes (p_modulus P) m := c_modulus _ _ C.
Let Hr : 1 < m <= 2 ^ 255 := c_range _ _ C.

Lemma fm_wf : wf (p_modulus P). Proof. apply HM. Qed.
Lemma fm_val : val (p_modulus P) = m. Proof. apply HM. Qed.
Lemma gcd_mW : Z.gcd m W = 1.
Proof. destruct (consistent_valid _ _ C) as [(H & _) <-]. eapply valid_odd. apply H. Qed.

Lemma rep_range x v : represents m x v -> wf x /\ 0 <= val x < m.
Proof. intros [_ [H E]]. change (2 ^ 256) with W in E. split; [exact H|]. rewrite E. apply Z.mod_pos_bound. lia. Qed.
Lemma rep_eq x v : represents m x v -> val x = (v * W) mod m.
Proof. intros [_ [_ E]]. exact E. Qed.
Lemma as_mont_ok x : wf x -> 0 <= val x < m -> as_mont P x = Some x /\ of_mont P x = Some x.
Proof.
  intros Hx R. unfold as_mont, of_mont. rewrite u_ltb_spec by (auto using fm_wf). rewrite fm_val.
  destruct (Z.ltb_spec (val x) m); [split; reflexivity|lia].
Qed.
Lemma as_mont_rep x v : represents m x v -> as_mont P x = Some x.
Proof. intros H. apply rep_range in H. apply as_mont_ok; tauto. Qed.
Lemma as_mont_panics x : wf x -> m <= val x -> as_mont P x = None /\ of_mont P x = None.
Proof.
  intros Hx R. unfold as_mont, of_mont. rewrite u_ltb_spec by (auto using fm_wf). rewrite fm_val.
  destruct (Z.ltb_spec (val x) m); [lia|split; reflexivity].
Qed.

(** Every canonical limb pattern represents exactly one value. *)
Lemma rep_intro x v : wf x -> 0 <= val x < m -> 0 <= v < m -> val x = (v * W) mod m -> represents m x v.
Proof. intros H1 H2 H3 H4. split; [exact H3|]. split; [exact H1|exact H4]. Qed.
Lemma rep_val x v v' : represents m x v -> represents m x v' -> v = v'.
Proof.
  intros H H'. pose proof (rep_eq _ _ H) as E. rewrite (rep_eq _ _ H') in E.
  destruct H as [H _], H' as [H' _].
  rewrite <- (Z.mod_small v' m) by assumption. apply cancel_W; [lia|apply gcd_mW|assumption|symmetry; exact E].
Qed.
Lemma rep_inj x y v : represents m x v -> represents m y v -> x = y.
Proof.
  intros H H'. pose proof (rep_eq _ _ H) as E. pose proof (rep_eq _ _ H') as E'.
  apply val_inj; [apply H|apply H'|]. congruence.
Qed.
Lemma rep_exists x : wf x -> 0 <= val x < m -> represents m x (val (from_montgomery (fmp P) x)).
Proof.
  intros Hx R. destruct (consistent_valid _ _ C) as [HP E].
  destruct (from_montgomery_spec (fmp P) x HP Hx) as (G1 & G2 & G3). rewrite E in *.
  apply rep_intro; auto. rewrite G3. symmetry. apply Z.mod_small. exact R.
Qed.

Lemma mod_W_add a b : ((a * W) mod m + (b * W) mod m) mod m = ((a + b) mod m * W) mod m.
Proof. rewrite <- Zplus_mod, Zmult_mod_idemp_l. f_equal. ring. Qed.

Lemma pf_zero_spec : exists r, pf_zero P = Some r /\ represents m r 0.
Proof.
  exists ZERO. split; [apply as_mont_ok; [apply wf_ZERO|rewrite val_ZERO; lia]|].
  apply rep_intro; [apply wf_ZERO|rewrite val_ZERO; lia|lia|]. rewrite val_ZERO. reflexivity.
Qed.
Lemma rep_R1 : represents m (R1 (fmp P)) 1.
Proof.
  destruct (c_r1 _ _ C) as [H E]. change (2 ^ 256) with W in E. pose proof (Z.mod_pos_bound W m ltac:(lia)).
  apply rep_intro; [exact H|lia|lia|]. rewrite Z.mul_1_l. exact E.
Qed.
Lemma pf_one_spec : exists r, pf_one P = Some r /\ represents m r 1.
Proof. exists (R1 (fmp P)). split; [|apply rep_R1]. destruct (rep_range _ _ rep_R1). apply as_mont_ok; assumption. Qed.

Lemma bind_some {A Z0} (x : A) (f : A -> option Z0) : bind (Some x) f = f x. Proof. reflexivity. Qed.

Lemma pf_add_spec x y a b : represents m x a -> represents m y b ->
  exists r, pf_add P x y = Some r /\ represents m r ((a + b) mod m).
Proof.
  intros Hx Hy. unfold pf_add. rewrite (as_mont_rep x a Hx), (as_mont_rep y b Hy), !bind_some.
  destruct (rep_range x a Hx) as [Wx Rx], (rep_range y b Hy) as [Wy Ry].
  destruct (u_add_spec x y Wx Wy) as [W1 E1].
  assert (E2 : val (u_add x y) = val x + val y). { rewrite E1. apply Z.mod_small. change W with (2 ^ 256). lia. }
  assert (G : exists r, reduce_1 (u_add x y) (p_modulus P) = r /\ wf r /\ val r = (val x + val y) mod m).
  { unfold reduce_1. rewrite u_geb_spec by (auto using fm_wf). rewrite fm_val, E2.
    eexists. split; [reflexivity|]. destruct (Z.leb_spec m (val x + val y)).
    - destruct (u_sub_spec (u_add x y) (p_modulus P) W1 fm_wf) as [W2 E3]. split; [exact W2|].
      rewrite E3, E2, fm_val. rewrite Z.mod_small by (change W with (2 ^ 256); lia).
      apply mod_eq with (q := 1); lia.
    - split; [exact W1|]. rewrite E2. symmetry. apply Z.mod_small. lia. }
  destruct G as (r & -> & W2 & E3). exists r.
  assert (R : 0 <= val r < m) by (rewrite E3; apply Z.mod_pos_bound; lia).
  split; [apply as_mont_ok; assumption|]. apply rep_intro; auto; [apply Z.mod_pos_bound; lia|].
  rewrite E3, (rep_eq _ _ Hx), (rep_eq _ _ Hy). apply mod_W_add.
Qed.

Lemma pf_sub_spec x y a b : represents m x a -> represents m y b ->
  exists r, pf_sub P x y = Some r /\ represents m r ((a - b) mod m).
Proof.
  intros Hx Hy. unfold pf_sub. rewrite (as_mont_rep x a Hx), (as_mont_rep y b Hy), !bind_some.
  destruct (rep_range x a Hx) as [Wx Rx], (rep_range y b Hy) as [Wy Ry].
  rewrite u_gtb_spec by assumption. destruct (u_sub_spec x y Wx Wy) as [W1 E1].
  assert (G : exists r, (if val x <? val y then u_add (u_sub x y) (p_modulus P) else u_sub x y) = r /\ wf r /\ val r = (val x - val y) mod m).
  { eexists. split; [reflexivity|]. destruct (Z.ltb_spec (val x) (val y)).
    - destruct (u_add_spec (u_sub x y) (p_modulus P) W1 fm_wf) as [W2 E3]. split; [exact W2|].
      rewrite E3, E1, fm_val, Zplus_mod_idemp_l. transitivity (val x - val y + m).
      + apply Z.mod_small. change W with (2 ^ 256). lia.
      + apply mod_eq with (q := -1); lia.
    - split; [exact W1|]. rewrite E1, !Z.mod_small; change W with (2 ^ 256); lia. }
  destruct G as (r & -> & W2 & E3). exists r.
  assert (R : 0 <= val r < m) by (rewrite E3; apply Z.mod_pos_bound; lia).
  split; [apply as_mont_ok; assumption|]. apply rep_intro; auto; [apply Z.mod_pos_bound; lia|].
  rewrite E3, (rep_eq _ _ Hx), (rep_eq _ _ Hy), <- Zminus_mod, Zmult_mod_idemp_l. f_equal. ring.
Qed.

Lemma rep_zero_iff x a : represents m x a -> (val x = 0 <-> a = 0).
Proof.
  intros H. split; intros E.
  - apply (rep_val x a 0 H). apply rep_intro; [apply H|lia|lia|]. rewrite E. reflexivity.
  - rewrite (rep_eq _ _ H), E. reflexivity.
Qed.
Lemma is_zero_eq x : wf x -> u_eqb x ZERO = (val x =? 0).
Proof.
  intros H. destruct (u_eqb x ZERO) eqn:E, (Z.eqb_spec (val x) 0) as [F|F]; auto.
  - apply u_eqb_spec in E. subst x. rewrite val_ZERO in F. lia.
  - assert (x = ZERO) by (apply val_inj; auto using wf_ZERO). apply u_eqb_spec in H0. congruence.
Qed.
Lemma pf_is_zero_spec x a : represents m x a -> pf_is_zero P x = Some (a =? 0).
Proof.
  intros H. unfold pf_is_zero. rewrite (as_mont_rep _ _ H), bind_some. f_equal. rewrite is_zero_eq by apply H.
  pose proof (rep_zero_iff x a H). destruct (Z.eqb_spec (val x) 0), (Z.eqb_spec a 0); tauto.
Qed.
Lemma pf_eq_spec x y a b : represents m x a -> represents m y b -> pf_eq P x y = Some (a =? b).
Proof.
  intros Hx Hy. unfold pf_eq. rewrite (as_mont_rep _ _ Hx), (as_mont_rep _ _ Hy), !bind_some. f_equal.
  destruct (u_eqb x y) eqn:E, (Z.eqb_spec a b) as [F|F]; auto.
  - apply u_eqb_spec in E. subst y. exfalso. apply F. apply (rep_val x); assumption.
  - subst b. assert (x = y) by (apply (rep_inj x y a); assumption). apply u_eqb_spec in H. congruence.
Qed.
Lemma pf_is_one_spec x a : represents m x a -> pf_is_one P x = Some (a =? 1).
Proof.
  intros H. pose proof (pf_eq_spec x (R1 (fmp P)) a 1 H rep_R1) as E. unfold pf_eq in E.
  rewrite (as_mont_rep _ _ H), (as_mont_rep _ _ rep_R1), !bind_some in E. unfold pf_is_one.
  rewrite (as_mont_rep _ _ H), bind_some. exact E.
Qed.

Lemma pf_neg_spec x a : represents m x a -> exists r, pf_neg P x = Some r /\ represents m r ((- a) mod m).
Proof.
  intros H. unfold pf_neg. rewrite (pf_is_zero_spec x a H), bind_some. destruct (Z.eqb_spec a 0) as [->|N].
  - destruct pf_zero_spec as (r & E & R). exists r. split; [exact E|]. change (- 0) with 0. rewrite Z.mod_0_l by lia. exact R.
  - rewrite (as_mont_rep _ _ H), bind_some. destruct (rep_range x a H) as [Wx Rx].
    destruct (u_sub_spec (p_modulus P) x fm_wf Wx) as [W1 E1]. rewrite fm_val in E1.
    assert (val x <> 0) by (rewrite (rep_zero_iff x a H); exact N).
    rewrite Z.mod_small in E1 by (change W with (2 ^ 256); lia).
    eexists. split; [apply as_mont_ok; [exact W1|lia]|]. apply rep_intro; [exact W1|lia|apply Z.mod_pos_bound; lia|].
    rewrite E1, Zmult_mod_idemp_l. transitivity ((- val x) mod m); [apply mod_eq with (q := -1); lia|].
    rewrite (rep_eq _ _ H). replace (- a * W) with (0 - a * W) by ring. symmetry. apply Zminus_mod_idemp_r || (symmetry; apply (Zminus_mod_idemp_r 0 (a * W) m)).
Qed.

Lemma redc_rep r t a : wf r -> is_redc m t r -> t mod m = (a * W * W) mod m -> represents m r (a mod m).
Proof.
  intros Hw (_ & R & E) T. apply rep_intro; auto; [apply Z.mod_pos_bound; lia|].
  rewrite Zmult_mod_idemp_l. apply cancel_W; [lia|apply gcd_mW|exact R|]. change (2 ^ 256) with W in E. rewrite E, T. reflexivity.
Qed.

Lemma pf_mul_spec x y a b : represents m x a -> represents m y b ->
  exists r, pf_mul P x y = Some r /\ represents m r ((a * b) mod m).
Proof.
  intros Hx Hy. unfold pf_mul. rewrite (as_mont_rep x a Hx), (as_mont_rep y b Hy), !bind_some.
  destruct (rep_range x a Hx) as [Wx Rx], (rep_range y b Hy) as [Wy Ry].
  destruct (C15_mul_redc (fmp P) m x y (val x) (val y) C) as (r & -> & M1); [split; auto..|lia|].
  rewrite bind_some. exists r. assert (R : 0 <= val r < m) by apply M1. assert (Wr : wf r) by apply M1.
  split; [apply as_mont_ok; assumption|]. apply (redc_rep r (val x * val y) (a * b)); auto.
  rewrite (rep_eq _ _ Hx), (rep_eq _ _ Hy), <- Zmult_mod. f_equal. ring.
Qed.

Lemma pf_square_spec x a : represents m x a -> exists r, pf_square P x = Some r /\ represents m r ((a * a) mod m).
Proof.
  intros Hx. unfold pf_square. rewrite (as_mont_rep x a Hx), !bind_some.
  destruct (rep_range x a Hx) as [Wx Rx].
  pose proof (C15_square_redc (fmp P) m x (val x) C (conj Wx eq_refl) ltac:(lia)) as M1.
  eexists. split; [apply as_mont_ok; apply M1|]. apply (redc_rep _ (val x * val x) (a * a)); auto; [apply M1|].
  rewrite (rep_eq _ _ Hx), <- Zmult_mod. f_equal. ring.
Qed.

Lemma pf_to_uint_spec x a : represents m x a -> exists r, pf_to_uint P x = Some r /\ denotes r a.
Proof.
  intros H. destruct (rep_range x a H) as [Wx Rx]. unfold pf_to_uint.
  rewrite u_ltb_spec by (auto using fm_wf). rewrite fm_val. destruct (Z.ltb_spec (val x) m); [|lia].
  rewrite (as_mont_rep _ _ H), bind_some. eexists. split; [reflexivity|].
  destruct (consistent_valid _ _ C) as [HP E]. destruct (from_montgomery_spec (fmp P) x HP Wx) as (G1 & _).
  split; [exact G1|]. apply (rep_val x); [apply rep_exists; assumption|exact H].
Qed.

Lemma pf_from_uint_spec u v : denotes u v -> v < m -> exists r, pf_from_uint P u = Some r /\ represents m r v.
Proof.
  intros [Hu E] L. unfold pf_from_uint. rewrite u_ltb_spec by (auto using fm_wf). rewrite fm_val, E.
  destruct (Z.ltb_spec v m); [|lia].
  destruct (C15_to_montgomery (fmp P) m u v C (conj Hu E)) as (r & -> & D). rewrite bind_some.
  pose proof (val_range u Hu). destruct D as [Wr Er]. change (2 ^ 256) with W in Er.
  pose proof (Z.mod_pos_bound (v * W) m ltac:(lia)).
  exists r. split; [apply as_mont_ok; [exact Wr|lia]|]. apply rep_intro; auto; lia.
Qed.
Lemma pf_from_uint_panics u v : denotes u v -> m <= v -> pf_from_uint P u = None.
Proof.
  intros [Hu E] L. unfold pf_from_uint. rewrite u_ltb_spec by (auto using fm_wf). rewrite fm_val, E.
  destruct (Z.ltb_spec v m); [lia|reflexivity].
Qed.

Lemma pf_from_uint_reduce_spec u v : denotes u v -> exists r, pf_from_uint_reduce P u = Some r /\ represents m r (v mod m).
Proof.
  intros [Hu E]. unfold pf_from_uint_reduce.
  pose proof (C15_redc (fmp P) m u ZERO v 0 C (conj Hu E) (conj wf_ZERO val_ZERO) ltac:(lia)) as (W1 & R1 & E1).
  replace (v + 2 ^ 256 * 0) with v in E1 by ring. change (2 ^ 256) with W in E1. destruct (c_r3 _ _ C) as [W3 E3].
  pose proof (Z.mod_pos_bound (2 ^ 768) m ltac:(lia)).
  destruct (C15_mul_redc (fmp P) m (redc (fmp P) u ZERO) (R3 (fmp P)) _ _ C (conj W1 eq_refl) (conj W3 E3)) as (r & -> & M1); [lia|].
  rewrite bind_some. assert (R : 0 <= val r < m) by apply M1. assert (Wr : wf r) by apply M1.
  exists r. split; [apply as_mont_ok; assumption|]. eapply (redc_rep r); [exact Wr|exact M1|].
  change (2 ^ 768) with (W * W * W). rewrite Zmult_mod_idemp_r.
  replace (val (redc (fmp P) u ZERO) * (W * W * W)) with (val (redc (fmp P) u ZERO) * W * (W * W)) by ring.
  rewrite <- Zmult_mod_idemp_l, E1, Zmult_mod_idemp_l. f_equal. ring.
Qed.

Lemma pf_fold_spec f op l : (forall x y a b, represents m x a -> represents m y b -> exists r, f x y = Some r /\ represents m r (op a b mod m)) ->
  forall acc va vl, represents m acc va -> Forall2 (represents m) l vl ->
  exists r, pf_fold f acc l = Some r /\ represents m r (fold_left (fun s b => op s b mod m) vl va).
Proof.
  intros Hf. induction l; intros acc va vl Ha Hl; inversion Hl; subst.
  - exists acc. split; [reflexivity|exact Ha].
  - cbn [pf_fold fold_left]. destruct (Hf acc a va y Ha H1) as (r & -> & R). rewrite bind_some. apply IHl; assumption.
Qed.
Lemma fold_add_mod vl : forall s, 0 <= s < m -> fold_left (fun s b => (s + b) mod m) vl s = (s + fold_right Z.add 0 vl) mod m.
Proof.
  induction vl; intros s Hs; cbn [fold_left fold_right]; [rewrite Z.add_0_r; symmetry; apply Z.mod_small; exact Hs|].
  rewrite IHvl by (apply Z.mod_pos_bound; lia). rewrite Zplus_mod_idemp_l. f_equal. ring.
Qed.
Lemma fold_mul_mod vl : forall s, 0 <= s < m -> fold_left (fun s b => (s * b) mod m) vl s = (s * fold_right Z.mul 1 vl) mod m.
Proof.
  induction vl; intros s Hs; cbn [fold_left fold_right]; [rewrite Z.mul_1_r; symmetry; apply Z.mod_small; exact Hs|].
  rewrite IHvl by (apply Z.mod_pos_bound; lia). rewrite Zmult_mod_idemp_l. f_equal. ring.
Qed.
End Raw.
