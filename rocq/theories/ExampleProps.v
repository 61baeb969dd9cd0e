(** C63: the constraint systems of the examples accept exactly the tables of the claimed computations. *)
Require Import Field ZArith NArith Lia Bool List.
From Verif Require Import Word KnuthModel FieldSig FieldInstance FieldAlgModel FieldAlgProofs Arr FftModel FftSpec PermuteProofs FftProofs FftProps StarkBase StarkInstance PolyModel PolyProps TraceModel TraceProps ExprModel ExprSpec ExprProofs ExprProps CheckProps OodsProofs OodsSatProps LayoutProps StarkSpec ClaimModel ClaimSpec ClaimProofs ClaimProps ExampleProofs.
Import ListNotations.
Open Scope nat_scope.

(** ** Fibonacci *)
Section Fib.
Context {F : Type} (o : ops F) (L : lawful o).
Definition fib_conditions (index : Z) (value : F) : list (rexpr F * place) :=
  [ (e_sub (ETrace 0 1) (ETrace 1 0), AllButLast); (e_sub (e_sub (ETrace 1 1) (ETrace 0 0)) (ETrace 1 0), AllButLast);
    (e_sub (ETrace 0 0) (EConst (f1 o)), Row 0); (e_sub (ETrace 0 0) (EConst value), Row index) ].
Lemma fib_placed g k index value : fib_exprs o g (2 ^ Z.of_nat k) index value = map (placed o g k) (fib_conditions index value). Proof. reflexivity. Qed.
Lemma fib_ok t k index value : size t (2 ^ k) 2 -> (0 <= index < 2 ^ 64)%Z -> forall c, In c (fib_conditions index value) -> condition t (fst c) /\ sensible k (snd c).
Proof.
  intros S Hi c Hc. pose proof (pow2_pos k). cbn in Hc. repeat destruct Hc as [<-|Hc]; try contradiction; (split; [apply (cond_refl t _ _ _ S); [lia|cbn; tauto|cbn; tauto|cbn; intros; lia]|cbn; lia]).
Qed.
End Fib.
Theorem C63_fib_check : forall F (o : ops F), lawful o -> forall e M w, sound o e M w -> forall t k index value, size t (2 ^ k) 2 -> k <= M -> (0 <= index < 2 ^ 64)%Z ->
  (check_constraints o e (fib_exprs o (w k) (2 ^ Z.of_nat k) index value) t = Some None <->
   exists s, (forall row, row < 2 ^ k -> t_get t row 0 = Some (fst (fibonacci o s row)) /\ t_get t row 1 = Some (snd (fibonacci o s row))) /\
     fst (fibonacci o s (Z.to_nat (index mod 2 ^ Z.of_nat k))) = value).
Proof.
  intros F o L e M w SD t k index value S Hk Hi. pose proof (pow2_pos k) as P2. rewrite fib_placed. pose proof S as (Sh & HR & _).
  rewrite (C62_accepts F o L e M w SD t k _ Sh Hk HR (fib_ok o t k index value S Hi)). unfold satisfied.
  assert (RL := row_lt k index). set (ir := Z.to_nat (index mod 2 ^ Z.of_nat k)) in *. split.
  - intros H.
    assert (H1 : forall r, r + 1 < 2 ^ k -> cell o t (r + 1) 0 = cell o t r 1).
    { intros r Hr. specialize (H _ _ (or_introl eq_refl) r ltac:(lia) Hr). refine (sub_eq o L _ _ _ _ _ _ H _ _); val S. }
    assert (H2 : forall r, r + 1 < 2 ^ k -> fadd o (cell o t (r + 1) 1) (fneg o (cell o t r 0)) = cell o t r 1).
    { intros r Hr. specialize (H _ _ (or_intror (or_introl eq_refl)) r ltac:(lia) Hr). refine (sub_eq o L _ _ _ _ _ _ H _ _); val S. }
    assert (H3 : cell o t 0 0 = f1 o). { specialize (H _ _ (or_intror (or_intror (or_introl eq_refl))) 0 P2 (cover_first k)). refine (sub_eq o L _ _ _ _ _ _ H _ _); val S. }
    assert (H4 : cell o t ir 0 = value). { specialize (H _ _ (or_intror (or_intror (or_intror (or_introl eq_refl)))) ir RL ltac:(apply cover_row; reflexivity)). refine (sub_eq o L _ _ _ _ _ _ H _ _); val S. }
    exists (cell o t 0 1). assert (Q : forall r, r < 2 ^ k -> cell o t r 0 = fst (fibonacci o (cell o t 0 1) r) /\ cell o t r 1 = snd (fibonacci o (cell o t 0 1) r)).
    { induction r as [|r IH]; intros Hr; [split; [exact H3|reflexivity]|]. destruct (IH ltac:(lia)) as [I1 I2]. cbn [fibonacci fst snd]. rewrite <- I1, <- I2. rewrite <- Nat.add_1_r. split; [apply H1; lia|].
      rewrite <- (H2 r) by lia. pose proof (F_R (law_field o L)) as R. rewrite (Radd_comm R (cell o t (r + 1) 1)), (Radd_assoc R), (Ropp_def R), (Radd_0_l R). reflexivity. }
    split; [|rewrite <- H4; symmetry; apply Q, RL]. intros row Hrow. rewrite !(size_get o t _ _ _ _ S) by lia. destruct (Q row Hrow) as [-> ->]. split; reflexivity.
  - intros (s & Hs & Hv). assert (Q : forall r, r < 2 ^ k -> cell o t r 0 = fst (fibonacci o s r) /\ cell o t r 1 = snd (fibonacci o s r)).
    { intros r Hr. destruct (Hs r Hr) as [A B]. rewrite (size_get o t _ _ _ _ S) in A by lia. rewrite (size_get o t _ _ _ _ S) in B by lia. split; congruence. }
    intros N p Hin row Hr Hc. cbn in Hin. repeat destruct Hin as [Hin|Hin]; try contradiction; injection Hin as <- <-.
    + cbn in Hc. eapply (value_sub o L); [val S|val S|]. destruct (Q row Hr) as [_ ->], (Q (row + 1) Hc) as [-> _]. rewrite Nat.add_1_r. reflexivity.
    + cbn in Hc. eapply (value_sub o L); [val S|val S|]. destruct (Q row Hr) as [-> ->], (Q (row + 1) Hc) as [_ ->]. rewrite Nat.add_1_r. cbn [fibonacci snd fst]. pose proof (F_R (law_field o L)) as R. rewrite (Radd_comm R (fst _)), <- (Radd_assoc R), (Ropp_def R), (Radd_comm R), (Radd_0_l R). reflexivity.
    + apply cover_row in Hc. rewrite Z.mod_0_l in Hc by (apply Z.pow_nonzero; lia). cbn in Hc. subst row. eapply (value_sub o L); [val S|val S|]. apply (Q 0 P2).
    + apply cover_row in Hc. fold ir in Hc. subst row. eapply (value_sub o L); [val S|val S|]. destruct (Q ir RL) as [-> _]. exact Hv.
Qed.
Print Assumptions C63_fib_check.

(** The trace function fills in the sequence that starts with the secret. *)
Theorem C63_fib_trace : forall F (o : ops F) index secret, (0 <= index <= 2 ^ 63)%Z -> let k := Z.to_nat (Z.log2_up index) in
  exists t, fib_trace o index secret = Some t /\ size t (2 ^ k) 2 /\
  forall row, row < 2 ^ k -> t_get t row 0 = Some (fst (fibonacci o secret row)) /\ t_get t row 1 = Some (snd (fibonacci o secret row)).
Proof.
  intros F o index secret Hi k. unfold fib_trace, next_power_of_two. destruct (Z.leb_spec index (2 ^ 63)); [|lia]. cbn [bind]. replace (2 ^ Z.log2_up index)%Z with (2 ^ Z.of_nat k)%Z by (unfold k; rewrite Z2Nat.id by apply Z.log2_up_nonneg; reflexivity).
  rewrite pow_to. pose proof (pow2_pos k) as P2. destruct (size_set o (t_new o (2 ^ k) 2) (2 ^ k) 2 0 0 (f1 o) (size_new o _ _) P2 ltac:(lia)) as (t0 & -> & S0 & G0 & _). cbn [bind].
  destruct (size_set o t0 (2 ^ k) 2 0 1 secret S0 P2 ltac:(lia)) as (t1 & -> & S1 & G1 & O1). cbn [bind].
  assert (J : forall m, m < 2 ^ k -> exists t, fold_left (fib_step o) (seq 0 m) (Some t1) = Some t /\ size t (2 ^ k) 2 /\ forall row, row <= m -> cell o t row 0 = fst (fibonacci o secret row) /\ cell o t row 1 = snd (fibonacci o secret row)).
  { induction m as [|m IH]; intros Hm.
    - exists t1. split; [reflexivity|]. split; [exact S1|]. intros row Hr. assert (row = 0) as -> by lia. rewrite O1 by lia. split; assumption.
    - destruct (IH ltac:(lia)) as (t & E & S & H'). rewrite seq_S, fold_left_app, E. cbn [fold_left fib_step Nat.add bind]. rewrite (size_get o t _ _ m 1 S) by lia. cbn [bind].
      destruct (size_set o t _ _ (m + 1) 0 (cell o t m 1) S ltac:(lia) ltac:(lia)) as (t2 & -> & S2 & G2 & O2). cbn [bind]. rewrite (size_get o t2 _ _ m 0 S2), (size_get o t2 _ _ m 1 S2) by lia. cbn [bind].
      destruct (size_set o t2 _ _ (m + 1) 1 (fadd o (cell o t2 m 0) (cell o t2 m 1)) S2 ltac:(lia) ltac:(lia)) as (t3 & -> & S3 & G3 & O3). exists t3. split; [reflexivity|]. split; [exact S3|].
      destruct (H' m ltac:(lia)) as [A B]. intros row Hr. destruct (Nat.eq_dec row (Datatypes.S m)) as [->|Nr].
      + rewrite <- Nat.add_1_r at 1 3. rewrite (O3 (m + 1) 0), G2, G3, (O2 m 0), (O2 m 1) by lia. rewrite A, B. split; reflexivity.
      + rewrite (O3 row 0), (O3 row 1), (O2 row 0), (O2 row 1) by lia. apply H'. lia. }
  destruct (J (2 ^ k - 1) ltac:(lia)) as (t & -> & S & H'). exists t. split; [reflexivity|]. split; [exact S|]. intros row Hr. rewrite !(size_get o t _ _ _ _ S) by lia. destruct (H' row ltac:(lia)) as [-> ->]. split; reflexivity.
Qed.
Print Assumptions C63_fib_trace.

Section FibSystem.
Context {F : Type} (o : ops F) (L : lawful o) (e : engine F) (M : nat) (w : nat -> F) (SD : sound o e M w).
Lemma root_ok k : k <= M -> root_unwrap e (2 ^ Z.of_nat k) = Some (w k).
Proof. intros Hk. unfold root_unwrap. rewrite pow_to, (s_root _ _ _ _ SD k Hk). reflexivity. Qed.
Lemma fib_system index value k : k <= M -> (index <= 2 ^ 63)%Z -> k = Z.to_nat (Z.log2_up index) -> fib_constraints o e index value = system e (2 ^ k) 2 (map (placed o (w k) k) (fib_conditions o index value)).
Proof.
  intros Hk Hi Ek. unfold fib_constraints, next_power_of_two. destruct (Z.leb_spec index (2 ^ 63)); [|lia]. cbn [bind]. replace (2 ^ Z.log2_up index)%Z with (2 ^ Z.of_nat k)%Z by (rewrite Ek, Z2Nat.id by apply Z.log2_up_nonneg; reflexivity).
  rewrite (root_ok k Hk). cbn [bind]. rewrite pow_to. reflexivity.
Qed.
Lemma fib_proves index value t k : 1 <= k -> k + 4 <= M -> (0 <= index <= 2 ^ 63)%Z -> k = Z.to_nat (Z.log2_up index) -> fpw o (egen e) (2 ^ k) <> f1 o -> size t (2 ^ k) 2 ->
  check_constraints o e (fib_exprs o (w k) (2 ^ Z.of_nat k) index value) t = Some None -> exists c, fib_constraints o e index value = Some c /\ proves o e M w k 4 0 t c.
Proof.
  intros K1 KM Hi Ek Hg S Ck. pose proof S as (Sh & HR & HC). rewrite (fib_system index value k) by (assumption || lia). rewrite fib_placed in Ck.
  destruct (C62_provable F o L e M w SD t k 0 (fib_conditions o index value) 1 Sh K1 KM HR ltac:(lia) (fib_ok o t k index value S ltac:(lia)) Ck) as (c & Ec & H).
  - rewrite Nat.add_0_r. exact Hg. - lia. - apply pow_steps; cbn; lia.
  - rewrite HC in Ec. exists c. split; [exact Ec|]. apply H. unfold system, from_expressions in Ec. rewrite (s_root _ _ _ _ SD k ltac:(lia)) in Ec. cbn [bind] in Ec. injection Ec as <-.
    refine (system_degree o (w k) k (2 ^ k) 2 (fib_conditions o index value) _ _ _ _ 1%Z [1; 1; 1]%Z _). repeat constructor; vm_compute; (reflexivity || discriminate).
Qed.
End FibSystem.
(** The trace function and the constraints of a true claim, whose index is not a power of two, meet the requirements of
    the completeness theorem C57. *)
Theorem C63_fib : forall F (o : ops F), lawful o -> forall e M w, sound o e M w -> forall index secret, let k := Z.to_nat (Z.log2_up index) in
  (0 <= index <= 2 ^ 63)%Z -> 1 <= k -> k + 4 <= M -> fpw o (egen e) (2 ^ k) <> f1 o -> (index <> 2 ^ Z.of_nat k)%Z ->
  exists t c, fib_trace o index secret = Some t /\ fib_constraints o e index (fst (fibonacci o secret (Z.to_nat index))) = Some c /\ proves o e M w k 4 0 t c.
Proof.
  intros F o L e M w SD index secret k Hi K1 KM Hg Np. destruct (C63_fib_trace F o index secret Hi) as (t & Et & S & Ht). fold k in S, Ht.
  assert (Hlt : (index < 2 ^ Z.of_nat k)%Z). { assert (index <= 2 ^ Z.of_nat k)%Z; [|lia]. unfold k. rewrite Z2Nat.id by apply Z.log2_up_nonneg. destruct (Z.le_gt_cases index 0); [assert (0 < 2 ^ Z.log2_up index)%Z by (apply Z.pow_pos_nonneg; [lia|apply Z.log2_up_nonneg]); lia|]. apply Z.log2_up_le_pow2; lia. }
  destruct (fib_proves o L e M w SD index (fst (fibonacci o secret (Z.to_nat index))) t k K1 KM Hi eq_refl Hg S) as (c & Ec & HP).
  - apply (C63_fib_check F o L e M w SD t k index _ S ltac:(lia) ltac:(lia)). exists secret. split; [exact Ht|]. rewrite Z.mod_small by lia. reflexivity.
  - exists t, c. auto.
Qed.
Print Assumptions C63_fib.
(** If the index is a power of two, the row of the claim is not in the table and the constraints are about row 0 instead:
    they accept exactly the claimed value 1, for every secret, and it is provable. *)
Theorem C63_fib_power_refuted : forall F (o : ops F), lawful o -> forall e M w, sound o e M w -> forall k, k <= M -> k < 63 -> let index := (2 ^ Z.of_nat k)%Z in
  (forall t value, size t (2 ^ k) 2 -> check_constraints o e (fib_exprs o (w k) (2 ^ Z.of_nat k) index value) t = Some None -> value = f1 o) /\
  (1 <= k -> k + 4 <= M -> fpw o (egen e) (2 ^ k) <> f1 o -> forall secret, exists t c, fib_trace o index secret = Some t /\ fib_constraints o e index (f1 o) = Some c /\ proves o e M w k 4 0 t c).
Proof.
  intros F o L e M w SD k Hk H63 index. assert (Hz : (0 < index <= 2 ^ 63)%Z) by (split; [apply Z.pow_pos_nonneg; lia|apply Z.pow_le_mono_r; lia]).
  assert (Z0 : Z.to_nat (index mod 2 ^ Z.of_nat k) = 0) by (unfold index; rewrite Z_mod_same_full; reflexivity).
  assert (Ek : k = Z.to_nat (Z.log2_up index)) by (unfold index; rewrite Z.log2_up_pow2 by lia; lia). split.
  - intros t value S Ck. apply (C63_fib_check F o L e M w SD t k index value S Hk ltac:(lia)) in Ck as (s & _ & <-). rewrite Z0. reflexivity.
  - intros K1 KM Hg secret. destruct (C63_fib_trace F o index secret ltac:(lia)) as (t & Et & S & Ht). rewrite <- Ek in S, Ht.
    destruct (fib_proves o L e M w SD index (f1 o) t k K1 KM ltac:(lia) Ek Hg S) as (c & Ec & HP); [|exists t, c; auto].
    apply (C63_fib_check F o L e M w SD t k index _ S Hk ltac:(lia)). exists secret. split; [exact Ht|]. rewrite Z0. reflexivity.
Qed.
Print Assumptions C63_fib_power_refuted.
(** For the field of the library: every claim with an index up to 2^59 that is not a power of two. *)
Theorem C63_fib_field : forall index secret, (2 < index <= 2 ^ 59)%Z -> let k := Z.to_nat (Z.log2_up index) in (index <> 2 ^ Z.of_nat k)%Z ->
  exists t c, fib_trace felt_ops index secret = Some t /\ fib_constraints felt_ops felt_engine index (fst (fibonacci felt_ops secret (Z.to_nat index))) = Some c /\ proves felt_ops felt_engine 63 (fe_w proth_good) k 4 0 t c.
Proof.
  intros index secret Hi k Np. assert (Hk : 1 <= k <= 59).
  { unfold k. assert (1 <= Z.log2_up index)%Z by (apply (Z.log2_up_le_mono 2); lia). assert (Z.log2_up index <= Z.log2_up (2 ^ 59))%Z by (apply Z.log2_up_le_mono; lia). rewrite Z.log2_up_pow2 in H0 by lia. lia. }
  apply (C63_fib _ felt_ops felt_lawful felt_engine 63 (fe_w proth_good) felt_sound index secret); fold k; try lia. apply felt_coset; lia.
Qed.
Print Assumptions C63_fib_field.
Example C63_fib_ex : Z.log2_up 1000 = 10%Z /\ (exists t c, fib_trace felt_ops 1000 (f1 felt_ops) = Some t /\ fib_constraints felt_ops felt_engine 1000 (fst (fibonacci felt_ops (f1 felt_ops) (Z.to_nat 1000))) = Some c /\ proves felt_ops felt_engine 63 (fe_w proth_good) 10 4 0 t c) /\
  option_map (fun t => map fe_val (t_values t)) (fib_trace tiny_ops 3 (tiny 5)) = Some [1; 5; 5; 6; 6; 11; 11; 17]%Z.
Proof.
  split; [reflexivity|]. split; [apply (C63_fib_field 1000 (f1 felt_ops)); [lia|vm_compute; discriminate]|]. vm_compute; reflexivity.
Qed.

(** ** MiMC with cubing in one constraint *)
Section MimcCubic.
Context {F : Type} (o : ops F) (L : lawful o).
Definition mimc_cubic_conditions (n alpha : Z) (k_coef : rexpr F) (before after : F) : list (rexpr F * place) :=
  [ (e_sub (ETrace 0 1) (EAdd (EExp (ETrace 0 0) alpha) k_coef), AllButLast); (e_sub (ETrace 0 0) (EConst before), Row 0); (e_sub (ETrace 0 0) (EConst after), Row (n - 1)) ].
Lemma mimc_cubic_ok t k alpha k_coef before after : size t (2 ^ k) 1 -> k < 64 -> (0 <= alpha < 2 ^ 64)%Z -> usizes k_coef -> division_free k_coef -> (forall i j, ~ refers k_coef i j) ->
  forall c, In c (mimc_cubic_conditions (2 ^ Z.of_nat k) alpha k_coef before after) -> condition t (fst c) /\ sensible k (snd c).
Proof.
  intros S Hk Ha U D Rf c Hc. pose proof (pow2_pos k). pose proof (pow_le_64 k Hk). cbn in Hc. repeat destruct Hc as [<-|Hc]; try contradiction; (split; [apply (cond_refl t _ _ _ S); [lia|cbn; tauto|cbn; tauto|cbn; intros i j Hr; repeat destruct Hr as [Hr|Hr]; try lia; exfalso; exact (Rf i j Hr)]|cbn; lia]).
Qed.
End MimcCubic.
(** The constraints accept exactly the tables that hold the states of the cipher, from before to after. *)
Theorem C63_mimc_cubic_check : forall F (o : ops F), lawful o -> forall e M w, sound o e M w -> forall t k j alpha coef before after, size t (2 ^ k) 1 -> j <= k -> k <= M -> (0 <= alpha < 2 ^ 64)%Z -> length coef = 2 ^ j ->
  exists c, mimc_cubic_constraints o e (2 ^ Z.of_nat k) alpha coef before after = Some c /\ c_nrows c = 2 ^ k /\ c_ncolumns c = 1 /\
  (check_constraints o e (c_exprs c) t = Some None <->
   (forall row, row < 2 ^ k -> t_get t row 0 = Some (mimc o (Z.to_N alpha) coef before row)) /\ mimc o (Z.to_N alpha) coef before (2 ^ k - 1) = after).
Proof.
  intros F o L e M w SD t k j alpha coef before after S Hj Hk Ha Lc. pose proof (pow2_pos k) as P2. pose proof (pow2_pos j) as Pj. pose proof (s_max _ _ _ _ SD) as HM.
  destruct (C62_periodic F o L e M w SD k j coef Hk Hj Lc) as (kc & Ekc & U & D & Rf & Vk). unfold mimc_cubic_constraints. rewrite (root_ok o e M w SD k Hk). cbn [bind]. rewrite Ekc. cbn [bind]. rewrite pow_to. unfold system, from_expressions. rewrite (s_root _ _ _ _ SD k Hk). cbn [bind].
  eexists. split; [reflexivity|]. cbn [c_nrows c_ncolumns c_exprs]. split; [reflexivity|]. split; [reflexivity|].
  change (mimc_cubic_exprs o (w k) (2 ^ Z.of_nat k) alpha kc before after) with (map (placed o (w k) k) (mimc_cubic_conditions (2 ^ Z.of_nat k) alpha kc before after)). pose proof S as (Sh & HR & _).
  rewrite (C62_accepts F o L e M w SD t k _ Sh Hk HR (mimc_cubic_ok t k alpha kc before after S ltac:(lia) Ha U D Rf)). unfold satisfied.
  assert (Vk' : forall r, value o (fpw o (w k) r) (row_trace t r) kc (nth (r mod length coef) coef (f0 o))) by (intros r; rewrite Lc; apply Vk).
  split.
  - intros H.
    assert (H1 : forall r, r + 1 < 2 ^ k -> cell o t (r + 1) 0 = fadd o (fexp o (cell o t r 0) (Z.to_N alpha)) (nth (r mod length coef) coef (f0 o))).
    { intros r Hr. specialize (H _ _ (or_introl eq_refl) r ltac:(lia) Hr). specialize (Vk' r). refine (sub_eq o L _ _ _ _ _ _ H _ _); val S. }
    assert (H3 : cell o t 0 0 = before). { specialize (H _ _ (or_intror (or_introl eq_refl)) 0 P2 (cover_first k)). refine (sub_eq o L _ _ _ _ _ _ H _ _); val S. }
    assert (H4 : cell o t (2 ^ k - 1) 0 = after). { specialize (H _ _ (or_intror (or_intror (or_introl eq_refl))) (2 ^ k - 1) ltac:(lia) ltac:(apply cover_last; reflexivity)). refine (sub_eq o L _ _ _ _ _ _ H _ _); val S. }
    assert (Q : forall r, r < 2 ^ k -> cell o t r 0 = mimc o (Z.to_N alpha) coef before r).
    { induction r as [|r IH]; intros Hr; [exact H3|]. cbn [mimc]. rewrite <- IH by lia. rewrite <- Nat.add_1_r. apply H1. lia. }
    split; [|rewrite <- H4; symmetry; apply Q; lia]. intros row Hrow. rewrite (size_get o t _ _ _ _ S) by lia. f_equal. apply Q, Hrow.
  - intros (Hs & Hv). assert (Q : forall r, r < 2 ^ k -> cell o t r 0 = mimc o (Z.to_N alpha) coef before r).
    { intros r Hr. pose proof (Hs r Hr) as A. rewrite (size_get o t _ _ _ _ S) in A by lia. congruence. }
    intros N p Hin row Hr Hc. cbn in Hin. repeat destruct Hin as [Hin|Hin]; try contradiction; injection Hin as <- <-.
    + cbn in Hc. specialize (Vk' row). eapply (value_sub o L); [val S|val S|]. rewrite (Q row Hr), (Q (row + 1) Hc), Nat.add_1_r. reflexivity.
    + apply cover_row in Hc. rewrite Z.mod_0_l in Hc by (apply Z.pow_nonzero; lia). cbn in Hc. subst row. eapply (value_sub o L); [val S|val S|]. apply (Q 0 P2).
    + apply cover_last in Hc. subst row. eapply (value_sub o L); [val S|val S|]. rewrite Q by lia. exact Hv.
Qed.
Print Assumptions C63_mimc_cubic_check.
(** The trace function makes this table and panics if the claim is false. *)
Theorem C63_mimc_cubic_trace : forall F (o : ops F), lawful o -> forall k alpha coef before after, (0 <= alpha < 2 ^ 64)%Z -> coef <> [] ->
  (mimc o (Z.to_N alpha) coef before (2 ^ k - 1) <> after -> mimc_cubic_trace o (2 ^ Z.of_nat k) alpha coef before after = None) /\
  (mimc o (Z.to_N alpha) coef before (2 ^ k - 1) = after -> exists t, mimc_cubic_trace o (2 ^ Z.of_nat k) alpha coef before after = Some t /\ size t (2 ^ k) 1 /\
     forall row, row < 2 ^ k -> t_get t row 0 = Some (mimc o (Z.to_N alpha) coef before row)).
Proof.
  intros F o L k alpha coef before after Ha Nc. pose proof (pow2_pos k) as P2. unfold mimc_cubic_trace. rewrite pow_to.
  assert (J : forall m, m <= 2 ^ k -> exists t, fold_left (mimc_cubic_step o alpha coef) (seq 0 m) (Some (t_new o (2 ^ k) 1, before)) = Some (t, mimc o (Z.to_N alpha) coef before m) /\ size t (2 ^ k) 1 /\
    forall row, row < m -> cell o t row 0 = mimc o (Z.to_N alpha) coef before row).
  { induction m as [|m IH]; intros Hm; [exists (t_new o (2 ^ k) 1); split; [reflexivity|]; split; [apply size_new|]; intros; lia|].
    destruct (IH ltac:(lia)) as (t & E & S & H). rewrite seq_S, fold_left_app, E. cbn [fold_left mimc_cubic_step Nat.add bind].
    destruct (size_set o t _ _ m 0 (mimc o (Z.to_N alpha) coef before m) S ltac:(lia) ltac:(lia)) as (t2 & -> & S2 & G2 & O2). cbn [bind].
    assert (Lm : m mod length coef < length coef) by (apply Nat.mod_upper_bound; destruct coef; [contradiction|discriminate]). rewrite (nth_error_nth' coef (f0 o) Lm). cbn [bind]. rewrite (pow_usize_spec o L) by (unfold B; lia).
    exists t2. split; [reflexivity|]. split; [exact S2|]. intros row Hr. destruct (Nat.eq_dec row m) as [->|Nr]; [exact G2|]. rewrite O2 by lia. apply H. lia. }
  destruct (J (2 ^ k) (le_n _)) as (t & -> & S & H). cbn [bind]. rewrite (size_get o t _ _ _ _ S) by lia. cbn [bind]. rewrite H by lia. destruct (feqb_spec o L (mimc o (Z.to_N alpha) coef before (2 ^ k - 1)) after) as [E|N]; (split; [intros; try contradiction; try reflexivity|intros; try contradiction]).
  exists t. split; [reflexivity|]. split; [exact S|]. intros row Hr. rewrite (size_get o t _ _ _ _ S) by lia. rewrite H by lia. reflexivity.
Qed.
Print Assumptions C63_mimc_cubic_trace.
