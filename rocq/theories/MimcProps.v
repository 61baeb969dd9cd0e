(** C63, continued: the MiMC, VDF and constant examples. *)
Require Import Field ZArith NArith Lia Bool List.
From Verif Require Import Word KnuthModel FieldSig FieldInstance FieldAlgModel FieldAlgProofs Arr FftModel FftSpec PermuteProofs FftProofs FftProps StarkBase StarkInstance PolyModel PolyProps TraceModel TraceProps ExprModel ExprSpec ExprProofs ExprProps CheckProps OodsProofs OodsSatProps LayoutProps StarkSpec ClaimModel ClaimSpec ClaimProofs ClaimProps ExampleProofs ExampleProps.
Import ListNotations.
Open Scope nat_scope.

Lemma placed_proves {F} (o : ops F) (L : lawful o) e M w (SD : sound o e M w) t k a C cs d ds : size t (2 ^ k) C -> 0 < C -> 1 <= k -> k + 4 <= M ->
  (forall c, In c cs -> condition t (fst c) /\ sensible k (snd c)) -> check_constraints o e (map (placed o (w k) k) cs) t = Some None -> fpw o (egen e) (2 ^ (k + a)) <> f1 o -> a <= 4 ->
  Forall2 (fun c d => trace_degree o true (fst c) = Some (d, 0%Z) /\ (0 <= d < B)%Z) cs (d :: ds) -> let Dg := fold_left Z.max ds d in
  (1 <= Dg)%Z -> (Dg <= 2 ^ Z.of_nat a)%Z -> (a = 0 \/ (2 ^ Z.of_nat (a - 1) < Dg)%Z) -> forall c, system e (2 ^ k) C (map (placed o (w k) k) cs) = Some c -> proves o e M w k 4 a t c.
Proof.
  intros (Sh & HR & HC) HC0 K1 KM Hc Ck Hg Ha HF Dg D1 D2 D3 c Ec.
  destruct (C62_provable F o L e M w SD t k a cs Dg Sh K1 KM HR ltac:(lia) Hc Ck Hg Ha (pow_steps a Dg D1 D2 D3)) as (c' & Ec' & H). rewrite HC, Ec in Ec'. injection Ec' as <-. apply H.
  unfold system, from_expressions in Ec. rewrite (s_root _ _ _ _ SD k ltac:(lia)) in Ec. cbn [bind] in Ec. injection Ec as <-. apply (system_degree o (w k) k (2 ^ k) C cs _ _ _ _ d ds HF).
Qed.
Lemma sub_degree {F} (o : ops F) a b da db : trace_degree o true a = Some (da, 0%Z) -> trace_degree o true b = Some (db, 0%Z) -> (0 <= da < B)%Z -> (0 <= db < B)%Z -> trace_degree o true (e_sub a b) = Some (Z.max da db, 0%Z).
Proof.
  intros Ha Hb Da Db. unfold trace_degree, e_sub in *. cbn [degree_impl]. rewrite Ha, Hb. cbn [bind]. rewrite !uadd_0 by assumption. cbn [bind]. reflexivity.
Qed.
Lemma add_degree {F} (o : ops F) a b da db : trace_degree o true a = Some (da, 0%Z) -> trace_degree o true b = Some (db, 0%Z) -> (0 <= da < B)%Z -> (0 <= db < B)%Z -> trace_degree o true (EAdd a b) = Some (Z.max da db, 0%Z).
Proof. intros Ha Hb Da Db. unfold trace_degree in *. cbn [degree_impl]. rewrite Ha, Hb. cbn [bind]. rewrite !uadd_0 by assumption. cbn [bind]. reflexivity. Qed.
Lemma exp_degree {F} (o : ops F) a n : trace_degree o true a = Some (1, 0)%Z -> (0 <= n < B)%Z -> trace_degree o true (EExp a n) = Some (n, 0%Z).
Proof. intros Ha Hn. unfold trace_degree in *. cbn [degree_impl]. rewrite Ha. cbn [bind]. rewrite umul_0. unfold umul. rewrite Z.mul_1_r. destruct (Z.ltb_spec n B); [reflexivity|lia]. Qed.

(** A true claim with an exponent up to 16 meets the requirements of the completeness theorem C57. *)
Theorem C63_mimc_cubic : forall F (o : ops F), lawful o -> forall e M w, sound o e M w -> forall k j alpha coef before, j <= k -> 1 <= k -> k + 4 <= M -> (1 <= alpha <= 16)%Z -> length coef = 2 ^ j ->
  let a := Z.to_nat (Z.log2_up alpha) in let after := mimc o (Z.to_N alpha) coef before (2 ^ k - 1) in fpw o (egen e) (2 ^ (k + a)) <> f1 o ->
  exists t c, mimc_cubic_trace o (2 ^ Z.of_nat k) alpha coef before after = Some t /\ mimc_cubic_constraints o e (2 ^ Z.of_nat k) alpha coef before after = Some c /\ proves o e M w k 4 a t c.
Proof.
  intros F o L e M w SD k j alpha coef before Hj K1 KM Ha Lc a after Hg. pose proof (pow2_pos j) as Pj. pose proof (s_max _ _ _ _ SD) as HM.
  destruct (C63_mimc_cubic_trace F o L k alpha coef before after ltac:(lia)) as [_ H]; [destruct coef; [cbn in Lc; lia|discriminate]|]. destruct (H eq_refl) as (t & Et & S & Ht).
  destruct (C63_mimc_cubic_check F o L e M w SD t k j alpha coef before after S Hj ltac:(lia) ltac:(lia) Lc) as (c & Ec & _ & _ & Hc). exists t, c. split; [exact Et|]. split; [exact Ec|].
  assert (Ck : check_constraints o e (c_exprs c) t = Some None) by (apply Hc; split; [exact Ht|reflexivity]). clear H Hc.
  destruct (C62_periodic F o L e M w SD k j coef ltac:(lia) Hj Lc) as (kc & Ekc & U & D & Rf & _). unfold mimc_cubic_constraints in Ec. rewrite (root_ok o e M w SD k ltac:(lia)) in Ec. cbn [bind] in Ec. rewrite Ekc in Ec. cbn [bind] in Ec. rewrite pow_to in Ec.
  change (mimc_cubic_exprs o (w k) (2 ^ Z.of_nat k) alpha kc before after) with (map (placed o (w k) k) (mimc_cubic_conditions (2 ^ Z.of_nat k) alpha kc before after)) in Ec.
  assert (Ex : c_exprs c = map (placed o (w k) k) (mimc_cubic_conditions (2 ^ Z.of_nat k) alpha kc before after)).
  { unfold system, from_expressions in Ec. rewrite (s_root _ _ _ _ SD k ltac:(lia)) in Ec. cbn [bind] in Ec. injection Ec as <-. reflexivity. }
  rewrite Ex in Ck. assert (Ba : (0 <= alpha < B)%Z) by (change B with (2 ^ 64)%Z; lia). assert (Bs : (0 <= 1 < B)%Z) by (split; reflexivity || (vm_compute; discriminate)). assert (B0 : (0 <= 0 < B)%Z) by (split; reflexivity || (vm_compute; discriminate)).
  assert (Al : a <= 4 /\ (alpha <= 2 ^ Z.of_nat a)%Z /\ (a = 0 \/ (2 ^ Z.of_nat (a - 1) < alpha)%Z)).
  { unfold a. assert (0 <= Z.log2_up alpha <= 4)%Z by (split; [apply Z.log2_up_nonneg|apply (Z.log2_up_le_mono alpha 16); lia]). split; [lia|]. rewrite Z2Nat.id by lia. split; [apply Z.log2_up_le_pow2; lia|].
    destruct (Z.eq_dec alpha 1) as [->|]; [left; reflexivity|right]. replace (Z.of_nat (Z.to_nat (Z.log2_up alpha) - 1)) with (Z.pred (Z.log2_up alpha)); [apply Z.log2_up_spec; lia|]. assert (0 < Z.log2_up alpha)%Z by (apply Z.log2_up_pos; lia). lia. }
  apply (placed_proves o L e M w SD t k a 1 (mimc_cubic_conditions (2 ^ Z.of_nat k) alpha kc before after) alpha [1; 1]%Z S); try lia; try assumption.
  - apply (mimc_cubic_ok t k alpha kc before after S ltac:(lia) ltac:(lia) U D Rf).
  - unfold mimc_cubic_conditions. repeat (constructor; [split; cbn [fst]; [|lia || assumption]|]); [| | |constructor].
    + rewrite (sub_degree o _ _ 1 alpha); [f_equal; f_equal; lia|reflexivity| |exact Bs|exact Ba]. rewrite (add_degree o _ _ alpha 0); [f_equal; f_equal; lia|apply exp_degree; [reflexivity|exact Ba]|apply (periodic_degree o e _ _ _ Ekc)|exact Ba|exact B0].
    + reflexivity. + reflexivity.
  - cbn [fold_left]. lia. - cbn [fold_left]. lia. - cbn [fold_left]. lia.
Qed.
Print Assumptions C63_mimc_cubic.
(** The claim of the example: 2^13 rounds of x^3 + k in the field of the library, with any 16 round constants. *)
Example C63_mimc_cubic_ex : forall coef before, length coef = 16 -> let after := mimc felt_ops 3 coef before (2 ^ 13 - 1) in
  exists t c, mimc_cubic_trace felt_ops 8192 3 coef before after = Some t /\ mimc_cubic_constraints felt_ops felt_engine 8192 3 coef before after = Some c /\ proves felt_ops felt_engine 63 (fe_w proth_good) 13 4 2 t c.
Proof. intros coef before Lc. apply (C63_mimc_cubic _ felt_ops felt_lawful felt_engine 63 (fe_w proth_good) felt_sound 13 4 3 coef before); try lia; [exact Lc|]. apply felt_coset. apply Nat.leb_le. reflexivity. Qed.
