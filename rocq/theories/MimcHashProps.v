(** C63, continued: the MiMC hash and the constants. *)
Require Import Ring Field ZArith NArith Lia Bool List.
From Verif Require Import Word KnuthModel FieldSig FieldInstance FieldAlgModel FieldAlgProofs Arr FftModel FftSpec PermuteProofs FftProofs FftProps StarkBase StarkInstance PolyModel PolyProps TraceModel TraceProps ExprModel ExprSpec ExprProofs ExprProps CheckProps OodsProofs OodsSatProps LayoutProps StarkSpec ClaimModel ClaimSpec ClaimProofs ClaimProps ExampleProofs ExampleProps MimcProps VdfProps.
Import ListNotations.
Open Scope nat_scope.

Section Hash.
Context {F : Type} (o : ops F) (L : lawful o).
Add Field Hfield : (law_field o L).
Definition hash_left (q three : F) (kc : rexpr F) : rexpr F := EAdd (EAdd (EExp (ETrace 0 0) 3) (EMul (EMul (EMul (EConst three) (EConst q)) (ETrace 0 0)) (EExp (ETrace 1 0) 2))) kc.
Definition hash_right (q three : F) : rexpr F := EAdd (EMul (EConst three) (EExp (ETrace 0 0) 2)) (EMul (EConst q) (EExp (ETrace 1 0) 3)).
Definition hash_conditions (j : nat) (q three : F) (kc : rexpr F) (x y after : F) : list (rexpr F * place) :=
  [ (e_sub (hash_left q three kc) (ETrace 0 1), Blocks j); (e_sub (hash_right q three) (ETrace 1 1), AllButLast);
    (e_sub (ETrace 0 0) (EConst x), Row 0); (ETrace 1 0, Row 0); (e_sub (ETrace 0 0) (EConst y), Row (2 ^ Z.of_nat j)); (e_sub (ETrace 0 0) (EConst after), Row (2 ^ Z.of_nat (j + 1) - 1)) ].
Lemma hash_ok t j q three kc x y after : size t (2 ^ (j + 1)) 2 -> j < 63 -> usizes kc -> division_free kc -> (forall i j, ~ refers kc i j) ->
  forall c, In c (hash_conditions j q three kc x y after) -> condition t (fst c) /\ sensible (j + 1) (snd c).
Proof.
  intros S Hk U D Rf c Hc. pose proof (pow2_pos (j + 1)). pose proof (pow_le_64 j ltac:(lia)). pose proof (pow_le_64 (j + 1) ltac:(lia)). cbn [hash_conditions In] in Hc. repeat destruct Hc as [<-|Hc]; try contradiction; (split; [apply (cond_refl t _ _ _ S); [lia|cbn [usizes hash_left hash_right e_sub fst]; repeat split; try lia; try assumption|cbn; tauto|cbn; intros i j' Hr; repeat destruct Hr as [Hr|Hr]; try lia; exfalso; exact (Rf i j' Hr)]|cbn [snd sensible]; lia]).
Qed.
Lemma sqr x : fexp o x 2 = fmul o x x.
Proof. change 2%N with (Z.to_N 2). rewrite (exp_pow o) by lia. change (Z.to_nat 2) with 2. cbn [fpw]. ring. Qed.
Lemma step_left q three k s : fst (hash_step o q three k s) = fadd o (fadd o (fexp o (fst s) 3) (fmul o (fmul o (fmul o three q) (fst s)) (fexp o (snd s) 2))) k.
Proof. rewrite (cube o L), sqr. destruct s. cbn. ring. Qed.
Lemma step_right q three k s : snd (hash_step o q three k s) = fadd o (fmul o three (fexp o (fst s) 2)) (fmul o q (fexp o (snd s) 3)).
Proof. rewrite (cube o L), sqr. destruct s. reflexivity. Qed.
(** Rounds from a state. *)
Variables (q three : F) (ks : list F).
Definition rounds := states (fun i => hash_step o q three (nth i ks (f0 o))).
Lemma state_first x y r : r < length ks -> hash_state o q three ks x y r = rounds (x, f0 o) r.
Proof.
  unfold rounds. induction r as [|r IH]; intros Hr; [reflexivity|]. cbn [hash_state states]. rewrite IH by lia. rewrite (Nat.mod_small (S r)), (Nat.mod_small r) by lia. reflexivity.
Qed.
Lemma state_middle x y : 0 < length ks -> hash_state o q three ks x y (length ks) = (y, snd (rounds (x, f0 o) (length ks))).
Proof.
  intros Hl. destruct (length ks) as [|l] eqn:El; [lia|]. cbn [hash_state]. rewrite El, Nat.mod_same by lia. cbn [Nat.eqb]. rewrite Nat.mod_small by lia. rewrite state_first by lia. reflexivity.
Qed.
Lemma state_second x y r : r < length ks -> hash_state o q three ks x y (length ks + r) = rounds (y, snd (rounds (x, f0 o) (length ks))) r.
Proof.
  induction r as [|r IH]; intros Hr; [rewrite Nat.add_0_r; apply state_middle; lia|]. rewrite Nat.add_succ_r. cbn [hash_state]. rewrite IH by lia. rewrite <- Nat.add_succ_r.
  assert (E : forall i, i < length ks -> (length ks + i) mod length ks = i) by (intros i Hi; rewrite <- (Nat.mul_1_l (length ks)) at 1; rewrite Nat.add_comm, Nat.mod_add, Nat.mod_small; lia). rewrite !E by lia. reflexivity.
Qed.
Lemma round_step s k : mimc_hash_round o q three s k = hash_step o q three k s.
Proof.
  destruct s as [a b]. unfold mimc_hash_round. rewrite !(pow_usize_spec o L) by (unfold B; lia). change (Z.to_N 3) with 3%N. rewrite !(cube o L). unfold hash_step. f_equal. ring.
Qed.
Lemma rounds_fold s n : n <= length ks -> fold_left (mimc_hash_round o q three) (firstn n ks) s = rounds s n.
Proof.
  unfold rounds. induction n as [|n IH]; intros Hn; [reflexivity|]. cbn [states]. rewrite <- IH by lia.
  assert (E : firstn (S n) ks = firstn n ks ++ [nth n ks (f0 o)]). { clear -Hn. revert ks Hn. induction n as [|n IH]; intros [|k l] H; cbn in *; try lia; [reflexivity|]. f_equal. apply IH. lia. }
  rewrite E, fold_left_app. cbn [fold_left]. apply round_step.
Qed.
Lemma hash_loop (R first : nat) s : first + length ks <= R -> forall t, size t R 2 -> forall m, m <= length ks ->
  exists t', fold_left (mimc_hash_step o q three ks first) (seq 0 m) (Some (t, s)) = Some (t', rounds s m) /\ size t' R 2 /\
  (forall r, r < m -> cell o t' (r + first) 0 = fst (rounds s r) /\ cell o t' (r + first) 1 = snd (rounds s r)) /\ (forall r c, r < R -> c < 2 -> (r < first \/ first + m <= r) -> cell o t' r c = cell o t r c).
Proof.
  intros HR t St. induction m as [|m IH]; intros Hm; [exists t; repeat split; try apply St; lia|].
  destruct (IH ltac:(lia)) as (t1 & E1 & S1 & G & O). rewrite seq_S, fold_left_app, E1. cbn [fold_left Nat.add]. unfold mimc_hash_step. cbn [bind]. unfold rounds. cbn [states]. fold rounds. fold (rounds s m). destruct (rounds s m) as [a b] eqn:Em.
  destruct (size_set o t1 _ _ (m + first) 0 a S1 ltac:(lia) ltac:(lia)) as (t2 & -> & S2 & G2 & O2). cbn [bind]. destruct (size_set o t2 _ _ (m + first) 1 b S2 ltac:(lia) ltac:(lia)) as (t3 & -> & S3 & G3 & O3). cbn [bind].
  rewrite (nth_error_nth' ks (f0 o)) by lia. cbn [bind]. exists t3. split; [|split; [exact S3|split]].
  - f_equal. f_equal. rewrite <- round_step. reflexivity.
  - intros r Hr. destruct (Nat.eq_dec r m) as [->|Nr]; [rewrite Em, O3 by lia; split; assumption|]. rewrite (O3 (r + first) 0), (O2 (r + first) 0), (O3 (r + first) 1), (O2 (r + first) 1) by lia. apply G. lia.
  - intros r c Hr Hc Hx. rewrite O3, O2 by lia. apply O; lia.
Qed.
End Hash.
(** The function [mimc] that makes the claims computes the left part of the last of the states of the table. *)
Theorem C63_hash_function : forall F (o : ops F), lawful o -> forall q three ks x y, ks <> [] -> mimc_hash o q three ks x y = fst (hash_state o q three ks x y (2 * length ks - 1)).
Proof.
  intros F o L q three ks x y N. assert (Hl : 0 < length ks) by (destruct ks; [contradiction|cbn; lia]). unfold mimc_hash. rewrite <- (firstn_all ks) at 1. rewrite (rounds_fold o L) by lia.
  rewrite (surjective_pairing (rounds o q three ks (x, f0 o) (length ks))). rewrite (rounds_fold o L) by lia. replace (2 * length ks - 1) with (length ks + (length ks - 1)) by lia. rewrite state_second by lia. reflexivity.
Qed.
Print Assumptions C63_hash_function.
(** The constraints accept exactly the table of the states. *)
Theorem C63_hash_check : forall F (o : ops F), lawful o -> forall e M w, sound o e M w -> forall t j q three ks x y after, size t (2 ^ (j + 1)) 2 -> j + 1 <= M -> length ks = 2 ^ j ->
  let s := hash_state o q three ks x y in
  exists c, mimc_hash_constraints o e (2 ^ Z.of_nat (j + 1)) (2 ^ Z.of_nat j) q three ks x y after = Some c /\ c_nrows c = 2 ^ (j + 1) /\ c_ncolumns c = 2 /\
  (check_constraints o e (c_exprs c) t = Some None <->
   (forall row, row < 2 ^ (j + 1) -> t_get t row 0 = Some (fst (s row)) /\ t_get t row 1 = Some (snd (s row))) /\ fst (s (2 ^ (j + 1) - 1)) = after).
Proof.
  intros F o L e M w SD t j q three ks x y after S Hk Lc s. pose proof (pow2_pos (j + 1)) as P2. pose proof (pow2_pos j) as Pj. assert (Ej : 2 ^ (j + 1) = 2 * 2 ^ j) by (rewrite Nat.add_1_r; cbn; lia). pose proof (s_max _ _ _ _ SD) as HM.
  destruct (C62_periodic F o L e M w SD (j + 1) j ks Hk ltac:(lia) Lc) as (kc & Ekc & U & D & Rf & Vk). unfold mimc_hash_constraints. rewrite (root_ok o e M w SD (j + 1) Hk). cbn [bind]. rewrite Ekc. cbn [bind]. rewrite pow_to. unfold system, from_expressions. rewrite (s_root _ _ _ _ SD (j + 1) Hk). cbn [bind].
  eexists. split; [reflexivity|]. cbn [c_nrows c_ncolumns c_exprs]. split; [reflexivity|]. split; [reflexivity|].
  change (mimc_hash_exprs o (w (j + 1)) q three (2 ^ Z.of_nat (j + 1)) (2 ^ Z.of_nat j) kc x y after) with (map (placed o (w (j + 1)) (j + 1)) (hash_conditions j q three kc x y after)). pose proof S as (Sh & HR & _).
  rewrite (C62_accepts F o L e M w SD t (j + 1) _ Sh Hk HR (hash_ok t j q three kc x y after S ltac:(lia) U D Rf)). rewrite Forall_conditions. unfold hash_conditions. each. rewrite at_row.
  assert (Em : Z.to_nat (2 ^ Z.of_nat j mod 2 ^ Z.of_nat (j + 1)) = 2 ^ j) by (rewrite Z.mod_small by (split; [apply Z.pow_nonneg; lia|apply Z.pow_lt_mono_r; lia]); apply pow_to). rewrite Em.
  assert (A1 : (forall row, row < 2 ^ (j + 1) -> covers (j + 1) (Blocks j) row -> satisfied o (w (j + 1)) t row (e_sub (hash_left q three kc) (ETrace 0 1))) <->
    (forall r, r + 1 < 2 ^ (j + 1) -> (r + 1) mod length ks <> 0 -> fst (hash_step o q three (nth (r mod length ks) ks (f0 o)) (cell o t r 0, cell o t r 1)) = cell o t (r + 1) 0)).
  { assert (E : forall r, r + 1 < 2 ^ (j + 1) -> satisfied o (w (j + 1)) t r (e_sub (hash_left q three kc) (ETrace 0 1)) <-> fst (hash_step o q three (nth (r mod length ks) ks (f0 o)) (cell o t r 0, cell o t r 1)) = cell o t (r + 1) 0).
    { intros r Hr. rewrite (step_left o L). cbn [fst snd]. specialize (Vk r (row_trace t r)). rewrite <- Lc in Vk. change 3%N with (Z.to_N 3). change 2%N with (Z.to_N 2). eapply (sub_iff o L); unfold hash_left; val S. }
    cbn [covers]. rewrite <- Lc. split; intros H r Hr Nr; [apply E; [exact Hr|]; apply H; [lia|exact Nr]|].
    apply E; [|apply H; [|exact Nr]]; (destruct (Nat.eq_dec (r + 1) (2 ^ (j + 1))) as [Er|]; [exfalso; apply Nr; rewrite Er, Ej, Lc; apply Nat.mod_mul; lia|lia]). }
  assert (A2 : (forall row, row + 1 < 2 ^ (j + 1) -> satisfied o (w (j + 1)) t row (e_sub (hash_right q three) (ETrace 1 1))) <-> (forall r, r + 1 < 2 ^ (j + 1) -> snd (hash_step o q three (nth (r mod length ks) ks (f0 o)) (cell o t r 0, cell o t r 1)) = cell o t (r + 1) 1)).
  { apply all_iff; intros r Hr. rewrite (step_right o L). cbn [fst snd]. change 3%N with (Z.to_N 3). change 2%N with (Z.to_N 2). eapply (sub_iff o L); unfold hash_right; val S. }
  assert (A5 : forall row i v, row < 2 ^ (j + 1) -> i < 2 -> satisfied o (w (j + 1)) t row (e_sub (ETrace i 0) (EConst v)) <-> cell o t row i = v) by (intros; eapply (sub_iff o L); val S).
  assert (A6 : satisfied o (w (j + 1)) t 0 (ETrace 1 0) <-> cell o t 0 1 = f0 o).
  { unfold satisfied. split; [intros V; eapply (value_fun o); [|exact V]; val S|intros <-; val S]. }
  rewrite A1, A2, A6. rewrite !A5 by lia. clear A1 A2 A5 A6. split.
  - intros (H1 & H2 & H3 & H4 & H5 & H6 & _). assert (Q : forall i, i < 2 ^ (j + 1) -> cell o t i 0 = fst (s i) /\ cell o t i 1 = snd (s i)).
    { induction i as [|i IH]; intros Hi; [split; [exact H3|exact H4]|]. destruct (IH ltac:(lia)) as [I1 I2]. unfold s. cbn [hash_state]. fold s. rewrite (surjective_pairing (s i)), <- I1, <- I2.
      specialize (H1 i ltac:(lia)). specialize (H2 i ltac:(lia)). rewrite Nat.add_1_r in H1, H2. destruct (Nat.eqb_spec (Datatypes.S i mod length ks) 0) as [E0|N0]; cbn [fst snd].
      - split; [|symmetry; exact H2]. assert (Datatypes.S i = 2 ^ j) as ->; [|exact H5]. rewrite Lc in E0. apply Nat.mod_divides in E0 as (d & Ed); [|lia]. rewrite Ej in Hi. assert (d = 1) as -> by (destruct d as [|[|d]]; [lia|reflexivity|nia]). lia.
      - split; symmetry; [apply H1, N0|exact H2]. }
    split; [|rewrite <- H6; symmetry; apply Q; lia]. intros row Hr. destruct (Q row Hr). split; (apply (to_cells o t _ _ _ _ _ S); [lia|lia|assumption]).
  - intros (G1 & G3). assert (Q : forall i, i < 2 ^ (j + 1) -> cell o t i 0 = fst (s i) /\ cell o t i 1 = snd (s i)).
    { intros i Hi. destruct (G1 i Hi) as [I1 I2]. apply (to_cells o t _ _ _ _ _ S) in I1; [|lia|lia]. apply (to_cells o t _ _ _ _ _ S) in I2; [|lia|lia]. auto. }
    repeat split; try constructor.
    + intros r Hr Nr. destruct (Q r ltac:(lia)) as [-> ->], (Q (r + 1) ltac:(lia)) as [-> _]. rewrite <- surjective_pairing. rewrite Nat.add_1_r in *. unfold s at 2. cbn [hash_state]. apply Nat.eqb_neq in Nr. rewrite Nr. reflexivity.
    + intros r Hr. destruct (Q r ltac:(lia)) as [-> ->], (Q (r + 1) ltac:(lia)) as [_ ->]. rewrite <- surjective_pairing. rewrite Nat.add_1_r in *. unfold s at 2. cbn [hash_state]. destruct (_ =? 0); reflexivity.
    + apply (Q 0 P2). + apply (Q 0 P2).
    + destruct (Q (2 ^ j) ltac:(lia)) as [-> _]. unfold s. rewrite <- Lc, state_middle by lia. reflexivity.
    + rewrite <- G3. apply Q. lia.
Qed.
Print Assumptions C63_hash_check.
Theorem C63_hash_trace : forall F (o : ops F), lawful o -> forall j q three ks x y after, length ks = 2 ^ j -> let s := hash_state o q three ks x y in
  (fst (s (2 ^ (j + 1) - 1)) <> after -> mimc_hash_trace o (2 ^ Z.of_nat j) q three ks x y after = None) /\
  (fst (s (2 ^ (j + 1) - 1)) = after -> exists t, mimc_hash_trace o (2 ^ Z.of_nat j) q three ks x y after = Some t /\ size t (2 ^ (j + 1)) 2 /\
     forall row, row < 2 ^ (j + 1) -> t_get t row 0 = Some (fst (s row)) /\ t_get t row 1 = Some (snd (s row))).
Proof.
  intros F o L j q three ks x y after Lc s. pose proof (pow2_pos j) as Pj. assert (Ej : 2 ^ (j + 1) = 2 * 2 ^ j) by (rewrite Nat.add_1_r; cbn; lia). unfold mimc_hash_trace. rewrite pow_to, <- Ej.
  destruct (hash_loop o L q three ks (2 ^ (j + 1)) 0 (x, f0 o) ltac:(lia) _ (size_new o _ _) (2 ^ j) ltac:(lia)) as (t1 & -> & S1 & G1 & _). cbn [bind]. rewrite (surjective_pairing (rounds o q three ks (x, f0 o) (2 ^ j))).
  destruct (hash_loop o L q three ks (2 ^ (j + 1)) (2 ^ j) (y, snd (rounds o q three ks (x, f0 o) (2 ^ j))) ltac:(lia) _ S1 (2 ^ j) ltac:(lia)) as (t & -> & S & G & O). cbn [bind].
  assert (Q : forall r, r < 2 ^ (j + 1) -> cell o t r 0 = fst (s r) /\ cell o t r 1 = snd (s r)).
  { intros r Hr. destruct (Nat.lt_ge_cases r (2 ^ j)) as [Hl|Hl].
    - unfold s. rewrite state_first by lia. rewrite !O by lia. specialize (G1 r Hl). rewrite Nat.add_0_r in G1. exact G1.
    - replace r with (r - 2 ^ j + 2 ^ j) at 1 3 by lia. unfold s. replace r with (length ks + (r - 2 ^ j)) by lia. rewrite state_second by lia. rewrite Lc. replace (2 ^ j + (r - 2 ^ j) - 2 ^ j) with (r - 2 ^ j) by lia. apply G. lia. }
  rewrite (size_get o t _ _ _ _ S) by lia. cbn [bind]. rewrite (proj1 (Q (2 ^ (j + 1) - 1) ltac:(lia))). destruct (feqb_spec o L (fst (s (2 ^ (j + 1) - 1))) after) as [E|N]; (split; [intros; try contradiction; try reflexivity|intros; try contradiction]).
  exists t. split; [reflexivity|]. split; [exact S|]. intros row Hr. rewrite !(size_get o t _ _ _ _ S) by lia. destruct (Q row Hr) as [-> ->]. split; reflexivity.
Qed.
Print Assumptions C63_hash_trace.
Theorem C63_hash : forall F (o : ops F), lawful o -> forall e M w, sound o e M w -> forall j q three ks x y, j + 5 <= M -> length ks = 2 ^ j -> let after := mimc_hash o q three ks x y in fpw o (egen e) (2 ^ (j + 1 + 2)) <> f1 o ->
  exists t c, mimc_hash_trace o (2 ^ Z.of_nat j) q three ks x y after = Some t /\ mimc_hash_constraints o e (2 ^ Z.of_nat (j + 1)) (2 ^ Z.of_nat j) q three ks x y after = Some c /\ proves o e M w (j + 1) 4 2 t c.
Proof.
  intros F o L e M w SD j q three ks x y KM Lc after Hg. pose proof (pow2_pos j) as Pj. assert (Ej : 2 ^ (j + 1) = 2 * 2 ^ j) by (rewrite Nat.add_1_r; cbn; lia). pose proof (s_max _ _ _ _ SD) as HM.
  assert (Ea : fst (hash_state o q three ks x y (2 ^ (j + 1) - 1)) = after). { unfold after. rewrite (C63_hash_function F o L) by (destruct ks; [cbn in Lc; lia|discriminate]). rewrite Ej, Lc. reflexivity. }
  destruct (C63_hash_trace F o L j q three ks x y after Lc) as [_ H]. destruct (H Ea) as (t & Et & S & Ht).
  destruct (C63_hash_check F o L e M w SD t j q three ks x y after S ltac:(lia) Lc) as (c & Ec & _ & _ & Hc). exists t, c. split; [exact Et|]. split; [exact Ec|].
  assert (Ck : check_constraints o e (c_exprs c) t = Some None) by (apply Hc; split; assumption). clear H Hc.
  destruct (C62_periodic F o L e M w SD (j + 1) j ks ltac:(lia) ltac:(lia) Lc) as (kc & Ekc & U & D & Rf & _). unfold mimc_hash_constraints in Ec. rewrite (root_ok o e M w SD (j + 1) ltac:(lia)) in Ec. cbn [bind] in Ec. rewrite Ekc in Ec. cbn [bind] in Ec. rewrite pow_to in Ec.
  change (mimc_hash_exprs o (w (j + 1)) q three (2 ^ Z.of_nat (j + 1)) (2 ^ Z.of_nat j) kc x y after) with (map (placed o (w (j + 1)) (j + 1)) (hash_conditions j q three kc x y after)) in Ec.
  assert (Ex : c_exprs c = map (placed o (w (j + 1)) (j + 1)) (hash_conditions j q three kc x y after)).
  { unfold system, from_expressions in Ec. rewrite (s_root _ _ _ _ SD (j + 1) ltac:(lia)) in Ec. cbn [bind] in Ec. injection Ec as <-. reflexivity. }
  rewrite Ex in Ck. assert (Bs : forall d, (0 <= d <= 3)%Z -> (0 <= d < B)%Z) by (unfold B; lia).
  apply (placed_proves o L e M w SD t (j + 1) 2 2 (hash_conditions j q three kc x y after) 3 [3; 1; 1; 1; 1]%Z S); try lia; try assumption; try (cbn; lia).
  - apply (hash_ok t j q three kc x y after S ltac:(lia) U D Rf).
  - unfold hash_conditions. repeat (constructor; [split; cbn [fst]; [|apply Bs; lia]|]); [| | | | | |constructor]; try reflexivity.
    rewrite (sub_degree o _ _ 3 1); [reflexivity| |reflexivity|apply Bs; lia|apply Bs; lia]. unfold hash_left. rewrite (add_degree o _ _ 3 0); [reflexivity|reflexivity|apply (periodic_degree o e _ _ _ Ekc)|apply Bs; lia|apply Bs; lia].
Qed.
Print Assumptions C63_hash.
(** The claim of the example: 128 round constants. *)
Example C63_hash_ex : forall q three ks x y, length ks = 128 -> let after := mimc_hash felt_ops q three ks x y in
  exists t c, mimc_hash_trace felt_ops 128 q three ks x y after = Some t /\ mimc_hash_constraints felt_ops felt_engine 256 128 q three ks x y after = Some c /\ proves felt_ops felt_engine 63 (fe_w proth_good) 8 4 2 t c.
Proof. intros q three ks x y Lc. apply (C63_hash _ felt_ops felt_lawful felt_engine 63 (fe_w proth_good) felt_sound 7 q three ks x y); try lia; [exact Lc|]. apply felt_coset. apply Nat.leb_le. reflexivity. Qed.
(** A step is not the cube in the quadratic extension (plus the constant), which the formula for the left part is taken from:
    the factor of the right part is missing from the first summand of the right part. *)
Section Cube.
Context {F : Type} (o : ops F) (L : lawful o).
Add Field Cfield : (law_field o L).
Lemma hash_cube q three k c : three = fadd o (f1 o) (fadd o (f1 o) (f1 o)) -> fst (hash_step o q three k c) = fadd o (fst (ext_mul o q c (ext_mul o q c c))) k /\
  snd (ext_mul o q c (ext_mul o q c c)) = fadd o (fmul o (fmul o three (fmul o (fst c) (fst c))) (snd c)) (fmul o q (fmul o (snd c) (fmul o (snd c) (snd c)))) /\
  snd (hash_step o q three k c) = fadd o (fmul o three (fmul o (fst c) (fst c))) (fmul o q (fmul o (snd c) (fmul o (snd c) (snd c)))).
Proof. intros ->. destruct c as [a b]. unfold hash_step, ext_mul. cbn [fst snd]. repeat split; ring. Qed.
End Cube.
Theorem C63_hash_cube_deviation : forall F (o : ops F), lawful o -> forall q three k c, three = fadd o (f1 o) (fadd o (f1 o) (f1 o)) -> let cube := ext_mul o q c (ext_mul o q c c) in
  fst (hash_step o q three k c) = fadd o (fst cube) k /\
  snd cube = fadd o (fmul o (fmul o three (fmul o (fst c) (fst c))) (snd c)) (fmul o q (fmul o (snd c) (fmul o (snd c) (snd c)))) /\
  snd (hash_step o q three k c) = fadd o (fmul o three (fmul o (fst c) (fst c))) (fmul o q (fmul o (snd c) (fmul o (snd c) (snd c)))).
Proof. intros F o L q three k c E. exact (hash_cube o L q three k c E). Qed.
Print Assumptions C63_hash_cube_deviation.

(** ** Constants *)
Section Constant.
Context {F : Type} (o : ops F) (L : lawful o) (e : engine F) (M : nat) (w : nat -> F) (SD : sound o e M w).
Lemma constant_violated t V value : 1 <= M -> size t 2 1 -> usizes V -> division_free V -> (forall i j, ~ refers V i j) -> numerators V = [V] -> denominators V = [] -> (forall x T, ExprSpec.value o x T V value) ->
  check_constraints o e [ e_div (e_sub (ETrace 0 0) V) (e_sub EX (EConst (f1 o))) ] t = Some None <-> t_get t 0 0 = Some value.
Proof.
  intros HM S U D Rf Nv Dv Vv. pose proof S as (Sh & HR & HC).
  assert (Nm : numerators (e_sub (ETrace 0 0) V) = [e_sub (ETrace 0 0) V]) by reflexivity. assert (Dm : denominators (e_sub (ETrace 0 0) V) = []) by reflexivity.
  destruct (C53_check_constraints F o L e M w SD t 1 [ e_div (e_sub (ETrace 0 0) V) (e_sub EX (EConst (f1 o))) ] Sh HM HR) as (res & E & H).
  - intros c [<-|[]]. split; [|split].
    + cbn [usizes e_div e_sub]. repeat split. exact U.
    + unfold fraction. cbn [numerators denominators e_div e_sub app]. split; repeat constructor. exact D.
    + intros i j R. cbn in R. assert (i = 0 /\ j = 0%Z) as [-> ->] by (destruct R as [[R|R]|R]; [lia|exfalso; exact (Rf i j R)|tauto]). rewrite HC, HR. lia.
  - rewrite E. assert (V0 : forall row, row < 2 -> violated o (fpw o (w 1) row) (row_trace t row) (e_div (e_sub (ETrace 0 0) V) (e_sub EX (EConst (f1 o)))) <-> row = 0 /\ t_get t 0 0 <> Some value).
    { intros row Hr. unfold violated. cbn [numerators denominators e_div e_sub app]. fold (@e_sub F). change (EAdd (ETrace 0 0) (ENeg V)) with (e_sub (ETrace 0 0) V). change (EAdd EX (ENeg (EConst (f1 o)))) with (e_sub (EX (F := F)) (EConst (f1 o))).
      assert (Dz : ExprSpec.value o (fpw o (w 1) row) (row_trace t row) (e_sub EX (EConst (f1 o))) (f0 o) <-> row = 0).
      { rewrite (sub_iff o L _ _ _ _ (fpw o (w 1) row) (f1 o)) by constructor. change (f1 o) with (fpw o (w 1) 0). split; [intros Ew; apply (w_inj o L e M w SD 1 row 0 HM) in Ew; cbn in *; lia|intros ->; reflexivity]. }
      assert (Nz : ExprSpec.value o (fpw o (w 1) row) (row_trace t row) (e_sub (ETrace 0 0) V) (f0 o) <-> cell o t row 0 = value) by (eapply (sub_iff o L); [val S|apply Vv]).
      split.
      - intros ((d & [<-|[]] & Hd) & Hn). apply Dz in Hd. subst row. split; [reflexivity|]. rewrite (to_cells o t _ _ _ _ _ S) by lia. intros Ec. apply (Hn _ (or_introl eq_refl)), Nz, Ec.
      - intros [-> Hn]. split; [eexists; split; [left; reflexivity|apply Dz; reflexivity]|]. intros n [<-|[]] Hz. apply Hn. apply (to_cells o t _ _ _ _ _ S); [lia|lia|]. apply Nz, Hz. }
    destruct res as [[row which]|].
    + split; [discriminate|]. intros G. exfalso. destruct H as (Hr & (c & Ec & Vc) & _). destruct which as [|which]; [|destruct which; discriminate Ec]. injection Ec as <-. apply V0 in Vc; [|exact Hr]. tauto.
    + split; [|reflexivity]. intros _. rewrite (to_cells o t _ _ _ _ _ S) by lia. destruct (feq_dec o L (cell o t 0 0) value) as [|N]; [assumption|]. exfalso. apply (H 0 0 ltac:(cbn; lia)). eexists. split; [reflexivity|]. apply V0; [lia|]. split; [reflexivity|]. rewrite (to_cells o t _ _ _ _ _ S) by lia. exact N.
Qed.
End Constant.
(** The constant example and the claim polynomial example, after the claim is put in, accept exactly the tables with the
    claimed value in the first row. *)
Theorem C63_constant : forall F (o : ops F), lawful o -> forall e M w, sound o e M w -> 1 <= M -> forall t value, size t 2 1 ->
  (check_constraints o e (constant_exprs o value) t = Some None <-> t_get t 0 0 = Some value) /\
  exists exprs, concrete_exprs o value = Some exprs /\ (check_constraints o e exprs t = Some None <-> t_get t 0 0 = Some value).
Proof.
  intros F o L e M w SD HM t value S. split; [apply (constant_violated o L e M w SD t (EConst value) value HM S); try reflexivity; try exact I; [intros i j R; exact R|constructor]|].
  eexists. split; [reflexivity|]. apply (constant_violated o L e M w SD t (EPoly [value] EX) value HM S); try reflexivity; try (cbn; tauto); [cbn; split; [discriminate|exact I]|].
  intros x T. pose proof (v_poly o x T [value] EX x (v_x o x T)) as V. replace (peval o [value] x) with value in V; [exact V|]. cbn.
  pose proof (F_R (law_field o L)) as R. rewrite (Radd_comm R), (Radd_0_l R), (Rmul_comm R), (Rmul_1_l R). reflexivity.
Qed.
Print Assumptions C63_constant.
Theorem C63_constant_trace : forall F (o : ops F) hundred witness, exists t, constant_trace o hundred witness = Some t /\ size t 2 1 /\ t_get t 0 0 = Some witness /\ t_get t 1 0 = Some (fadd o witness hundred).
Proof.
  intros F o hundred witness. unfold constant_trace. destruct (size_set o (t_new o 2 1) 2 1 0 0 witness (size_new o _ _) ltac:(lia) ltac:(lia)) as (t & -> & S & G & _). cbn [bind].
  destruct (size_set o t 2 1 1 0 (fadd o witness hundred) S ltac:(lia) ltac:(lia)) as (t' & -> & S' & G' & O'). exists t'. split; [reflexivity|]. split; [exact S'|]. split; (apply (to_cells o t' _ _ _ _ _ S'); [lia|lia|]); [rewrite O' by lia; exact G|exact G'].
Qed.
Print Assumptions C63_constant_trace.
Lemma some_inj {A} (a b : A) : Some a = Some b -> a = b. Proof. intros E. injection E. auto. Qed.
Example C63_constant_ex : exists t, constant_trace felt_ops (f1 felt_ops) (f1 felt_ops) = Some t /\ check_constraints felt_ops felt_engine (constant_exprs felt_ops (f1 felt_ops)) t = Some None /\ check_constraints felt_ops felt_engine (constant_exprs felt_ops (f0 felt_ops)) t <> Some None.
Proof.
  destruct (C63_constant_trace _ felt_ops (f1 felt_ops) (f1 felt_ops)) as (t & E & S & G & _). exists t. split; [exact E|]. assert (H1 : 1 <= 63) by lia. split.
  - apply (C63_constant _ felt_ops felt_lawful felt_engine 63 _ felt_sound H1 t _ S), G.
  - intros C. apply (C63_constant _ felt_ops felt_lawful felt_engine 63 _ felt_sound H1 t _ S) in C. rewrite G in C. exact (F_1_neq_0 (law_field _ felt_lawful) (some_inj _ _ C)).
Qed.
