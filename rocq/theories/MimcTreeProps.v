(** C63, continued: the authentication path of MiMC hashes (mimc_tree.rs). *)
Require Import Ring Field ZArith NArith Lia Bool List.
From Verif Require Import Word KnuthModel FieldSig FieldInstance FieldAlgModel FieldAlgProofs Arr FftModel FftSpec PermuteProofs FftProofs FftProps StarkBase StarkInstance PolyModel PolyProps TraceModel TraceProps ExprModel ExprSpec ExprProofs ExprProps CheckProps OodsProofs OodsSatProps LayoutProps StarkSpec ClaimModel ClaimSpec ClaimProofs ClaimProps ExampleProofs ExampleProps MimcProps VdfProps MimcHashProps.
Import ListNotations.
Open Scope nat_scope.

Section Tree.
Context {F : Type} (o : ops F) (L : lawful o).
Add Field Tfield : (law_field o L).
Definition tree_conditions (k j : nat) (q three : F) (kc : rexpr F) (element root start_left : F) : list (rexpr F * place) :=
  [ (e_sub (hash_left q three kc) (ETrace 0 1), Blocks j); (e_sub (hash_right q three) (ETrace 1 1), Blocks (j + 1));
    (EMul (EConst start_left) (e_sub (ETrace 0 0) (EConst element)), Row (2 ^ Z.of_nat j));
    (EMul (e_sub (EConst start_left) (EConst (f1 o))) (e_sub (ETrace 0 0) (EConst element)), Row 0);
    (ETrace 1 0, Starts (j + 1)); (e_sub (ETrace 0 0) (EConst root), Row (2 ^ Z.of_nat k - 1)) ].
Lemma tree_ok t k j q three kc element root sl : size t (2 ^ k) 2 -> k < 64 -> j + 1 <= k -> k + (k - j) <= 64 -> usizes kc -> division_free kc -> (forall i j, ~ refers kc i j) ->
  forall c, In c (tree_conditions k j q three kc element root sl) -> condition t (fst c) /\ sensible k (snd c).
Proof.
  intros S Hk Hj H64 U D Rf c Hc. pose proof (pow2_pos k). pose proof (pow_le_64 j ltac:(lia)). pose proof (pow_le_64 k ltac:(lia)). cbn [tree_conditions In] in Hc. repeat destruct Hc as [<-|Hc]; try contradiction; (split; [apply (cond_refl t _ _ _ S); [lia|cbn [usizes hash_left hash_right e_sub fst]; repeat split; try lia; try assumption|cbn; tauto|cbn; intros i j' Hr; repeat destruct Hr as [Hr|Hr]; try lia; exfalso; exact (Rf i j' Hr)]|cbn [snd sensible]; lia]).
Qed.
Lemma exprs_placed g k j q three kc element root sl :
  mimc_tree_exprs o g q three (2 ^ Z.of_nat k) (2 ^ Z.of_nat j) kc element root sl = map (placed o g k) (tree_conditions k j q three kc element root sl).
Proof. unfold mimc_tree_exprs, tree_conditions, placed. cbn [map fst snd]. replace (2 * 2 ^ Z.of_nat j)%Z with (2 ^ Z.of_nat (j + 1))%Z; [reflexivity|]. rewrite Nat2Z.inj_add, Z.pow_add_r by lia. rewrite Z.mul_comm. reflexivity. Qed.
(** A table of given cells *)
Lemma table_of (R C : nat) (f : nat -> nat -> F) : exists t, size t R C /\ forall r i, r < R -> i < C -> cell o t r i = f r i.
Proof.
  exists (Table R C (map (fun p => f (p / C) (p mod C)) (seq 0 (R * C)))). split; [split; [|split; reflexivity]|].
  - unfold shaped. cbn. rewrite map_length, seq_length. reflexivity.
  - intros r i Hr Hi. unfold cell. cbn [t_cols t_values]. rewrite (nth_indep _ (f0 o) (f (0 / C) (0 mod C))) by (rewrite map_length, seq_length; nia). rewrite (map_nth (fun p => f (p / C) (p mod C))), seq_nth by nia. cbn [Nat.add].
    rewrite Nat.add_comm, Nat.div_add, Nat.mod_add by lia. rewrite Nat.div_small, Nat.mod_small by lia. reflexivity.
Qed.
Lemma mul_zero a b : fmul o a b = f0 o <-> (a <> f0 o -> b = f0 o).
Proof. rewrite (fmul_0_iff o L). destruct (feq_dec o L a (f0 o)); tauto. Qed.
End Tree.

(** The constraints accept exactly the tables of a sequence of hashes, the first of which has the element as its right input
    unless start_left is zero and as its left input unless start_left is one, and the last of which results in the root. The
    hashes in the sequence are unrelated. *)
Theorem C63_tree_check : forall F (o : ops F), lawful o -> forall e M w, sound o e M w -> forall t k j q three ks element root start_left, size t (2 ^ k) 2 -> k <= M -> j + 1 <= k -> k + (k - j) <= 64 -> length ks = 2 ^ j ->
  exists c, mimc_tree_constraints o e (2 ^ Z.of_nat k) (2 ^ Z.of_nat j) q three ks element root start_left = Some c /\ c_nrows c = 2 ^ k /\ c_ncolumns c = 2 /\
  (check_constraints o e (c_exprs c) t = Some None <-> exists xs ys : nat -> F,
   (forall b r, b < 2 ^ (k - (j + 1)) -> r < 2 ^ (j + 1) -> let s := hash_state o q three ks (xs b) (ys b) r in
      t_get t (b * 2 ^ (j + 1) + r) 0 = Some (fst s) /\ t_get t (b * 2 ^ (j + 1) + r) 1 = Some (snd s)) /\
   (start_left <> f0 o -> ys 0 = element) /\ (start_left <> f1 o -> xs 0 = element) /\
   mimc_hash o q three ks (xs (2 ^ (k - (j + 1)) - 1)) (ys (2 ^ (k - (j + 1)) - 1)) = root).
Proof.
  intros F o L e M w SD t k j q three ks element root sl S Hk Hj H64 Lc. pose proof (pow2_pos k) as P2. pose proof (pow2_pos j) as Pj. pose proof (pow2_pos (j + 1)) as Pb. pose proof (pow2_pos (k - (j + 1))) as Pm. assert (Ej : 2 ^ (j + 1) = 2 * 2 ^ j) by (rewrite Nat.add_1_r; cbn; lia). pose proof (s_max _ _ _ _ SD) as HM.
  assert (Ek : 2 ^ k = 2 ^ (k - (j + 1)) * 2 ^ (j + 1)) by (rewrite <- Nat.pow_add_r; f_equal; lia).
  destruct (C62_periodic F o L e M w SD k j ks Hk ltac:(lia) Lc) as (kc & Ekc & U & D & Rf & Vk). unfold mimc_tree_constraints. rewrite (root_ok o e M w SD k Hk). cbn [bind]. rewrite Ekc. cbn [bind]. rewrite pow_to. unfold system, from_expressions. rewrite (s_root _ _ _ _ SD k Hk). cbn [bind].
  eexists. split; [reflexivity|]. cbn [c_nrows c_ncolumns c_exprs]. split; [reflexivity|]. split; [reflexivity|]. rewrite exprs_placed. pose proof S as (Sh & HR & _).
  rewrite (C62_accepts F o L e M w SD t k _ Sh Hk HR (tree_ok o t k j q three kc element root sl S ltac:(lia) Hj H64 U D Rf)). rewrite Forall_conditions. unfold tree_conditions. each. rewrite at_row.
  assert (Em : Z.to_nat (2 ^ Z.of_nat j mod 2 ^ Z.of_nat k) = 2 ^ j) by (rewrite Z.mod_small by (split; [apply Z.pow_nonneg; lia|apply Z.pow_lt_mono_r; lia]); apply pow_to). rewrite Em. rewrite <- Lc in Vk.
  set (NB := 2 ^ (k - (j + 1))) in *. set (R := 2 ^ k) in *. set (lb := 2 ^ (j + 1)) in *. set (l := 2 ^ j) in *.
  assert (Rows : forall b r, b < NB -> r < lb -> b * lb + r < R) by (intros; nia).
  assert (Ml : forall b r, (b * lb + r) mod l = r mod l) by (intros b r; rewrite Ej; replace (b * (2 * l) + r) with (r + (b * 2) * l) by lia; apply Nat.mod_add; lia).
  assert (Mb : forall b r, r < lb -> (b * lb + r) mod lb = r) by (intros b r Hr; rewrite Nat.add_comm, Nat.mod_add by lia; apply Nat.mod_small, Hr).
  assert (Split : forall row, row < R -> exists b r, b < NB /\ r < lb /\ row = b * lb + r).
  { intros row Hr. exists (row / lb), (row mod lb). split; [apply Nat.div_lt_upper_bound; lia|]. split; [apply Nat.mod_upper_bound; lia|]. rewrite Nat.mul_comm. apply Nat.div_mod. lia. }
  assert (A1 : (forall row, row < R -> covers k (Blocks j) row -> satisfied o (w k) t row (e_sub (hash_left q three kc) (ETrace 0 1))) <->
    (forall b r, b < NB -> r + 1 < lb -> (r + 1) mod l <> 0 -> fst (hash_step o q three (nth (r mod l) ks (f0 o)) (cell o t (b * lb + r) 0, cell o t (b * lb + r) 1)) = cell o t (b * lb + r + 1) 0)).
  { assert (E : forall b r, b < NB -> r + 1 < lb -> satisfied o (w k) t (b * lb + r) (e_sub (hash_left q three kc) (ETrace 0 1)) <-> fst (hash_step o q three (nth (r mod l) ks (f0 o)) (cell o t (b * lb + r) 0, cell o t (b * lb + r) 1)) = cell o t (b * lb + r + 1) 0).
    { intros b r Hb Hr. pose proof (Rows b (r + 1) Hb Hr). rewrite (step_left o L). cbn [fst snd]. specialize (Vk (b * lb + r) (row_trace t (b * lb + r))). rewrite Lc in Vk. rewrite Ml in Vk. change 3%N with (Z.to_N 3). change 2%N with (Z.to_N 2). eapply (sub_iff o L); unfold hash_left; val S. }
    cbn [covers]. fold l. split.
    - intros H b r Hb Hr Nr. apply E; [exact Hb|exact Hr|]. apply H; [apply Rows; lia|]. rewrite <- Nat.add_assoc, Ml. exact Nr.
    - intros H row Hr Nr. destruct (Split row Hr) as (b & r & Hb & Hr' & ->). rewrite <- Nat.add_assoc, Ml in Nr. assert (r + 1 < lb) by (destruct (Nat.eq_dec (r + 1) lb) as [Er|]; [exfalso; apply Nr; rewrite Er, Ej; apply Nat.mod_mul; lia|lia]). apply E; [exact Hb|assumption|]. apply H; assumption. }
  assert (A2 : (forall row, row < R -> covers k (Blocks (j + 1)) row -> satisfied o (w k) t row (e_sub (hash_right q three) (ETrace 1 1))) <->
    (forall b r, b < NB -> r + 1 < lb -> snd (hash_step o q three (nth (r mod l) ks (f0 o)) (cell o t (b * lb + r) 0, cell o t (b * lb + r) 1)) = cell o t (b * lb + r + 1) 1)).
  { assert (E : forall b r, b < NB -> r + 1 < lb -> satisfied o (w k) t (b * lb + r) (e_sub (hash_right q three) (ETrace 1 1)) <-> snd (hash_step o q three (nth (r mod l) ks (f0 o)) (cell o t (b * lb + r) 0, cell o t (b * lb + r) 1)) = cell o t (b * lb + r + 1) 1).
    { intros b r Hb Hr. pose proof (Rows b (r + 1) Hb Hr). rewrite (step_right o L). cbn [fst snd]. change 3%N with (Z.to_N 3). change 2%N with (Z.to_N 2). eapply (sub_iff o L); unfold hash_right; val S. }
    cbn [covers]. fold lb. split.
    - intros H b r Hb Hr. apply E; [exact Hb|exact Hr|]. apply H; [apply Rows; lia|]. rewrite <- Nat.add_assoc, Mb by lia. lia.
    - intros H row Hr Nr. destruct (Split row Hr) as (b & r & Hb & Hr' & ->). assert (r + 1 < lb). { destruct (Nat.eq_dec (r + 1) lb) as [Er|]; [|lia]. exfalso. apply Nr. replace (b * lb + r + 1) with ((b + 1) * lb) by lia. apply Nat.mod_mul. lia. } apply E; [exact Hb|assumption|]. apply H; assumption. }
  assert (A3 : forall row c v, row < R -> value o (fpw o (w k) row) (row_trace t row) c v -> satisfied o (w k) t row (EMul c (e_sub (ETrace 0 0) (EConst element))) <-> (v <> f0 o -> cell o t row 0 = element)).
  { intros row c v Hr Vc. assert (Vt : value o (fpw o (w k) row) (row_trace t row) (ETrace 0 0) (cell o t row 0)) by val S. unfold satisfied. split.
    - intros V Nv. apply value_mul_inv in V as (u & v' & V1 & V2 & E). pose proof (value_fun o _ _ _ _ _ Vc V1) as <-. apply (mul_zero o L) in E; [|exact Nv]. subst v'. exact (sub_eq o L _ _ _ _ _ _ V2 Vt (v_const o _ _ _)).
    - intros H. replace (f0 o) with (fmul o v (fadd o (cell o t row 0) (fneg o element))); [apply v_mul; [exact Vc|]; apply v_add; [exact Vt|]; apply v_neg, v_const|]. apply (mul_zero o L). intros Nv. rewrite (H Nv). apply (sub_zero o L). reflexivity. }
  assert (A4 : fadd o sl (fneg o (f1 o)) <> f0 o <-> sl <> f1 o) by (rewrite (sub_zero o L); reflexivity).
  assert (A5 : satisfied o (w k) t (R - 1) (e_sub (ETrace 0 0) (EConst root)) <-> cell o t (R - 1) 0 = root) by (eapply (sub_iff o L); val S).
  assert (A6 : (forall row, row < R -> covers k (Starts (j + 1)) row -> satisfied o (w k) t row (ETrace 1 0)) <-> (forall b, b < NB -> cell o t (b * lb) 1 = f0 o)).
  { assert (E : forall row, row < R -> satisfied o (w k) t row (ETrace 1 0) <-> cell o t row 1 = f0 o) by (intros row Hr; unfold satisfied; split; [intros V; eapply (value_fun o); [|exact V]; val S|intros <-; val S]).
    cbn [covers]. fold lb. split.
    - intros H b Hb. assert (b * lb < R) by nia. apply E; [assumption|]. apply H; [assumption|]. apply Nat.mod_mul. lia.
    - intros H row Hr E0. apply E; [exact Hr|]. apply Nat.mod_divides in E0 as (b & ->); [|lia]. rewrite Nat.mul_comm. apply H. nia. }
  rewrite A1, A2, A5, A6. rewrite (A3 l _ sl); [|nia|apply v_const]. rewrite (A3 0 _ (fadd o sl (fneg o (f1 o)))); [|lia|apply v_add; [apply v_const|apply v_neg, v_const]]. rewrite A4. clear A1 A2 A3 A4 A5 A6 Vk.
  assert (Hh : forall x y, mimc_hash o q three ks x y = fst (hash_state o q three ks x y (lb - 1))). { intros x y. rewrite (C63_hash_function F o L) by (destruct ks; [cbn in Lc; lia|discriminate]). rewrite Lc, Ej. reflexivity. }
  assert (Elast : R - 1 = (NB - 1) * lb + (lb - 1)) by nia. split.
  - intros (H1 & H2 & H3 & H4 & H5 & H6 & _). exists (fun b => cell o t (b * lb) 0), (fun b => cell o t (b * lb + l) 0).
    assert (Q : forall b r, b < NB -> r < lb -> let s := hash_state o q three ks (cell o t (b * lb) 0) (cell o t (b * lb + l) 0) r in cell o t (b * lb + r) 0 = fst s /\ cell o t (b * lb + r) 1 = snd s).
    { intros b r Hb. induction r as [|r IH]; intros Hr; [rewrite Nat.add_0_r; split; [reflexivity|apply H5, Hb]|]. destruct (IH ltac:(lia)) as [I1 I2]. cbn [hash_state]. set (s := hash_state _ _ _ _ _ _ r) in *. rewrite (surjective_pairing s), <- I1, <- I2.
      specialize (H1 b r Hb ltac:(lia)). specialize (H2 b r Hb ltac:(lia)). rewrite Nat.add_1_r in H1. replace (b * lb + r + 1) with (b * lb + Datatypes.S r) in H1, H2 by lia. rewrite Lc. destruct (Nat.eqb_spec (Datatypes.S r mod l) 0) as [E0|N0]; cbn [fst snd].
      - split; [|symmetry; exact H2]. apply Nat.mod_divides in E0 as (d & Ed); [|lia]. assert (d = 1) as -> by (destruct d as [|[|d]]; [lia|reflexivity|nia]). rewrite Ed, Nat.mul_1_r. reflexivity.
      - split; symmetry; [apply H1, N0|exact H2]. }
    split; [|split; [|split]].
    + intros b r Hb Hr. destruct (Q b r Hb Hr). pose proof (Rows b r Hb Hr). split; (apply (to_cells o t _ _ _ _ _ S); [assumption|lia|assumption]).
    + exact H3. + exact H4.
    + rewrite Hh. rewrite <- H6, Elast. symmetry. apply Q; lia.
  - intros (xs & ys & G & G3 & G4 & G6). assert (Q : forall b r, b < NB -> r < lb -> cell o t (b * lb + r) 0 = fst (hash_state o q three ks (xs b) (ys b) r) /\ cell o t (b * lb + r) 1 = snd (hash_state o q three ks (xs b) (ys b) r)).
    { intros b r Hb Hr. destruct (G b r Hb Hr) as [I1 I2]. pose proof (Rows b r Hb Hr). apply (to_cells o t _ _ _ _ _ S) in I1; [|assumption|lia]. apply (to_cells o t _ _ _ _ _ S) in I2; [|assumption|lia]. auto. }
    repeat split; try constructor.
    + intros b r Hb Hr Nr. replace (b * lb + r + 1) with (b * lb + Datatypes.S r) by lia. destruct (Q b r Hb ltac:(lia)) as [-> ->], (Q b (Datatypes.S r) Hb ltac:(lia)) as [-> _]. rewrite <- surjective_pairing. rewrite Nat.add_1_r in Nr. cbn [hash_state]. rewrite Lc. apply Nat.eqb_neq in Nr. rewrite Nr. reflexivity.
    + intros b r Hb Hr. replace (b * lb + r + 1) with (b * lb + Datatypes.S r) by lia. destruct (Q b r Hb ltac:(lia)) as [-> ->], (Q b (Datatypes.S r) Hb ltac:(lia)) as [_ ->]. rewrite <- surjective_pairing. cbn [hash_state]. rewrite Lc. destruct (_ =? 0); reflexivity.
    + intros Ns. rewrite <- (G3 Ns). destruct (Q 0 l ltac:(lia) ltac:(lia)) as [E _]. cbn [Nat.mul Nat.add] in E. rewrite E. rewrite <- Lc, state_middle by lia. reflexivity.
    + intros Ns. rewrite <- (G4 Ns). apply (Q 0 0); lia.
    + intros b Hb. destruct (Q b 0 Hb ltac:(lia)) as [_ E]. rewrite Nat.add_0_r in E. exact E.
    + rewrite Elast, <- G6, Hh. apply Q; lia.
Qed.
Print Assumptions C63_tree_check.

(** ** The trace *)
Section Trace.
Context {F : Type} (o : ops F) (L : lawful o).
Variables (q three : F) (ks : list F).
Notation l := (length ks).
Notation h := (mimc_hash o q three ks).
Hypothesis Hl : 0 < l.
Notation holds t inc x y := (forall r, r < 2 * l -> cell o t (inc + r) 0 = fst (hash_state o q three ks x y r) /\ cell o t (inc + r) 1 = snd (hash_state o q three ks x y r)).
Lemma tree_loop R x y t inc : size t R 2 -> inc + 2 * l <= R -> exists t', mimc_tree_loop o l q three ks x y t inc = Some (t', h x y) /\ size t' R 2 /\ holds t' inc x y /\
  (forall r c, r < R -> c < 2 -> (r < inc \/ inc + 2 * l <= r) -> cell o t' r c = cell o t r c).
Proof using L Hl.
  intros St HR. unfold mimc_tree_loop. destruct (hash_loop o L q three ks R inc (x, f0 o) ltac:(lia) t St l ltac:(lia)) as (t1 & -> & S1 & G1 & O1). cbn [bind]. set (s := rounds o q three ks (x, f0 o) l). rewrite (surjective_pairing s).
  destruct (hash_loop o L q three ks R (inc + l) (y, snd s) ltac:(lia) t1 S1 (l - 1) ltac:(lia)) as (t2 & -> & S2 & G2 & O2). cbn [bind]. destruct (rounds o q three ks (y, snd s) (l - 1)) as [a b] eqn:Er.
  destruct (size_set o t2 _ _ (l - 1 + (inc + l)) 0 a S2 ltac:(lia) ltac:(lia)) as (t3 & -> & S3 & G3 & O3). cbn [bind]. destruct (size_set o t3 _ _ (l - 1 + (inc + l)) 1 b S3 ltac:(lia) ltac:(lia)) as (t4 & -> & S4 & G4 & O4). cbn [bind].
  exists t4. split; [|split; [exact S4|split]].
  - rewrite (C63_hash_function F o L) by (destruct ks; [cbn in Hl; lia|discriminate]). replace (2 * l - 1) with (l + (l - 1)) by lia. rewrite state_second by lia. fold s. rewrite Er. reflexivity.
  - intros r Hr. destruct (Nat.lt_ge_cases r l) as [Hr1|Hr1].
    + rewrite state_first by lia. rewrite !(O4 (inc + r)), !(O3 (inc + r)), !(O2 (inc + r)) by lia. rewrite (Nat.add_comm inc r). apply G1, Hr1.
    + replace r with (l + (r - l)) by lia. rewrite state_second by lia. fold s. replace (inc + (l + (r - l))) with (r - l + (inc + l)) by lia. destruct (Nat.eq_dec (r - l) (l - 1)) as [E|N].
      * rewrite E, Er. rewrite O4 by lia. split; assumption.
      * rewrite !O4, !O3 by lia. apply G2. lia.
  - intros r c Hr Hc Hx. rewrite O4, O3, O2, O1 by lia. reflexivity.
Qed.
Lemma tree_fold R path : forall previous t inc, size t R 2 -> inc + 2 * l * length path <= R ->
  exists t', fold_left (mimc_tree_step o l q three ks) path (Some (t, (previous, inc))) = Some (t', (tree_root h previous path, inc + 2 * l * length path)) /\ size t' R 2 /\
  (forall b x y, nth_error (tree_inputs h previous path) b = Some (x, y) -> holds t' (inc + 2 * l * b) x y) /\
  (forall r c, r < R -> c < 2 -> (r < inc \/ inc + 2 * l * length path <= r) -> cell o t' r c = cell o t r c).
Proof using L Hl.
  induction path as [|[node lf] path IH]; intros previous t inc St HR; [exists t; split; [cbn; rewrite Nat.mul_0_r, Nat.add_0_r; reflexivity|]; split; [exact St|]; split; [intros [|b] x y E0; discriminate E0|reflexivity]|].
  cbn [length] in HR. cbn [fold_left tree_root tree_inputs]. unfold mimc_tree_step at 2. cbn [bind fst snd].
  assert (E1 : exists t1, (if lf then mimc_tree_loop o l q three ks node previous t inc else mimc_tree_loop o l q three ks previous node t inc) = Some (t1, h (fst (siblings node previous lf)) (snd (siblings node previous lf))) /\ size t1 R 2 /\
    holds t1 inc (fst (siblings node previous lf)) (snd (siblings node previous lf)) /\ (forall r c, r < R -> c < 2 -> (r < inc \/ inc + 2 * l <= r) -> cell o t1 r c = cell o t r c)) by (destruct lf; apply tree_loop; (assumption || lia)).
  destruct E1 as (t1 & -> & S1 & G1 & O1). cbn [bind]. set (xy := siblings node previous lf) in *. destruct (IH (h (fst xy) (snd xy)) t1 (inc + 2 * l) S1 ltac:(lia)) as (t2 & -> & S2 & G2 & O2). exists t2. split; [f_equal; f_equal; f_equal; cbn [length]; lia|]. split; [exact S2|]. split.
  - intros [|b] x y Hb; cbn [nth_error] in Hb.
    + injection Hb as Hb. intros r Hr. rewrite Nat.mul_0_r, Nat.add_0_r. rewrite !O2 by lia. rewrite Hb in G1. apply G1, Hr.
    + intros r Hr. replace (inc + 2 * l * Datatypes.S b) with (inc + 2 * l + 2 * l * b) by lia. apply (G2 b x y Hb r Hr).
  - intros r c Hr Hc Hx. cbn [length] in Hx. rewrite O2, O1 by lia. reflexivity.
Qed.
Lemma inputs_length path : forall previous, length (tree_inputs h previous path) = length path.
Proof using. clear Hl. induction path as [|[node lf] path IH]; intros previous; [reflexivity|]. cbn [tree_inputs length]. rewrite IH. reflexivity. Qed.
Lemma root_last path : forall previous b x y, nth_error (tree_inputs h previous path) b = Some (x, y) -> b + 1 = length path -> tree_root h previous path = h x y.
Proof using. clear Hl.
  induction path as [|[node lf] path IH]; intros previous [|b] x y Hb Hl'; try discriminate; cbn [tree_inputs nth_error tree_root length] in *.
  - injection Hb as Hb. destruct path; [|cbn in Hl'; lia]. cbn [tree_root]. rewrite Hb. reflexivity.
  - apply (IH _ b x y Hb). lia.
Qed.
Lemma path_root path : forall previous is_left, length is_left = length path -> mimc_tree_path o q three ks previous path is_left = Some (tree_root h previous (List.combine path is_left)).
Proof using. clear Hl.
  induction path as [|node path IH]; intros previous [|lf is_left] E; try discriminate; [reflexivity|]. cbn [mimc_tree_path List.combine tree_root]. rewrite IH by (cbn in E; lia). destruct lf; reflexivity.
Qed.
End Trace.
(** The function that makes the claims follows the path, and the trace is made of the hashes on it if they lead to the claimed
    root; otherwise its assertion fails. *)
Theorem C63_tree_trace : forall F (o : ops F), lawful o -> forall j q three ks element root path is_left, length ks = 2 ^ j -> length is_left = length path -> path <> [] ->
  let way := List.combine path is_left in let hash := mimc_hash o q three ks in
  mimc_tree_path o q three ks element path is_left = Some (tree_root hash element way) /\
  (tree_root hash element way <> root -> mimc_tree_trace o (2 ^ Z.of_nat j) q three ks element root path is_left = None) /\
  (tree_root hash element way = root -> exists t, mimc_tree_trace o (2 ^ Z.of_nat j) q three ks element root path is_left = Some t /\ size t (length path * 2 ^ (j + 1)) 2 /\
     forall b x y, nth_error (tree_inputs hash element way) b = Some (x, y) -> forall r, r < 2 ^ (j + 1) ->
     t_get t (b * 2 ^ (j + 1) + r) 0 = Some (fst (hash_state o q three ks x y r)) /\ t_get t (b * 2 ^ (j + 1) + r) 1 = Some (snd (hash_state o q three ks x y r))).
Proof.
  intros F o L j q three ks element root path is_left Lc Ll Np way hash. pose proof (pow2_pos j) as Pj. assert (Ej : 2 ^ (j + 1) = 2 * 2 ^ j) by (rewrite Nat.add_1_r; cbn; lia). assert (Hl : 0 < length ks) by lia.
  split; [apply path_root, Ll|]. unfold mimc_tree_trace. cbv zeta. rewrite pow_to, <- Lc. assert (Lw : length way = length path) by (unfold way; rewrite List.combine_length; lia). assert (Lp : 0 < length path) by (destruct path; [contradiction|cbn; lia]).
  destruct (tree_fold o L q three ks Hl (2 * length ks * length path) way element (t_new o (2 * length ks * length path) 2) 0 (size_new o _ _) ltac:(lia)) as (t & E & S & G & _). fold way. rewrite E. cbn [bind]. clear E.
  rewrite (size_get o t _ _ _ _ S) by nia. cbn [bind]. rewrite Ej, <- Lc. fold hash in G |- *.
  assert (Ex : exists xy, nth_error (tree_inputs hash element way) (length path - 1) = Some xy) by (destruct (nth_error (tree_inputs hash element way) (length path - 1)) as [xy|] eqn:E0; [eauto|]; exfalso; apply nth_error_None in E0; unfold hash in E0; rewrite inputs_length, Lw in E0; lia). destruct Ex as ([x y] & Ex).
  assert (El : cell o t (2 * length ks * length path - 1) 0 = tree_root hash element way).
  { unfold hash. rewrite (root_last o q three ks way element (length path - 1) x y Ex) by lia. rewrite (C63_hash_function F o L) by (destruct ks; [cbn in Hl; lia|discriminate]). destruct (G _ _ _ Ex (2 * length ks - 1) ltac:(lia)) as [G1 _]. rewrite <- G1. f_equal. nia. }
  rewrite El. destruct (feqb_spec o L (tree_root hash element way) root) as [E|N]; (split; [intros; try contradiction; try reflexivity|intros; try contradiction]).
  exists t. rewrite (Nat.mul_comm (length path)). split; [reflexivity|]. split; [exact S|]. intros b x' y' Hb r Hr. assert (b < length path) by (rewrite <- Lw, <- (inputs_length o q three ks way element); apply nth_error_Some; fold hash; rewrite Hb; discriminate).
  destruct (G b x' y' Hb r Hr) as [G1 G2]. rewrite !(size_get o t _ _ _ _ S) by nia. rewrite <- G1, <- G2. rewrite (Nat.mul_comm b). split; reflexivity.
Qed.
Print Assumptions C63_tree_trace.
(** Every table that the constraints accept meets the requirements of the completeness theorem C57: a proof of it is accepted. *)
Theorem C63_tree_provable : forall F (o : ops F), lawful o -> forall e M w, sound o e M w -> forall t k j q three ks element root start_left c, size t (2 ^ k) 2 -> k + 4 <= M -> j + 1 <= k -> k + (k - j) <= 64 -> length ks = 2 ^ j ->
  fpw o (egen e) (2 ^ (k + 2)) <> f1 o -> mimc_tree_constraints o e (2 ^ Z.of_nat k) (2 ^ Z.of_nat j) q three ks element root start_left = Some c -> check_constraints o e (c_exprs c) t = Some None -> proves o e M w k 4 2 t c.
Proof.
  intros F o L e M w SD t k j q three ks element root sl c S KM Hj H64 Lc Hg Ec Ck. pose proof (pow2_pos j) as Pj. pose proof (s_max _ _ _ _ SD) as HM.
  destruct (C62_periodic F o L e M w SD k j ks ltac:(lia) ltac:(lia) Lc) as (kc & Ekc & U & D & Rf & _). unfold mimc_tree_constraints in Ec. rewrite (root_ok o e M w SD k ltac:(lia)) in Ec. cbn [bind] in Ec. rewrite Ekc in Ec. cbn [bind] in Ec. rewrite pow_to in Ec. rewrite exprs_placed in Ec.
  assert (Ex : c_exprs c = map (placed o (w k) k) (tree_conditions o k j q three kc element root sl)).
  { unfold system, from_expressions in Ec. rewrite (s_root _ _ _ _ SD k ltac:(lia)) in Ec. cbn [bind] in Ec. injection Ec as <-. reflexivity. }
  rewrite Ex in Ck. assert (Bs : forall d, (0 <= d <= 3)%Z -> (0 <= d < B)%Z) by (unfold B; lia).
  apply (placed_proves o L e M w SD t k 2 2 (tree_conditions o k j q three kc element root sl) 3 [3; 1; 1; 1; 1]%Z S); try lia; try assumption; try (cbn; lia).
  - apply (tree_ok o t k j q three kc element root sl S ltac:(lia) Hj H64 U D Rf).
  - unfold tree_conditions. repeat (constructor; [split; cbn [fst]; [|apply Bs; lia]|]); [| | | | | |constructor]; try reflexivity.
    rewrite (sub_degree o _ _ 3 1); [reflexivity| |reflexivity|apply Bs; lia|apply Bs; lia]. unfold hash_left. rewrite (add_degree o _ _ 3 0); [reflexivity|reflexivity|apply (periodic_degree o e _ _ _ Ekc)|apply Bs; lia|apply Bs; lia].
Qed.
Print Assumptions C63_tree_provable.
(** An authentication path of 2^m hashes: the trace passes the check, with start_left one if the first sibling is on the left and
    zero otherwise. *)
Theorem C63_tree : forall F (o : ops F), lawful o -> forall e M w, sound o e M w -> forall j m q three ks element root path is_left, j + 1 + m <= M -> (j + 1 + m) + (m + 1) <= 64 -> length ks = 2 ^ j -> length path = 2 ^ m -> length is_left = length path ->
  tree_root (mimc_hash o q three ks) element (List.combine path is_left) = root ->
  exists t c, mimc_tree_trace o (2 ^ Z.of_nat j) q three ks element root path is_left = Some t /\ size t (2 ^ (j + 1 + m)) 2 /\
  mimc_tree_constraints o e (2 ^ Z.of_nat (j + 1 + m)) (2 ^ Z.of_nat j) q three ks element root (if hd false is_left then f1 o else f0 o) = Some c /\ check_constraints o e (c_exprs c) t = Some None.
Proof.
  intros F o L e M w SD j m q three ks element root path is_left KM H64 Lc Lp Ll Er. set (k := j + 1 + m) in *. pose proof (pow2_pos m) as Pm.
  destruct (C63_tree_trace F o L j q three ks element root path is_left Lc Ll) as (_ & _ & H); [destruct path; [cbn in Lp; lia|discriminate]|]. destruct (H Er) as (t & Et & S & G). clear H.
  assert (Ek : length path * 2 ^ (j + 1) = 2 ^ k) by (rewrite Lp, <- Nat.pow_add_r; f_equal; unfold k; lia). rewrite Ek in S.
  destruct (C63_tree_check F o L e M w SD t k j q three ks element root (if hd false is_left then f1 o else f0 o) S KM ltac:(unfold k; lia) ltac:(unfold k; lia) Lc) as (c & Ec & _ & _ & Hc). exists t, c. split; [exact Et|]. split; [exact S|]. split; [exact Ec|]. apply Hc. clear Hc Ec.
  set (inp := tree_inputs (mimc_hash o q three ks) element (List.combine path is_left)) in *. assert (Li : length inp = 2 ^ m) by (unfold inp; rewrite inputs_length, List.combine_length; lia). replace (k - (j + 1)) with m by (unfold k; lia).
  assert (Ei : forall b, b < 2 ^ m -> nth_error inp b = Some (fst (nth b inp (element, element)), snd (nth b inp (element, element)))) by (intros b Hb; rewrite <- surjective_pairing; apply nth_error_nth'; lia).
  exists (fun b => fst (nth b inp (element, element))), (fun b => snd (nth b inp (element, element))). split; [|split; [|split]].
  - intros b r Hb Hr. apply (G b _ _ (Ei b Hb) r Hr).
  - destruct path as [|node path]; [cbn in Lp; lia|]. destruct is_left as [|lf is_left]; [discriminate Ll|]. unfold inp. cbn [List.combine tree_inputs nth hd]. destruct lf; [reflexivity|intros []; reflexivity].
  - destruct path as [|node path]; [cbn in Lp; lia|]. destruct is_left as [|lf is_left]; [discriminate Ll|]. unfold inp. cbn [List.combine tree_inputs nth hd]. destruct lf; [intros []; reflexivity|reflexivity].
  - rewrite <- Er. symmetry. refine (root_last o q three ks _ element (2 ^ m - 1) _ _ (Ei (2 ^ m - 1) ltac:(lia)) _). rewrite List.combine_length. lia.
Qed.
Print Assumptions C63_tree.
(** The claim of the example: 8192 hashes of 2 * 128 rounds. *)
Example C63_tree_ex : forall q three ks element path is_left, length ks = 128 -> Z.of_nat (length path) = 8192%Z -> length is_left = length path ->
  let root := tree_root (mimc_hash felt_ops q three ks) element (List.combine path is_left) in
  exists t c, mimc_tree_trace felt_ops 128 q three ks element root path is_left = Some t /\
  mimc_tree_constraints felt_ops felt_engine (256 * 8192) 128 q three ks element root (if hd false is_left then f1 felt_ops else f0 felt_ops) = Some c /\ proves felt_ops felt_engine 63 (fe_w proth_good) 21 4 2 t c.
Proof.
  intros q three ks element path is_left Lc Lp Ll root. assert (Lp' : length path = 2 ^ 13) by (apply Nat2Z.inj; rewrite Nat2Z.inj_pow, Lp; reflexivity).
  destruct (C63_tree _ felt_ops felt_lawful felt_engine 63 (fe_w proth_good) felt_sound 7 13 q three ks element root path is_left ltac:(lia) ltac:(lia) Lc Lp' Ll eq_refl) as (t & c & Et & S & Ec & Ck). exists t, c. split; [exact Et|]. split; [exact Ec|].
  refine (C63_tree_provable _ felt_ops felt_lawful felt_engine 63 (fe_w proth_good) felt_sound t 21 7 q three ks element root _ c S _ _ _ Lc _ Ec Ck); try lia. apply felt_coset. apply Nat.leb_le. reflexivity.
Qed.
(** The constraints do not link the hashes: whatever the element, a table is accepted for every root that is a hash of any two
    elements x, y, with these as the inputs of all hashes but the first. So a proof of this claim does not show that the element is
    below the root. *)
Theorem C63_tree_refuted : forall F (o : ops F), lawful o -> forall e M w, sound o e M w -> forall k j q three ks element x y start_left, k + 4 <= M -> j + 2 <= k -> k + (k - j) <= 64 -> length ks = 2 ^ j ->
  fpw o (egen e) (2 ^ (k + 2)) <> f1 o -> let root := mimc_hash o q three ks x y in
  exists t c, mimc_tree_constraints o e (2 ^ Z.of_nat k) (2 ^ Z.of_nat j) q three ks element root start_left = Some c /\ check_constraints o e (c_exprs c) t = Some None /\ proves o e M w k 4 2 t c /\
  forall b, 0 < b < 2 ^ (k - (j + 1)) -> t_get t (b * 2 ^ (j + 1)) 0 = Some x /\ t_get t (b * 2 ^ (j + 1) + 2 ^ j) 0 = Some y.
Proof.
  intros F o L e M w SD k j q three ks element x y sl KM Hj H64 Lc Hg root. pose proof (pow2_pos j) as Pj. assert (Ej : 2 ^ (j + 1) = 2 * 2 ^ j) by (rewrite Nat.add_1_r; cbn; lia). pose proof (pow2_pos (j + 1)) as Pb. pose proof (pow2_pos (k - (j + 1))) as Pm. assert (Ek : 2 ^ k = 2 ^ (k - (j + 1)) * 2 ^ (j + 1)) by (rewrite <- Nat.pow_add_r; f_equal; lia).
  assert (P1 : 2 ^ (k - (j + 1)) <> 1) by (replace (k - (j + 1)) with (Datatypes.S (k - (j + 2))) by lia; cbn [Nat.pow]; lia).
  set (xs := fun b => if b =? 0 then element else x). set (ys := fun b => if b =? 0 then element else y).
  destruct (table_of o (2 ^ k) 2 (fun row i => let s := hash_state o q three ks (xs (row / 2 ^ (j + 1))) (ys (row / 2 ^ (j + 1))) (row mod 2 ^ (j + 1)) in if i =? 0 then fst s else snd s)) as (t & S & G).
  destruct (C63_tree_check F o L e M w SD t k j q three ks element root sl S ltac:(lia) ltac:(lia) H64 Lc) as (c & Ec & _ & _ & Hc). exists t, c. split; [exact Ec|].
  assert (Gt : forall b r, b < 2 ^ (k - (j + 1)) -> r < 2 ^ (j + 1) -> let s := hash_state o q three ks (xs b) (ys b) r in t_get t (b * 2 ^ (j + 1) + r) 0 = Some (fst s) /\ t_get t (b * 2 ^ (j + 1) + r) 1 = Some (snd s)).
  { intros b r Hb Hr. rewrite !(size_get o t _ _ _ _ S), !G by nia. rewrite (Nat.add_comm _ r), Nat.div_add, Nat.mod_add by lia. rewrite Nat.div_small, Nat.mod_small by lia. split; reflexivity. }
  assert (Ck : check_constraints o e (c_exprs c) t = Some None).
  { apply Hc. exists xs, ys. split; [exact Gt|]. split; [reflexivity|]. split; [reflexivity|]. unfold xs, ys. destruct (Nat.eqb_spec (2 ^ (k - (j + 1)) - 1) 0); [lia|reflexivity]. }
  split; [exact Ck|]. split; [exact (C63_tree_provable F o L e M w SD t k j q three ks element root sl c S KM ltac:(lia) H64 Lc Hg Ec Ck)|].
  intros b [Hb0 Hb]. destruct (Gt b 0 Hb ltac:(lia)) as [G0 _]. destruct (Gt b (2 ^ j) Hb ltac:(lia)) as [G1 _]. rewrite Nat.add_0_r in G0. rewrite G0, G1, <- Lc, state_middle by lia. unfold xs, ys. destruct (Nat.eqb_spec b 0); [lia|]. split; reflexivity.
Qed.
Print Assumptions C63_tree_refuted.
Example C63_tree_refuted_ex : forall q three ks element x y, length ks = 128 ->
  exists t c, mimc_tree_constraints felt_ops felt_engine (256 * 8192) 128 q three ks element (mimc_hash felt_ops q three ks x y) (f0 felt_ops) = Some c /\ proves felt_ops felt_engine 63 (fe_w proth_good) 21 4 2 t c.
Proof.
  intros q three ks element x y Lc. destruct (C63_tree_refuted _ felt_ops felt_lawful felt_engine 63 (fe_w proth_good) felt_sound 21 7 q three ks element x y (f0 felt_ops)) as (t & c & Ec & _ & P & _); try lia; [exact Lc|apply felt_coset; apply Nat.leb_le; reflexivity|]. exists t, c. split; [exact Ec|exact P].
Qed.
