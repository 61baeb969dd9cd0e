(** C63, continued: MiMC with quadratic constraints and the VDF. *)
Require Import Ring Field ZArith NArith Lia Bool List.
From Verif Require Import Word KnuthModel FieldSig FieldInstance FieldAlgModel FieldAlgProofs Arr FftModel FftSpec PermuteProofs FftProofs FftProps StarkBase StarkInstance PolyModel PolyProps TraceModel TraceProps ExprModel ExprSpec ExprProofs ExprProps CheckProps OodsProofs OodsSatProps LayoutProps StarkSpec ClaimModel ClaimSpec ClaimProofs ClaimProps ExampleProofs ExampleProps MimcProps.
Import ListNotations.
Open Scope nat_scope.

(** A loop that writes a row from a state and then advances the state. *)
Section Loop.
Context {F : Type} (o : ops F) {A : Type} (R C : nat) (step : option (table F * A) -> nat -> option (table F * A)) (next : nat -> A -> A) (cells : A -> nat -> F).
Fixpoint states (s : A) (n : nat) : A := match n with O => s | S n => next n (states s n) end.
Definition fills : Prop := forall t s i, size t R C -> i < R -> exists t', step (Some (t, s)) i = Some (t', next i s) /\ size t' R C /\
  (forall c, c < C -> cell o t' i c = cells s c) /\ (forall r c, r < R -> c < C -> r <> i -> cell o t' r c = cell o t r c).
Lemma loop_fill s : fills -> forall m, m <= R -> exists t, fold_left step (seq 0 m) (Some (t_new o R C, s)) = Some (t, states s m) /\ size t R C /\
  forall r c, r < m -> c < C -> cell o t r c = cells (states s r) c.
Proof.
  intros H. induction m as [|m IH]; intros Hm; [exists (t_new o R C); split; [reflexivity|]; split; [apply size_new|]; intros; lia|].
  destruct (IH ltac:(lia)) as (t & E & S & Ht). rewrite seq_S, fold_left_app, E. cbn [fold_left Nat.add].
  destruct (H t (states s m) m S ltac:(lia)) as (t' & -> & S' & G & O). exists t'. split; [reflexivity|]. split; [exact S'|].
  intros r c Hr Hc. destruct (Nat.eq_dec r m) as [->|Nr]; [apply G, Hc|]. rewrite O by lia. apply Ht; lia.
Qed.
End Loop.
Lemma to_cells {F} (o : ops F) t R C r i v : size t R C -> r < R -> i < C -> (t_get t r i = Some v <-> cell o t r i = v).
Proof. intros S Hr Hi. rewrite (size_get o t _ _ _ _ S) by lia. split; [intros E; injection E; auto|intros ->; reflexivity]. Qed.
Lemma sub_iff {F} (o : ops F) (L : lawful o) x T a b u v : value o x T a u -> value o x T b v -> (value o x T (e_sub a b) (f0 o) <-> u = v).
Proof. apply (value_sub o L). Qed.
Lemma Forall_conditions {F} (o : ops F) g t k cs : (forall N p, In (N, p) cs -> forall row, row < 2 ^ k -> covers k p row -> satisfied o g t row N) <->
  Forall (fun c => forall row, row < 2 ^ k -> covers k (snd c) row -> satisfied o g t row (fst c)) cs.
Proof. rewrite Forall_forall. split; [intros H [N p] Hin; exact (H N p Hin)|intros H N p Hin; exact (H (N, p) Hin)]. Qed.
(** The conditions of the places, one by one. *)
Lemma at_row {F} (o : ops F) g t k index N : (forall row, row < 2 ^ k -> covers k (Row index) row -> satisfied o g t row N) <-> satisfied o g t (Z.to_nat (index mod 2 ^ Z.of_nat k)) N.
Proof. split; [intros H; apply H; [apply row_lt|apply cover_row; reflexivity]|intros H row _ Hc; apply cover_row in Hc; subst row; exact H]. Qed.
Lemma at_first {F} (o : ops F) g t k N : (forall row, row < 2 ^ k -> covers k (Row 0) row -> satisfied o g t row N) <-> satisfied o g t 0 N.
Proof. rewrite at_row. rewrite Z.mod_0_l by (apply Z.pow_nonzero; lia). reflexivity. Qed.
Lemma at_last {F} (o : ops F) g t k N : (forall row, row < 2 ^ k -> covers k (Row (2 ^ Z.of_nat k - 1)) row -> satisfied o g t row N) <-> satisfied o g t (2 ^ k - 1) N.
Proof. rewrite at_row. assert (E : 2 ^ k - 1 = Z.to_nat ((2 ^ Z.of_nat k - 1) mod 2 ^ Z.of_nat k)) by (symmetry; apply cover_last, cover_row; reflexivity). rewrite <- E. reflexivity. Qed.
Lemma at_all {F} (o : ops F) g t k N : (forall row, row < 2 ^ k -> covers k AllButLast row -> satisfied o g t row N) <-> forall row, row + 1 < 2 ^ k -> satisfied o g t row N.
Proof. cbn. split; intros H row; [intros Hr; apply H; lia|intros _; apply H]. Qed.
Lemma all_iff (P Q : nat -> Prop) n : (forall r, r + 1 < n -> (P r <-> Q r)) -> ((forall r, r + 1 < n -> P r) <-> (forall r, r + 1 < n -> Q r)).
Proof. intros H. split; intros G r Hr; apply (H r Hr), G, Hr. Qed.
Ltac each := repeat (rewrite Forall_cons_iff); cbn [fst snd]; rewrite ?at_first, ?at_last, ?at_all.

(** ** MiMC with quadratic constraints *)
Section MimcQuadratic.
Context {F : Type} (o : ops F) (L : lawful o).
Add Field Ffield : (law_field o L).
Definition mimc_quadratic_conditions (n : Z) (k_coef : rexpr F) (before after : F) : list (rexpr F * place) :=
  [ (e_sub (EMul (ETrace 0 0) (ETrace 0 0)) (ETrace 1 0), AllButLast); (e_sub (EMul (ETrace 0 0) (ETrace 1 0)) (ETrace 2 0), AllButLast);
    (e_sub (ETrace 0 1) (EAdd (ETrace 2 0) k_coef), AllButLast); (e_sub (ETrace 0 0) (EConst before), Row 0); (e_sub (ETrace 0 0) (EConst after), Row (n - 1)) ].
Lemma quadratic_ok t k k_coef before after : size t (2 ^ k) 3 -> k < 64 -> usizes k_coef -> division_free k_coef -> (forall i j, ~ refers k_coef i j) ->
  forall c, In c (mimc_quadratic_conditions (2 ^ Z.of_nat k) k_coef before after) -> condition t (fst c) /\ sensible k (snd c).
Proof.
  intros S Hk U D Rf c Hc. pose proof (pow2_pos k). pose proof (pow_le_64 k Hk). cbn in Hc. repeat destruct Hc as [<-|Hc]; try contradiction; (split; [apply (cond_refl t _ _ _ S); [lia|cbn; tauto|cbn; tauto|cbn; intros i j Hr; repeat destruct Hr as [Hr|Hr]; try lia; exfalso; exact (Rf i j Hr)]|cbn; lia]).
Qed.
Lemma cube x : fexp o x 3 = fmul o x (fmul o x x).
Proof. change 3%N with (Z.to_N 3). rewrite (exp_pow o) by lia. change (Z.to_nat 3) with 3. cbn [fpw]. ring. Qed.
End MimcQuadratic.

(** The constraints accept exactly the tables whose first column holds the states of the cipher, and whose other columns hold
    their squares and cubes but for the last row, where they are free. *)
Theorem C63_mimc_quadratic_check : forall F (o : ops F), lawful o -> forall e M w, sound o e M w -> forall t k j coef before after, size t (2 ^ k) 3 -> j <= k -> k <= M -> length coef = 2 ^ j ->
  let m := mimc o 3 coef before in
  exists c, mimc_quadratic_constraints o e (2 ^ Z.of_nat k) coef before after = Some c /\ c_nrows c = 2 ^ k /\ c_ncolumns c = 3 /\
  (check_constraints o e (c_exprs c) t = Some None <->
   (forall row, row < 2 ^ k -> t_get t row 0 = Some (m row)) /\
   (forall row, row + 1 < 2 ^ k -> t_get t row 1 = Some (fmul o (m row) (m row)) /\ t_get t row 2 = Some (fmul o (m row) (fmul o (m row) (m row)))) /\ m (2 ^ k - 1) = after).
Proof.
  intros F o L e M w SD t k j coef before after S Hj Hk Lc m. pose proof (pow2_pos k) as P2. pose proof (pow2_pos j) as Pj. pose proof (s_max _ _ _ _ SD) as HM.
  destruct (C62_periodic F o L e M w SD k j coef Hk Hj Lc) as (kc & Ekc & U & D & Rf & Vk). unfold mimc_quadratic_constraints. rewrite (root_ok o e M w SD k Hk). cbn [bind]. rewrite Ekc. cbn [bind]. rewrite pow_to. unfold system, from_expressions. rewrite (s_root _ _ _ _ SD k Hk). cbn [bind].
  eexists. split; [reflexivity|]. cbn [c_nrows c_ncolumns c_exprs]. split; [reflexivity|]. split; [reflexivity|].
  change (mimc_quadratic_exprs o (w k) (2 ^ Z.of_nat k) kc before after) with (map (placed o (w k) k) (mimc_quadratic_conditions (2 ^ Z.of_nat k) kc before after)). pose proof S as (Sh & HR & _).
  rewrite (C62_accepts F o L e M w SD t k _ Sh Hk HR (quadratic_ok t k kc before after S ltac:(lia) U D Rf)). rewrite Forall_conditions. unfold mimc_quadratic_conditions. each.
  assert (Vk' : forall r, value o (fpw o (w k) r) (row_trace t r) kc (nth (r mod length coef) coef (f0 o))) by (intros r; rewrite Lc; apply Vk).
  assert (A1 : (forall row, row + 1 < 2 ^ k -> satisfied o (w k) t row (e_sub (EMul (ETrace 0 0) (ETrace 0 0)) (ETrace 1 0))) <-> (forall r, r + 1 < 2 ^ k -> fmul o (cell o t r 0) (cell o t r 0) = cell o t r 1)) by (apply all_iff; intros r Hr; eapply (sub_iff o L); val S).
  assert (A2 : (forall row, row + 1 < 2 ^ k -> satisfied o (w k) t row (e_sub (EMul (ETrace 0 0) (ETrace 1 0)) (ETrace 2 0))) <-> (forall r, r + 1 < 2 ^ k -> fmul o (cell o t r 0) (cell o t r 1) = cell o t r 2)) by (apply all_iff; intros r Hr; eapply (sub_iff o L); val S).
  assert (A3 : (forall row, row + 1 < 2 ^ k -> satisfied o (w k) t row (e_sub (ETrace 0 1) (EAdd (ETrace 2 0) kc))) <-> (forall r, r + 1 < 2 ^ k -> cell o t (r + 1) 0 = fadd o (cell o t r 2) (nth (r mod length coef) coef (f0 o)))) by (apply all_iff; intros r Hr; specialize (Vk' r); eapply (sub_iff o L); val S).
  assert (A4 : satisfied o (w k) t 0 (e_sub (ETrace 0 0) (EConst before)) <-> cell o t 0 0 = before) by (eapply (sub_iff o L); val S).
  assert (A5 : satisfied o (w k) t (2 ^ k - 1) (e_sub (ETrace 0 0) (EConst after)) <-> cell o t (2 ^ k - 1) 0 = after) by (eapply (sub_iff o L); val S).
  rewrite A1, A2, A3, A4, A5. clear A1 A2 A3 A4 A5. split.
  - intros (H1 & H2 & H3 & H4 & H5 & _). assert (Q : forall r, r < 2 ^ k -> cell o t r 0 = m r).
    { induction r as [|r IH]; intros Hr; [exact H4|]. unfold m. cbn [mimc]. fold m. rewrite (cube o L), <- IH, <- Nat.add_1_r, H3, <- H2, <- H1 by lia. reflexivity. }
    repeat split.
    + intros row Hr. apply (to_cells o t _ _ _ _ _ S); [lia|lia|]. apply Q, Hr.
    + apply (to_cells o t _ _ _ _ _ S); [lia|lia|]. rewrite <- H1, Q by lia. reflexivity.
    + apply (to_cells o t _ _ _ _ _ S); [lia|lia|]. rewrite <- H2, <- H1, Q by lia. reflexivity.
    + rewrite <- Q by lia. exact H5.
  - intros (G1 & G2 & G3). assert (Q : forall r, r < 2 ^ k -> cell o t r 0 = m r) by (intros r Hr; apply (to_cells o t _ _ _ _ _ S); [lia|lia|apply G1, Hr]).
    assert (Q1 : forall r, r + 1 < 2 ^ k -> cell o t r 1 = fmul o (m r) (m r)) by (intros r Hr; apply (to_cells o t _ _ _ _ _ S); [lia|lia|apply G2, Hr]).
    assert (Q2 : forall r, r + 1 < 2 ^ k -> cell o t r 2 = fmul o (m r) (fmul o (m r) (m r))) by (intros r Hr; apply (to_cells o t _ _ _ _ _ S); [lia|lia|apply G2, Hr]).
    repeat split; [intros r Hr| intros r Hr| intros r Hr| | |constructor].
    + rewrite Q, Q1 by lia. reflexivity.
    + rewrite Q, Q1, Q2 by lia. reflexivity.
    + rewrite Q, Q2, Nat.add_1_r by lia. unfold m at 1. cbn [mimc]. fold m. rewrite (cube o L). reflexivity.
    + apply Q, P2. + rewrite Q by lia. exact G3.
Qed.
Print Assumptions C63_mimc_quadratic_check.
Theorem C63_mimc_quadratic_trace : forall F (o : ops F), lawful o -> forall k coef before after, coef <> [] -> let m := mimc o 3 coef before in
  (m (2 ^ k - 1) <> after -> mimc_quadratic_trace o (2 ^ Z.of_nat k) coef before after = None) /\
  (m (2 ^ k - 1) = after -> exists t, mimc_quadratic_trace o (2 ^ Z.of_nat k) coef before after = Some t /\ size t (2 ^ k) 3 /\
     forall row, row < 2 ^ k -> t_get t row 0 = Some (m row) /\ t_get t row 1 = Some (fmul o (m row) (m row)) /\ t_get t row 2 = Some (fmul o (m row) (fmul o (m row) (m row)))).
Proof.
  intros F o L k coef before after Nc m. pose proof (pow2_pos k) as P2. unfold mimc_quadratic_trace. rewrite pow_to.
  set (next := fun i x => fadd o (fmul o x (fmul o x x)) (nth (i mod length coef) coef (f0 o))).
  set (cells := fun (x : F) (c : nat) => match c with 0 => x | 1 => fmul o x x | _ => fmul o x (fmul o x x) end).
  assert (Fl : fills o (2 ^ k) 3 (mimc_quadratic_step o coef) next cells).
  { intros t s i S Hi. unfold mimc_quadratic_step. cbn [bind].
    destruct (size_set o t _ _ i 0 s S Hi ltac:(lia)) as (t1 & -> & S1 & G1 & O1). cbn [bind]. rewrite (size_get o t1 _ _ _ _ S1) by lia. cbn [bind]. rewrite G1.
    destruct (size_set o t1 _ _ i 1 (fmul o s s) S1 Hi ltac:(lia)) as (t2 & -> & S2 & G2 & O2). cbn [bind]. rewrite !(size_get o t2 _ _ _ _ S2) by lia. cbn [bind]. rewrite G2, (O2 i 0), G1 by lia.
    destruct (size_set o t2 _ _ i 2 (fmul o s (fmul o s s)) S2 Hi ltac:(lia)) as (t3 & -> & S3 & G3 & O3). cbn [bind]. rewrite !(size_get o t3 _ _ _ _ S3) by lia. cbn [bind]. rewrite G3.
    assert (Lm : i mod length coef < length coef) by (apply Nat.mod_upper_bound; destruct coef; [contradiction|discriminate]). rewrite (nth_error_nth' coef (f0 o) Lm). cbn [bind].
    exists t3. split; [reflexivity|]. split; [exact S3|]. split.
    - intros c Hc. destruct c as [|[|[|c]]]; [| | |lia]; cbn [cells]; [rewrite O3, O2 by lia; exact G1|rewrite O3 by lia; exact G2|exact G3].
    - intros r c Hr Hc Nr. rewrite O3, O2, O1 by lia. reflexivity. }
  assert (St : forall n, states next before n = m n).
  { induction n as [|n IH]; [reflexivity|]. cbn [states]. rewrite IH. change (m (Datatypes.S n)) with (fadd o (fexp o (m n) 3) (nth (n mod length coef) coef (f0 o))). rewrite (cube o L). reflexivity. }
  destruct (loop_fill o (2 ^ k) 3 _ next cells before Fl (2 ^ k) (le_n _)) as (t & -> & S & H). cbn [bind]. rewrite (size_get o t _ _ _ _ S) by lia. cbn [bind]. rewrite H, St by lia. cbn [cells].
  destruct (feqb_spec o L (m (2 ^ k - 1)) after) as [E|N]; (split; [intros; try contradiction; try reflexivity|intros; try contradiction]).
  exists t. split; [reflexivity|]. split; [exact S|]. intros row Hr. rewrite !(size_get o t _ _ _ _ S), !H, St by lia. repeat split; reflexivity.
Qed.
Print Assumptions C63_mimc_quadratic_trace.
Theorem C63_mimc_quadratic : forall F (o : ops F), lawful o -> forall e M w, sound o e M w -> forall k j coef before, j <= k -> 1 <= k -> k + 4 <= M -> length coef = 2 ^ j ->
  let after := mimc o 3 coef before (2 ^ k - 1) in fpw o (egen e) (2 ^ (k + 1)) <> f1 o ->
  exists t c, mimc_quadratic_trace o (2 ^ Z.of_nat k) coef before after = Some t /\ mimc_quadratic_constraints o e (2 ^ Z.of_nat k) coef before after = Some c /\ proves o e M w k 4 1 t c.
Proof.
  intros F o L e M w SD k j coef before Hj K1 KM Lc after Hg. pose proof (pow2_pos j) as Pj. pose proof (s_max _ _ _ _ SD) as HM.
  destruct (C63_mimc_quadratic_trace F o L k coef before after) as [_ H]; [destruct coef; [cbn in Lc; lia|discriminate]|]. destruct (H eq_refl) as (t & Et & S & Ht).
  destruct (C63_mimc_quadratic_check F o L e M w SD t k j coef before after S Hj ltac:(lia) Lc) as (c & Ec & _ & _ & Hc). exists t, c. split; [exact Et|]. split; [exact Ec|].
  assert (Ck : check_constraints o e (c_exprs c) t = Some None) by (apply Hc; split; [apply Ht|]; split; [intros row Hr; apply Ht; lia|reflexivity]). clear H Hc.
  destruct (C62_periodic F o L e M w SD k j coef ltac:(lia) Hj Lc) as (kc & Ekc & U & D & Rf & _). unfold mimc_quadratic_constraints in Ec. rewrite (root_ok o e M w SD k ltac:(lia)) in Ec. cbn [bind] in Ec. rewrite Ekc in Ec. cbn [bind] in Ec. rewrite pow_to in Ec.
  change (mimc_quadratic_exprs o (w k) (2 ^ Z.of_nat k) kc before after) with (map (placed o (w k) k) (mimc_quadratic_conditions (2 ^ Z.of_nat k) kc before after)) in Ec.
  assert (Ex : c_exprs c = map (placed o (w k) k) (mimc_quadratic_conditions (2 ^ Z.of_nat k) kc before after)).
  { unfold system, from_expressions in Ec. rewrite (s_root _ _ _ _ SD k ltac:(lia)) in Ec. cbn [bind] in Ec. injection Ec as <-. reflexivity. }
  rewrite Ex in Ck. assert (Bs : forall d, (0 <= d <= 2)%Z -> (0 <= d < B)%Z) by (unfold B; lia).
  apply (placed_proves o L e M w SD t k 1 3 (mimc_quadratic_conditions (2 ^ Z.of_nat k) kc before after) 2 [2; 1; 1; 1]%Z S); try lia; try assumption; try (cbn; lia).
  - apply (quadratic_ok t k kc before after S ltac:(lia) U D Rf).
  - unfold mimc_quadratic_conditions. repeat (constructor; [split; cbn [fst]; [|apply Bs; lia]|]); [| | | | |constructor]; try reflexivity.
    rewrite (sub_degree o _ _ 1 1); [reflexivity|reflexivity| |apply Bs; lia|apply Bs; lia]. rewrite (add_degree o _ _ 1 0); [reflexivity|reflexivity|apply (periodic_degree o e _ _ _ Ekc)|apply Bs; lia|apply Bs; lia].
Qed.
Print Assumptions C63_mimc_quadratic.
Example C63_mimc_quadratic_ex : forall coef before, length coef = 16 -> let after := mimc felt_ops 3 coef before (2 ^ 13 - 1) in
  exists t c, mimc_quadratic_trace felt_ops 8192 coef before after = Some t /\ mimc_quadratic_constraints felt_ops felt_engine 8192 coef before after = Some c /\ proves felt_ops felt_engine 63 (fe_w proth_good) 13 4 1 t c.
Proof. intros coef before Lc. apply (C63_mimc_quadratic _ felt_ops felt_lawful felt_engine 63 (fe_w proth_good) felt_sound 13 4 coef before); try lia; [exact Lc|]. apply felt_coset. apply Nat.leb_le. reflexivity. Qed.

(** ** VDF *)
Section Vdf.
Context {F : Type} (o : ops F) (L : lawful o).
Add Field Vfield : (law_field o L).
Definition vdf_square0 (r : F) : rexpr F := EAdd (EMul (ETrace 0 0) (ETrace 0 0)) (EMul (EMul (EConst r) (ETrace 1 0)) (ETrace 1 0)).
Definition vdf_square1 (two : F) : rexpr F := EMul (EMul (EConst two) (ETrace 0 0)) (ETrace 1 0).
Definition vdf_cube0 (r : F) : rexpr F := EAdd (EMul (ETrace 0 0) (ETrace 2 0)) (EMul (EMul (EConst r) (ETrace 1 0)) (ETrace 3 0)).
Definition vdf_cube1 : rexpr F := EAdd (EMul (ETrace 0 0) (ETrace 2 0)) (EMul (ETrace 1 0) (ETrace 3 0)).
Definition vdf_conditions (n : Z) (r two a0 a1 b0 b1 : F) : list (rexpr F * place) :=
  [ (e_sub (vdf_square0 r) (ETrace 2 0), AllButLast); (e_sub (vdf_square1 two) (ETrace 3 0), AllButLast); (e_sub (vdf_cube0 r) (ETrace 0 1), AllButLast); (e_sub vdf_cube1 (ETrace 1 1), AllButLast);
    (e_sub (ETrace 0 0) (EConst a0), Row 0); (e_sub (ETrace 1 0) (EConst a1), Row 0); (e_sub (ETrace 0 0) (EConst b0), Row (n - 1)); (e_sub (ETrace 1 0) (EConst b1), Row (n - 1)) ].
Lemma vdf_ok t k r two a0 a1 b0 b1 : size t (2 ^ k) 4 -> k < 64 -> forall c, In c (vdf_conditions (2 ^ Z.of_nat k) r two a0 a1 b0 b1) -> condition t (fst c) /\ sensible k (snd c).
Proof.
  intros S Hk c Hc. pose proof (pow2_pos k). pose proof (pow_le_64 k Hk). cbn in Hc. repeat destruct Hc as [<-|Hc]; try contradiction; (split; [apply (cond_refl t _ _ _ S); [lia|cbn; tauto|cbn; tauto|cbn; intros i j Hr; lia]|cbn; lia]).
Qed.
Lemma sq0 r two c : fst (square2 o r two c) = fadd o (fmul o (fst c) (fst c)) (fmul o (fmul o r (snd c)) (snd c)). Proof. cbn. ring. Qed.
Lemma sq1 r two c : snd (square2 o r two c) = fmul o (fmul o two (fst c)) (snd c). Proof. cbn. ring. Qed.
Lemma cu0 r two c : fst (vdf_step o r two c) = fadd o (fmul o (fst c) (fst (square2 o r two c))) (fmul o (fmul o r (snd c)) (snd (square2 o r two c))). Proof. cbn. ring. Qed.
Lemma cu1 r two c : snd (vdf_step o r two c) = fadd o (fmul o (fst c) (fst (square2 o r two c))) (fmul o (snd c) (snd (square2 o r two c))). Proof. reflexivity. Qed.
Lemma vdf_broken r two : two = fadd o (f1 o) (f1 o) -> (forall c, square2 o r two c = ext_mul o r c c) /\
  ext_mul o r (f1 o, f0 o) (ext_mul o r (f1 o, f0 o) (f1 o, f0 o)) = (f1 o, f0 o) /\ vdf_step o r two (f1 o, f0 o) = (f1 o, f1 o) /\ (forall c, vdf_step o r two (f0 o, c) = (f0 o, f0 o)).
Proof. intros ->. unfold vdf_step, square2, ext_mul. cbn [fst snd]. repeat split; intros; f_equal; ring. Qed.
End Vdf.
(** The constraints accept exactly the tables whose first two columns hold the iterates of [vdf_step], from start to end, and
    whose other columns hold the squares but for the last row, where they are free. *)
Theorem C63_vdf_check : forall F (o : ops F), lawful o -> forall e M w, sound o e M w -> forall t k r two a b, size t (2 ^ k) 4 -> k <= M ->
  let s n := iterate (vdf_step o r two) n a in let q n := square2 o r two (s n) in
  exists c, vdf_constraints o e (2 ^ Z.of_nat k) r two (fst a) (snd a) (fst b) (snd b) = Some c /\ c_nrows c = 2 ^ k /\ c_ncolumns c = 4 /\
  (check_constraints o e (c_exprs c) t = Some None <->
   (forall row, row < 2 ^ k -> t_get t row 0 = Some (fst (s row)) /\ t_get t row 1 = Some (snd (s row))) /\
   (forall row, row + 1 < 2 ^ k -> t_get t row 2 = Some (fst (q row)) /\ t_get t row 3 = Some (snd (q row))) /\ s (2 ^ k - 1) = b).
Proof.
  intros F o L e M w SD t k r two a b S Hk s q. pose proof (pow2_pos k) as P2. pose proof (s_max _ _ _ _ SD) as HM.
  unfold vdf_constraints. rewrite (root_ok o e M w SD k Hk). cbn [bind]. rewrite pow_to. unfold system, from_expressions. rewrite (s_root _ _ _ _ SD k Hk). cbn [bind].
  eexists. split; [reflexivity|]. cbn [c_nrows c_ncolumns c_exprs]. split; [reflexivity|]. split; [reflexivity|].
  change (vdf_exprs o (w k) r two (2 ^ Z.of_nat k) (fst a) (snd a) (fst b) (snd b)) with (map (placed o (w k) k) (vdf_conditions (2 ^ Z.of_nat k) r two (fst a) (snd a) (fst b) (snd b))). pose proof S as (Sh & HR & _).
  rewrite (C62_accepts F o L e M w SD t k _ Sh Hk HR (vdf_ok t k r two (fst a) (snd a) (fst b) (snd b) S ltac:(lia))). rewrite Forall_conditions. unfold vdf_conditions. each.
  assert (A1 : (forall row, row + 1 < 2 ^ k -> satisfied o (w k) t row (e_sub (vdf_square0 r) (ETrace 2 0))) <-> (forall row, row + 1 < 2 ^ k -> fadd o (fmul o (cell o t row 0) (cell o t row 0)) (fmul o (fmul o r (cell o t row 1)) (cell o t row 1)) = cell o t row 2)) by (apply all_iff; intros i Hi; eapply (sub_iff o L); unfold vdf_square0; val S).
  assert (A2 : (forall row, row + 1 < 2 ^ k -> satisfied o (w k) t row (e_sub (vdf_square1 two) (ETrace 3 0))) <-> (forall row, row + 1 < 2 ^ k -> fmul o (fmul o two (cell o t row 0)) (cell o t row 1) = cell o t row 3)) by (apply all_iff; intros i Hi; eapply (sub_iff o L); unfold vdf_square1; val S).
  assert (A3 : (forall row, row + 1 < 2 ^ k -> satisfied o (w k) t row (e_sub (vdf_cube0 r) (ETrace 0 1))) <-> (forall row, row + 1 < 2 ^ k -> fadd o (fmul o (cell o t row 0) (cell o t row 2)) (fmul o (fmul o r (cell o t row 1)) (cell o t row 3)) = cell o t (row + 1) 0)) by (apply all_iff; intros i Hi; eapply (sub_iff o L); unfold vdf_cube0; val S).
  assert (A4 : (forall row, row + 1 < 2 ^ k -> satisfied o (w k) t row (e_sub vdf_cube1 (ETrace 1 1))) <-> (forall row, row + 1 < 2 ^ k -> fadd o (fmul o (cell o t row 0) (cell o t row 2)) (fmul o (cell o t row 1) (cell o t row 3)) = cell o t (row + 1) 1)) by (apply all_iff; intros i Hi; eapply (sub_iff o L); unfold vdf_cube1; val S).
  assert (A5 : forall row i v, row < 2 ^ k -> i < 4 -> satisfied o (w k) t row (e_sub (ETrace i 0) (EConst v)) <-> cell o t row i = v) by (intros; eapply (sub_iff o L); val S).
  rewrite A1, A2, A3, A4. rewrite !A5 by lia. clear A1 A2 A3 A4 A5. split.
  - intros (H1 & H2 & H3 & H4 & H5 & H6 & H7 & H8 & _). assert (Q : forall i, i < 2 ^ k -> cell o t i 0 = fst (s i) /\ cell o t i 1 = snd (s i)).
    { induction i as [|i IH]; intros Hi; [split; [exact H5|exact H6]|]. destruct (IH ltac:(lia)) as [I1 I2]. change (s (Datatypes.S i)) with (vdf_step o r two (s i)). rewrite (cu0 o L), cu1, (sq0 o L), (sq1 o L), <- I1, <- I2, (H1 i), (H2 i), (H3 i), (H4 i), Nat.add_1_r by lia. split; reflexivity. }
    repeat split.
    + apply (to_cells o t _ _ _ _ _ S); [lia|lia|]. apply Q; assumption.
    + apply (to_cells o t _ _ _ _ _ S); [lia|lia|]. apply Q; assumption.
    + apply (to_cells o t _ _ _ _ _ S); [lia|lia|]. destruct (Q row ltac:(lia)) as [I1 I2]. unfold q. rewrite (sq0 o L), <- I1, <- I2, H1 by lia. reflexivity.
    + apply (to_cells o t _ _ _ _ _ S); [lia|lia|]. destruct (Q row ltac:(lia)) as [I1 I2]. unfold q. rewrite (sq1 o L), <- I1, <- I2, H2 by lia. reflexivity.
    + destruct (Q (2 ^ k - 1) ltac:(lia)) as [I1 I2]. rewrite (surjective_pairing (s _)), <- I1, <- I2, H7, H8. symmetry. apply surjective_pairing.
  - intros (G1 & G2 & G3). assert (Q : forall i, i < 2 ^ k -> cell o t i 0 = fst (s i) /\ cell o t i 1 = snd (s i)).
    { intros i Hi. destruct (G1 i Hi) as [I1 I2]. apply (to_cells o t _ _ _ _ _ S) in I1; [|lia|lia]. apply (to_cells o t _ _ _ _ _ S) in I2; [|lia|lia]. auto. }
    assert (Q2 : forall i, i + 1 < 2 ^ k -> cell o t i 2 = fst (q i) /\ cell o t i 3 = snd (q i)).
    { intros i Hi. destruct (G2 i Hi) as [I1 I2]. apply (to_cells o t _ _ _ _ _ S) in I1; [|lia|lia]. apply (to_cells o t _ _ _ _ _ S) in I2; [|lia|lia]. auto. }
    repeat split; try constructor; try (intros i Hi; destruct (Q i ltac:(lia)) as [I1 I2], (Q (i + 1) ltac:(lia)) as [J1 J2], (Q2 i ltac:(lia)) as [K1 K2]; rewrite ?I1, ?I2, ?J1, ?J2, ?K1, ?K2; rewrite Nat.add_1_r in *; unfold q).
    + symmetry. apply (sq0 o L). + symmetry. apply (sq1 o L). + symmetry. apply (cu0 o L). + reflexivity.
    + apply (Q 0 P2). + apply (Q 0 P2). + rewrite <- G3. apply Q. lia. + rewrite <- G3. apply Q. lia.
Qed.
Print Assumptions C63_vdf_check.
Theorem C63_vdf_trace : forall F (o : ops F), lawful o -> forall k r two a b, let s n := iterate (vdf_step o r two) n a in let q n := square2 o r two (s n) in
  (s (2 ^ k - 1) <> b -> vdf_trace o (2 ^ Z.of_nat k) r two (fst a) (snd a) (fst b) (snd b) = None) /\
  (s (2 ^ k - 1) = b -> exists t, vdf_trace o (2 ^ Z.of_nat k) r two (fst a) (snd a) (fst b) (snd b) = Some t /\ size t (2 ^ k) 4 /\
     forall row, row < 2 ^ k -> t_get t row 0 = Some (fst (s row)) /\ t_get t row 1 = Some (snd (s row)) /\ t_get t row 2 = Some (fst (q row)) /\ t_get t row 3 = Some (snd (q row))).
Proof.
  intros F o L k r two a b s q. pose proof (pow2_pos k) as P2. unfold vdf_trace. rewrite pow_to.
  set (cells := fun (x : F * F) (c : nat) => match c with 0 => fst x | 1 => snd x | 2 => fst (square2 o r two x) | _ => snd (square2 o r two x) end).
  assert (Fl : fills o (2 ^ k) 4 (vdf_trace_step o r two) (fun _ => vdf_step o r two) cells).
  { intros t x i S Hi. unfold vdf_trace_step. cbn [bind].
    destruct (size_set o t _ _ i 0 (fst x) S Hi ltac:(lia)) as (t1 & -> & S1 & G1 & O1). cbn [bind].
    destruct (size_set o t1 _ _ i 1 (snd x) S1 Hi ltac:(lia)) as (t2 & -> & S2 & G2 & O2). cbn [bind]. rewrite !(size_get o t2 _ _ _ _ S2) by lia. cbn [bind]. rewrite G2, (O2 i 0), G1 by lia.
    replace (fadd o (fmul o (fst x) (fst x)) (fmul o r (fmul o (snd x) (snd x)))) with (fst (square2 o r two x)) by reflexivity.
    destruct (size_set o t2 _ _ i 2 (fst (square2 o r two x)) S2 Hi ltac:(lia)) as (t3 & -> & S3 & G3 & O3). cbn [bind]. rewrite !(size_get o t3 _ _ _ _ S3) by lia. cbn [bind]. rewrite (O3 i 0), (O3 i 1), G2, (O2 i 0), G1 by lia. rewrite <- (sq1 o L r).
    destruct (size_set o t3 _ _ i 3 (snd (square2 o r two x)) S3 Hi ltac:(lia)) as (t4 & -> & S4 & G4 & O4). cbn [bind]. rewrite !(size_get o t4 _ _ _ _ S4) by lia. cbn [bind]. rewrite G4, (O4 i 0), (O4 i 1), (O4 i 2), G3, (O3 i 0), (O3 i 1), G2, (O2 i 0), G1 by lia. rewrite <- (cu0 o L), <- cu1, <- surjective_pairing.
    exists t4. split; [reflexivity|]. split; [exact S4|]. split.
    - intros c Hc. destruct c as [|[|[|[|c]]]]; [| | | |lia]; cbn [cells]; [rewrite O4, O3, O2 by lia; exact G1|rewrite O4, O3 by lia; exact G2|rewrite O4 by lia; exact G3|exact G4].
    - intros i' c Hr Hc Nr. rewrite O4, O3, O2, O1 by lia. reflexivity. }
  assert (St : forall n, states (fun _ => vdf_step o r two) a n = s n) by (induction n as [|n IH]; [reflexivity|]; cbn [states]; rewrite IH; reflexivity).
  destruct (loop_fill o (2 ^ k) 4 _ _ cells a Fl (2 ^ k) (le_n _)) as (t & E0 & S & H). replace (fst a, snd a) with a by apply surjective_pairing. rewrite E0. cbn [bind]. rewrite !(size_get o t _ _ _ _ S) by lia. cbn [bind]. rewrite !H, !St by lia. cbn [cells].
  assert (Res : s (2 ^ k - 1) = b <-> fst (s (2 ^ k - 1)) = fst b /\ snd (s (2 ^ k - 1)) = snd b) by (destruct (s (2 ^ k - 1)), b; cbn; split; [intros [= -> ->]; auto|intros [-> ->]; reflexivity]).
  destruct (feqb_spec o L (fst (s (2 ^ k - 1))) (fst b)) as [E1|N1]; [destruct (feqb_spec o L (snd (s (2 ^ k - 1))) (snd b)) as [E2|N2]|]; (split; [intros; try reflexivity; exfalso; tauto|intros; try (exfalso; tauto)]).
  exists t. split; [reflexivity|]. split; [exact S|]. intros row Hr. rewrite !(size_get o t _ _ _ _ S), !H, St by lia. repeat split; reflexivity.
Qed.
Print Assumptions C63_vdf_trace.
Theorem C63_vdf : forall F (o : ops F), lawful o -> forall e M w, sound o e M w -> forall k r two a, 1 <= k -> k + 4 <= M -> let b := iterate (vdf_step o r two) (2 ^ k - 1) a in fpw o (egen e) (2 ^ (k + 1)) <> f1 o ->
  exists t c, vdf_trace o (2 ^ Z.of_nat k) r two (fst a) (snd a) (fst b) (snd b) = Some t /\ vdf_constraints o e (2 ^ Z.of_nat k) r two (fst a) (snd a) (fst b) (snd b) = Some c /\ proves o e M w k 4 1 t c.
Proof.
  intros F o L e M w SD k r two a K1 KM b Hg. pose proof (s_max _ _ _ _ SD) as HM.
  destruct (C63_vdf_trace F o L k r two a b) as [_ H]. destruct (H eq_refl) as (t & Et & S & Ht).
  destruct (C63_vdf_check F o L e M w SD t k r two a b S ltac:(lia)) as (c & Ec & _ & _ & Hc). exists t, c. split; [exact Et|]. split; [exact Ec|].
  assert (Ck : check_constraints o e (c_exprs c) t = Some None) by (apply Hc; split; [intros row Hr; split; apply Ht, Hr|]; split; [intros row Hr; split; apply Ht; lia|reflexivity]). clear H Hc.
  unfold vdf_constraints in Ec. rewrite (root_ok o e M w SD k ltac:(lia)) in Ec. cbn [bind] in Ec. rewrite pow_to in Ec.
  change (vdf_exprs o (w k) r two (2 ^ Z.of_nat k) (fst a) (snd a) (fst b) (snd b)) with (map (placed o (w k) k) (vdf_conditions (2 ^ Z.of_nat k) r two (fst a) (snd a) (fst b) (snd b))) in Ec.
  assert (Ex : c_exprs c = map (placed o (w k) k) (vdf_conditions (2 ^ Z.of_nat k) r two (fst a) (snd a) (fst b) (snd b))).
  { unfold system, from_expressions in Ec. rewrite (s_root _ _ _ _ SD k ltac:(lia)) in Ec. cbn [bind] in Ec. injection Ec as <-. reflexivity. }
  rewrite Ex in Ck. assert (Bs : forall d, (0 <= d <= 2)%Z -> (0 <= d < B)%Z) by (unfold B; lia).
  apply (placed_proves o L e M w SD t k 1 4 (vdf_conditions (2 ^ Z.of_nat k) r two (fst a) (snd a) (fst b) (snd b)) 2 [2; 2; 2; 1; 1; 1; 1]%Z S); try lia; try assumption; try (cbn; lia).
  - apply (vdf_ok t k r two _ _ _ _ S ltac:(lia)).
  - unfold vdf_conditions. repeat (constructor; [split; cbn [fst]; [|apply Bs; lia]|]); [| | | | | | | |constructor]; reflexivity.
Qed.
Print Assumptions C63_vdf.
(** The comment in the code says that the step multiplies the square by the number itself, that is cubes it in the quadratic
    extension. It does not: 1 goes to 1 + sqrt r, and all multiples of sqrt r collapse to 0. *)
Theorem C63_vdf_cube_refuted : forall F (o : ops F), lawful o -> forall r two, two = fadd o (f1 o) (f1 o) -> (forall c, square2 o r two c = ext_mul o r c c) /\
  ext_mul o r (f1 o, f0 o) (ext_mul o r (f1 o, f0 o) (f1 o, f0 o)) = (f1 o, f0 o) /\ vdf_step o r two (f1 o, f0 o) = (f1 o, f1 o) /\ f1 o <> f0 o /\ (forall c, vdf_step o r two (f0 o, c) = (f0 o, f0 o)).
Proof. intros F o L r two E. destruct (vdf_broken o L r two E) as (A & B' & C & D). split; [exact A|]. split; [exact B'|]. split; [exact C|]. split; [|exact D]. apply (F_1_neq_0 (law_field o L)). Qed.
Print Assumptions C63_vdf_cube_refuted.
(** The claim of the example: 2^20 rows. *)
Example C63_vdf_ex : forall r two a, let b := iterate (vdf_step felt_ops r two) (2 ^ 20 - 1) a in
  exists t c, vdf_trace felt_ops (2 ^ 20) r two (fst a) (snd a) (fst b) (snd b) = Some t /\ vdf_constraints felt_ops felt_engine (2 ^ 20) r two (fst a) (snd a) (fst b) (snd b) = Some c /\ proves felt_ops felt_engine 63 (fe_w proth_good) 20 4 1 t c.
Proof. intros r two a. apply (C63_vdf _ felt_ops felt_lawful felt_engine 63 (fe_w proth_good) felt_sound 20 r two a); try lia. apply felt_coset. apply Nat.leb_le. reflexivity. Qed.
