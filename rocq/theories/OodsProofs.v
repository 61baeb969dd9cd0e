(** Proofs for C54. *)
Require Import Field ZArith NArith Lia Bool List Sorted.
From Verif Require Import Word KnuthModel FieldSig FieldAlgModel FieldAlgProofs FieldProps Arr FftSpec FftModel PermuteProofs FftProofs FftProps StarkBase PolyModel PolyProps TraceModel TraceProps ExprModel ExprSpec ExprProofs ExprProps CheckProps PolyRoots OodsModel.
Import ListNotations.
Open Scope nat_scope.

(** ** Trace arguments *)
(** Order of the keys *)
Definition arg_lt (a b : nat * Z) : Prop := fst a < fst b \/ fst a = fst b /\ (snd a < snd b)%Z.
Lemma arg_lt_trans a b c : arg_lt a b -> arg_lt b c -> arg_lt a c.
Proof. unfold arg_lt. lia. Qed.
Lemma arg_lt_irrefl a : ~ arg_lt a a. Proof. unfold arg_lt. lia. Qed.
Lemma key_cmp_spec a b : match key_cmp a b with Lt => arg_lt a b | Eq => a = b | Gt => arg_lt b a end.
Proof.
  unfold key_cmp, arg_lt. destruct a as [i j], b as [i' j']. cbn [fst snd]. destruct (Nat.compare_spec i i') as [->|H|H]; [|left; exact H|left; exact H].
  destruct (Z.compare_spec j j') as [->|H|H]; [reflexivity| |]; right; auto.
Qed.
Lemma arg_insert_cmp a l : arg_insert a l = match l with [] => [a] | b :: l' => match key_cmp a b with Lt => a :: l | Eq => l | Gt => b :: arg_insert a l' end end.
Proof. destruct l as [|b l]; [reflexivity|]. cbn [arg_insert]. unfold key_cmp. destruct (fst a ?= fst b); reflexivity. Qed.
Lemma arg_insert_spec a : forall l, StronglySorted arg_lt l -> StronglySorted arg_lt (arg_insert a l) /\ forall x, In x (arg_insert a l) <-> x = a \/ In x l.
Proof.
  induction l as [|b l IH]; intros Hs.
  - split; [repeat constructor|]. intros x. cbn. intuition congruence.
  - rewrite arg_insert_cmp. pose proof Hs as Hs0. apply StronglySorted_inv in Hs. destruct Hs as [Hl Hb]. pose proof (key_cmp_spec a b) as K. destruct (key_cmp a b).
    + subst b. split; [exact Hs0|]. intros x. cbn. intuition congruence.
    + split; [constructor; [exact Hs0|]; constructor; [exact K|]; eapply Forall_impl; [|exact Hb]; intros c Hc; exact (arg_lt_trans _ _ _ K Hc)|]. intros x. cbn. intuition congruence.
    + destruct (IH Hl) as [I1 I2]. split.
      * constructor; [exact I1|]. rewrite Forall_forall in *. intros c Hc. apply I2 in Hc. destruct Hc as [->|Hc]; [exact K|exact (Hb c Hc)].
      * intros x. cbn [In]. rewrite I2. intuition congruence.
Qed.
Lemma arg_inserts_spec : forall y x, StronglySorted arg_lt x -> let r := fold_left (fun s a => arg_insert a s) y x in StronglySorted arg_lt r /\ forall a, In a r <-> In a x \/ In a y.
Proof.
  induction y as [|a y IH]; intros x Hx; cbn [fold_left].
  - split; [exact Hx|]. intros b. cbn. tauto.
  - destruct (arg_insert_spec a x Hx) as [I1 I2]. destruct (IH _ I1) as [J1 J2]. split; [exact J1|]. intros b. rewrite J2, I2. cbn. intuition congruence.
Qed.
Lemma trace_arguments_spec {F} : forall (e : rexpr F) s r, StronglySorted arg_lt s -> trace_arguments_impl e s = Some r ->
  StronglySorted arg_lt r /\ forall i j, In (i, j) r <-> In (i, j) s \/ refers e i j.
Proof.
  induction e as [|c|i j|p a IH|i n a IH|a IHa b IHb|a IH|a IHa b IHb|a IH|a IH n]; intros s r Hs E; cbn [trace_arguments_impl refers] in *; try (apply IH; assumption); try discriminate E.
  - injection E as <-. split; [exact Hs|]. tauto.
  - injection E as <-. split; [exact Hs|]. tauto.
  - injection E as <-. destruct (arg_insert_spec (i, j) s Hs) as [I1 I2]. split; [exact I1|]. intros i' j'. rewrite I2. split; [intros [[= -> ->]|H]; auto|intros [H|[-> ->]]; auto].
  - apply bind_some in E as (s1 & E1 & E). destruct (IHa s s1 Hs E1) as [A1 A2]. destruct (IHb s1 r A1 E) as [B1 B2]. split; [exact B1|]. intros i j. rewrite B2, A2. tauto.
  - apply bind_some in E as (s1 & E1 & E). destruct (IHa s s1 Hs E1) as [A1 A2]. destruct (IHb s1 r A1 E) as [B1 B2]. split; [exact B1|]. intros i j. rewrite B2, A2. tauto.
Qed.
Lemma c_trace_arguments_spec {F} (c : constraints (F := F)) args : c_trace_arguments c = Some args ->
  StronglySorted arg_lt args /\ forall i j, In (i, j) args <-> exists e, In e (c_exprs c) /\ refers e i j.
Proof.
  unfold c_trace_arguments. intros E. apply bind_some in E as (l & E & E2). injection E2 as <-. apply option_all_inv in E.
  assert (G : forall x, StronglySorted arg_lt x -> let r := fold_left (fun x y => fold_left (fun s a => arg_insert a s) y x) l x in
    StronglySorted arg_lt r /\ forall i j, In (i, j) r <-> In (i, j) x \/ exists e, In e (c_exprs c) /\ refers e i j).
  { induction E as [|e y es l Ey E IH]; intros x Hx; cbn [fold_left].
    - split; [exact Hx|]. intros i j. split; [tauto|]. intros [H|(e & [] & _)]. exact H.
    - destruct (arg_inserts_spec y x Hx) as [I1 I2]. destruct (IH _ I1) as [J1 J2]. split; [exact J1|]. intros i j. rewrite J2, I2.
      destruct (trace_arguments_spec e [] y ltac:(constructor) Ey) as [_ Y]. rewrite Y. split.
      + intros [[H|[[]|H]]|(e' & H & R)]; [tauto| |]; right; [exists e|exists e']; cbn; auto.
      + intros [H|(e' & [<-|H] & R)]; [tauto|tauto|]. right. exists e'. auto. }
  destruct (G [] ltac:(constructor)) as [G1 G2]. split; [exact G1|]. intros i j. rewrite G2. split; [intros [[]|H]; exact H|auto].
Qed.

(** ** The map of claimed values *)
Section Map.
Context {F : Type}.
Lemma map_insert_last k (v : F) : forall m, Forall (fun kv => arg_lt (fst kv) k) m -> map_insert k v m = m ++ [(k, v)].
Proof.
  induction m as [|[k' v'] m IH]; intros H; [reflexivity|]. inversion H as [|? ? H1 H2]; subst. cbn [map_insert fst app] in *. pose proof (key_cmp_spec k k') as K. destruct (key_cmp k k').
  - subst. exfalso. exact (arg_lt_irrefl _ H1).
  - exfalso. exact (arg_lt_irrefl _ (arg_lt_trans _ _ _ K H1)).
  - rewrite IH by exact H2. reflexivity.
Qed.
Lemma claimed_map_spec : forall args (values : list F), StronglySorted arg_lt args -> length values = length args -> claimed_trace_map args values = List.combine args values.
Proof.
  intros args values Hs Hl. unfold claimed_trace_map.
  assert (G : forall args (values : list F) m, StronglySorted arg_lt args -> length values = length args -> Forall (fun kv => Forall (arg_lt (fst kv)) args) m ->
    fold_left (fun m kv => map_insert (fst kv) (snd kv) m) (List.combine args values) m = m ++ List.combine args values).
  { clear. induction args as [|a args IH]; intros values m Hs Hl Hm; [cbn; rewrite app_nil_r; reflexivity|]. destruct values as [|v values]; [discriminate Hl|]. cbn [List.combine fold_left fst snd].
    apply StronglySorted_inv in Hs. destruct Hs as [Hs Ha]. rewrite map_insert_last by (eapply Forall_impl; [|exact Hm]; intros [k u] Hk; inversion Hk; assumption).
    rewrite IH; [rewrite <- app_assoc; reflexivity|exact Hs|cbn in Hl; lia|]. apply Forall_app. split; [eapply Forall_impl; [|exact Hm]; intros [k u] Hk; inversion Hk; assumption|repeat constructor; exact Ha]. }
  rewrite G; [reflexivity|exact Hs|exact Hl|constructor].
Qed.
Lemma map_get_spec d : forall args (values : list F) n, StronglySorted arg_lt args -> length values = length args -> n < length args ->
  map_get (List.combine args values) (fst (nth n args d)) (snd (nth n args d)) = nth_error values n.
Proof.
  induction args as [|a args IH]; intros values n Hs Hl Hn; [cbn in Hn; lia|]. destruct values as [|v values]; [discriminate Hl|]. cbn [List.combine map_get].
  apply StronglySorted_inv in Hs. destruct Hs as [Hs Ha]. destruct n as [|n]; cbn [nth nth_error].
  - rewrite <- surjective_pairing. pose proof (key_cmp_spec a a) as K. destruct (key_cmp a a); [reflexivity|exfalso; exact (arg_lt_irrefl _ K)|exfalso; exact (arg_lt_irrefl _ K)].
  - cbn [length] in *. rewrite <- surjective_pairing. rewrite Forall_forall in Ha. specialize (Ha (nth n args d) ltac:(apply nth_In; lia)).
    pose proof (key_cmp_spec (nth n args d) a) as K. specialize (IH values n Hs ltac:(lia) ltac:(lia)).
    destruct (key_cmp (nth n args d) a); [rewrite K in Ha; exfalso; exact (arg_lt_irrefl _ Ha)| |]; exact IH.
Qed.
End Map.

(** ** References of the combined expression *)
Section Refers.
Context {F : Type} (o : ops F).
Lemma sum_refers i j : forall l (e : rexpr F), refers (fold_left EAdd l e) i j <-> refers e i j \/ exists a, In a l /\ refers a i j.
Proof.
  induction l as [|a l IH]; intros e; cbn [fold_left].
  - split; [auto|]. intros [H|(a & [] & _)]. exact H.
  - rewrite IH. cbn [refers]. split.
    + intros [[H|H]|(b & H & R)]; [tauto| |]; right; [exists a|exists b]; cbn; auto.
    + intros [H|(b & [<-|H] & R)]; [tauto|tauto|]. right. exists b. auto.
Qed.
Lemma e_sum_refers i j (l : list (rexpr F)) : refers (e_sum o l) i j <-> exists a, In a l /\ refers a i j.
Proof.
  destruct l as [|e l]; cbn [e_sum].
  - cbn. split; [tauto|]. intros (a & [] & _).
  - rewrite sum_refers. split; [intros [H|(a & H & R)]; [exists e|exists a]; cbn; auto|]. intros (a & [<-|H] & R); [auto|right; exists a; auto].
Qed.
Lemma combine_refers dbg c cs E i j : combine o dbg c cs = Some E -> refers E i j -> exists e, In e (c_exprs c) /\ refers e i j.
Proof.
  unfold combine. destruct (_ =? _); [|discriminate]. intros H R. apply bind_some in H as (t & _ & H). apply bind_some in H as (l & H & H2). injection H2 as <-.
  apply e_sum_refers in R as (a & Ha & R). apply option_all_inv in H.
  assert (G : exists x, In x (List.combine (c_exprs c) (tuples cs)) /\ combine_term o dbg (c_nrows c) t x = Some a).
  { clear R. induction H as [|x a' es l H1 H IH]; [destruct Ha|]. destruct Ha as [<-|Ha]; [exists x; cbn; auto|]. destruct (IH Ha) as (x' & I1 & I2). exists x'. cbn; auto. }
  destruct G as ([e [lo hi]] & Hin & Et). apply in_combine_l in Hin. exists e. split; [exact Hin|]. cbn [combine_term] in Et. apply bind_some in Et as (k & _ & Et). injection Et as <-. cbn [refers] in R. tauto.
Qed.
Lemma substitute_refers claims i j : forall e e', substitute_claim o claims e = Some e' -> (refers e' i j <-> refers e i j).
Proof.
  unfold substitute_claim. induction e as [|c|i0 j0|p a IH|i0 n a IH|a IHa b IHb|a IH|a IHa b IHb|a IH|a IH n]; intros e' E; cbn [map_expr bind] in E.
  - injection E as <-. reflexivity.
  - injection E as <-. reflexivity.
  - injection E as <-. reflexivity.
  - destruct (map_expr _ a) as [a'|] eqn:Ea; [|discriminate E]. cbn [bind] in E. injection E as <-. cbn [refers]. apply IH, eq_refl.
  - destruct (map_expr _ a) as [a'|] eqn:Ea; [|discriminate E]. cbn [bind] in E. apply bind_some in E as (p & _ & E). apply bind_some in E as (d & _ & E). destruct (_ <=? _)%Z; [|discriminate E]. injection E as <-. cbn [refers]. apply IH, eq_refl.
  - destruct (map_expr _ a) as [a'|] eqn:Ea; [|discriminate E]. cbn [bind] in E. destruct (map_expr _ b) as [b'|] eqn:Eb; [|discriminate E]. cbn [bind] in E. injection E as <-. cbn [refers]. rewrite (IHa a' eq_refl), (IHb b' eq_refl). reflexivity.
  - destruct (map_expr _ a) as [a'|] eqn:Ea; [|discriminate E]. cbn [bind] in E. injection E as <-. cbn [refers]. apply IH, eq_refl.
  - destruct (map_expr _ a) as [a'|] eqn:Ea; [|discriminate E]. cbn [bind] in E. destruct (map_expr _ b) as [b'|] eqn:Eb; [|discriminate E]. cbn [bind] in E. injection E as <-. cbn [refers]. rewrite (IHa a' eq_refl), (IHb b' eq_refl). reflexivity.
  - destruct (map_expr _ a) as [a'|] eqn:Ea; [|discriminate E]. cbn [bind] in E. injection E as <-. cbn [refers]. apply IH, eq_refl.
  - destruct (map_expr _ a) as [a'|] eqn:Ea; [|discriminate E]. cbn [bind] in E. injection E as <-. cbn [refers]. apply IH, eq_refl.
Qed.
Lemma substitute_args claims (c c' : constraints (F := F)) args i j : substitute o claims c = Some c' -> c_trace_arguments c' = Some args -> (exists e, In e (c_exprs c) /\ refers e i j) <-> In (i, j) args.
Proof.
  intros Es Ea. rewrite (proj2 (c_trace_arguments_spec c' args Ea)). unfold substitute in Es. destruct claims as [|p claims]; [injection Es as <-; reflexivity|].
  apply bind_some in Es as (l & El & E). injection E as <-. cbn [c_exprs]. apply option_all_inv in El. clear Ea. split.
  - intros (e & H & R). revert H. induction El as [|a b la lb E1 El IH]; intros H; [destruct H|]. destruct H as [<-|H]; [exists b; split; [left; reflexivity|apply (substitute_refers _ _ _ _ _ E1), R]|]. destruct (IH H) as (e' & I1 & I2). exists e'. split; [right; exact I1|exact I2].
  - intros (e & H & R). revert H. induction El as [|a b la lb E1 El IH]; intros H; [destruct H|]. destruct H as [<-|H]; [exists a; split; [left; reflexivity|apply (substitute_refers _ _ _ _ _ E1), R]|]. destruct (IH H) as (e' & I1 & I2). exists e'. split; [right; exact I1|exact I2].
Qed.
(** Combining and substituting keep the numbers within range. *)
Lemma combine_usizes (c : constraints (F := F)) cs E : combine o true c cs = Some E -> (forall e, In e (c_exprs c) -> usizes e) -> usizes E.
Proof.
  unfold combine. destruct (_ =? _); [|discriminate]. intros H U. apply bind_some in H as (t & _ & H). apply bind_some in H as (l & H & H2). injection H2 as <-. apply option_all_inv in H.
  assert (G : Forall usizes l).
  { assert (Hin : forall x, In x (List.combine (c_exprs c) (tuples cs)) -> usizes (fst x)) by (intros [e k] Hx; apply in_combine_l in Hx; apply U, Hx).
    revert Hin. induction H as [|[e [lo hi]] a es l H1 H IH]; intros Hin; constructor; [|apply IH; intros x Hx; apply Hin; right; exact Hx].
    cbn [combine_term] in H1. apply bind_some in H1 as (k & Hk & H1). injection H1 as <-. cbn [usizes]. pose proof (Hin (e, (lo, hi)) ltac:(left; reflexivity)) as Ue. cbn [fst] in Ue.
    split; [|exact Ue]. split; [exact I|]. split; [exact I|]. split; [|exact I]. unfold adjustment_degree in Hk. apply bind_some in Hk as (td & Htd & Hk). apply usub_true in Htd as [-> Htd].
    apply bind_some in Hk as ([num den] & Hd & Hk). apply bind_some in Hk as (s & Hs & Hk). apply uadd_true in Hs as [-> Hs]. apply usub_true in Hk as [-> Hk].
    destruct (degree_nonneg o 1 (Z.of_nat (c_nrows c) - 1)%Z ltac:(lia) ltac:(lia) e num den Ue Hd) as [N1 N2]. unfold B in Hs. lia. }
  destruct l as [|e l]; cbn [e_sum]; [exact I|]. inversion G as [|? ? Ge Gl]; subst. clear - Ge Gl. revert e Ge. induction Gl as [|a l Ha Gl IH]; intros e Ge; cbn [fold_left]; [exact Ge|]. apply IH. split; assumption.
Qed.
Lemma substitute_usizes claims : forall e e', substitute_claim o claims e = Some e' -> usizes e -> usizes e'.
Proof.
  unfold substitute_claim. induction e as [|c|i0 j0|p a IH|i0 n a IH|a IHa b IHb|a IH|a IHa b IHb|a IH|a IH n]; intros e' E U; cbn [map_expr bind usizes] in *.
  - injection E as <-. exact I.
  - injection E as <-. exact I.
  - injection E as <-. exact I.
  - destruct (map_expr _ a) as [a'|] eqn:Ea; [|discriminate E]. cbn [bind] in E. injection E as <-. cbn [usizes]. split; [apply U|]. apply (IH a' eq_refl), U.
  - destruct (map_expr _ a) as [a'|] eqn:Ea; [|discriminate E]. cbn [bind] in E. apply bind_some in E as (p & _ & E). apply bind_some in E as (d & Ed & E). destruct (_ <=? _)%Z; [|discriminate E]. injection E as <-. cbn [usizes].
    split; [intros ->; discriminate Ed|]. apply (IH a' eq_refl), U.
  - destruct (map_expr _ a) as [a'|] eqn:Ea; [|discriminate E]. cbn [bind] in E. destruct (map_expr _ b) as [b'|] eqn:Eb; [|discriminate E]. cbn [bind] in E. injection E as <-. cbn [usizes]. split; [apply (IHa a' eq_refl), U|apply (IHb b' eq_refl), U].
  - destruct (map_expr _ a) as [a'|] eqn:Ea; [|discriminate E]. cbn [bind] in E. injection E as <-. cbn [usizes]. apply (IH a' eq_refl), U.
  - destruct (map_expr _ a) as [a'|] eqn:Ea; [|discriminate E]. cbn [bind] in E. destruct (map_expr _ b) as [b'|] eqn:Eb; [|discriminate E]. cbn [bind] in E. injection E as <-. cbn [usizes]. split; [apply (IHa a' eq_refl), U|apply (IHb b' eq_refl), U].
  - destruct (map_expr _ a) as [a'|] eqn:Ea; [|discriminate E]. cbn [bind] in E. injection E as <-. cbn [usizes]. apply (IH a' eq_refl), U.
  - destruct (map_expr _ a) as [a'|] eqn:Ea; [|discriminate E]. cbn [bind] in E. injection E as <-. cbn [usizes]. split; [apply U|]. apply (IH a' eq_refl), U.
Qed.
End Refers.

Lemma Forall2_len {A C} (P : A -> C -> Prop) l r : Forall2 P l r -> length l = length r.
Proof. induction 1; cbn; congruence. Qed.
Section Oods.
Context {F : Type} (o : ops F) (L : lawful o) (e : engine F) (M : nat) (w : nat -> F) (SD : sound o e M w).
Add Field Ffield2 : (law_field o L).
Declare Scope ffO. Delimit Scope ffO with g.
Local Notation "0" := (f0 o) : ffO. Local Notation "1" := (f1 o) : ffO. Local Notation "x + y" := (fadd o x y) : ffO. Local Notation "x - y" := (fsub o x y) : ffO.
Local Notation "x * y" := (fmul o x y) : ffO. Local Notation "x ^ n" := (fpw o x n) : ffO.

Lemma w_mod k n : k <= M -> (w k ^ (n mod 2 ^ k) = w k ^ n)%g.
Proof.
  intros Hk. pose proof (pow2_pos k) as P. rewrite (Nat.div_mod n (2 ^ k)) at 2 by lia. rewrite (fpw_add o L), (fpw_mul o L), (w_one o e M w SD k Hk), (fpw_one o L). ring.
Qed.
(** The offset [j] stands for multiplication by the row step to the power j, counted modulo the length. *)
Lemma pow_offset_spec dbg k j : k <= M -> (- 2 ^ 63 < j < 2 ^ 63)%Z -> pow_offset o dbg (w k) j = Some (w k ^ Z.to_nat (j mod 2 ^ Z.of_nat k))%g.
Proof.
  intros Hk Hj. destruct (C20_pow_isize F o dbg (w k) j L Hj) as (r & E & H1 & _ & H3). unfold pow_offset. rewrite E. cbn [bind]. pose proof (pow2_pos k) as P.
  assert (Ep : (2 ^ Z.of_nat k)%Z = Z.of_nat (2 ^ k)) by (rewrite Nat2Z.inj_pow; reflexivity).
  destruct (Z.le_gt_cases 0 j) as [Hp|Hn].
  - rewrite (H1 Hp). f_equal. rewrite <- (fpw_N o), Z_N_nat. rewrite Ep. rewrite Z2Nat.inj_mod by lia. rewrite Nat2Z.id. symmetry. apply w_mod, Hk.
  - destruct (H3 ltac:(lia) (w_neq_0 o L e M w SD k Hk)) as (b & -> & Eb). f_equal. rewrite <- (fpw_N o), Z_N_nat in Eb.
    apply (fmul_cancel_l o L (w k ^ Z.to_nat (- j))%g); [apply (fpw_neq_0 o L), (w_neq_0 o L e M w SD k Hk)|]. transitivity (b * w k ^ Z.to_nat (- j))%g; [ring|]. rewrite Eb, <- (fpw_add o L), <- w_mod by exact Hk.
    transitivity (w k ^ 0)%g; [reflexivity|]. f_equal. apply Nat2Z.inj. rewrite Nat2Z.inj_mod, Nat2Z.inj_add, !Z2Nat.id, <- Ep by (rewrite ?Ep; try apply Z.mod_pos_bound; lia).
    rewrite Z.add_mod_idemp_r by (rewrite Ep; lia). replace (- j + j)%Z with 0%Z by lia. rewrite Z.mod_0_l by (rewrite Ep; lia). reflexivity.
Qed.

(** ** Splitting a polynomial *)
Lemma every_S d i l n : i < d -> every o d i l (S n) = nth i l (f0 o) :: every o d i (skipn d l) n.
Proof.
  intros H. unfold every. cbn [seq map]. rewrite Nat.mul_0_r, Nat.add_0_r. f_equal. rewrite <- seq_shift, map_map. apply map_ext. intros j. rewrite nth_skipn. f_equal. lia.
Qed.
Lemma split_eval d x : forall n l, length l = d * n -> peval o l x = fsum o (map (fun i => x ^ i * peval o (every o d i l n) (x ^ d))%g (seq 0 d)).
Proof.
  induction n as [|n IH]; intros l Hl.
  - rewrite Nat.mul_0_r in Hl. destruct l; [|discriminate Hl]. rewrite peval_nil. transitivity (fsum o (map (fun i => (0 * x ^ i)%g) (seq 0 d))); [rewrite (fsum_map_mul o L); ring|]. apply fsum_map_ext. intros i _. unfold every. cbn [seq map]. rewrite peval_nil. ring.
  - rewrite <- (firstn_skipn d l) at 1. rewrite (peval_app o L). assert (Lf : length (firstn d l) = d) by (rewrite firstn_length; nia). rewrite Lf, (IH (skipn d l)) by (rewrite skipn_length; nia).
    rewrite <- (fsum_map_mul o L). unfold peval at 1. rewrite Lf, <- (fsum_map_add o L). apply fsum_map_ext. intros i Hi. apply in_seq in Hi. rewrite nth_firstn by lia. rewrite every_S by lia. rewrite (peval_cons o L). ring.
Qed.
Lemma from_constraint_values_spec z : forall values power result, from_constraint_values o power result values z = (result + power * peval o values z)%g.
Proof. induction values as [|v values IH]; intros power result; cbn [from_constraint_values]; [rewrite peval_nil; ring|]. rewrite IH, (peval_cons o L). ring. Qed.
Lemma map_nth_seq (l : list F) : map (fun i => nth i l (f0 o)) (seq 0 (length l)) = l.
Proof. apply (list_ext0 o); [rewrite map_length, seq_length; reflexivity|]. intros i Hi. rewrite map_length, seq_length in Hi. rewrite (nth_indep _ (f0 o) (nth 0 l (f0 o))) by (rewrite map_length, seq_length; exact Hi). rewrite (map_nth (fun i => nth i l (f0 o))). rewrite seq_nth by exact Hi. reflexivity. Qed.

(** ** From values to constraint polynomials *)
Definition scaled (s : F) (p : list F) : list F := map (fun j => nth j p (f0 o) * s ^ j)%g (seq 0 (length p)).
Lemma scaled_nth s p j : j < length p -> nth j (scaled s p) (f0 o) = (nth j p (f0 o) * s ^ j)%g.
Proof. intros H. unfold scaled. rewrite (nth_indep _ (f0 o) ((fun j => nth j p (f0 o) * s ^ j)%g 0)) by (rewrite map_length, seq_length; exact H). rewrite (map_nth (fun j => nth j p (f0 o) * s ^ j)%g), seq_nth by exact H. reflexivity. Qed.
Lemma scaled_length s p : length (scaled s p) = length p. Proof. unfold scaled. rewrite map_length, seq_length. reflexivity. Qed.
Lemma scaled_eval s p x : peval o (scaled s p) x = peval o p (s * x)%g.
Proof. unfold peval. rewrite scaled_length. apply fsum_map_ext. intros i Hi. apply in_seq in Hi. rewrite scaled_nth by lia. rewrite (fpw_mul_base o L). ring. Qed.
Lemma shift_out_spec g : forall l f, length (shift_out o f g l) = length l /\ forall i, i < length l -> nth i (shift_out o f g l) (f0 o) = (nth i l (f0 o) * (f * g ^ i))%g.
Proof.
  induction l as [|y l IH]; intros f; cbn [shift_out length]; [split; [reflexivity|]; intros i Hi; lia|]. destruct (IH (f * g)%g) as [I1 I2]. split; [rewrite I1; reflexivity|]. intros [|i] Hi; cbn [nth fpw]; [ring|]. rewrite I2 by lia. ring.
Qed.
Lemma constraint_polynomials_spec k a C values : k + a <= M -> length C = 2 ^ (k + a) -> length values = 2 ^ (k + a) ->
  (forall i, i < 2 ^ (k + a) -> nth i values (f0 o) = peval o C (egen e * w (k + a)%nat ^ i)%g) ->
  constraint_polynomials o e values (2 ^ a) (2 ^ k) = Some (map (fun i => every o (2 ^ a) i C (2 ^ k)) (seq 0 (2 ^ a))).
Proof.
  intros Hm LC Lv Hv. pose proof (s_max _ _ _ _ SD) as HM. pose proof (pow2_pos a) as Pa. pose proof (s_gen _ _ _ _ SD) as Ng. unfold constraint_polynomials.
  destruct (e_ifft_spec o L e M w SD (k + a) (scaled (egen e) C) values Hm ltac:(rewrite scaled_length; exact LC) Lv ltac:(intros i Hi; rewrite scaled_eval; apply Hv, Hi)) as (u & -> & Lu & Hu). cbn [bind].
  destruct (permute_spec (f0 o) (edbg e) (k + a) u ltac:(lia) Lu) as (p & -> & Lp & Hp). cbn [bind].
  rewrite (inv_opt_ne o L _ Ng). cbn [bind]. destruct (shift_out_spec (finv o (egen e)) p (f1 o)) as [Ls Hs].
  assert (Es : shift_out o (f1 o) (finv o (egen e)) p = C).
  { apply (list_ext0 o); [congruence|]. rewrite Ls, Lp. intros i Hi. rewrite Hs, Hp, Hu, rev_rev, scaled_nth by (try apply rev_lt; lia).
    transitivity (nth i C (f0 o) * (egen e * finv o (egen e)) ^ i)%g; [rewrite (fpw_mul_base o L); ring|]. rewrite (finv_r o L _ Ng), (fpw_one o L). ring. }
  rewrite Es. replace (2 ^ a * 2 ^ k) with (length C) by (rewrite LC, Nat.pow_add_r; lia). rewrite Nat.ltb_irrefl, firstn_all, skipn_all. cbn [forallb].
  destruct (Nat.eqb_spec (2 ^ a) 0); [lia|]. replace (length C / 2 ^ a) with (2 ^ k) by (rewrite LC, Nat.pow_add_r, Nat.div_mul; lia).
  assert (G : forall l, option_all (map (poly_new (F := F)) (map (fun i => every o (2 ^ a) i C (2 ^ k)) l)) = Some (map (fun i => every o (2 ^ a) i C (2 ^ k)) l)).
  { induction l as [|i l IH]; [reflexivity|]. cbn [map option_all]. unfold poly_new at 1. replace (length (every o (2 ^ a) i C (2 ^ k))) with (2 ^ k) by (unfold every; rewrite map_length, seq_length; reflexivity).
    rewrite is_pow2. cbn [bind]. rewrite IH. reflexivity. }
  apply G.
Qed.
Lemma recombine k a C z : k + a <= M -> length C = 2 ^ (k + a) -> let H := map (fun i => every o (2 ^ a) i C (2 ^ k)) (seq 0 (2 ^ a)) in
  oods_value_from_constraint_values o (oods_constraint_values o H z) z = peval o C z.
Proof.
  intros Hm LC H. unfold oods_value_from_constraint_values. rewrite from_constraint_values_spec. unfold oods_constraint_values, oods_point_pow. unfold H. rewrite map_length, seq_length, map_map.
  rewrite (e_pow o L e M w SD) by (apply Nat.pow_le_mono_r; lia).
  rewrite (split_eval (2 ^ a) z (2 ^ k) C) by (rewrite LC, Nat.pow_add_r; lia). unfold peval at 1. rewrite map_length, seq_length. transitivity (fsum o (map (fun i => nth i (map (fun x => evaluate o (every o (2 ^ a) x C (2 ^ k)) (z ^ 2 ^ a)%g) (seq 0 (2 ^ a))) (f0 o) * z ^ i)%g (seq 0 (2 ^ a)))); [ring|].
  apply fsum_map_ext. intros i Hi. apply in_seq in Hi. set (f := fun x => evaluate o (every o (2 ^ a) x C (2 ^ k)) (z ^ 2 ^ a)%g). rewrite (nth_indep _ (f0 o) (f 0)) by (rewrite map_length, seq_length; lia). rewrite map_nth, seq_nth by lia. unfold f. rewrite (evaluate_spec o L). cbn [Nat.add]. ring.
Qed.

(** ** The trace on the coset *)
Lemma extract_spec k b a (tp ldes : list (list F)) : k + b <= M -> a <= b -> tp <> [] -> Forall (fun p => length p = 2 ^ k) tp ->
  option_all (map (fun p => low_degree_extension o e p (2 ^ b)) tp) = Some ldes ->
  exists t, extract_trace_coset o e ldes (2 ^ (k + a)) = Some t /\ t_rows t = 2 ^ (k + a) /\ t_cols t = length tp /\
  forall i j, i < 2 ^ (k + a) -> j < length tp -> t_get t i j = Some (peval o (nth j tp []) (egen e * w (k + a)%nat ^ i)%g).
Proof.
  intros Hm Hab Nt Htp El. pose proof (s_max _ _ _ _ SD) as HM. apply option_all_inv in El. pose proof (Forall2_len _ _ _ El) as Ll.
  assert (Hl : forall j, j < length tp -> exists v, nth_error ldes j = Some v /\ length v = 2 ^ (k + b) /\ forall m, m < 2 ^ (k + b) -> nth m v (f0 o) = peval o (nth j tp []) (egen e * w (k + b)%nat ^ rev_bits (k + b) m)%g).
  { clear Ll. revert Htp. clear Nt. induction El as [|p v tp' ldes' E1 El IH]; intros Htp j Hj; [cbn in Hj; lia|]. inversion Htp as [|? ? Lp Htp']; subst. destruct j as [|j].
    - exists v. destruct (lde_spec o L e M w SD k b p Hm Lp) as (v' & Ev & Lv & Hv). rewrite Ev in E1. injection E1 as <-. split; [reflexivity|]. split; [exact Lv|exact Hv].
    - cbn [length] in Hj. apply (IH Htp' j). lia. }
  assert (HH : exists l0 r, ldes = l0 :: r /\ length l0 = 2 ^ (k + b)).
  { destruct (Hl 0) as (v & E & Lv & _); [destruct tp; [contradiction|cbn; lia]|]. destruct ldes as [|l0 r]; [discriminate E|]. injection E as ->. exists v, r. split; [reflexivity|exact Lv]. }
  destruct HH as (l0 & r & E0 & L0). unfold extract_trace_coset. destruct ldes as [|l0' r'] eqn:Eld; [discriminate E0|]. injection E0 as -> ->. rewrite <- Eld in *. rewrite L0, <- Ll. clear l0 r L0 Eld. pose proof (pow2_pos (k + a)) as Pa.
  destruct (Nat.eqb_spec (2 ^ (k + a)) 0); [lia|]. set (R := 2 ^ (k + a)) in *.
  destruct (C46_cells F o R (length tp)) as (Sh0 & _ & HS).
  set (G := fun i j => peval o (nth j tp []) (egen e * w (k + a)%nat ^ i)%g).
  edestruct (for_range (fun i t => shaped t /\ t_rows t = R /\ t_cols t = length tp /\ forall i' j', i' < i -> i' < R -> j' < length tp -> t_get t i' j' = Some (G i' j')) ) as (t & E & Sh & ER & EC & HG); cycle 2.
  - exists t. split; [exact E|]. split; [exact ER|]. split; [exact EC|]. intros i j Hi Hj. apply HG; lia.
  - split; [exact Sh0|]. split; [reflexivity|]. split; [reflexivity|]. intros. lia.
  - intros i t [Hi0 Hi] (Sh & ER & EC & HG). cbn [Nat.add] in Hi. cbv beta.
    assert (Ei : i * 2 ^ (k + b) / R = i * 2 ^ (b - a)). { replace (k + b) with ((b - a) + (k + a)) by lia. rewrite Nat.pow_add_r, Nat.mul_assoc. apply Nat.div_mul. lia. }
    assert (Hib : i * 2 ^ (b - a) < 2 ^ (k + b)). { replace (k + b) with ((k + a) + (b - a)) by lia. rewrite Nat.pow_add_r. fold R. pose proof (pow2_pos (b - a)). nia. }
    rewrite Ei, permute_index_spec by lia. cbn [bind].
    edestruct (for_range (fun j t => shaped t /\ t_rows t = R /\ t_cols t = length tp /\ forall i' j', i' < i \/ i' = i /\ j' < j -> i' < R -> j' < length tp -> t_get t i' j' = Some (G i' j'))) as (t' & E & Sh' & ER' & EC' & HG'); cycle 2.
    + exists t'. split; [exact E|]. split; [exact Sh'|]. split; [exact ER'|]. split; [exact EC'|]. intros i' j' H1 H2 H3. apply HG'; lia.
    + split; [exact Sh|]. split; [exact ER|]. split; [exact EC|]. intros i' j' [H|[_ H]] H2 H3; [apply HG; assumption|lia].
    + intros j s [_ Hj] (Ss & Rs & Cs & Hs). cbn [Nat.add] in Hj. cbv beta. destruct (Hl j Hj) as (v & -> & Lv & Hv). cbn [bind].
      rewrite (nth_error_nth' v (f0 o)) by (rewrite Lv; apply rev_lt). cbn [bind].
      rewrite Hv by apply rev_lt. rewrite rev_rev by exact Hib. replace (w (k + b)%nat ^ (i * 2 ^ (b - a)))%g with (w (k + a)%nat ^ i)%g.
      2:{ rewrite <- (w_pow o L e M w SD (k + a) (b - a)) by lia. replace (k + a + (b - a)) with (k + b) by lia. rewrite <- (fpw_mul o L). f_equal. lia. }
      destruct (proj2 (HS s i j (G i j) Ss) ltac:(lia) ltac:(lia)) as (s' & E & Ss' & Rs' & Cs' & Hg & Ho). exists s'. split; [exact E|]. split; [exact Ss'|]. split; [congruence|]. split; [congruence|].
      intros i' j' H1 H2 H3. destruct (Nat.eq_dec i' i) as [->|Ni]; [destruct (Nat.eq_dec j' j) as [->|Nj]; [exact Hg|]|].
      * rewrite Ho by congruence. apply Hs; lia.
      * rewrite Ho by congruence. apply Hs; lia.
Qed.
Lemma option_all_nth {A} (d : A) (f : nat -> option A) : forall n l, option_all (map f (seq 0 n)) = Some l -> length l = n /\ forall i, i < n -> f i = Some (nth i l d).
Proof.
  assert (G : forall n m l, option_all (map f (seq m n)) = Some l -> length l = n /\ forall i, i < n -> f (m + i) = Some (nth i l d)).
  { induction n as [|n IH]; intros m l E; cbn [seq map option_all] in E; [injection E as <-; split; [reflexivity|]; intros i Hi; lia|].
    apply bind_some in E as (x & E1 & E). apply bind_some in E as (r & E2 & E). injection E as <-. destruct (IH (S m) r E2) as [I1 I2]. split; [cbn; rewrite I1; reflexivity|].
    intros [|i] Hi; [rewrite Nat.add_0_r; exact E1|]. cbn [nth]. rewrite <- I2 by lia. f_equal. lia. }
  intros n l E. exact (G n 0 l E).
Qed.
Lemma coset_index k a row j : k + a <= M -> (w (k + a)%nat ^ Z.to_nat ((Z.of_nat row + Z.of_nat (2 ^ a) * j) mod Z.of_nat (2 ^ (k + a))) = w k ^ Z.to_nat (j mod Z.of_nat (2 ^ k)) * w (k + a)%nat ^ row)%g.
Proof.
  intros Hm. rewrite <- (w_pow o L e M w SD k a Hm), <- (fpw_mul o L), <- (fpw_add o L). rewrite <- (w_mod (k + a) (_ + row)) by exact Hm. f_equal. pose proof (pow2_pos (k + a)) as P. pose proof (pow2_pos k) as P1. pose proof (pow2_pos a) as P2.
  apply Nat2Z.inj. rewrite Z2Nat.id by (apply Z.mod_pos_bound; lia). rewrite Nat2Z.inj_mod, Nat2Z.inj_add, Nat2Z.inj_mul, Z2Nat.id by (apply Z.mod_pos_bound; lia).
  replace (Z.of_nat (2 ^ (k + a))) with (Z.of_nat (2 ^ a) * Z.of_nat (2 ^ k))%Z by (rewrite Nat.pow_add_r; lia). set (n := Z.of_nat (2 ^ k)). set (d := Z.of_nat (2 ^ a)). assert (Hn : (0 < n)%Z) by (unfold n; lia). assert (Hd : (0 < d)%Z) by (unfold d; lia).
  rewrite (Z.div_mod j n) at 1 by lia. replace (Z.of_nat row + d * (n * (j / n) + j mod n))%Z with ((d * (j mod n) + Z.of_nat row) + (j / n) * (d * n))%Z by ring. apply Z.mod_add. nia.
Qed.
Lemma coset_values_spec k a tp t E values : k + a <= M -> t_rows t = 2 ^ (k + a) -> usizes E -> (forall i j, refers E i j -> i < length tp) ->
  (forall i j, i < 2 ^ (k + a) -> j < length tp -> t_get t i j = Some (peval o (nth j tp []) (egen e * w (k + a)%nat ^ i)%g)) ->
  coset_values o e t (2 ^ a) E = Some values -> length values = 2 ^ (k + a) /\ forall row, row < 2 ^ (k + a) ->
  value o (egen e * w (k + a)%nat ^ row)%g (fun i j => Some (peval o (nth i tp []) (w k ^ Z.to_nat (j mod Z.of_nat (2 ^ k)) * (egen e * w (k + a)%nat ^ row))%g)) E (nth row values (f0 o)).
Proof.
  intros Hm ER UE HR HT Ev. unfold coset_values in Ev. rewrite ER, (s_root _ _ _ _ SD (k + a) Hm) in Ev. cbn [bind] in Ev. destruct (option_all_nth (f0 o) _ _ _ Ev) as [Lv Hv]. split; [exact Lv|]. intros row Hr. specialize (Hv row Hr). cbv beta in Hv.
  rewrite (e_pow o L e M w SD) in Hv by (pose proof (Nat.pow_le_mono_r 2 (k + a) M); lia). apply (eval_value o L _ _ _ _ UE) in Hv. revert Hv. apply (value_ext_on o). intros i j R. unfold coset_trace. rewrite ER.
  pose proof (pow2_pos (k + a)). rewrite HT; [|apply Nat2Z.inj_lt; rewrite Z2Nat.id; apply Z.mod_pos_bound; lia|apply (HR i j R)]. f_equal. f_equal. rewrite (coset_index k a row j Hm). ring.
Qed.
(** ** The quotient polynomial *)
Lemma divide_into p z c target : length target = length p -> let t' := divide_out_point_into o p z c target in length t' = length p /\
  forall X, X <> z -> peval o t' X = (peval o target X + c * ((peval o p X - peval o p z) * finv o (X - z)))%g.
Proof.
  intros Hl t'. destruct (C42_divide F o L p z c target Hl) as (q & Lq & _ & Et & Eq). fold t' in Et.
  assert (Lt : length t' = length p) by (rewrite Et, map_length, combine_length; lia). split; [exact Lt|]. intros X Nz.
  assert (Nd : (X - z)%g <> f0 o) by (intros H; apply Nz; apply (proj1 (fsub_0_iff o L _ _)), H).
  transitivity (peval o target X + c * peval o q X)%g.
  - unfold peval. rewrite Lt, Hl, Lq, <- (fsum_map_mul o L), <- (fsum_map_add o L). apply fsum_map_ext. intros i Hi. apply in_seq in Hi. rewrite Et.
    rewrite (nth_indep _ (f0 o) ((fun tq => fst tq + c * snd tq)%g (f0 o, f0 o))) by (rewrite map_length, combine_length; lia).
    rewrite (map_nth (fun tq => fst tq + c * snd tq)%g). rewrite combine_nth by lia. cbn [fst snd]. ring.
  - rewrite <- Eq. f_equal. f_equal. transitivity ((X - z) * finv o (X - z) * peval o q X)%g; [rewrite (finv_r o L _ Nd); ring|ring].
Qed.
(** One term of the quotient *)
Definition qterm (p : list F) (z c X : F) : F := (c * ((peval o p X - peval o p z) * finv o (X - z)))%g.
Lemma trace_quotients k tp g args z dbg : Forall (fun p => length p = 2 ^ k) tp -> (forall i j, In (i, j) args -> i < length tp /\ exists s, pow_offset o dbg g j = Some s) ->
  forall cs target, length target = 2 ^ k -> exists t',
  for_each (List.combine args cs) (fun t ac => let? p := nth_error tp (fst (fst ac)) in let? s := pow_offset o dbg g (snd (fst ac)) in Some (divide_out_point_into o p (z * s)%g (snd ac) t)) target = Some t' /\ length t' = 2 ^ k /\
  forall X, (forall i j s, In (i, j) args -> pow_offset o dbg g j = Some s -> X <> (z * s)%g) ->
  peval o t' X = (peval o target X + fsum o (map (fun ac => match pow_offset o dbg g (snd (fst ac)) with Some s => qterm (nth (fst (fst ac)) tp []) (z * s)%g (snd ac) X | None => f0 o end) (List.combine args cs)))%g.
Proof.
  intros Htp. induction args as [|[i j] args IH]; intros Ha cs target Lt.
  - exists target. split; [reflexivity|]. split; [exact Lt|]. intros X _. cbn [List.combine map]. unfold fsum. cbn [fold_right]. ring.
  - destruct cs as [|c cs]; [exists target; split; [reflexivity|]; split; [exact Lt|]; intros X _; cbn [List.combine map]; unfold fsum; cbn [fold_right]; ring|].
    cbn [List.combine for_each map fst snd]. destruct (Ha i j ltac:(left; reflexivity)) as [Hi (s & Es)]. rewrite (nth_error_nth' tp []) by exact Hi. cbn [bind]. rewrite Es. cbn [bind].
    set (p := nth i tp []). assert (Lp : length p = 2 ^ k) by (rewrite Forall_forall in Htp; apply Htp, nth_In, Hi). destruct (divide_into p (z * s)%g c target ltac:(congruence)) as [L1 H1].
    destruct (IH ltac:(intros i' j' H; apply Ha; right; exact H) cs (divide_out_point_into o p (z * s)%g c target) ltac:(congruence)) as (t' & E & Lt' & Ht'). exists t'. split; [exact E|]. split; [exact Lt'|].
    intros X HX. rewrite Ht' by (intros i' j' s' H; apply (HX i' j' s'); right; exact H). rewrite H1 by (apply (HX i j s); [left; reflexivity|exact Es]). rewrite fsum_cons. unfold qterm at 2. fold p. ring.
Qed.
Lemma constraint_quotients k y : forall H cs target, Forall (fun p => length p = 2 ^ k) H -> length target = 2 ^ k ->
  let t' := fold_left (fun t pc => divide_out_point_into o (fst pc) y (snd pc) t) (List.combine H cs) target in length t' = 2 ^ k /\
  forall X, X <> y -> peval o t' X = (peval o target X + fsum o (map (fun pc => qterm (fst pc) y (snd pc) X) (List.combine H cs)))%g.
Proof.
  induction H as [|p H IH]; intros cs target HH Lt.
  - split; [exact Lt|]. intros X _. cbn [List.combine fold_left map]. unfold fsum. cbn [fold_right]. ring.
  - destruct cs as [|c cs]; [split; [exact Lt|]; intros X _; cbn [List.combine fold_left map]; unfold fsum; cbn [fold_right]; ring|].
    cbn [List.combine fold_left map fst snd]. inversion HH as [|? ? Lp HH']; subst. destruct (divide_into p y c target ltac:(congruence)) as [L1 H1]. destruct (IH cs (divide_out_point_into o p y c target) HH' ltac:(congruence)) as [L2 H2]. split; [exact L2|].
    intros X NX. rewrite H2 by exact NX. rewrite H1 by exact NX. rewrite fsum_cons. unfold qterm at 2. ring.
Qed.
End Oods.
Section Ring.
Context {F : Type} (o : ops F) (L : lawful o).
Add Field Ffield3 : (law_field o L).
Lemma fmul_zero_r a : fmul o a (f0 o) = f0 o. Proof. ring. Qed.
Lemma oods_ring p x a b : fmul o p (fadd o a (fmul o x b)) = fadd o (fmul o p a) (fmul o (fmul o x p) b). Proof. ring. Qed.
Lemma oods_ring1 a : fadd o (f0 o) (fmul o (f1 o) a) = fmul o (f1 o) a. Proof. ring. Qed.
Lemma oods_comm a b : fmul o a b = fmul o b a. Proof. ring. Qed.
Lemma combine_app {A C} : forall (a a' : list A) (b b' : list C), length a = length b -> List.combine (a ++ a') (b ++ b') = List.combine a b ++ List.combine a' b'.
Proof. induction a as [|x a IH]; intros a' [|y b] b' H; try discriminate H; [reflexivity|]. cbn. rewrite IH by (cbn in H; lia). reflexivity. Qed.
Lemma option_all_app {A} : forall (a b : list (option A)) x y, option_all a = Some x -> option_all b = Some y -> option_all (a ++ b) = Some (x ++ y).
Proof.
  induction a as [|u a IH]; intros b x y Ea Eb; cbn [app option_all] in *; [injection Ea as <-; exact Eb|]. apply bind_some in Ea as (u' & -> & Ea). apply bind_some in Ea as (r & Er & Ea). injection Ea as <-. cbn [bind]. rewrite (IH b r y Er Eb). reflexivity.
Qed.
(** The recombined polynomial has as many coefficients as the parts together. *)
Lemma recombined_poly (H : list (list F)) len : Forall (fun p => length p <= len) H -> 0 < len ->
  exists R, length R <= length H * len /\ forall x, peval o R x = fsum o (map (fun i => fmul o (fpw o x i) (peval o (nth i H []) (fpw o x (length H)))) (seq 0 (length H))).
Proof.
  intros HH Hl. set (d := length H). set (R := map (fun m => nth (m / d) (nth (m mod d) H []) (f0 o)) (seq 0 (d * len))). exists R.
  assert (LR : length R = d * len) by (unfold R; rewrite map_length, seq_length; reflexivity). split; [rewrite LR; lia|]. intros x. rewrite (split_eval o L d x len R LR). apply fsum_map_ext. intros i Hi. apply in_seq in Hi. f_equal.
  rewrite Forall_forall in HH. specialize (HH (nth i H []) ltac:(apply nth_In; unfold d in *; lia)). set (p := nth i H []) in *.
  transitivity (peval o (p ++ repeat (f0 o) (len - length p)) (fpw o x d)); [|rewrite (peval_app o L), (peval_zeros o L); ring].
  apply (peval_ext o); [unfold every; rewrite map_length, seq_length, app_length, repeat_length; lia|]. unfold every. rewrite map_length, seq_length. intros j Hj.
  rewrite (nth_indep _ (f0 o) ((fun j => nth (i + d * j) R (f0 o)) 0)) by (rewrite map_length, seq_length; lia). rewrite (map_nth (fun j => nth (i + d * j) R (f0 o))), seq_nth by lia. cbn [Nat.add].
  assert (Hidx : i + d * j < d * len) by nia. unfold R. rewrite (nth_indep _ (f0 o) ((fun m => nth (m / d) (nth (m mod d) H []) (f0 o)) 0)) by (rewrite map_length, seq_length; exact Hidx).
  rewrite (map_nth (fun m => nth (m / d) (nth (m mod d) H []) (f0 o))), seq_nth by exact Hidx. cbn [Nat.add].
  replace ((i + d * j) / d) with j by (rewrite Nat.mul_comm, Nat.div_add, Nat.div_small by lia; lia). replace ((i + d * j) mod d) with i by (rewrite Nat.mul_comm, Nat.mod_add, Nat.mod_small by lia; lia). fold p.
  destruct (Nat.lt_ge_cases j (length p)); [rewrite app_nth1 by assumption; reflexivity|]. rewrite app_nth2, nth_repeat by assumption. apply nth_overflow. assumption.
Qed.
Lemma quotient_sum a b : fadd o (fadd o (f0 o) a) b = fadd o a b. Proof. ring. Qed.
Lemma oods_assoc a b c : fmul o a (fmul o b c) = fmul o b (fmul o a c). Proof. ring. Qed.
Lemma oods_one a : fmul o (f1 o) a = a. Proof. ring. Qed.
Lemma oods_neg_zero a : fadd o (f0 o) (fneg o a) = f0 o -> a = f0 o.
Proof. intros C. transitivity (fneg o (fadd o (f0 o) (fneg o a))); [ring|]. rewrite C. ring. Qed.
Lemma oods_zero_pow n : 0 < n -> fadd o (fpw o (f0 o) n) (fneg o (f1 o)) = f0 o -> f1 o = f0 o.
Proof. intros Hn C. destruct n as [|n]; [lia|]. cbn [fpw] in C. apply oods_neg_zero. transitivity (fadd o (fmul o (f0 o) (fpw o (f0 o) n)) (fneg o (f1 o))); [ring|exact C]. Qed.
End Ring.
