(** C43: the evaluation graph computes the values of the expression. *)
Require Import Field ZArith NArith Lia Bool List.
From Verif Require Import Word KnuthModel FieldSig FieldInstance FieldAlgModel FieldAlgProofs Arr FftModel PermuteProofs FftProofs StarkBase StarkInstance PolyModel TraceModel ExprModel ExprSpec ExprProofs OodsModel OodsProofs DagModel DagProofs DagShake DagSpec DagBuild.
Import ListNotations.
Open Scope nat_scope.

Section Main.
Context {F : Type} (o : ops F) (L : lawful o).
Add Field Ffield : (law_field o L).
Lemma eval_ext x (T T' : nat -> Z -> option F) : (forall i j, T i j = T' i j) -> forall ex, eval_expr o x T ex = eval_expr o x T' ex.
Proof.
  intros H. induction ex as [|c|i j|p a IH|i n a IH|a IHa b IHb|a IH|a IHa b IHb|a IH|a IH n]; cbn [eval_expr]; try reflexivity; try (rewrite IH; reflexivity); try (rewrite IHa, IHb; reflexivity). apply H.
Qed.
Lemma sub_usizes (ex : rexpr F) : usizes ex -> forall a, In a (subexpressions ex) -> usizes a.
Proof.
  induction ex as [|c|i j|p a IH|i n a IH|a IHa b IHb|a IH|a IHa b IHb|a IH|a IH n]; intros U x Hx; cbn [subexpressions] in Hx; destruct Hx as [<-|Hx]; try exact U; cbn [usizes] in U; try (destruct Hx; fail); try (apply IH; [apply U|exact Hx]).
  - apply in_app_iff in Hx as [Hx|Hx]; [apply IHa|apply IHb]; (apply U || exact Hx).
  - apply in_app_iff in Hx as [Hx|Hx]; [apply IHa|apply IHb]; (apply U || exact Hx).
Qed.
Lemma sub_refers (ex : rexpr F) i j : In (ETrace i j) (subexpressions ex) -> refers ex i j.
Proof.
  induction ex as [|c|i' j'|p a IH|i' n a IH|a IHa b IHb|a IH|a IHa b IHb|a IH|a IH n]; intros Hx; cbn [subexpressions] in Hx; destruct Hx as [Hx|Hx]; try discriminate Hx; try (destruct Hx; fail); cbn [refers]; try (apply IH; exact Hx).
  - injection Hx as <- <-. auto.
  - apply in_app_iff in Hx as [Hx|Hx]; [left; apply IHa|right; apply IHb]; exact Hx.
  - apply in_app_iff in Hx as [Hx|Hx]; [left; apply IHa|right; apply IHb]; exact Hx.
Qed.
Context (e : engine F) (M : nat) (w : nat -> F) (SD : sound o e M w).
Lemma is_pow2_ok k : is_pow2 (2 ^ k) = true.
Proof. unfold is_pow2. rewrite Nat.log2_pow2 by lia. rewrite Nat.eqb_refl, andb_true_r. destruct (Nat.eqb_spec (2 ^ k) 0) as [H|]; [|reflexivity]. pose proof (pow2_pos k). lia. Qed.
Lemma cell_read (t : table F) bl i j r : t_rows t <> 0 -> (- Z.of_nat (t_rows t) <= Z.of_nat bl * j)%Z -> read_trace t bl r i j = cell t bl r i j.
Proof.
  intros Hn H. unfold read_trace, cell. destruct (Z.eqb_spec (Z.of_nat (t_rows t)) 0); [lia|]. rewrite Z.rem_mod_nonneg by lia.
  replace (Z.of_nat (t_rows t) + Z.of_nat r + Z.of_nat bl * j)%Z with (Z.of_nat r + Z.of_nat bl * j + 1 * Z.of_nat (t_rows t))%Z by ring. rewrite Z_mod_plus_full.
  pose proof (Z.mod_pos_bound (Z.of_nat r + Z.of_nat bl * j) (Z.of_nat (t_rows t)) ltac:(lia)). destruct (Z.ltb_spec ((Z.of_nat r + Z.of_nat bl * j) mod Z.of_nat (t_rows t)) 0); [lia|reflexivity].
Qed.
Lemma cell_periodic (t : table F) bl r i j : cell t bl (r + t_rows t) i j = cell t bl r i j.
Proof. unfold cell. do 2 f_equal. replace (Z.of_nat (r + t_rows t) + Z.of_nat bl * j)%Z with (Z.of_nat r + Z.of_nat bl * j + 1 * Z.of_nat (t_rows t))%Z by lia. apply Z_mod_plus_full. Qed.

Lemma graph_main kseed ktrace k job c t bl E values : k <= M -> t_rows t = 2 ^ k -> c <> f0 o -> 0 < job -> job mod CHUNK = 0 -> usizes E ->
  (forall i j, refers E i j -> (- Z.of_nat (t_rows t) <= Z.of_nat bl * j)%Z) ->
  (exists h, random_value o (kseed c (2 ^ k)) (ktrace (kseed c (2 ^ k))) E h) -> no_collision o (kseed c (2 ^ k)) (ktrace (kseed c (2 ^ k))) c (w k) t bl E ->
  length values = 2 ^ k -> (forall row, row < 2 ^ k -> row_value o c (w k) t bl row E (nth row values (f0 o))) ->
  graph_values o e kseed ktrace job c t bl E = Some values.
Proof.
  intros Hk Ht Hc Hj Hjc U HO (h & Hh) NC Lv Hv. set (seed := kseed c (2 ^ k)) in *. pose proof (pow2_pos k) as P2.
  set (ev := fun r ex => eval_expr o (fmul o c (fpw o (w k) r)) (cell t bl r) ex). set (hv := fun ex => eval_expr o seed (fun i j => Some (ktrace seed i j)) ex).
  assert (EP : forall ex r, ev (r + 2 ^ k) ex = ev r ex).
  { intros ex r. unfold ev. rewrite (fpw_add o L), (w_one o e M w SD k Hk). replace (fmul o (fpw o (w k) r) (f1 o)) with (fpw o (w k) r) by ring.
    apply eval_ext. intros i j. rewrite <- Ht. apply cell_periodic. }
  assert (EM : forall ex r, ev r ex = ev (r mod 2 ^ k) ex).
  { assert (EN : forall n ex r, ev (r + n * 2 ^ k) ex = ev r ex). { induction n as [|n IH]; intros ex r; [rewrite Nat.mul_0_l, Nat.add_0_r; reflexivity|]. rewrite <- (IH ex r), <- (EP ex (r + n * 2 ^ k)). f_equal. rewrite Nat.mul_succ_l. lia. }
    intros ex r. pose proof (Nat.div_mod r (2 ^ k) ltac:(lia)) as D. transitivity (ev (r mod 2 ^ k + r / 2 ^ k * 2 ^ k) ex); [f_equal; lia|apply EN]. }
  set (v := fun r => nth (r mod 2 ^ k) values (f0 o)).
  assert (HV : forall r, ev r E = Some (v r)). { intros r. rewrite EM. apply (eval_value o L); [exact U|]. apply (Hv (r mod 2 ^ k)). apply Nat.mod_upper_bound. lia. }
  assert (HH : hv E = Some h) by (apply (eval_value o L); assumption).
  assert (US : forall a, In a (EConst (f0 o) :: EConst (f1 o) :: subexpressions E) -> usizes a) by (intros a [<-|[<-|Ha]]; [exact I|exact I|apply (sub_usizes E U a Ha)]).
  assert (NC' : forall a b h, In a (subexpressions E) -> In b (EConst (f0 o) :: EConst (f1 o) :: subexpressions E) -> hv a = Some h -> hv b = Some h -> forall r u v, ev r a = Some u -> ev r b = Some v -> u = v).
  { intros a b h' Ha Hb H1 H2 r u v' H3 H4. rewrite EM in H3, H4. pose proof (US a (or_intror (or_intror Ha))) as Ua. pose proof (US b Hb) as Ub.
    apply (NC a b h' Ha Hb) with (row := r mod 2 ^ k); [apply (eval_value o L); assumption|apply (eval_value o L); assumption|rewrite Ht; apply Nat.mod_upper_bound; lia|apply (eval_value o L); assumption|apply (eval_value o L); assumption]. }
  unfold graph_values, g_new. rewrite Ht, is_pow2_ok. cbn [bind]. fold seed. set (g0 := Graph c (2 ^ k) bl seed [] 0).
  assert (I0 : DagBuild.inv o w k c t bl seed ev hv E g0 [] []).
  { split; try reflexivity.
    - split; [reflexivity|]. intros i nd v0 p0 Hi. destruct i; discriminate Hi.
    - constructor.
    - intros i nd v0 p0 c1 off Hi. destruct i; discriminate Hi.
    - intros i E0 v0 p0 Hi. destruct i; discriminate Hi.
    - intros i E0 nd Hi. destruct i; discriminate Hi. }
  destruct (expression_ok o L e M w SD k Hk ktrace c Hc t bl seed ev hv (cell t bl) (fun r ex => eq_refl) (fun ex => eq_refl) E) with (E := E) (g := g0) (es := @nil (rexpr F)) (vs := @nil ((nat -> F) * nat)) (v := v) (h := h)
    as (g1 & i1 & es1 & vs1 & E1 & I1 & X1 & N1).
  { intros r i j. rewrite <- Ht. apply cell_periodic. }
  { intros i j Hi r. apply cell_read; [lia|]. apply (HO i j), sub_refers, Hi. }
  { exact NC'. }
  { exact I0. }
  { apply sub_self. }
  { exact U. }
  { exact HV. }
  { exact HH. }
  rewrite E1. cbn [bind]. destruct N1 as (nd & v1 & p1 & A1 & A2 & A3 & _).
  destruct (lookup_tables_ok o L e M w SD k Hk g1 vs1 (i_good _ _ _ _ _ _ _ _ _ _ _ _ _ I1) (i_shaped _ _ _ _ _ _ _ _ _ _ _ _ _ I1) (i_size _ _ _ _ _ _ _ _ _ _ _ _ _ I1)) as (g2 & E2 & G2 & S2 & Z2 & B2 & T2). rewrite E2. cbn [bind].
  destruct (tree_shake_ok o M w k Hk g2 vs1 i1 v1 p1 G2 S2 A2) as (ns & vs2 & i2 & E3 & G3 & S3 & El & T3 & _). rewrite E3. cbn [bind].
  assert (TR : trace_ok t (g_blowup g2) ns vs2). { apply T3, T2. rewrite B2, (i_bl _ _ _ _ _ _ _ _ _ _ _ _ _ I1). apply (i_trace _ _ _ _ _ _ _ _ _ _ _ _ _ I1). }
  destruct (init_ok o L e M w SD k Hk t (with_nodes g2 ns) vs2 0 G3 S3 TR eq_refl eq_refl) as (g3 & E4 & R & B4 & S4 & _). rewrite E4. cbn [bind]. destruct R as (G4 & T4 & _).
  rewrite (graph_jobs_ok o L e M w SD k Hk job g3 vs2 t v1 p1 (2 ^ k) G4 S4 T4 El Hj Hjc).
  - f_equal. apply (list_ext0 o); [rewrite map_length, seq_length; congruence|]. rewrite map_length, seq_length. intros i Hi. rewrite map_seq_nth by exact Hi. rewrite A3. unfold v. rewrite Nat.mod_small by exact Hi. reflexivity.
  - eapply pow_lt_B; [exact SD|exact Hk|exact Hk].
Qed.
End Main.

(** The graph of an expression, its periodic subexpressions put into tables and the unused nodes removed, gives in
    every row of the coset the value of the expression there, whatever the number of rows per job. Hypotheses: the
    expression has a value in every row and at the pseudorandom point, no two subexpressions collide there, and no
    offset reaches back by more than the length of the trace. *)
Theorem C43_graph : forall F (o : ops F), lawful o -> forall e M w, sound o e M w -> forall kseed ktrace k job c t blowup ex values,
  k <= M -> t_rows t = 2 ^ k -> c <> f0 o -> 0 < job -> job mod 16 = 0 -> usizes ex ->
  (forall i j, refers ex i j -> (- Z.of_nat (t_rows t) <= Z.of_nat blowup * j)%Z) ->
  (exists h, random_value o (kseed c (2 ^ k)) (ktrace (kseed c (2 ^ k))) ex h) -> no_collision o (kseed c (2 ^ k)) (ktrace (kseed c (2 ^ k))) c (w k) t blowup ex ->
  length values = 2 ^ k -> (forall row, row < 2 ^ k -> row_value o c (w k) t blowup row ex (nth row values (f0 o))) ->
  graph_values o e kseed ktrace job c t blowup ex = Some values.
Proof. intros F o L e M w SD. exact (graph_main o L e M w SD). Qed.
Print Assumptions C43_graph.

(** In the prover: the graph gives what evaluating the combined constraint row by row gives ([coset_values], on
    which C54 is stated). *)
Theorem C43_prover : forall F (o : ops F), lawful o -> forall e M w, sound o e M w -> forall kseed ktrace k t blowup ex values,
  k <= M -> t_rows t = 2 ^ k -> usizes ex ->
  (forall i j, refers ex i j -> (- Z.of_nat (t_rows t) <= Z.of_nat blowup * j)%Z) ->
  (exists h, random_value o (kseed (egen e) (2 ^ k)) (ktrace (kseed (egen e) (2 ^ k))) ex h) ->
  no_collision o (kseed (egen e) (2 ^ k)) (ktrace (kseed (egen e) (2 ^ k))) (egen e) (w k) t blowup ex ->
  coset_values o e t blowup ex = Some values ->
  graph_values o e kseed ktrace JOB (egen e) t blowup ex = Some values.
Proof.
  intros F o L e M w SD kseed ktrace k t bl ex values Hk Ht U HO HR NC Ev. unfold coset_values in Ev. rewrite Ht, (s_root _ _ _ _ SD k Hk) in Ev. cbn [bind] in Ev.
  destruct (option_all_nth (f0 o) _ _ _ Ev) as [Lv Hv].
  assert (EJ : JOB = Z.to_nat 4096 * 16) by (apply Nat2Z.inj; unfold JOB; rewrite Nat2Z.inj_mul, !Z2Nat.id by lia; reflexivity).
  apply (C43_graph F o L e M w SD kseed ktrace k JOB (egen e) t bl ex values Hk Ht (s_gen _ _ _ _ SD)); try assumption.
  - unfold JOB. rewrite <- (Z2Nat.inj_lt 0); lia.
  - rewrite EJ. apply Nat.mod_mul. lia.
  - intros row Hr. specialize (Hv row Hr). cbv beta in Hv. rewrite (pow_nat o L M k Hk) in Hv.
    + unfold row_value. apply (eval_value o L); [exact U|]. exact Hv.
    + pose proof (pow_lt_B o e M w SD k Hk k Hk). lia.
Qed.
Print Assumptions C43_prover.

(** The pseudorandom point is a public constant of the domain, and the graph does not tell it from X: the constant
    that equals it is taken for X, so that X - seed, which is zero in no row here, evaluates to zero everywhere. *)
Definition seed_11 (_ : fe tiny_field) (_ : nat) : fe tiny_field := tiny 11.
Definition cells_17 (_ : fe tiny_field) (i : nat) (j : Z) : fe tiny_field := tiny (17 + 5 * Z.of_nat i + 7 * j).
Theorem C43_collision_deviation : exists (ex : rexpr (fe tiny_field)) t values, usizes ex /\ t_rows t = 16 /\
  option_map (map fe_val) (graph_values tiny_ops tiny_engine seed_11 cells_17 16 (egen tiny_engine) t 4 ex) = Some (repeat 0%Z 16) /\
  option_map (map fe_val) (coset_values tiny_ops tiny_engine t 4 ex) = Some values /\ length values = 16 /\ ~ In 0%Z values.
Proof.
  exists (EAdd EX (ENeg (EConst (tiny 11)))), (Table 16 1 []), [91; 29; 18; 27; 2; 93; 45; 49; 81; 46; 57; 48; 73; 79; 30; 26]%Z.
  split; [repeat split|]. split; [reflexivity|]. split; [vm_compute; reflexivity|]. split; [vm_compute; reflexivity|]. split; [reflexivity|]. intros H. cbn in H. lia.
Qed.
Print Assumptions C43_collision_deviation.

(** Non-vacuity: a quotient of periodic and non-periodic parts over 32 rows meets the hypotheses of [C43_prover]. *)
Lemma NoDup_map_inj {A B} (f : A -> B) l a b : NoDup (map f l) -> In a l -> In b l -> f a = f b -> a = b.
Proof.
  induction l as [|x l IH]; cbn [map]; intros N Ha Hb E; [destruct Ha|]. inversion N as [|y m N1 N2]; subst.
  destruct Ha as [<-|Ha], Hb as [<-|Hb]; [reflexivity| | |auto].
  - exfalso. apply N1. rewrite E. apply in_map, Hb.
  - exfalso. apply N1. rewrite <- E. apply in_map, Ha.
Qed.
Lemma distinct_ok {F} (o : ops F) (L : lawful o) (key : F -> Z) (l : list (rexpr F)) seed K c w (t : table F) blowup (ex : rexpr F) : usizes ex -> (forall a, In a (EConst (f0 o) :: EConst (f1 o) :: subexpressions ex) -> In a l) ->
  NoDup (map (fun a => option_map key (eval_expr o seed (fun i j => Some (K i j)) a)) l) -> no_collision o seed K c w t blowup ex.
Proof.
  intros U I N a b h Ha Hb H1 H2 row u v Hr H3 H4.
  assert (Ua : usizes a) by (apply (sub_usizes ex U a Ha)). assert (Ub : usizes b) by (destruct Hb as [<-|[<-|Hb]]; [exact Logic.I|exact Logic.I|apply (sub_usizes ex U b Hb)]).
  apply (eval_value o L) in H1, H2, H3, H4; try assumption.
  assert (E : a = b). { apply (NoDup_map_inj _ l a b N); [apply I; right; right; exact Ha|apply I, Hb|]. cbv beta. rewrite H1, H2. reflexivity. }
  subst b. congruence.
Qed.
Lemma is_some {A} (x : option A) : match x with Some _ => true | None => false end = true -> exists v, x = Some v.
Proof. destruct x as [v|]; [exists v; reflexivity|discriminate]. Qed.
Lemma is_none {A} (x : option A) : match x with Some _ => false | None => true end = true -> x = None.
Proof. destruct x as [v|]; [discriminate|reflexivity]. Qed.
Lemma random_some {F} (o : ops F) (L : lawful o) seed K (ex : rexpr F) : usizes ex -> match eval_expr o seed (fun i j => Some (K i j)) ex with Some _ => true | None => false end = true -> exists h, random_value o seed K ex h.
Proof. intros U H. apply is_some in H as [h H]. exists h. apply (eval_value o L); assumption. Qed.
Definition ex_table : table (fe tiny_field) := Table 32 2 (map (fun i => tiny (Z.of_nat (i * i + 3) mod 97)) (seq 0 64)).
Definition ex_expr : rexpr (fe tiny_field) := EMul (EAdd (ETrace 0 0) (EMul (ETrace 1 (-1)) (EExp EX 2))) (EInv (EAdd (EExp EX 8) (ENeg (EConst (tiny 3))))).
Definition ex_cells : fe tiny_field -> nat -> Z -> fe tiny_field := fun _ i j => tiny (17 + 5 * Z.of_nat i + 7 * j).
Definition ex_parts : list (rexpr (fe tiny_field)) :=
  EX :: EConst (f0 tiny_ops) :: EConst (f1 tiny_ops) :: ex_expr :: EAdd (ETrace 0 0) (EMul (ETrace 1 (-1)) (EExp EX 2)) :: ETrace 0 0 :: EMul (ETrace 1 (-1)) (EExp EX 2) :: ETrace 1 (-1) :: EExp EX 2 ::
  EInv (EAdd (EExp EX 8) (ENeg (EConst (tiny 3)))) :: EAdd (EExp EX 8) (ENeg (EConst (tiny 3))) :: EExp EX 8 :: ENeg (EConst (tiny 3)) :: EConst (tiny 3) :: nil.
Example C43_ex : usizes ex_expr /\ (forall i j, refers ex_expr i j -> (- Z.of_nat (t_rows ex_table) <= 4 * j)%Z) /\
  (exists h, random_value tiny_ops (tiny 11) (ex_cells (tiny 11)) ex_expr h) /\
  no_collision tiny_ops (tiny 11) (ex_cells (tiny 11)) (egen tiny_engine) (fe_w tiny_good 5) ex_table 4 ex_expr /\
  (exists values, coset_values tiny_ops tiny_engine ex_table 4 ex_expr = Some values) /\
  option_map (fun l => firstn 4 (map fe_val l)) (graph_values tiny_ops tiny_engine seed_11 ex_cells 16 (egen tiny_engine) ex_table 4 ex_expr) = Some [38; 26; 0; 1]%Z.
Proof.
  assert (U : usizes ex_expr) by (unfold ex_expr; cbn [usizes]; intuition lia).
  split; [exact U|]. split; [|split; [|split; [|split]]].
  - intros i j H. unfold ex_expr in H. cbn [refers] in H. change (Z.of_nat (t_rows ex_table)) with 32%Z. intuition lia.
  - apply (random_some tiny_ops (fe_lawful tiny_good)); [exact U|]. vm_compute; reflexivity.
  - apply (distinct_ok tiny_ops (fe_lawful tiny_good) fe_val ex_parts); [exact U| |].
    + unfold ex_expr, ex_parts. cbn [subexpressions app]. intros a H. repeat (destruct H as [<-|H]; [cbn [In]; repeat ((left; reflexivity) || right)|]). destruct H.
    + vm_compute. repeat constructor; cbn [In]; intuition discriminate.
  - apply is_some. vm_compute; reflexivity.
  - vm_compute; reflexivity.
Qed.

(** An offset that reaches back by more than the length of the trace panics in the graph, though the row-by-row
    value exists. *)
Theorem C43_offset_panics : exists (ex : rexpr (fe tiny_field)) (t : table (fe tiny_field)), usizes ex /\ t_rows t = 32 /\
  (exists values, coset_values tiny_ops tiny_engine t 4 ex = Some values) /\
  graph_values tiny_ops tiny_engine seed_11 ex_cells 16 (egen tiny_engine) t 4 ex = None.
Proof.
  exists (ETrace 0 (-9)), ex_table. split; [exact I|]. split; [reflexivity|]. split; [apply is_some|apply is_none]; vm_compute; reflexivity.
Qed.
Print Assumptions C43_offset_panics.
