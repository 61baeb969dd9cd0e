(** The evaluation graph: init, next, tree_shake and lookup_tables keep the meaning of every node. *)
Require Import Field ZArith NArith Lia Bool List.
From Verif Require Import Word KnuthModel FieldSig FieldAlgModel FieldAlgProofs Arr FftModel PermuteProofs FftProofs StarkBase PolyModel TraceModel ExprModel DagModel.
Import ListNotations.
Open Scope nat_scope.

Section Proofs.
Context {F : Type} (o : ops F) (L : lawful o) (e : engine F) (M : nat) (w : nat -> F) (SD : sound o e M w) (k : nat) (HkM : k <= M).
Add Field Ffield : (law_field o L).
Declare Scope dg. Delimit Scope dg with g.
Notation "0" := (f0 o) : dg. Notation "1" := (f1 o) : dg. Notation "x + y" := (fadd o x y) : dg.
Notation "x * y" := (fmul o x y) : dg. Notation "x ^ n" := (fpw o x n) : dg.

(** The meaning of a node: its value in every row, and its period. *)
Definition sem : Type := list ((nat -> F) * nat).
Definition child (vs : sem) (i p : nat) (a : nat) (P : (nat -> F) -> Prop) : Prop := a < i /\ exists va pa, nth_error vs a = Some (va, pa) /\ pa <= p /\ P va.
Definition ok_op (vs : sem) (i : nat) (op : operation F) (v : nat -> F) (p : nat) : Prop :=
  match op with
  | OConst c => forall r, v r = c
  | OCoset c s => p = s /\ exists j, j <= k /\ s = 2 ^ j /\ forall r, v r = (c * w j ^ r)%g
  | OTrace _ _ => p = 2 ^ k
  | OAdd a b => child vs i p a (fun va => child vs i p b (fun vb => forall r, v r = (va r + vb r)%g))
  | ONeg a => child vs i p a (fun va => forall r, v r = fneg o (va r))
  | OMul a b => child vs i p a (fun va => child vs i p b (fun vb => forall r, v r = (va r * vb r)%g))
  | OInv a => child vs i p a (fun va => forall r, va r <> f0 o /\ v r = finv o (va r))
  | OExp a n => child vs i p a (fun va => forall r, v r = pow_usize o (va r) n)
  | OPoly q a => child vs i p a (fun va => forall r, v r = evaluate o q (va r))
  | OLookup l => length l = p /\ forall r, v r = nth (r mod p) l (f0 o)
  end.
Definition periodic (v : nat -> F) (p : nat) : Prop := (exists j, j <= k /\ p = 2 ^ j) /\ forall r, v (r + p) = v r.
Definition good (ns : list (node F)) (vs : sem) : Prop := length ns = length vs /\
  forall i nd v p, nth_error ns i = Some nd -> nth_error vs i = Some (v, p) -> n_period nd = p /\ periodic v p /\ ok_op vs i (n_op nd) v p.
Definition skel (nd : node F) : operation F * nat := (n_op nd, n_period nd).
Lemma good_skel ns ns' vs : map skel ns = map skel ns' -> good ns vs -> good ns' vs.
Proof.
  intros E [Ln H]. assert (Ll : length ns = length ns') by (rewrite <- (map_length skel ns), E, map_length; reflexivity). split; [congruence|].
  intros i nd v p Hi Hv. assert (Hs : nth_error (map skel ns) i = Some (skel nd)) by (rewrite E; apply map_nth_error; exact Hi).
  destruct (nth_error ns i) as [nd0|] eqn:E0; [|rewrite (proj2 (nth_error_None _ _)) in Hs; [discriminate|rewrite map_length; apply nth_error_None; exact E0]].
  rewrite (map_nth_error skel _ _ E0) in Hs. injection Hs as H1 H2. rewrite <- H1, <- H2. apply (H i nd0 v p); assumption.
Qed.

(** ** Chunks *)
Definition chunk (v : nat -> F) (base : nat) : list F := map (fun i => v (base + i)) (seq 0 CHUNK).
Lemma chunk_length v base : length (chunk v base) = CHUNK. Proof. unfold chunk. rewrite map_length, seq_length. reflexivity. Qed.
Lemma chunk_ext v v' base base' : (forall i, i < CHUNK -> v (base + i) = v' (base' + i)) -> chunk v base = chunk v' base'.
Proof. intros H. unfold chunk. apply map_ext_in. intros i Hi. apply in_seq in Hi. apply H. lia. Qed.
Lemma chunk_map f v base : map f (chunk v base) = chunk (fun r => f (v r)) base. Proof. unfold chunk. rewrite map_map. reflexivity. Qed.
Lemma map2_map {A} (f : F -> F -> F) (a b : A -> F) l : map2 f (map a l) (map b l) = map (fun i => f (a i) (b i)) l.
Proof. unfold map2. induction l as [|x l IH]; [reflexivity|]. cbn. rewrite IH. reflexivity. Qed.
Lemma chunk_map2 f a b base : map2 f (chunk a base) (chunk b base) = chunk (fun r => f (a r) (b r)) base. Proof. unfold chunk. apply map2_map. Qed.
Lemma chunk_get v base i : i < CHUNK -> get (chunk v base) i = Some (v (base + i)).
Proof. intros H. unfold get, chunk. rewrite (map_nth_error (fun i => v (base + i)) i (seq 0 CHUNK) (d := i)); [reflexivity|]. rewrite (nth_error_nth' _ 0) by (rewrite seq_length; exact H). rewrite seq_nth by exact H. reflexivity. Qed.
Lemma chunk_all f v base : (forall i, i < CHUNK -> f i = Some (v (base + i))) -> option_all (map f (seq 0 CHUNK)) = Some (chunk v base).
Proof.
  intros H. unfold chunk. assert (G : forall l, (forall i, In i l -> i < CHUNK) -> option_all (map f l) = Some (map (fun i => v (base + i)) l)).
  { induction l as [|a l IH]; intros Hl; [reflexivity|]. cbn [map option_all]. rewrite (H a) by (apply Hl; left; reflexivity). cbn [bind]. rewrite IH by (intros; apply Hl; right; assumption). reflexivity. }
  apply G. intros i Hi. apply in_seq in Hi. lia.
Qed.
Lemma periodic_mul v p : periodic v p -> forall n r, v (r + n * p) = v r.
Proof. intros [_ H]. induction n as [|n IH]; intros r; [f_equal; lia|]. replace (r + S n * p) with ((r + n * p) + p) by lia. rewrite H. apply IH. Qed.
Lemma pow2_small j : 2 ^ j <= CHUNK -> exists n, CHUNK = n * 2 ^ j.
Proof.
  intros H. assert (j <= 4). { destruct (Nat.le_gt_cases j 4); [assumption|]. pose proof (Nat.pow_le_mono_r 2 5 j ltac:(lia) ltac:(lia)) as Q. unfold CHUNK in *. cbn in Q. lia. }
  exists (2 ^ (4 - j)). rewrite <- Nat.pow_add_r. replace (4 - j + j) with 4 by lia. reflexivity.
Qed.
Lemma periodic_small v p : periodic v p -> p <= CHUNK -> forall r, v (r + CHUNK) = v r.
Proof. intros P H r. destruct (proj1 P) as (j & _ & ->). destruct (pow2_small j H) as (n & ->). apply (periodic_mul v _ P). Qed.
Lemma periodic_mod v p : periodic v p -> forall r, v (r mod p) = v r.
Proof. intros P r. destruct (proj1 P) as (j & _ & E). pose proof (pow2_pos j). pose proof (Nat.div_mod r p ltac:(lia)) as D. rewrite D at 2. rewrite (Nat.mul_comm p), Nat.add_comm. symmetry. apply (periodic_mul v p P). Qed.

(** ** next *)
Definition step_ok (v : nat -> F) (nd : node F) : Prop := match n_op nd with OCoset _ s => CHUNK < s -> forall r, v (r + CHUNK) = (v r * n_note nd)%g | _ => True end.
Definition primed (base : nat) (v : nat -> F) (nd : node F) : Prop := length (n_values nd) = CHUNK /\ step_ok v nd /\
  match n_op nd with
  | OConst _ => n_values nd = chunk v base
  | OCoset _ s => if CHUNK <? s then map (fun x => x * n_note nd)%g (n_values nd) = chunk v base else n_values nd = chunk v base
  | OLookup l => if CHUNK <? length l then True else n_values nd = chunk v base
  | _ => True
  end.
Definition finished (base : nat) (v : nat -> F) (nd : node F) : Prop := n_values nd = chunk v base /\ step_ok v nd.
Lemma finished_primed vs i base v p nd : periodic v p -> ok_op vs i (n_op nd) v p -> finished base v nd -> primed (base + CHUNK) v nd.
Proof.
  intros P O [Ev St]. split; [rewrite Ev; apply chunk_length|]. split; [exact St|]. unfold step_ok in St. destruct (n_op nd) as [c|c s| | | | | | | |l]; try exact I; cbn [ok_op] in O.
  - rewrite Ev. apply chunk_ext. intros j _. rewrite !O. reflexivity.
  - destruct O as [-> _]. destruct (Nat.ltb_spec CHUNK s) as [H|H].
    + rewrite Ev, chunk_map. apply chunk_ext. intros j _. replace (base + CHUNK + j) with (base + j + CHUNK) by lia. symmetry. apply St, H.
    + rewrite Ev. apply chunk_ext. intros j _. replace (base + CHUNK + j) with (base + j + CHUNK) by lia. symmetry. apply (periodic_small v s P H).
  - destruct O as [El _]. destruct (Nat.ltb_spec CHUNK (length l)) as [H|H]; [exact I|].
    rewrite Ev. apply chunk_ext. intros j _. replace (base + CHUNK + j) with (base + j + CHUNK) by lia. symmetry. apply (periodic_small v p P). lia.
Qed.
Definition trace_ok (t : table F) (bl : nat) (ns : list (node F)) (vs : sem) : Prop :=
  forall i nd v p c off, nth_error ns i = Some nd -> nth_error vs i = Some (v, p) -> n_op nd = OTrace c off -> forall r, read_trace t bl r c off = Some (v r).
Lemma trace_ok_skel t bl ns ns' vs : map skel ns = map skel ns' -> trace_ok t bl ns vs -> trace_ok t bl ns' vs.
Proof.
  intros E H i nd v p c off Hi Hv Ho. assert (Hs : nth_error (map skel ns) i = Some (skel nd)) by (rewrite E; apply map_nth_error; exact Hi).
  destruct (nth_error ns i) as [nd0|] eqn:E0; [|rewrite (proj2 (nth_error_None _ _)) in Hs; [discriminate|rewrite map_length; apply nth_error_None; exact E0]].
  rewrite (map_nth_error skel _ _ E0) in Hs. injection Hs as H1 H2. apply (H i nd0 v p c off); [assumption|assumption|congruence].
Qed.
Definition all (P : (nat -> F) -> node F -> Prop) (ns : list (node F)) (vs : sem) : Prop := forall i nd v p, nth_error ns i = Some nd -> nth_error vs i = Some (v, p) -> P v nd.
Lemma lookup_ok l v p r : length l = p -> 0 < p -> (forall r, v r = nth (r mod p) l (f0 o)) -> lookup l r = Some (v r).
Proof. intros El Hp Hv. unfold lookup. rewrite El. destruct (Nat.eqb_spec p 0); [lia|]. rewrite Hv. apply get_nth. rewrite El. apply Nat.mod_upper_bound. lia. Qed.
Lemma periodic_pos v p : periodic v p -> 0 < p. Proof. intros [(j & _ & ->) _]. apply pow2_pos. Qed.
Lemma next_values_ok t bl base prev nd vs i v p : i = length prev -> (forall j, j < i -> exists ndj vj pj, nth_error prev j = Some ndj /\ nth_error vs j = Some (vj, pj) /\ n_values ndj = chunk vj base) ->
  periodic v p -> ok_op vs i (n_op nd) v p -> primed base v nd -> (forall c off, n_op nd = OTrace c off -> forall r, read_trace t bl r c off = Some (v r)) ->
  next_values o t bl base prev nd = Some (chunk v base).
Proof.
  intros Ei Hp P O [Lv [St Pr]] HT. unfold next_values.
  assert (G : forall a va pa, a < i -> nth_error vs a = Some (va, pa) -> (let? n := get prev a in Some (n_values n)) = Some (chunk va base)).
  { intros a va pa Ha Ea. destruct (Hp a Ha) as (nda & va' & pa' & E1 & E2 & E3). unfold get. rewrite E1. cbn [bind]. congruence. }
  destruct (n_op nd) as [c|c s|c off|a b|a|a b|a|a n|q a|l]; cbn [ok_op] in O.
  - congruence.
  - destruct (CHUNK <? s); congruence.
  - apply chunk_all. intros j _. apply (HT c off eq_refl).
  - destruct O as (Ha & va & pa & Ea & _ & Hb & vb & pb & Eb & _ & Ev). rewrite (G a va pa Ha Ea), (G b vb pb Hb Eb). cbn [bind]. rewrite chunk_map2. f_equal. apply chunk_ext. intros j _. symmetry. apply Ev.
  - destruct O as (Ha & va & pa & Ea & _ & Ev). rewrite (G a va pa Ha Ea). cbn [bind]. rewrite chunk_map. f_equal. apply chunk_ext. intros j _. symmetry. apply Ev.
  - destruct O as (Ha & va & pa & Ea & _ & Hb & vb & pb & Eb & _ & Ev). rewrite (G a va pa Ha Ea), (G b vb pb Hb Eb). cbn [bind]. rewrite chunk_map2. f_equal. apply chunk_ext. intros j _. symmetry. apply Ev.
  - destruct O as (Ha & va & pa & Ea & _ & Ev). rewrite (G a va pa Ha Ea). cbn [bind]. rewrite (invert_batch_src_dst_spec o L) by (rewrite chunk_length; congruence).
    destruct (existsb _ _) eqn:Ex.
    + exfalso. apply existsb_exists in Ex as (x & Hx & Ez). apply (law_eqb o L) in Ez. unfold chunk in Hx. apply in_map_iff in Hx as (j & Ej & _). apply (proj1 (Ev (base + j))). congruence.
    + rewrite chunk_map. f_equal. apply chunk_ext. intros j _. symmetry. apply Ev.
  - destruct O as (Ha & va & pa & Ea & _ & Ev). rewrite (G a va pa Ha Ea). cbn [bind]. rewrite chunk_map. f_equal. apply chunk_ext. intros j _. symmetry. apply Ev.
  - destruct O as (Ha & va & pa & Ea & _ & Ev). rewrite (G a va pa Ha Ea). cbn [bind]. rewrite chunk_map. f_equal. apply chunk_ext. intros j _. symmetry. apply Ev.
  - destruct O as [El Ev]. destruct (CHUNK <? length l); [|congruence]. apply chunk_all. intros j _. apply (lookup_ok l v p); [exact El|apply (periodic_pos v p P)|exact Ev].
Qed.
Lemma nth_error_mid {A} (p r : list A) x : nth_error (p ++ x :: r) (length p) = Some x.
Proof. rewrite nth_error_app2 by lia. rewrite Nat.sub_diag. reflexivity. Qed.
Lemma next_nodes_ok t bl base vs : forall rest prev, good (prev ++ rest) vs -> trace_ok t bl (prev ++ rest) vs -> all (finished base) prev vs ->
  (forall i nd v p, nth_error rest i = Some nd -> nth_error vs (length prev + i) = Some (v, p) -> primed base v nd) ->
  exists ns, next_nodes o t bl base prev rest = Some ns /\ map skel ns = map skel (prev ++ rest) /\ all (finished base) ns vs.
Proof.
  induction rest as [|nd rest IH]; intros prev G T D Pr; cbn [next_nodes]; [exists prev; rewrite app_nil_r; auto|].
  pose proof G as [Lg Hg]. rewrite app_length in Lg. cbn [length] in Lg.
  destruct (nth_error vs (length prev)) as [[v p]|] eqn:Ev; [|apply nth_error_None in Ev; lia].
  destruct (Hg (length prev) nd v p (nth_error_mid _ _ _) Ev) as (_ & P & O).
  assert (PN : primed base v nd) by (apply (Pr 0 nd v p); [reflexivity|rewrite Nat.add_0_r; exact Ev]).
  rewrite (next_values_ok t bl base prev nd vs (length prev) v p eq_refl); [|intros j Hj|exact P|exact O|exact PN|intros c off Ho; apply (T (length prev) nd v p c off (nth_error_mid _ _ _) Ev Ho)].
  - cbn [bind]. assert (ES : map skel (prev ++ nd :: rest) = map skel ((prev ++ [with_values nd (chunk v base)]) ++ rest)) by (rewrite <- app_assoc, !map_app; reflexivity).
    destruct (IH (prev ++ [with_values nd (chunk v base)])) as (ns & E1 & E2 & E3).
    + apply (good_skel _ _ vs ES G).
    + apply (trace_ok_skel t bl _ _ vs ES T).
    + intros i nd' v' p' Hi Hv. destruct (Nat.lt_ge_cases i (length prev)) as [Hl|Hl]; [rewrite nth_error_app1 in Hi by exact Hl; apply (D i nd' v' p' Hi Hv)|].
      rewrite nth_error_app2 in Hi by exact Hl. destruct (i - length prev) as [|m] eqn:Em; [|destruct m; discriminate Hi]. injection Hi as <-.
      assert (i = length prev) as -> by lia. rewrite Ev in Hv. injection Hv as <- <-. split; [reflexivity|]. exact (proj1 (proj2 PN)).
    + intros i nd' v' p' Hi Hv. apply (Pr (S i) nd' v' p' Hi). rewrite <- Hv. f_equal. rewrite app_length. cbn. lia.
    + exists ns. split; [exact E1|]. split; [congruence|exact E3].
  - destruct (nth_error prev j) as [ndj|] eqn:Ej; [|apply nth_error_None in Ej; lia]. destruct (nth_error vs j) as [[vj pj]|] eqn:Evj; [|apply nth_error_None in Evj; lia].
    exists ndj, vj, pj. split; [reflexivity|]. split; [reflexivity|]. apply (D j ndj vj pj Ej Evj).
Qed.

(** ** A graph in the middle of an evaluation *)
Definition running (t : table F) (r : nat) (g : graph F) (vs : sem) : Prop :=
  good (g_nodes g) vs /\ trace_ok t (g_blowup g) (g_nodes g) vs /\ g_row g = r /\
  (if 0 <? r mod CHUNK then all (finished (r - r mod CHUNK)) (g_nodes g) vs else all (primed r) (g_nodes g) vs).
Lemma row_step r : 0 < CHUNK -> (0 <? (r + 1) mod CHUNK) = true -> r + 1 - (r + 1) mod CHUNK = r - r mod CHUNK.
Proof. unfold CHUNK. intros _ H. apply Nat.ltb_lt in H. pose proof (Nat.div_mod r 16 ltac:(lia)). pose proof (Nat.div_mod (r + 1) 16 ltac:(lia)). pose proof (Nat.mod_upper_bound r 16 ltac:(lia)). pose proof (Nat.mod_upper_bound (r + 1) 16 ltac:(lia)). lia. Qed.
Lemma row_wrap r : (0 <? (r + 1) mod CHUNK) = false -> r + 1 = r - r mod CHUNK + CHUNK.
Proof. unfold CHUNK. intros H. apply Nat.ltb_ge in H. pose proof (Nat.div_mod r 16 ltac:(lia)). pose proof (Nat.div_mod (r + 1) 16 ltac:(lia)). pose proof (Nat.mod_upper_bound r 16 ltac:(lia)). lia. Qed.
Lemma running_step t r g vs : good (g_nodes g) vs -> trace_ok t (g_blowup g) (g_nodes g) vs -> all (finished (r - r mod CHUNK)) (g_nodes g) vs -> running t (r + 1) (with_row g (r + 1)) vs.
Proof.
  intros G T D. split; [exact G|]. split; [exact T|]. split; [reflexivity|]. cbn [with_row g_nodes]. destruct (0 <? (r + 1) mod CHUNK) eqn:E.
  - rewrite row_step by (exact E || (unfold CHUNK; lia)). exact D.
  - rewrite (row_wrap r E). intros i nd v p Hi Hv. destruct (proj2 G i nd v p Hi Hv) as (_ & P & O). apply (finished_primed vs i _ v p nd P O). apply (D i nd v p Hi Hv).
Qed.
Lemma last_value_ok base ns vs v p i : good ns vs -> all (finished base) ns vs -> nth_error vs (length vs - 1) = Some (v, p) -> i < CHUNK -> last_value ns i = Some (v (base + i)).
Proof.
  intros [Lg _] D Ev Hi. unfold last_value. destruct ns as [|n0 ns0] eqn:En; [destruct vs; [discriminate Ev|discriminate Lg]|]. rewrite <- En in *. clear En.
  rewrite Lg. unfold get at 1. destruct (nth_error ns (length vs - 1)) as [nd|] eqn:E; [|apply nth_error_None in E; assert (length vs <> 0) by (intros Q; destruct vs; [discriminate Ev|discriminate Q]); lia].
  cbn [bind]. rewrite (proj1 (D _ _ _ _ E Ev)). apply chunk_get, Hi.
Qed.
Lemma next_ok t r g vs v p : running t r g vs -> nth_error vs (length vs - 1) = Some (v, p) -> exists g', g_next o t g = Some (g', v r) /\ running t (r + 1) g' vs.
Proof.
  intros (G & T & Er & D) Ev. unfold g_next. rewrite Er. pose proof (Nat.mod_upper_bound r CHUNK ltac:(unfold CHUNK; lia)) as Hm.
  destruct (0 <? r mod CHUNK) eqn:E.
  - rewrite (last_value_ok (r - r mod CHUNK) (g_nodes g) vs v p _ G D Ev Hm). cbn [bind]. replace (r - r mod CHUNK + r mod CHUNK) with r by (pose proof (Nat.mod_le r CHUNK ltac:(unfold CHUNK; lia)); lia).
    eexists. split; [reflexivity|]. apply running_step; assumption.
  - destruct (next_nodes_ok t (g_blowup g) r vs (g_nodes g) []) as (ns & E1 & E2 & E3); [exact G|exact T|intros i nd v' p' Hi; destruct i; discriminate Hi|intros i nd v' p' Hi Hv; apply (D i nd v' p' Hi Hv)|].
    rewrite E1. cbn [bind app] in *. pose proof (good_skel _ _ vs (eq_sym E2) G) as G'. pose proof (trace_ok_skel t (g_blowup g) _ _ vs (eq_sym E2) T) as T'.
    assert (Hz : r mod CHUNK = 0) by (apply Nat.ltb_ge in E; lia). rewrite (last_value_ok r ns vs v p 0 G' E3 Ev) by (unfold CHUNK; lia). cbn [bind]. rewrite Nat.add_0_r.
    eexists. split; [reflexivity|]. apply (running_step t r (with_nodes g ns) vs); [exact G'|exact T'|]. rewrite Hz, Nat.sub_0_r. exact E3.
Qed.
Lemma take_ok t vs v p : nth_error vs (length vs - 1) = Some (v, p) -> forall n r g, running t r g vs -> g_take o t g n = Some (map v (seq r n)).
Proof.
  intros Ev. induction n as [|n IH]; intros r g R; cbn [g_take]; [reflexivity|]. destruct (next_ok t r g vs v p R Ev) as (g' & E & R'). rewrite E. cbn [bind]. rewrite (IH (r + 1) g' R'). cbn [bind seq map]. rewrite Nat.add_1_r. reflexivity.
Qed.

(** ** init *)
Definition shaped (ns : list (node F)) : Prop := Forall (fun nd => length (n_values nd) = CHUNK) ns.
Lemma geometric_spec acc root : forall n, geometric o acc root n = map (fun i => acc * root ^ i)%g (seq 0 n).
Proof.
  intros n. revert acc. induction n as [|n IH]; intros acc; cbn [geometric seq map]; [reflexivity|]. rewrite IH, <- seq_shift, map_map. f_equal; [cbn [fpw]; ring|]. apply map_ext. intros i. cbn [fpw]. ring.
Qed.
Lemma pow_nat a n : (Z.of_nat n < B)%Z -> pow_usize o a (Z.of_nat n) = (a ^ n)%g.
Proof. intros H. rewrite (pow_usize_spec o L) by lia. rewrite <- nat_N_Z, N2Z.id. apply (fexp_nat o). Qed.
Lemma pow_lt_B j : j <= M -> (Z.of_nat (2 ^ j) < B)%Z.
Proof. intros H. pose proof (s_max _ _ _ _ SD). rewrite Nat2Z.inj_pow. change (Z.of_nat 2) with 2%Z. change B with (2 ^ 64)%Z. apply Z.pow_lt_mono_r; lia. Qed.
Lemma init_node_ok vs i nd v p row : (Z.of_nat row < B)%Z -> periodic v p -> ok_op vs i (n_op nd) v p -> length (n_values nd) = CHUNK ->
  exists nd', init_node o e row nd = Some nd' /\ skel nd' = skel nd /\ primed row v nd'.
Proof.
  intros Hr P O Lv. unfold init_node, primed, step_ok, skel. destruct (n_op nd) as [c|c s|c off|a b|a|a b|a|a n|q a|l] eqn:Eo; cbn [ok_op] in O;
    try (eexists; split; [reflexivity|]; rewrite ?Eo; auto; fail).
  - eexists. split; [reflexivity|]. cbn [with_values n_op n_period n_values n_note]. rewrite ?Eo. split; [reflexivity|]. split; [apply repeat_length|]. split; [exact I|].
    unfold chunk. assert (Q : forall l : list nat, map (fun i0 => v (row + i0)) l = repeat c (length l)) by (induction l as [|x l IH]; [reflexivity|]; cbn; rewrite IH, O; reflexivity). rewrite Q, seq_length. reflexivity.
  - destruct O as [-> (j & Hj & Es & Ev)]. rewrite Es, (s_root _ _ _ _ SD j) by lia. cbn [bind]. rewrite (pow_nat (w j) row Hr).
    assert (EG : geometric o (c * w j ^ row)%g (w j) CHUNK = chunk v row).
    { rewrite geometric_spec. unfold chunk. apply map_ext. intros i'. rewrite Ev, (fpw_add o L). ring. }
    rewrite EG. destruct (Nat.ltb_spec CHUNK (2 ^ j)) as [H|H].
    + rewrite pow_nat by (unfold CHUNK; cbv; reflexivity). assert (Hn : (w j ^ CHUNK)%g <> f0 o) by (apply (fpw_neq_0 o L), (w_neq_0 o L e M w SD); lia).
      rewrite (inv_opt_ne o L _ Hn). cbn [bind]. eexists. split; [reflexivity|]. cbn [n_op n_period n_values n_note]. rewrite ?Eo. subst s. split; [reflexivity|]. split; [rewrite map_length; apply chunk_length|].
      split; [intros _ r; rewrite !Ev, (fpw_add o L); ring|]. apply Nat.ltb_lt in H. rewrite H. rewrite map_map, chunk_map. apply chunk_ext. intros i' _.
      transitivity (v (row + i')%nat * (finv o (w j ^ CHUNK) * w j ^ CHUNK))%g; [ring|]. rewrite (finv_l o L) by exact Hn. ring.
    + eexists. split; [reflexivity|]. cbn [with_values n_op n_period n_values n_note]. rewrite ?Eo. subst s. split; [reflexivity|]. split; [apply chunk_length|]. split; [intros Q; lia|].
      apply Nat.ltb_ge in H. rewrite H. reflexivity.
  - destruct O as [El Ev]. pose proof (periodic_pos v p P) as Hp. destruct (Nat.leb_spec (length l) CHUNK) as [H|H].
    + destruct (Nat.eqb_spec (length l) 0) as [Q|_]; [lia|]. destruct (proj1 P) as (j & _ & Ep). rewrite El in *. destruct (pow2_small j) as (n & En); [lia|].
      assert (Hm : CHUNK mod p = 0) by (rewrite En, Ep; apply Nat.mod_mul, Nat.pow_nonzero; lia). rewrite Hm. cbn [Nat.eqb].
      rewrite (chunk_all _ v row) by (intros i' _; apply (lookup_ok l v p); assumption). cbn [bind]. eexists. split; [reflexivity|]. cbn [with_values n_op n_period n_values n_note]. rewrite ?Eo.
      split; [reflexivity|]. split; [apply chunk_length|]. split; [exact I|]. destruct (Nat.ltb_spec CHUNK (length l)); [exact I|reflexivity].
    + eexists. split; [reflexivity|]. rewrite ?Eo. split; [reflexivity|]. split; [exact Lv|]. split; [exact I|]. destruct (Nat.ltb_spec CHUNK (length l)); [exact I|lia].
Qed.
Lemma option_all_cons {A} (x : option A) l : option_all (x :: l) = let? x := x in let? l := option_all l in Some (x :: l). Proof. reflexivity. Qed.
Lemma init_nodes_ok vs row : (Z.of_nat row < B)%Z -> forall ns m, (forall i nd v p, nth_error ns i = Some nd -> nth_error vs (m + i) = Some (v, p) -> periodic v p /\ ok_op vs (m + i) (n_op nd) v p) ->
  m + length ns <= length vs -> shaped ns ->
  exists ns', option_all (map (init_node o e row) ns) = Some ns' /\ map skel ns' = map skel ns /\ forall i nd v p, nth_error ns' i = Some nd -> nth_error vs (m + i) = Some (v, p) -> primed row v nd.
Proof.
  intros Hr. induction ns as [|nd ns IH]; intros m H Hl Sh.
  - exists []. split; [reflexivity|]. split; [reflexivity|]. intros i nd v p Hi. destruct i; discriminate Hi.
  - inversion Sh as [|? ? Sn Ss]; subst. cbn [length] in Hl. destruct (nth_error vs m) as [[v p]|] eqn:Ev; [|apply nth_error_None in Ev; lia].
    destruct (H 0 nd v p eq_refl) as [P O]; [rewrite Nat.add_0_r; exact Ev|]. rewrite Nat.add_0_r in O.
    destruct (init_node_ok vs m nd v p row Hr P O Sn) as (nd' & E1 & E2 & E3).
    destruct (IH (S m)) as (ns' & F1 & F2 & F3); [intros i n1 v1 p1 Hi Hv; replace (S m + i) with (m + S i) in * by lia; apply (H (S i) n1 v1 p1 Hi Hv)|lia|exact Ss|].
    exists (nd' :: ns'). cbn [map]. rewrite option_all_cons, E1. cbn [bind]. rewrite F1. cbn [bind]. split; [reflexivity|]. split; [congruence|].
    intros [|i] n1 v1 p1 Hi Hv; [injection Hi as <-; rewrite Nat.add_0_r, Ev in Hv; injection Hv as <- <-; exact E3|]. apply (F3 i n1 v1 p1 Hi). rewrite <- Hv. f_equal. lia.
Qed.
Lemma init_ok t g vs start : good (g_nodes g) vs -> shaped (g_nodes g) -> trace_ok t (g_blowup g) (g_nodes g) vs -> start mod CHUNK = 0 -> (Z.of_nat start < B)%Z ->
  exists g', g_init o e g start = Some g' /\ running t start g' vs /\ g_blowup g' = g_blowup g /\ shaped (g_nodes g') /\ map skel (g_nodes g') = map skel (g_nodes g).
Proof.
  intros G Sh T Hs Hb. unfold g_init. rewrite Hs. cbn [Nat.eqb].
  destruct (init_nodes_ok vs start Hb (g_nodes g) 0) as (ns & E1 & E2 & E3); [intros i nd v p Hi Hv; apply (proj2 G i nd v p Hi Hv)|rewrite (proj1 G); lia|exact Sh|].
  rewrite E1. cbn [bind]. pose proof (good_skel _ _ vs (eq_sym E2) G) as G'. eexists. split; [reflexivity|]. split; [|split; [reflexivity|split; [|exact E2]]].
  - split; [exact G'|]. split; [apply (trace_ok_skel t _ _ _ vs (eq_sym E2) T)|]. split; [reflexivity|]. rewrite Hs. cbn [Nat.ltb Nat.leb]. exact E3.
  - cbn [with_row with_nodes g_nodes]. apply Forall_forall. intros nd Hin. apply In_nth_error in Hin as (i & Hi). destruct (nth_error vs i) as [[v p]|] eqn:Ev.
    + apply (E3 i nd v p Hi Ev).
    + exfalso. apply nth_error_None in Ev. assert (i < length ns) by (apply nth_error_Some; congruence). destruct G' as [Q _]. lia.
Qed.
End Proofs.
