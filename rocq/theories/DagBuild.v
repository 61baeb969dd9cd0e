(** The evaluation graph: [expression] builds nodes that mean the subexpressions. *)
Require Import Field ZArith NArith Lia Bool List.
From Verif Require Import Word KnuthModel FieldSig FieldAlgModel FieldAlgProofs Arr FftModel PermuteProofs FftProofs StarkBase PolyModel TraceModel ExprModel DagModel DagProofs DagShake DagSpec.
Import ListNotations.
Open Scope nat_scope.

Lemma divisor_pow2 : forall j d q, d * q = 2 ^ j -> exists l, l <= j /\ d = 2 ^ l.
Proof.
  induction j as [|j IH]; intros d q E; [exists 0; split; [lia|]; apply Nat.eq_mul_1 in E; cbn; lia|]. rewrite Nat.pow_succ_r' in E.
  destruct (Nat.Even_or_Odd d) as [[d' ->]|[d' ->]].
  - destruct (IH d' q) as (l & Hl & ->); [lia|]. exists (S l). split; [lia|]. rewrite Nat.pow_succ_r'. reflexivity.
  - destruct (Nat.Even_or_Odd q) as [[q' ->]|[q' ->]]; [|exfalso; lia]. destruct (IH (2 * d' + 1) q') as (l & Hl & El); [lia|]. exists l. split; [lia|exact El].
Qed.

Section Build.
Context {F : Type} (o : ops F) (L : lawful o) (e : engine F) (M : nat) (w : nat -> F) (SD : sound o e M w) (k : nat) (HkM : k <= M).
Add Field Ffield : (law_field o L).
Declare Scope dg2. Delimit Scope dg2 with g.
Notation "0" := (f0 o) : dg2. Notation "1" := (f1 o) : dg2. Notation "x + y" := (fadd o x y) : dg2.
Notation "x * y" := (fmul o x y) : dg2. Notation "x ^ n" := (fpw o x n) : dg2.
Notation good := (good o w k). Notation ok_op := (ok_op o w k). Notation periodic := (periodic k). Notation sem := (@sem F).
Context (kseed : F -> nat -> F) (ktrace : F -> nat -> Z -> F) (c0 : F) (Hc0 : c0 <> f0 o) (t : table F) (bl : nat) (seed : F).
(** Evaluation in a row and at the pseudorandom point. *)
Context (ev : nat -> rexpr F -> option F) (hv : rexpr F -> option F) (T : nat -> nat -> Z -> option F).
Context (Eev : forall r ex, ev r ex = eval_expr o (c0 * w k ^ r)%g (T r) ex) (Ehv : forall ex, hv ex = eval_expr o seed (fun i j => Some (ktrace seed i j)) ex).
Context (root : rexpr F) (HTp : forall r i j, T (r + 2 ^ k) i j = T r i j).
Context (HT : forall i j, In (ETrace i j) (subexpressions root) -> forall r, read_trace t bl r i j = T r i j).
Context (NC : forall a b h, In a (subexpressions root) -> In b (EConst (f0 o) :: EConst (f1 o) :: subexpressions root) -> hv a = Some h -> hv b = Some h ->
  forall r u v, ev r a = Some u -> ev r b = Some v -> u = v).

Record inv (g : graph F) (es : list (rexpr F)) (vs : sem) : Prop := {
  i_good : good (g_nodes g) vs; i_shaped : shaped (g_nodes g); i_trace : trace_ok t bl (g_nodes g) vs;
  i_size : g_size g = 2 ^ k; i_cof : g_cofactor g = c0; i_seed : g_seed g = seed; i_bl : g_blowup g = bl;
  i_len : length es = length vs;
  i_val : forall i E v p, nth_error es i = Some E -> nth_error vs i = Some (v, p) -> In E (subexpressions root) /\ forall r, ev r E = Some (v r);
  i_hash : forall i E nd, nth_error es i = Some E -> nth_error (g_nodes g) i = Some nd -> hv E = Some (n_hash nd)
}.
(** Node [i] means the function [v] and has hash [h]. *)
Definition has (g : graph F) (vs : sem) (i : nat) (v : nat -> F) (h : F) : Prop := exists nd v' p, nth_error (g_nodes g) i = Some nd /\ nth_error vs i = Some (v', p) /\ (forall r, v' r = v r) /\ n_hash nd = h.
Definition extends (g : graph F) (vs : sem) (g' : graph F) (vs' : sem) : Prop := (exists l, g_nodes g' = g_nodes g ++ l) /\ exists l, vs' = vs ++ l.
Lemma extends_refl g vs : extends g vs g vs. Proof. split; exists []; rewrite app_nil_r; reflexivity. Qed.
Lemma extends_trans g vs g' vs' g2 vs2 : extends g vs g' vs' -> extends g' vs' g2 vs2 -> extends g vs g2 vs2.
Proof. intros [(l1 & E1) (l2 & E2)] [(l3 & E3) (l4 & E4)]. split; [exists (l1 ++ l3)|exists (l2 ++ l4)]; rewrite app_assoc; congruence. Qed.
Lemma nth_error_ext {A} (l l' : list A) i x : nth_error l i = Some x -> nth_error (l ++ l') i = Some x.
Proof. intros H. rewrite nth_error_app1; [exact H|]. apply nth_error_Some. congruence. Qed.
Lemma has_ext g vs g' vs' i v h : extends g vs g' vs' -> has g vs i v h -> has g' vs' i v h.
Proof. intros [(l1 & E1) (l2 & E2)] (nd & v' & p & H1 & H2 & H3 & H4). exists nd, v', p. rewrite E1, E2. split; [apply nth_error_ext, H1|]. split; [apply nth_error_ext, H2|]. auto. Qed.
Lemma op_map_id (op : operation F) : op_map (fun a => a) op = op. Proof. destruct op; reflexivity. Qed.
Lemma ok_ext (vs l : sem) i op v p : ok_op vs i op v p -> ok_op (vs ++ l) i op v p.
Proof.
  intros O. rewrite <- (op_map_id op). apply (ok_rename o w k vs (vs ++ l) i i op v p (fun a => a) O). intros a Ha. destruct (ok_children o w k vs i op v p a O Ha) as (H & va & pa & E & _).
  split; [exact H|]. rewrite E. apply nth_error_ext, E.
Qed.
Lemma position_some h : forall ns m i, position o h ns m = Some i -> exists nd, m <= i /\ nth_error ns (i - m) = Some nd /\ n_hash nd = h.
Proof.
  induction ns as [|n ns IH]; intros m i E; cbn [position] in E; [discriminate|]. destruct (feqb o (n_hash n) h) eqn:Eh.
  - injection E as <-. exists n. rewrite Nat.sub_diag. split; [lia|]. split; [reflexivity|]. apply (law_eqb o L), Eh.
  - destruct (IH _ _ E) as (nd & H1 & H2 & H3). exists nd. split; [lia|]. split; [|exact H3]. replace (i - m) with (S (i - S m)) by lia. exact H2.
Qed.

(** What [simplify] and [period] give for a new node. *)
Definition prepared (g : graph F) (vs : sem) (op : operation F) (v : nat -> F) : Prop :=
  exists op' p, g_simplify o g op = Some op' /\ g_period g op' = Some p /\ periodic v p /\ ok_op vs (length vs) op' v p /\ (forall c off, op' = OTrace c off -> forall r, read_trace t bl r c off = Some (v r)).
Lemma periodic_ext (v v' : nat -> F) p : (forall r, v' r = v r) -> periodic v p -> periodic v' p.
Proof. intros H [H1 H2]. split; [exact H1|]. intros r. rewrite !H. apply H2. Qed.
Lemma const_periodic (v : nat -> F) c : (forall r, v r = c) -> periodic v 1.
Proof. intros H. split; [exists 0; split; [lia|reflexivity]|]. intros r. rewrite !H. reflexivity. Qed.
Lemma coset_periodic v c j : j <= k -> (forall r, v r = (c * w j ^ r)%g) -> periodic v (2 ^ j).
Proof. intros Hj H. split; [exists j; auto|]. intros r. rewrite !H, (fpw_add o L), (w_one o e M w SD j) by lia. ring. Qed.
Lemma push_ok g es vs op E v h p : inv g es vs -> In E (subexpressions root) -> (forall r, ev r E = Some (v r)) -> hv E = Some h ->
  periodic v p -> ok_op vs (length vs) op v p -> (forall c off, op = OTrace c off -> forall r, read_trace t bl r c off = Some (v r)) ->
  let g' := with_nodes g (g_nodes g ++ [Node op h p (f0 o) (repeat (f0 o) CHUNK)]) in
  inv g' (es ++ [E]) (vs ++ [(v, p)]) /\ extends g vs g' (vs ++ [(v, p)]) /\ has g' (vs ++ [(v, p)]) (length (g_nodes g)) v h.
Proof.
  intros I HE Hv Hh P O Ht g'. pose proof (i_good _ _ _ I) as G. pose proof (proj1 G) as Lg.
  assert (SPL : forall {A} (l : list A) x i y, nth_error (l ++ [x]) i = Some y -> (i < length l /\ nth_error l i = Some y) \/ (i = length l /\ y = x)).
  { intros A l x i y H. destruct (Nat.lt_ge_cases i (length l)) as [Q|Q]; [left; rewrite nth_error_app1 in H by exact Q; auto|right].
    rewrite nth_error_app2 in H by exact Q. destruct (i - length l) as [|m] eqn:Em; [injection H as <-; split; [lia|reflexivity]|destruct m; discriminate H]. }
  assert (LAST : forall {A} (l : list A) x, nth_error (l ++ [x]) (length l) = Some x) by (intros; rewrite nth_error_app2, Nat.sub_diag by lia; reflexivity).
  split; [|split].
  - split; cbn [g' with_nodes g_nodes g_size g_cofactor g_seed g_blowup]; try apply I.
    + split; [rewrite !app_length, Lg; reflexivity|]. intros i nd v' p' E1 E2. apply SPL in E1 as [[H1 E1]|[-> ->]]; apply SPL in E2 as [[H2 E2]|[H2 E2]]; try lia.
      * destruct (proj2 G i nd v' p' E1 E2) as (Q1 & Q2 & Q3). split; [exact Q1|]. split; [exact Q2|]. apply ok_ext, Q3.
      * injection E2 as -> ->. cbn [n_period n_op]. split; [reflexivity|]. split; [exact P|]. rewrite H2. apply ok_ext, O.
    + apply Forall_app. split; [apply I|]. constructor; [apply repeat_length|constructor].
    + intros i nd v' p' c off E1 E2 Eo. apply SPL in E1 as [[H1 E1]|[-> ->]]; apply SPL in E2 as [[H2 E2]|[H2 E2]]; try lia.
      * apply (i_trace _ _ _ I i nd v' p' c off E1 E2 Eo).
      * injection E2 as -> ->. cbn [n_op] in Eo. apply (Ht c off Eo).
    + rewrite !app_length, (i_len _ _ _ I). reflexivity.
    + pose proof (i_len _ _ _ I). intros i E' v' p' E1 E2. apply SPL in E1 as [[H1 E1]|[-> ->]]; apply SPL in E2 as [[H2 E2]|[H2 E2]]; try lia.
      * apply (i_val _ _ _ I i E' v' p' E1 E2).
      * injection E2 as -> ->. auto.
    + pose proof (i_len _ _ _ I). intros i E' nd E1 E2. apply SPL in E1 as [[H1 E1]|[-> ->]]; apply SPL in E2 as [[H2 E2]|[H2 E2]]; try lia.
      * apply (i_hash _ _ _ I i E' nd E1 E2).
      * subst nd. exact Hh.
  - split; [exists [Node op h p (f0 o) (repeat (f0 o) CHUNK)]; reflexivity|exists [(v, p)]; reflexivity].
  - exists (Node op h p (f0 o) (repeat (f0 o) CHUNK)), v, p. cbn [g' with_nodes g_nodes]. split; [apply LAST|]. split; [rewrite Lg; apply LAST|]. split; reflexivity.
Qed.
Lemma op_ok g es vs op E v h : inv g es vs -> In E (subexpressions root) -> (forall r, ev r E = Some (v r)) -> hv E = Some h -> g_hash o ktrace g op = Some h ->
  (h <> f0 o -> h <> f1 o -> prepared g vs op v) ->
  exists g' i es' vs', g_op o ktrace g op = Some (g', i) /\ inv g' es' vs' /\ extends g vs g' vs' /\ has g' vs' i v h.
Proof.
  intros I HE Hv Hh Hg PR. unfold g_op. rewrite Hg. cbn [bind]. destruct (position o h (g_nodes g) 0) as [i|] eqn:Ep.
  - destruct (position_some h (g_nodes g) 0 i Ep) as (nd & _ & En & Enh). rewrite Nat.sub_0_r in En. destruct (good_sem o M w k HkM _ _ i nd (i_good _ _ _ I) En) as (v' & p & Ev).
    exists g, i, es, vs. split; [reflexivity|]. split; [exact I|]. split; [apply extends_refl|]. exists nd, v', p. split; [exact En|]. split; [exact Ev|]. split; [|exact Enh].
    destruct (nth_error es i) as [E'|] eqn:Ee; [|apply nth_error_None in Ee; rewrite (i_len _ _ _ I) in Ee; assert (i < length vs) by (apply nth_error_Some; congruence); lia].
    destruct (i_val _ _ _ I i E' v' p Ee Ev) as [HE' Hv']. pose proof (i_hash _ _ _ I i E' nd Ee En) as Hh'. rewrite Enh in Hh'.
    intros r. apply (NC E' E h HE' (or_intror (or_intror HE)) Hh' Hh r); auto.
  - assert (CONST : forall c, (c = f0 o \/ c = f1 o) -> h = c -> exists g' i es' vs', (let? op := Some (OConst c) in let? period := g_period g op in
      Some (with_nodes g (g_nodes g ++ [Node op h period (f0 o) (repeat (f0 o) CHUNK)]), length (g_nodes g))) = Some (g', i) /\ inv g' es' vs' /\ extends g vs g' vs' /\ has g' vs' i v h).
    { intros c Hc ->. cbn [bind g_period].
      assert (Vc : forall r, v r = c). { intros r. apply (NC E (EConst c) c HE) with (r := r); [destruct Hc as [->| ->]; [left; reflexivity|right; left; reflexivity]|exact Hh|rewrite Ehv; reflexivity|apply Hv|rewrite Eev; reflexivity]. }
      destruct (push_ok g es vs (OConst c) E v c 1 I HE Hv Hh (const_periodic v c Vc) Vc ltac:(discriminate)) as (Q1 & Q2 & Q3).
      do 4 eexists. split; [reflexivity|]. split; [exact Q1|]. split; [exact Q2|exact Q3]. }
    destruct (feqb o h (f0 o)) eqn:Z0; [apply CONST; [left; reflexivity|apply (law_eqb o L), Z0]|]. destruct (feqb o h (f1 o)) eqn:Z1; [apply CONST; [right; reflexivity|apply (law_eqb o L), Z1]|].
    destruct PR as (op' & p & E1 & E2 & P & O & Ht); [intros ->; rewrite (proj2 (law_eqb o L _ _) eq_refl) in Z0; discriminate|intros ->; rewrite (proj2 (law_eqb o L _ _) eq_refl) in Z1; discriminate|].
    rewrite E1. cbn [bind]. rewrite E2. cbn [bind]. destruct (push_ok g es vs op' E v h p I HE Hv Hh P O Ht) as (Q1 & Q2 & Q3).
    do 4 eexists. split; [reflexivity|]. split; [exact Q1|]. split; [exact Q2|exact Q3].
Qed.

(** ** simplify *)
Lemma has_node g es vs a va ha : inv g es vs -> has g vs a va ha -> exists nd v p, g_get g a = Some nd /\ nth_error vs a = Some (v, p) /\ n_period nd = p /\ n_hash nd = ha /\ (forall r, v r = va r) /\ periodic v p /\ ok_op vs a (n_op nd) v p /\ a < length vs.
Proof.
  intros I (nd & v & p & E1 & E2 & E3 & E4). destruct (proj2 (i_good _ _ _ I) a nd v p E1 E2) as (Q1 & Q2 & Q3). exists nd, v, p. unfold g_get, get. repeat (split; [first [assumption|congruence]|]). apply nth_error_Some. congruence.
Qed.
Lemma periodic_le (v : nat -> F) p q : periodic v p -> (exists j, j <= k /\ q = 2 ^ j) -> p <= q -> forall r, v (r + q) = v r.
Proof.
  intros P (j & Hj & ->) H r. destruct (proj1 P) as (i & Hi & Ei). assert (i <= j). { destruct (Nat.le_gt_cases i j); [assumption|]. pose proof (Nat.pow_lt_mono_r 2 j i ltac:(lia) ltac:(lia)). lia. }
  replace (2 ^ j) with (2 ^ (j - i) * p) by (rewrite Ei, <- Nat.pow_add_r; f_equal; lia). eapply periodic_mul; [exact HkM|exact P].
Qed.
Lemma max_pow2 p q : (exists j, j <= k /\ p = 2 ^ j) -> (exists j, j <= k /\ q = 2 ^ j) -> exists j, j <= k /\ Nat.max p q = 2 ^ j.
Proof. intros H1 H2. destruct (Nat.max_spec p q) as [[_ ->]|[_ ->]]; assumption. Qed.
(** A node kept as it is. *)
Lemma keep1 (g : graph F) (vs : sem) a nd v' p (f : F -> F) v : g_get g a = Some nd -> nth_error vs a = Some (v', p) -> n_period nd = p -> periodic v' p -> a < length vs -> (forall r, v r = f (v' r)) ->
  g_period_of g a = Some p /\ periodic v p /\ a < length vs /\ exists va pa, nth_error vs a = Some (va, pa) /\ pa <= p /\ forall r, v r = f (va r).
Proof.
  intros E1 E2 E3 P Ha Hv. unfold g_period_of. rewrite E1. cbn [bind]. rewrite E3. split; [reflexivity|]. split; [split; [apply P|]; intros r; rewrite !Hv; f_equal; apply P|]. split; [exact Ha|]. exists v', p. auto.
Qed.
Lemma keep2 (g : graph F) (vs : sem) a b na nb va pa vb pb (f : F -> F -> F) v : g_get g a = Some na -> g_get g b = Some nb -> nth_error vs a = Some (va, pa) -> nth_error vs b = Some (vb, pb) -> n_period na = pa -> n_period nb = pb ->
  periodic va pa -> periodic vb pb -> a < length vs -> b < length vs -> (forall r, v r = f (va r) (vb r)) ->
  (let? x := g_period_of g a in let? y := g_period_of g b in Some (Nat.max x y)) = Some (Nat.max pa pb) /\ periodic v (Nat.max pa pb) /\
  child vs (length vs) (Nat.max pa pb) a (fun va => child vs (length vs) (Nat.max pa pb) b (fun vb => forall r, v r = f (va r) (vb r))).
Proof.
  intros E1 E2 E3 E4 E5 E6 Pa Pb Ha Hb Hv. unfold g_period_of. rewrite E1, E2. cbn [bind]. rewrite E5, E6. split; [reflexivity|]. pose proof (max_pow2 pa pb (proj1 Pa) (proj1 Pb)) as MX.
  split; [split; [exact MX|]; intros r; rewrite !Hv, (periodic_le va pa _ Pa MX), (periodic_le vb pb _ Pb MX) by lia; reflexivity|].
  split; [exact Ha|]. exists va, pa. split; [exact E3|]. split; [lia|]. split; [exact Hb|]. exists vb, pb. split; [exact E4|]. split; [lia|]. exact Hv.
Qed.
Lemma to_const g vs op v c : g_simplify o g op = Some (OConst c) -> (forall r, v r = c) -> prepared g vs op v.
Proof. intros E H. exists (OConst c), 1. split; [exact E|]. split; [reflexivity|]. split; [apply (const_periodic v c H)|]. split; [exact H|discriminate]. Qed.
Lemma to_coset g vs op v c j : g_simplify o g op = Some (OCoset c (2 ^ j)) -> j <= k -> (forall r, v r = (c * w j ^ r)%g) -> prepared g vs op v.
Proof. intros E Hj H. exists (OCoset c (2 ^ j)), (2 ^ j). split; [exact E|]. split; [reflexivity|]. split; [apply (coset_periodic v c j Hj H)|]. split; [|discriminate]. split; [reflexivity|]. exists j. auto. Qed.
Lemma w0_pow r : (w 0 ^ r)%g = f1 o.
Proof. pose proof (w_one o e M w SD 0 ltac:(lia)) as H. cbn in H. assert (E : w 0 = f1 o) by (rewrite <- H; ring). rewrite E. apply (fpw_one o L). Qed.
Lemma pow2_one j : 2 ^ j = 1 -> j = 0. Proof. destruct j; [reflexivity|]. rewrite Nat.pow_succ_r'. lia. Qed.
Lemma add_prepared g es vs a b va ha vb hb v : inv g es vs -> has g vs a va ha -> has g vs b vb hb -> (forall r, v r = (va r + vb r)%g) -> prepared g vs (OAdd a b) v.
Proof.
  intros I Ha Hb Hv. destruct (has_node g es vs a va ha I Ha) as (na & v1 & p1 & A1 & A2 & A3 & _ & A5 & A6 & A7 & A8). destruct (has_node g es vs b vb hb I Hb) as (nb & v2 & p2 & B1 & B2 & B3 & _ & B5 & B6 & B7 & B8).
  assert (Hv' : forall r, v r = (v1 r + v2 r)%g) by (intros r; rewrite Hv, A5, B5; reflexivity).
  assert (KEEP : g_simplify o g (OAdd a b) = Some (OAdd a b) -> prepared g vs (OAdd a b) v).
  { intros E. destruct (keep2 g vs a b na nb v1 p1 v2 p2 (fadd o) v A1 B1 A2 B2 A3 B3 A6 B6 A8 B8 Hv') as (Q1 & Q2 & Q3). exists (OAdd a b), (Nat.max p1 p2). split; [exact E|]. split; [exact Q1|]. split; [exact Q2|]. split; [exact Q3|discriminate]. }
  assert (ES : g_simplify o g (OAdd a b) = Some match n_op na, n_op nb with
           | OConst x, OConst y => OConst (fadd o x y)
           | OCoset c1 s1, OCoset c2 s2 => if s1 =? s2 then OCoset (fadd o c1 c2) s1 else OAdd a b
           | _, _ => OAdd a b
           end) by (cbn [g_simplify]; rewrite A1, B1; reflexivity).
  destruct (n_op na) as [c1|c1 s1| | | | | | | |]; try (apply KEEP; exact ES); destruct (n_op nb) as [c2|c2 s2| | | | | | | |]; try (apply KEEP; exact ES).
  - cbn [DagProofs.ok_op] in A7, B7. apply (to_const g vs _ v _ ES). intros r. rewrite Hv', A7, B7. reflexivity.
  - destruct (Nat.eqb_spec s1 s2) as [<-|]; [|apply KEEP; exact ES]. destruct A7 as [_ (j & Hj & -> & V1)]. destruct B7 as [_ (j2 & Hj2 & Ej & V2)]. apply (Nat.pow_inj_r 2) in Ej; [|lia]. subst j2.
    apply (to_coset g vs _ v _ j ES Hj). intros r. rewrite Hv', V1, V2. ring.
Qed.
Lemma mul_prepared g es vs a b va ha vb hb v : inv g es vs -> has g vs a va ha -> has g vs b vb hb -> (forall r, v r = (va r * vb r)%g) -> prepared g vs (OMul a b) v.
Proof.
  intros I Ha Hb Hv. destruct (has_node g es vs a va ha I Ha) as (na & v1 & p1 & A1 & A2 & A3 & _ & A5 & A6 & A7 & A8). destruct (has_node g es vs b vb hb I Hb) as (nb & v2 & p2 & B1 & B2 & B3 & _ & B5 & B6 & B7 & B8).
  assert (Hv' : forall r, v r = (v1 r * v2 r)%g) by (intros r; rewrite Hv, A5, B5; reflexivity).
  assert (KEEP : g_simplify o g (OMul a b) = Some (OMul a b) -> prepared g vs (OMul a b) v).
  { intros E. destruct (keep2 g vs a b na nb v1 p1 v2 p2 (fmul o) v A1 B1 A2 B2 A3 B3 A6 B6 A8 B8 Hv') as (Q1 & Q2 & Q3). exists (OMul a b), (Nat.max p1 p2). split; [exact E|]. split; [exact Q1|]. split; [exact Q2|]. split; [exact Q3|discriminate]. }
  assert (ES : g_simplify o g (OMul a b) = Some match n_op na, n_op nb with
           | OConst x, OConst y => OConst (fmul o x y)
           | OCoset c1 s1, OCoset c2 s2 =>
               if s1 =? 1 then OCoset (fmul o c1 c2) s2 else
               if s2 =? 1 then OCoset (fmul o c2 c1) s1 else
               if s1 =? s2 then OCoset (fmul o c1 c2) (s1 / 2) else OMul a b
           | OConst x, OCoset c s => OCoset (fmul o x c) s
           | OCoset c s, OConst x => OCoset (fmul o x c) s
           | _, _ => OMul a b
           end) by (cbn [g_simplify]; rewrite A1, B1; reflexivity).
  destruct (n_op na) as [c1|c1 s1| | | | | | | |]; try (apply KEEP; exact ES); destruct (n_op nb) as [c2|c2 s2| | | | | | | |]; try (apply KEEP; exact ES).
  - cbn [DagProofs.ok_op] in A7, B7. apply (to_const g vs _ v _ ES). intros r. rewrite Hv', A7, B7. reflexivity.
  - cbn [DagProofs.ok_op] in A7. destruct B7 as [_ (j & Hj & -> & V2)]. apply (to_coset g vs _ v _ j ES Hj). intros r. rewrite Hv', A7, V2. ring.
  - cbn [DagProofs.ok_op] in B7. destruct A7 as [_ (j & Hj & -> & V1)]. apply (to_coset g vs _ v _ j ES Hj). intros r. rewrite Hv', B7, V1. ring.
  - destruct A7 as [_ (j & Hj & -> & V1)]. destruct B7 as [_ (j2 & Hj2 & -> & V2)]. destruct (Nat.eqb_spec (2 ^ j) 1) as [E1|N1].
    + apply pow2_one in E1. subst j. apply (to_coset g vs _ v _ j2 ES Hj2). intros r. rewrite Hv', V1, V2, w0_pow. ring.
    + destruct (Nat.eqb_spec (2 ^ j2) 1) as [E2|N2].
      * apply pow2_one in E2. subst j2. apply (to_coset g vs _ v _ j ES Hj). intros r. rewrite Hv', V1, V2, w0_pow. ring.
      * destruct (Nat.eqb_spec (2 ^ j) (2 ^ j2)) as [Ej|]; [|apply KEEP; exact ES]. apply (Nat.pow_inj_r 2) in Ej; [|lia]. subst j2. destruct j as [|j]; [exfalso; apply N1; reflexivity|].
        rewrite Nat.pow_succ_r', Nat.mul_comm, Nat.div_mul in ES by lia. apply (to_coset g vs _ v _ j ES ltac:(lia)). intros r. rewrite Hv', V1, V2, (s_half _ _ _ _ SD j) by lia. rewrite (fpw_mul_base o L). ring.
Qed.
Lemma neg_prepared g es vs a va ha v : inv g es vs -> has g vs a va ha -> (forall r, v r = fneg o (va r)) -> prepared g vs (ONeg a) v.
Proof.
  intros I Ha Hv. destruct (has_node g es vs a va ha I Ha) as (na & v1 & p1 & A1 & A2 & A3 & _ & A5 & A6 & A7 & A8).
  assert (Hv' : forall r, v r = fneg o (v1 r)) by (intros r; rewrite Hv, A5; reflexivity).
  assert (KEEP : g_simplify o g (ONeg a) = Some (ONeg a) -> prepared g vs (ONeg a) v).
  { intros E. destruct (keep1 g vs a na v1 p1 (fneg o) v A1 A2 A3 A6 A8 Hv') as (Q1 & Q2 & Q3). exists (ONeg a), p1. split; [exact E|]. split; [exact Q1|]. split; [exact Q2|]. split; [exact Q3|discriminate]. }
  assert (ES : g_simplify o g (ONeg a) = Some match n_op na with OConst x => OConst (fneg o x) | OCoset c s => OCoset (fneg o c) s | _ => ONeg a end) by (cbn [g_simplify]; rewrite A1; reflexivity).
  destruct (n_op na) as [c1|c1 s1| | | | | | | |]; try (apply KEEP; exact ES).
  - cbn [DagProofs.ok_op] in A7. apply (to_const g vs _ v _ ES). intros r. rewrite Hv', A7. reflexivity.
  - destruct A7 as [_ (j & Hj & -> & V1)]. apply (to_coset g vs _ v _ j ES Hj). intros r. rewrite Hv', V1. ring.
Qed.
Lemma poly_prepared g es vs q a va ha v : inv g es vs -> has g vs a va ha -> (forall r, v r = evaluate o q (va r)) -> prepared g vs (OPoly q a) v.
Proof.
  intros I Ha Hv. destruct (has_node g es vs a va ha I Ha) as (na & v1 & p1 & A1 & A2 & A3 & _ & A5 & A6 & A7 & A8).
  assert (Hv' : forall r, v r = evaluate o q (v1 r)) by (intros r; rewrite Hv, A5; reflexivity).
  assert (KEEP : g_simplify o g (OPoly q a) = Some (OPoly q a) -> prepared g vs (OPoly q a) v).
  { intros E. destruct (keep1 g vs a na v1 p1 (evaluate o q) v A1 A2 A3 A6 A8 Hv') as (Q1 & Q2 & Q3). exists (OPoly q a), p1. split; [exact E|]. split; [exact Q1|]. split; [exact Q2|]. split; [exact Q3|discriminate]. }
  assert (ES : g_simplify o g (OPoly q a) = Some match n_op na with OConst x => OConst (evaluate o q x) | OCoset c s => if s =? 1 then OCoset (evaluate o q c) 1 else OPoly q a | _ => OPoly q a end) by (cbn [g_simplify]; rewrite A1; reflexivity).
  destruct (n_op na) as [c1|c1 s1| | | | | | | |]; try (apply KEEP; exact ES).
  - cbn [DagProofs.ok_op] in A7. apply (to_const g vs _ v _ ES). intros r. rewrite Hv', A7. reflexivity.
  - destruct A7 as [_ (j & Hj & -> & V1)]. destruct (Nat.eqb_spec (2 ^ j) 1) as [E1|]; [|apply KEEP; exact ES]. apply pow2_one in E1. subst j.
    apply (to_coset g vs _ v _ 0 ES Hj). intros r. rewrite Hv', V1, w0_pow. replace (c1 * f1 o)%g with c1 by ring. ring.
Qed.
Lemma inv_prepared g es vs a va ha v : inv g es vs -> has g vs a va ha -> (forall r, va r <> f0 o) -> (forall r, v r = finv o (va r)) -> prepared g vs (OInv a) v.
Proof.
  intros I Ha Hz Hv. destruct (has_node g es vs a va ha I Ha) as (na & v1 & p1 & A1 & A2 & A3 & _ & A5 & A6 & A7 & A8).
  assert (Hv' : forall r, v r = finv o (v1 r)) by (intros r; rewrite Hv, A5; reflexivity). assert (Hz' : forall r, v1 r <> f0 o) by (intros r; rewrite A5; apply Hz).
  assert (KEEP : g_simplify o g (OInv a) = Some (OInv a) -> prepared g vs (OInv a) v).
  { intros E. destruct (keep1 g vs a na v1 p1 (finv o) v A1 A2 A3 A6 A8 Hv') as (Q1 & Q2 & Q3 & va' & pa' & Q4 & Q5 & Q6). exists (OInv a), p1. split; [exact E|]. split; [exact Q1|]. split; [exact Q2|]. split; [|discriminate].
    split; [exact Q3|]. exists va', pa'. split; [exact Q4|]. split; [exact Q5|]. intros r. split; [|apply Q6]. rewrite A2 in Q4. injection Q4 as <- <-. apply Hz'. }
  assert (ES : g_simplify o g (OInv a) = match n_op na with OConst x => let? i := inv_opt o x in Some (OConst i) | OCoset c s => if (s =? 1) || (s =? 2) then let? i := inv_opt o c in Some (OCoset i s) else Some (OInv a) | _ => Some (OInv a) end) by (cbn [g_simplify]; rewrite A1; reflexivity).
  destruct (n_op na) as [c1|c1 s1| | | | | | | |]; try (apply KEEP; exact ES).
  - cbn [DagProofs.ok_op] in A7. rewrite (inv_opt_ne o L c1) in ES by (rewrite <- (A7 0); apply Hz'). cbn [bind] in ES. apply (to_const g vs _ v _ ES). intros r. rewrite Hv', A7. reflexivity.
  - destruct A7 as [_ (j & Hj & -> & V1)].
    assert (Hc : c1 <> f0 o). { specialize (Hz' 0). rewrite V1 in Hz'. cbn [fpw] in Hz'. intros ->. apply Hz'. ring. }
    rewrite (inv_opt_ne o L c1 Hc) in ES. cbn [bind] in ES. destruct (Nat.eqb_spec (2 ^ j) 1) as [E1|N1]; cbn [orb] in ES.
    + apply pow2_one in E1. subst j. apply (to_coset g vs _ v _ 0 ES Hj). intros r. rewrite Hv', V1, !w0_pow. replace (c1 * f1 o)%g with c1 by ring. ring.
    + destruct (Nat.eqb_spec (2 ^ j) 2) as [E2|]; [|apply KEEP; exact ES]. assert (j = 1) by (apply (Nat.pow_inj_r 2); [lia|exact E2]). subst j. apply (to_coset g vs _ v _ 1 ES Hj). intros r. rewrite Hv', V1.
      assert (W2 : (w 1 ^ r * w 1 ^ r)%g = f1 o). { rewrite <- (fpw_mul_base o L). replace (w 1 * w 1)%g with (w 1 ^ (2 ^ 1))%g by (cbn; ring). rewrite (w_one o e M w SD 1) by lia. apply (fpw_one o L). }
      symmetry. apply (finv_unique o L). transitivity (c1 * finv o c1 * (w 1 ^ r * w 1 ^ r))%g; [ring|]. rewrite W2, (finv_r o L) by exact Hc. ring.
Qed.
Lemma exp_prepared g es vs a n va ha v : inv g es vs -> has g vs a va ha -> (0 <= n < B)%Z -> n <> 0%Z -> (forall r, v r = pow_usize o (va r) n) -> prepared g vs (OExp a n) v.
Proof.
  intros I Ha Hn Hn0 Hv. destruct (has_node g es vs a va ha I Ha) as (na & v1 & p1 & A1 & A2 & A3 & _ & A5 & A6 & A7 & A8).
  assert (Hv' : forall r, v r = pow_usize o (v1 r) n) by (intros r; rewrite Hv, A5; reflexivity).
  assert (KEEP : g_simplify o g (OExp a n) = Some (OExp a n) -> prepared g vs (OExp a n) v).
  { intros E. destruct (keep1 g vs a na v1 p1 (fun x => pow_usize o x n) v A1 A2 A3 A6 A8 Hv') as (Q1 & Q2 & Q3). exists (OExp a n), p1. split; [exact E|]. split; [exact Q1|]. split; [exact Q2|]. split; [exact Q3|discriminate]. }
  assert (ES : g_simplify o g (OExp a n) = match n_op na with OConst x => Some (OConst (pow_usize o x n)) | OCoset c s => if (n =? 0)%Z then None else Some (if (Z.of_nat s mod n =? 0)%Z then OCoset (pow_usize o c n) (Z.to_nat (Z.of_nat s / n)) else OExp a n) | _ => Some (OExp a n) end) by (cbn [g_simplify]; rewrite A1; reflexivity).
  destruct (n_op na) as [c1|c1 s1| | | | | | | |]; try (apply KEEP; exact ES).
  - cbn [DagProofs.ok_op] in A7. apply (to_const g vs _ v _ ES). intros r. rewrite Hv', A7. reflexivity.
  - destruct A7 as [_ (j & Hj & -> & V1)]. destruct (Z.eqb_spec n 0); [contradiction|]. destruct (Z.eqb_spec (Z.of_nat (2 ^ j) mod n) 0) as [Em|]; [|apply KEEP; exact ES].
    pose proof (Z.div_mod (Z.of_nat (2 ^ j)) n ltac:(lia)) as D. rewrite Em, Z.add_0_r in D. set (q := (Z.of_nat (2 ^ j) / n)%Z) in *. assert (Hq : (0 <= q)%Z) by (apply Z.div_pos; lia).
    destruct (divisor_pow2 j (Z.to_nat n) (Z.to_nat q)) as (l & Hl & El); [rewrite <- Z2Nat.inj_mul by lia; rewrite <- D; apply Nat2Z.id|].
    assert (Eq : Z.to_nat q = 2 ^ (j - l)). { apply (Nat.mul_cancel_l _ _ (2 ^ l)); [apply Nat.pow_nonzero; lia|]. rewrite <- Nat.pow_add_r. replace (l + (j - l)) with j by lia. rewrite <- El, <- Z2Nat.inj_mul by lia. rewrite <- D. apply Nat2Z.id. }
    rewrite Eq in ES. apply (to_coset g vs _ v _ (j - l) ES ltac:(lia)). intros r. rewrite Hv', V1, !(pow_usize_spec o L) by exact Hn. rewrite (fexp_mul_base o L). f_equal.
    rewrite <- !(fpw_N o). replace (N.to_nat (Z.to_N n)) with (2 ^ l) by lia. rewrite <- (fpw_mul o L), Nat.mul_comm, (fpw_mul o L). f_equal.
    rewrite <- (w_pow o L e M w SD (j - l) l) by lia. f_equal. f_equal. lia.
Qed.

(** ** expression *)
Lemma sub_trans : forall (E : rexpr F) a, In a (subexpressions E) -> forall b, In b (subexpressions a) -> In b (subexpressions E).
Proof.
  induction E as [|c|i j|p a IH|i n a IH|a IHa b IHb|a IH|a IHa b IHb|a IH|a IH n]; intros x Hx y Hy; cbn [subexpressions] in Hx; destruct Hx as [<-|Hx]; try exact Hy; cbn [subexpressions]; right;
    try (destruct Hx; fail); try (apply (IH x Hx y Hy)).
  - apply in_app_iff in Hx. apply in_app_iff. destruct Hx as [Hx|Hx]; [left; apply (IHa x Hx y Hy)|right; apply (IHb x Hx y Hy)].
  - apply in_app_iff in Hx. apply in_app_iff. destruct Hx as [Hx|Hx]; [left; apply (IHa x Hx y Hy)|right; apply (IHb x Hx y Hy)].
Qed.
Lemma sub_self (E : rexpr F) : In E (subexpressions E). Proof. destruct E; left; reflexivity. Qed.
Lemma hash_of g vs i v h : has g vs i v h -> g_hash_of g i = Some h.
Proof. intros (nd & v' & p & E1 & _ & _ & E4). unfold g_hash_of, g_get, get. rewrite E1. cbn [bind]. congruence. Qed.
Lemma bind_inv {A C} (m : option A) (f : A -> option C) c : bind m f = Some c -> exists a, m = Some a /\ f a = Some c.
Proof. destruct m as [a|]; [exists a; auto|discriminate]. Qed.
Lemma bind_total (P : nat -> option F) (f : nat -> F -> option F) (v : nat -> F) : (forall r, bind (P r) (f r) = Some (v r)) -> exists u, (forall r, P r = Some (u r)) /\ forall r, f r (u r) = Some (v r).
Proof.
  intros H. exists (fun r => match P r with Some x => x | None => f0 o end). split; intros r; specialize (H r); destruct (P r); try reflexivity; try discriminate H. exact H.
Qed.
Lemma expression_ok : forall E g es vs v h, inv g es vs -> In E (subexpressions root) -> ExprSpec.usizes E -> (forall r, ev r E = Some (v r)) -> hv E = Some h ->
  exists g' i es' vs', g_expression o ktrace g E = Some (g', i) /\ inv g' es' vs' /\ extends g vs g' vs' /\ has g' vs' i v h.
Proof.
  assert (KEV : forall r E, ev r E = eval_expr o (c0 * w k ^ r)%g (T r) E) by exact Eev. assert (KHV : forall E, hv E = eval_expr o seed (fun i j => Some (ktrace seed i j)) E) by exact Ehv.
  induction E as [|c|i j|p a IH|i n a IH|a IHa b IHb|a IH|a IHa b IHb|a IH|a IH n]; intros g es vs v h I HE U Hv Hh; cbn [g_expression];
    assert (SUB : forall x, In x (subexpressions _) -> In x (subexpressions root)) by (intros x; apply (sub_trans root _ HE)); cbn [subexpressions] in SUB.
  - pose proof Hh as Hh'. rewrite KHV in Hh'. cbn [eval_expr] in Hh'. injection Hh' as Eh. apply (op_ok g es vs _ EX v h I HE Hv Hh).
    + cbn [g_hash]. rewrite (i_size _ _ _ I), (i_cof _ _ _ I), (i_seed _ _ _ I). pose proof (pow2_pos k). destruct (Nat.eqb_spec (2 ^ k) 0); [lia|]. rewrite Nat.mod_same by lia. cbn [Nat.eqb].
      rewrite (inv_opt_ne o L _ Hc0). cbn [bind]. rewrite Nat.div_same by lia. rewrite (pow_usize_spec o L) by (change B with (2 ^ 64)%Z; lia). change (Z.to_N (Z.of_nat 1)) with 1%N. rewrite (fexp_1 o L). f_equal. rewrite <- Eh.
      transitivity (c0 * finv o c0 * seed)%g; [ring|]. rewrite (finv_r o L) by exact Hc0. ring.
    + intros _ _. rewrite (i_cof _ _ _ I), (i_size _ _ _ I). apply (to_coset g vs _ v c0 k); [reflexivity|lia|]. intros r. specialize (Hv r). rewrite KEV in Hv. cbn [eval_expr] in Hv. congruence.
  - pose proof Hh as Hh'. rewrite KHV in Hh'. cbn [eval_expr] in Hh'. apply (op_ok g es vs _ (EConst c) v h I HE Hv Hh); [exact Hh'|]. intros _ _. apply (to_const g vs _ v c); [reflexivity|]. intros r. specialize (Hv r). rewrite KEV in Hv. cbn [eval_expr] in Hv. congruence.
  - pose proof Hh as Hh'. rewrite KHV in Hh'. cbn [eval_expr] in Hh'. apply (op_ok g es vs _ (ETrace i j) v h I HE Hv Hh); [cbn [g_hash]; rewrite (i_seed _ _ _ I); exact Hh'|]. intros _ _.
    assert (RT : forall r, read_trace t bl r i j = Some (v r)) by (intros r; specialize (Hv r); rewrite KEV in Hv; cbn [eval_expr] in Hv; rewrite (HT i j HE r); exact Hv).
    exists (OTrace i j), (2 ^ k). split; [reflexivity|]. split; [cbn [g_period]; rewrite (i_size _ _ _ I); reflexivity|]. split; [|split; [reflexivity|intros c off Q; injection Q as <- <-; exact RT]].
    split; [exists k; auto|]. intros r. pose proof (RT (r + 2 ^ k)) as R1. pose proof (RT r) as R2. rewrite (HT i j HE) in R1, R2. rewrite HTp in R1. congruence.
  - cbn [ExprSpec.usizes] in U. destruct (bind_total (fun r => ev r a) (fun r x => Some (evaluate o p x)) v) as (u & Hu & Hf); [intros r; rewrite <- (Hv r), !KEV; reflexivity|].
    assert (X : exists ha, hv a = Some ha /\ h = evaluate o p ha). { rewrite KHV in Hh. cbn [eval_expr] in Hh. apply bind_inv in Hh as (ha & H1 & H2). exists ha. rewrite KHV. split; [exact H1|congruence]. }
    destruct X as (ha & Ha & Eh). destruct (IH g es vs u ha I) as (g1 & i1 & es1 & vs1 & E1 & I1 & X1 & N1); [apply SUB; right; apply sub_self|apply U|exact Hu|exact Ha|]. rewrite E1. cbn [bind].
    destruct (op_ok g1 es1 vs1 (OPoly p i1) (EPoly p a) v h I1 HE Hv Hh) as (g2 & i2 & es2 & vs2 & E2 & I2 & X2 & N2); [cbn [g_hash]; rewrite (hash_of _ _ _ _ _ N1); cbn [bind]; congruence| |exists g2, i2, es2, vs2; split; [exact E2|split; [exact I2|split; [apply (extends_trans _ _ _ _ _ _ X1 X2)|exact N2]]]].
    intros _ _. apply (poly_prepared g1 es1 vs1 p i1 u ha v I1 N1). intros r. specialize (Hf r). congruence.
  - exfalso. specialize (Hv 0). rewrite KEV in Hv. discriminate Hv.
  - cbn [ExprSpec.usizes] in U. destruct (bind_total (fun r => ev r a) (fun r x => let? y := ev r b in Some (fadd o x y)) v) as (u & Hu & Hf); [intros r; rewrite <- (Hv r), !KEV; reflexivity|].
    destruct (bind_total (fun r => ev r b) (fun r y => Some (fadd o (u r) y)) v Hf) as (u2 & Hu2 & Hf2).
    assert (X : exists ha hb, hv a = Some ha /\ hv b = Some hb /\ h = fadd o ha hb). { rewrite KHV in Hh. cbn [eval_expr] in Hh. apply bind_inv in Hh as (ha & H1 & H2). apply bind_inv in H2 as (hb & H2 & H3). exists ha, hb. rewrite !KHV. split; [exact H1|]. split; [exact H2|congruence]. }
    destruct X as (ha & hb & Ha & Hb & Eh). destruct (IHa g es vs u ha I) as (g1 & i1 & es1 & vs1 & E1 & I1 & X1 & N1); [apply SUB; right; apply in_or_app; left; apply sub_self|apply U|exact Hu|exact Ha|]. rewrite E1. cbn [bind].
    destruct (IHb g1 es1 vs1 u2 hb I1) as (g2 & i2 & es2 & vs2 & E2 & I2 & X2 & N2); [apply SUB; right; apply in_or_app; right; apply sub_self|apply U|exact Hu2|exact Hb|]. rewrite E2. cbn [bind]. pose proof (has_ext _ _ _ _ _ _ _ X2 N1) as N1'.
    destruct (op_ok g2 es2 vs2 (OAdd i1 i2) (EAdd a b) v h I2 HE Hv Hh) as (g3 & i3 & es3 & vs3 & E3 & I3 & X3 & N3); [cbn [g_hash]; rewrite (hash_of _ _ _ _ _ N1'), (hash_of _ _ _ _ _ N2); cbn [bind]; congruence| |exists g3, i3, es3, vs3; split; [exact E3|split; [exact I3|split; [apply (extends_trans _ _ _ _ _ _ X1 (extends_trans _ _ _ _ _ _ X2 X3))|exact N3]]]].
    intros _ _. apply (add_prepared g2 es2 vs2 i1 i2 u ha u2 hb v I2 N1' N2). intros r. specialize (Hf2 r). congruence.
  - cbn [ExprSpec.usizes] in U. destruct (bind_total (fun r => ev r a) (fun r x => Some (fneg o x)) v) as (u & Hu & Hf); [intros r; rewrite <- (Hv r), !KEV; reflexivity|].
    assert (X : exists ha, hv a = Some ha /\ h = fneg o ha). { rewrite KHV in Hh. cbn [eval_expr] in Hh. apply bind_inv in Hh as (ha & H1 & H2). exists ha. rewrite KHV. split; [exact H1|congruence]. }
    destruct X as (ha & Ha & Eh). destruct (IH g es vs u ha I) as (g1 & i1 & es1 & vs1 & E1 & I1 & X1 & N1); [apply SUB; right; apply sub_self|apply U|exact Hu|exact Ha|]. rewrite E1. cbn [bind].
    destruct (op_ok g1 es1 vs1 (ONeg i1) (ENeg a) v h I1 HE Hv Hh) as (g2 & i2 & es2 & vs2 & E2 & I2 & X2 & N2); [cbn [g_hash]; rewrite (hash_of _ _ _ _ _ N1); cbn [bind]; congruence| |exists g2, i2, es2, vs2; split; [exact E2|split; [exact I2|split; [apply (extends_trans _ _ _ _ _ _ X1 X2)|exact N2]]]].
    intros _ _. apply (neg_prepared g1 es1 vs1 i1 u ha v I1 N1). intros r. specialize (Hf r). congruence.
  - cbn [ExprSpec.usizes] in U. destruct (bind_total (fun r => ev r a) (fun r x => let? y := ev r b in Some (fmul o x y)) v) as (u & Hu & Hf); [intros r; rewrite <- (Hv r), !KEV; reflexivity|].
    destruct (bind_total (fun r => ev r b) (fun r y => Some (fmul o (u r) y)) v Hf) as (u2 & Hu2 & Hf2).
    assert (X : exists ha hb, hv a = Some ha /\ hv b = Some hb /\ h = fmul o ha hb). { rewrite KHV in Hh. cbn [eval_expr] in Hh. apply bind_inv in Hh as (ha & H1 & H2). apply bind_inv in H2 as (hb & H2 & H3). exists ha, hb. rewrite !KHV. split; [exact H1|]. split; [exact H2|congruence]. }
    destruct X as (ha & hb & Ha & Hb & Eh). destruct (IHa g es vs u ha I) as (g1 & i1 & es1 & vs1 & E1 & I1 & X1 & N1); [apply SUB; right; apply in_or_app; left; apply sub_self|apply U|exact Hu|exact Ha|]. rewrite E1. cbn [bind].
    destruct (IHb g1 es1 vs1 u2 hb I1) as (g2 & i2 & es2 & vs2 & E2 & I2 & X2 & N2); [apply SUB; right; apply in_or_app; right; apply sub_self|apply U|exact Hu2|exact Hb|]. rewrite E2. cbn [bind]. pose proof (has_ext _ _ _ _ _ _ _ X2 N1) as N1'.
    destruct (op_ok g2 es2 vs2 (OMul i1 i2) (EMul a b) v h I2 HE Hv Hh) as (g3 & i3 & es3 & vs3 & E3 & I3 & X3 & N3); [cbn [g_hash]; rewrite (hash_of _ _ _ _ _ N1'), (hash_of _ _ _ _ _ N2); cbn [bind]; congruence| |exists g3, i3, es3, vs3; split; [exact E3|split; [exact I3|split; [apply (extends_trans _ _ _ _ _ _ X1 (extends_trans _ _ _ _ _ _ X2 X3))|exact N3]]]].
    intros _ _. apply (mul_prepared g2 es2 vs2 i1 i2 u ha u2 hb v I2 N1' N2). intros r. specialize (Hf2 r). congruence.
  - cbn [ExprSpec.usizes] in U. destruct (bind_total (fun r => ev r a) (fun r x => inv_opt o x) v) as (u & Hu & Hf); [intros r; rewrite <- (Hv r), !KEV; reflexivity|].
    assert (X : exists ha, hv a = Some ha /\ inv_opt o ha = Some h). { rewrite KHV in Hh. cbn [eval_expr] in Hh. apply bind_inv in Hh as (ha & H1 & H2). exists ha. rewrite KHV. split; [exact H1|exact H2]. }
    destruct X as (ha & Ha & Eh). destruct (IH g es vs u ha I) as (g1 & i1 & es1 & vs1 & E1 & I1 & X1 & N1); [apply SUB; right; apply sub_self|apply U|exact Hu|exact Ha|]. rewrite E1. cbn [bind].
    destruct (op_ok g1 es1 vs1 (OInv i1) (EInv a) v h I1 HE Hv Hh) as (g2 & i2 & es2 & vs2 & E2 & I2 & X2 & N2); [cbn [g_hash]; rewrite (hash_of _ _ _ _ _ N1); cbn [bind]; exact Eh| |exists g2, i2, es2, vs2; split; [exact E2|split; [exact I2|split; [apply (extends_trans _ _ _ _ _ _ X1 X2)|exact N2]]]].
    intros _ _. apply (inv_prepared g1 es1 vs1 i1 u ha v I1 N1); intros r; specialize (Hf r).
    + intros Z0. rewrite Z0 in Hf. rewrite (proj2 (inv_opt_none o L _) eq_refl) in Hf. discriminate Hf.
    + destruct (feq_dec o L (u r) (f0 o)) as [Z0|NZ]; [rewrite Z0, (proj2 (inv_opt_none o L _) eq_refl) in Hf; discriminate Hf|]. rewrite (inv_opt_ne o L _ NZ) in Hf. congruence.
  - cbn [ExprSpec.usizes] in U. destruct (bind_total (fun r => ev r a) (fun r x => Some (pow_usize o x n)) v) as (u & Hu & Hf); [intros r; rewrite <- (Hv r), !KEV; reflexivity|].
    assert (X : exists ha, hv a = Some ha /\ h = pow_usize o ha n). { rewrite KHV in Hh. cbn [eval_expr] in Hh. apply bind_inv in Hh as (ha & H1 & H2). exists ha. rewrite KHV. split; [exact H1|congruence]. }
    destruct X as (ha & Ha & Eh). destruct (IH g es vs u ha I) as (g1 & i1 & es1 & vs1 & E1 & I1 & X1 & N1); [apply SUB; right; apply sub_self|apply U|exact Hu|exact Ha|]. rewrite E1. cbn [bind].
    destruct (op_ok g1 es1 vs1 (OExp i1 n) (EExp a n) v h I1 HE Hv Hh) as (g2 & i2 & es2 & vs2 & E2 & I2 & X2 & N2); [cbn [g_hash]; rewrite (hash_of _ _ _ _ _ N1); cbn [bind]; congruence| |exists g2, i2, es2, vs2; split; [exact E2|split; [exact I2|split; [apply (extends_trans _ _ _ _ _ _ X1 X2)|exact N2]]]].
    intros _ NH1. apply (exp_prepared g1 es1 vs1 i1 n u ha v I1 N1); [change B with (2 ^ 64)%Z; apply U| |intros r; specialize (Hf r); congruence].
    intros ->. apply NH1. rewrite Eh, (pow_usize_spec o L) by (change B with (2 ^ 64)%Z; lia). reflexivity.
Qed.
End Build.
