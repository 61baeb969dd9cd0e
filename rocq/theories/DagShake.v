(** The evaluation graph: tree_shake and lookup_tables. *)
Require Import Field ZArith NArith Lia Bool List.
From Verif Require Import Word KnuthModel FieldSig FieldAlgModel FieldAlgProofs Arr FftModel PermuteProofs FftProofs StarkBase PolyModel TraceModel ExprModel DagModel DagProofs.
Import ListNotations.
Open Scope nat_scope.

(** ** Counting the kept entries *)
Fixpoint cnt (used : list bool) (i : nat) : nat := match used, i with u :: r, S i => (if u then 1 else 0) + cnt r i | _, _ => 0 end.
Lemma cnt_mono used : forall i j, i <= j -> cnt used i <= cnt used j.
Proof. induction used as [|u r IH]; intros [|i] [|j] H; cbn; try lia. specialize (IH i j ltac:(lia)). lia. Qed.
Lemma cnt_lt used : forall i j, nth_error used i = Some true -> i < j -> cnt used i < cnt used j.
Proof.
  induction used as [|u r IH]; intros [|i] [|j] H Hl; cbn [nth_error] in H; try discriminate; try lia.
  - injection H as ->. cbn. lia.
  - cbn [cnt]. specialize (IH i j H ltac:(lia)). lia.
Qed.
Lemma renumber_spec used : forall c i, nth_error used i = Some true -> nth_error (renumber used c) i = Some (c + cnt used i).
Proof.
  induction used as [|u r IH]; intros c [|i] H; cbn [nth_error] in H; try discriminate.
  - injection H as ->. cbn. f_equal. lia.
  - destruct u; cbn [renumber nth_error cnt]; rewrite (IH _ i H); f_equal; lia.
Qed.
Lemma renumber_length used : forall c, length (renumber used c) = length used.
Proof. induction used as [|u r IH]; intros c; [reflexivity|]. destruct u; cbn; rewrite IH; reflexivity. Qed.
Lemma retain_at {A} used : forall (l : list A) i, length used = length l -> nth_error used i = Some true -> nth_error (retain used l) (cnt used i) = nth_error l i.
Proof.
  induction used as [|u r IH]; intros [|x l] [|i] Hl H; cbn [nth_error length] in *; try discriminate.
  - injection H as ->. reflexivity.
  - destruct u; cbn [retain cnt Nat.add nth_error]; apply IH; (lia || assumption).
Qed.
Lemma retain_from {A} used : forall (l : list A) m x, length used = length l -> nth_error (retain used l) m = Some x -> exists i, nth_error used i = Some true /\ cnt used i = m /\ nth_error l i = Some x.
Proof.
  induction used as [|u r IH]; intros [|y l] m x Hl H; cbn [length] in *; try discriminate; [destruct m; discriminate H|].
  destruct u; cbn [retain] in H.
  - destruct m as [|m]; [injection H as ->; exists 0; auto|]. cbn [nth_error] in H. destruct (IH l m x ltac:(lia) H) as (i & H1 & H2 & H3). exists (S i). cbn. auto.
  - destruct (IH l m x ltac:(lia) H) as (i & H1 & H2 & H3). exists (S i). cbn. auto.
Qed.
Lemma retain_length {A} used : forall l : list A, length used = length l -> length (retain used l) = cnt used (length used).
Proof. induction used as [|u r IH]; intros [|x l] H; cbn in *; try lia. specialize (IH l ltac:(lia)). destruct u; cbn; lia. Qed.
Lemma cnt_end used tip : nth_error used tip = Some true -> (forall i, nth_error used i = Some true -> i <= tip) -> cnt used (length used) = S (cnt used tip).
Proof.
  revert tip. induction used as [|u r IH]; intros [|tip] H Hm; cbn [nth_error] in H; try discriminate.
  - injection H as ->. cbn [length cnt]. assert (Z0 : forall (r : list bool), (forall i, nth_error r i <> Some true) -> cnt r (length r) = 0).
    { clear. induction r as [|u r IH]; intros H; [reflexivity|]. cbn. destruct u; [exfalso; apply (H 0); reflexivity|]. rewrite IH; [reflexivity|]. intros i. apply (H (S i)). }
    rewrite Z0; [reflexivity|]. intros i Hi. specialize (Hm (S i) Hi). lia.
  - cbn [length cnt]. rewrite (IH tip H); [lia|]. intros i Hi. specialize (Hm (S i) Hi). lia.
Qed.

Section Shake.
Context {F : Type} (o : ops F) (L : lawful o) (e : engine F) (M : nat) (w : nat -> F) (SD : sound o e M w) (k : nat) (HkM : k <= M).
Add Field Ffield : (law_field o L).
Notation good := (good o w k). Notation ok_op := (ok_op o w k). Notation periodic := (periodic k). Notation sem := (@sem F).

Definition children (op : operation F) : list nat := match op with OAdd a b | OMul a b => [a; b] | ONeg a | OInv a | OExp a _ | OPoly _ a => [a] | _ => [] end.
(** What the recursion marks. *)
Inductive reach (ns : list (node F)) : nat -> nat -> Prop :=
  | reach_here i : reach ns i i
  | reach_step i nd a j : nth_error ns i = Some nd -> In a (children (n_op nd)) -> reach ns a j -> reach ns i j.
Definition causal (ns : list (node F)) : Prop := forall i nd a, nth_error ns i = Some nd -> In a (children (n_op nd)) -> a < i.
Lemma reach_le ns i j : causal ns -> reach ns i j -> j <= i.
Proof. intros C R. induction R as [i|i nd a j E Ha R IH]; [lia|]. specialize (C i nd a E Ha). lia. Qed.
Lemma reach_trans ns i j nd a : reach ns i j -> nth_error ns j = Some nd -> In a (children (n_op nd)) -> reach ns i a.
Proof. intros R E Ha. induction R as [i|i ndi b j Ei Hb R IH]; [apply (reach_step ns i nd a a E Ha), reach_here|apply (reach_step ns i ndi b a Ei Hb), IH, E]. Qed.
Definition marks (used used' : list bool) (P : nat -> Prop) : Prop := length used' = length used /\ forall j, nth_error used' j = Some true <-> nth_error used j = Some true \/ P j.
Lemma nth_error_upd {A} (v : list A) i x j : i < length v -> nth_error (upd v i x) j = if j =? i then Some x else nth_error v j.
Proof. revert i j. induction v as [|a v IH]; intros [|i] [|j] H; cbn in *; try lia; try reflexivity. apply IH. lia. Qed.
Lemma recurse_ok ns : causal ns -> forall fuel used i, i < fuel -> i < length ns -> length used = length ns -> exists used', recurse fuel ns used i = Some used' /\ marks used used' (reach ns i).
Proof.
  intros C. induction fuel as [|fuel IH]; intros used i Hf Hi Hl; [lia|]. cbn [recurse]. rewrite set_ok by lia. cbn [bind]. unfold get.
  destruct (nth_error ns i) as [nd|] eqn:E; [|apply nth_error_None in E; lia]. cbn [bind].
  assert (M0 : forall j, nth_error (upd used i true) j = Some true <-> nth_error used j = Some true \/ j = i).
  { intros j. rewrite nth_error_upd by lia. destruct (Nat.eqb_spec j i) as [->|N]; [split; auto|]. split; [auto|intros [H|H]; [exact H|lia]]. }
  assert (K : forall a, In a (children (n_op nd)) -> a < i) by (intros a Ha; apply (C i nd a E Ha)).
  assert (R0 : forall j, reach ns i j <-> j = i \/ exists a, In a (children (n_op nd)) /\ reach ns a j).
  { intros j. split.
    - intros R. inversion R as [|? nd' a ? E' Ha R']; subst; [left; reflexivity|]. rewrite E in E'. injection E' as <-. right. exists a. auto.
    - intros [->|(a & Ha & R)]; [apply reach_here|apply (reach_step ns i nd a j E Ha R)]. }
  assert (Lu : length (upd used i true) = length ns) by (rewrite upd_length; exact Hl).
  assert (ONE : forall a, children (n_op nd) = [a] -> exists used', recurse fuel ns (upd used i true) a = Some used' /\ marks used used' (reach ns i)).
  { intros a Ec. rewrite Ec in *. destruct (IH (upd used i true) a) as (u & E1 & L1 & H1); [specialize (K a (or_introl eq_refl)); lia|specialize (K a (or_introl eq_refl)); lia|exact Lu|].
    exists u. split; [exact E1|]. split; [rewrite L1, upd_length; reflexivity|]. intros j. rewrite H1, M0, R0. split; [intros [[H|H]|H]; [auto|auto|right; right; exists a; split; [left; reflexivity|exact H]]|].
    intros [H|[H|(b & [<-|[]] & H)]]; auto. }
  assert (TWO : forall a b, children (n_op nd) = [a; b] -> exists used', (let? u := recurse fuel ns (upd used i true) a in recurse fuel ns u b) = Some used' /\ marks used used' (reach ns i)).
  { intros a b Ec. rewrite Ec in *. destruct (IH (upd used i true) a) as (u & E1 & L1 & H1); [specialize (K a (or_introl eq_refl)); lia|specialize (K a (or_introl eq_refl)); lia|exact Lu|].
    destruct (IH u b) as (u2 & E2 & L2 & H2); [specialize (K b (or_intror (or_introl eq_refl))); lia|specialize (K b (or_intror (or_introl eq_refl))); lia|lia|].
    exists u2. rewrite E1. split; [exact E2|]. split; [rewrite L2, L1, upd_length; reflexivity|]. intros j. rewrite H2, H1, M0, R0. split.
    - intros [[[H|H]|H]|H]; [auto|auto|right; right; exists a; split; [left; reflexivity|exact H]|right; right; exists b; split; [right; left; reflexivity|exact H]].
    - intros [H|[H|(c & [<-|[<-|[]]] & H)]]; auto. }
  assert (ZERO : children (n_op nd) = [] -> marks used (upd used i true) (reach ns i)).
  { intros Ec. rewrite Ec in *. split; [apply upd_length|]. intros j. rewrite M0, R0. split; [intros [H|H]; auto|intros [H|[H|(c & [] & _)]]; auto]. }
  destruct (n_op nd); cbn [children] in *; first [apply ONE; reflexivity|apply TWO; reflexivity|eexists; split; [reflexivity|apply ZERO; reflexivity]].
Qed.
Lemma repeat_false n j : nth_error (repeat false n) j <> Some true.
Proof. revert j. induction n as [|n IH]; intros [|j]; cbn; try discriminate. apply IH. Qed.

Lemma ok_children (vs : sem) i op v p a : ok_op vs i op v p -> In a (children op) -> a < i /\ exists va pa, nth_error vs a = Some (va, pa) /\ pa <= p.
Proof.
  intros O Ha. destruct op as [c|c s|c off|x y|x|x y|x|x n|q x|l]; cbn [children] in Ha; try (destruct Ha; fail); cbn [DagProofs.ok_op] in O.
  - destruct O as (H1 & va & pa & E1 & P1 & H2 & vb & pb & E2 & P2 & _). destruct Ha as [<-|[<-|[]]]; [split; [exact H1|exists va, pa; auto]|split; [exact H2|exists vb, pb; auto]].
  - destruct O as (H1 & va & pa & E1 & P1 & _). destruct Ha as [<-|[]]. split; [exact H1|exists va, pa; auto].
  - destruct O as (H1 & va & pa & E1 & P1 & H2 & vb & pb & E2 & P2 & _). destruct Ha as [<-|[<-|[]]]; [split; [exact H1|exists va, pa; auto]|split; [exact H2|exists vb, pb; auto]].
  - destruct O as (H1 & va & pa & E1 & P1 & _). destruct Ha as [<-|[]]. split; [exact H1|exists va, pa; auto].
  - destruct O as (H1 & va & pa & E1 & P1 & _). destruct Ha as [<-|[]]. split; [exact H1|exists va, pa; auto].
  - destruct O as (H1 & va & pa & E1 & P1 & _). destruct Ha as [<-|[]]. split; [exact H1|exists va, pa; auto].
Qed.
Lemma good_sem ns vs i nd : good ns vs -> nth_error ns i = Some nd -> exists v p, nth_error vs i = Some (v, p).
Proof. intros [Lg _] E. destruct (nth_error vs i) as [[v p]|] eqn:Ev; [exists v, p; reflexivity|]. exfalso. apply nth_error_None in Ev. assert (i < length ns) by (apply nth_error_Some; congruence). lia. Qed.
Lemma good_causal ns vs : good ns vs -> causal ns.
Proof. intros G i nd a E Ha. destruct (good_sem ns vs i nd G E) as (v & p & Ev). destruct (proj2 G i nd v p E Ev) as (_ & _ & O). apply (ok_children vs i (n_op nd) v p a O Ha). Qed.
Lemma reach_period ns vs i j v p v' p' : good ns vs -> reach ns i j -> nth_error vs i = Some (v, p) -> nth_error vs j = Some (v', p') -> p' <= p.
Proof.
  intros G R. revert v p. induction R as [i|i nd a j E Ha R IH]; intros v p E1 E2; [rewrite E1 in E2; injection E2 as <- <-; lia|].
  destruct (proj2 G i nd v p E E1) as (_ & _ & O). destruct (ok_children vs i (n_op nd) v p a O Ha) as (_ & va & pa & Ea & Hp). specialize (IH va pa Ea E2). lia.
Qed.

Definition op_map (f : nat -> nat) (op : operation F) : operation F :=
  match op with OAdd a b => OAdd (f a) (f b) | OMul a b => OMul (f a) (f b) | ONeg a => ONeg (f a) | OInv a => OInv (f a) | OExp a n => OExp (f a) n | OPoly q a => OPoly q (f a) | op => op end.
Lemma rename_ok numbers nd (f : nat -> nat) : (forall a, In a (children (n_op nd)) -> nth_error numbers a = Some (f a)) -> exists nd', rename numbers nd = Some nd' /\
  n_period nd' = n_period nd /\ n_values nd' = n_values nd /\
  n_op nd' = op_map f (n_op nd).
Proof.
  intros H. unfold rename, get. destruct (n_op nd) as [c|c s|c off|x y|x|x y|x|x n|q x|l] eqn:Eo; cbn [children] in H;
  try rewrite (H x) by (left; reflexivity); try rewrite (H y) by (right; left; reflexivity); cbn [bind]; eexists; (split; [reflexivity|]); cbn [with_op n_period n_values n_op]; auto.
Qed.
Lemma option_all_index {A C} (f : A -> option C) : forall l, (forall i a, nth_error l i = Some a -> exists c, f a = Some c) ->
  exists r, option_all (map f l) = Some r /\ length r = length l /\ forall i a, nth_error l i = Some a -> exists c, nth_error r i = Some c /\ f a = Some c.
Proof.
  induction l as [|a l IH]; intros H; [exists []; split; [reflexivity|]; split; [reflexivity|]; intros [|i] x E; discriminate E|].
  destruct (H 0 a eq_refl) as (c & Ec). destruct IH as (r & Er & Lr & Hr); [intros i x E; apply (H (S i) x E)|].
  exists (c :: r). cbn [map option_all]. rewrite Ec. cbn [bind]. rewrite Er. cbn [bind]. split; [reflexivity|]. split; [cbn; lia|]. intros [|i] x E; [injection E as <-; exists c; auto|apply Hr, E].
Qed.
Lemma ok_rename (vs vs' : sem) i i' op v p (f : nat -> nat) :
  ok_op vs i op v p -> (forall a, In a (children op) -> f a < i' /\ nth_error vs' (f a) = nth_error vs a) ->
  ok_op vs' i' (op_map f op) v p.
Proof.
  intros O H. destruct op as [c|c s|c off|x y|x|x y|x|x n|q x|l]; cbn [children] in H; cbn [DagProofs.ok_op op_map] in *; try exact O.
  - destruct O as (H1 & va & pa & E1 & P1 & H2 & vb & pb & E2 & P2 & Ev). destruct (H x (or_introl eq_refl)) as [K1 K2]. destruct (H y (or_intror (or_introl eq_refl))) as [K3 K4].
    split; [exact K1|]. exists va, pa. split; [congruence|]. split; [exact P1|]. split; [exact K3|]. exists vb, pb. split; [congruence|]. split; assumption.
  - destruct O as (H1 & va & pa & E1 & P1 & Ev). destruct (H x (or_introl eq_refl)) as [K1 K2]. split; [exact K1|]. exists va, pa. split; [congruence|]. split; assumption.
  - destruct O as (H1 & va & pa & E1 & P1 & H2 & vb & pb & E2 & P2 & Ev). destruct (H x (or_introl eq_refl)) as [K1 K2]. destruct (H y (or_intror (or_introl eq_refl))) as [K3 K4].
    split; [exact K1|]. exists va, pa. split; [congruence|]. split; [exact P1|]. split; [exact K3|]. exists vb, pb. split; [congruence|]. split; assumption.
  - destruct O as (H1 & va & pa & E1 & P1 & Ev). destruct (H x (or_introl eq_refl)) as [K1 K2]. split; [exact K1|]. exists va, pa. split; [congruence|]. split; assumption.
  - destruct O as (H1 & va & pa & E1 & P1 & Ev). destruct (H x (or_introl eq_refl)) as [K1 K2]. split; [exact K1|]. exists va, pa. split; [congruence|]. split; assumption.
  - destruct O as (H1 & va & pa & E1 & P1 & Ev). destruct (H x (or_introl eq_refl)) as [K1 K2]. split; [exact K1|]. exists va, pa. split; [congruence|]. split; assumption.
Qed.

(** tree_shake keeps the tip as the last node, and the meaning of everything below it. *)
Lemma tree_shake_ok g vs tip v p : good (g_nodes g) vs -> shaped (g_nodes g) -> nth_error vs tip = Some (v, p) ->
  exists ns vs' i, tree_shake g tip = Some (with_nodes g ns, i) /\ good ns vs' /\ shaped ns /\ nth_error vs' (length vs' - 1) = Some (v, p) /\
  (forall t bl, trace_ok t bl (g_nodes g) vs -> trace_ok t bl ns vs') /\
  (forall j nd, nth_error ns j = Some nd -> n_period nd <= p).
Proof.
  intros G Sh Et. pose proof (good_causal _ _ G) as C. pose proof (proj1 G) as Lg.
  assert (Ht : tip < length (g_nodes g)) by (rewrite Lg; apply nth_error_Some; congruence).
  destruct (recurse_ok (g_nodes g) C (length (g_nodes g)) (repeat false (length (g_nodes g))) tip Ht Ht (repeat_length _ _)) as (used & E1 & Lu & Hu). rewrite repeat_length in Lu.
  assert (HU : forall j, nth_error used j = Some true <-> reach (g_nodes g) tip j) by (intros j; rewrite Hu; split; [intros [H|H]; [exfalso; exact (repeat_false _ _ H)|exact H]|auto]).
  unfold tree_shake. rewrite E1. cbn [bind].
  set (num := fun a => nth a (renumber used 0) 0).
  assert (HN : forall a, a < length (g_nodes g) -> nth_error (renumber used 0) a = Some (num a)) by (intros a Ha; unfold num; apply nth_error_nth'; rewrite renumber_length; lia).
  destruct (option_all_index (rename (renumber used 0)) (g_nodes g)) as (ns & E2 & Ln & Hn).
  { intros i nd E. destruct (rename_ok (renumber used 0) nd num) as (nd' & En & _); [|exists nd'; exact En]. intros a Ha. apply HN. pose proof (C i nd a E Ha). assert (i < length (g_nodes g)) by (apply nth_error_Some; congruence). lia. }
  rewrite E2. cbn [bind]. unfold get. rewrite (HN tip Ht). cbn [bind].
  assert (Hused : nth_error used tip = Some true) by (apply HU, reach_here).
  assert (NUM : forall a, nth_error used a = Some true -> num a = cnt used a). { intros a Ha. assert (a < length used) by (apply nth_error_Some; congruence). pose proof (renumber_spec used 0 a Ha) as Q. rewrite HN in Q by lia. injection Q as ->. reflexivity. }
  assert (FROM : forall m nd', nth_error (retain used ns) m = Some nd' -> exists i nd v' p', nth_error used i = Some true /\ cnt used i = m /\ nth_error (g_nodes g) i = Some nd /\ nth_error vs i = Some (v', p') /\ nth_error (retain used vs) m = Some (v', p') /\
     n_period nd' = n_period nd /\ n_values nd' = n_values nd /\ n_op nd' = op_map num (n_op nd)).
  { intros m nd' E. destruct (retain_from used ns m nd' ltac:(lia) E) as (i & U & Ci & Ei). assert (Hi : i < length (g_nodes g)) by (rewrite <- Ln; apply nth_error_Some; congruence).
    destruct (nth_error (g_nodes g) i) as [nd|] eqn:End; [|apply nth_error_None in End; lia]. destruct (good_sem _ _ i nd G End) as (v' & p' & Ev). exists i, nd, v', p'.
    split; [exact U|]. split; [exact Ci|]. split; [exact End|]. split; [exact Ev|]. split; [rewrite <- Ci, (retain_at used vs i) by (lia || exact U); exact Ev|].
    destruct (Hn i nd End) as (nd2 & Q1 & Q2). rewrite Ei in Q1. injection Q1 as <-. destruct (rename_ok (renumber used 0) nd num) as (nd3 & Q3 & Q4).
    { intros a Ha. apply HN. pose proof (C i nd a End Ha). lia. }
    rewrite Q3 in Q2. injection Q2 as <-. exact Q4. }
  exists (retain used ns), (retain used vs), (num tip). split; [reflexivity|]. split; [|split; [|split; [|split]]].
  - split; [rewrite !retain_length by lia; reflexivity|]. intros m nd' v' p' E Ev. destruct (FROM m nd' E) as (i & nd & v2 & p2 & U & Ci & End & Evi & Evm & Qp & Qv & Qo). rewrite Evm in Ev. injection Ev as <- <-.
    destruct (proj2 G i nd v2 p2 End Evi) as (Pp & Pe & O). split; [congruence|]. split; [exact Pe|]. rewrite Qo. apply (ok_rename vs (retain used vs) i m (n_op nd) v2 p2 num O).
    intros a Ha. assert (Ua : nth_error used a = Some true) by (apply HU; apply (reach_trans _ tip i nd a); [apply HU, U|exact End|exact Ha]). rewrite (NUM a Ua).
    split; [rewrite <- Ci; apply cnt_lt; [exact Ua|apply (C i nd a End Ha)]|apply retain_at; [lia|exact Ua]].
  - apply Forall_forall. intros nd' Hin. apply In_nth_error in Hin as (m & E). destruct (FROM m nd' E) as (i & nd & v2 & p2 & U & Ci & End & Evi & Evm & Qp & Qv & Qo). rewrite Qv. unfold shaped in Sh. rewrite Forall_forall in Sh. apply Sh, (nth_error_In _ i), End.
  - rewrite retain_length by lia. rewrite (cnt_end used tip Hused) by (intros i Hi; apply (reach_le _ tip i C), HU, Hi). cbn [Nat.sub]. rewrite Nat.sub_0_r, (retain_at used vs tip) by (lia || exact Hused). exact Et.
  - intros t bl T m nd' v' p' c off E Ev Ho. destruct (FROM m nd' E) as (i & nd & v2 & p2 & U & Ci & End & Evi & Evm & Qp & Qv & Qo). rewrite Evm in Ev. injection Ev as <- <-.
    apply (T i nd v2 p2 c off End Evi). rewrite Ho in Qo. destruct (n_op nd); try discriminate Qo. cbn [op_map] in Qo. congruence.
  - intros m nd' E. destruct (FROM m nd' E) as (i & nd & v2 & p2 & U & Ci & End & Evi & Evm & Qp & Qv & Qo). rewrite Qp. destruct (proj2 G i nd v2 p2 End Evi) as (-> & _). apply (reach_period (g_nodes g) vs tip i v p v2 p2 G); [apply HU, U|exact Et|exact Evi].
Qed.

(** ** Lookup tables *)
Lemma make_lookup_ok g vs i nd v p : good (g_nodes g) vs -> shaped (g_nodes g) -> nth_error (g_nodes g) i = Some nd -> nth_error vs i = Some (v, p) -> p <= LOOKUP_SIZE -> p < 2 ^ k ->
  make_lookup o e g i = Some (map v (seq 0 p)).
Proof.
  intros G Sh En Ev Hp Hk. unfold make_lookup, g_get, get. rewrite En. cbn [bind]. destruct (proj2 G i nd v p En Ev) as (-> & _). apply Nat.leb_le in Hp. rewrite Hp.
  destruct (tree_shake_ok g vs i v p G Sh Ev) as (ns & vs' & m & E1 & G' & Sh' & El & _ & Hper). rewrite E1. cbn [bind].
  destruct (init_ok o L e M w SD k HkM (t_new o 0 0) (with_nodes g ns) vs' 0) as (g' & E2 & R & _); [exact G'|exact Sh'| |reflexivity|reflexivity|].
  - cbn [with_nodes g_nodes]. intros j nd' v' p' c off E Ev' Ho. exfalso. specialize (Hper j nd' E). destruct (proj2 G' j nd' v' p' E Ev') as (Q & _ & O). rewrite Ho in O. cbn [DagProofs.ok_op] in O. lia.
  - rewrite E2. cbn [bind]. apply (take_ok o L M w k HkM (t_new o 0 0) vs' v p El p 0 g' R).
Qed.
Lemma map_seq_nth {A} (f : nat -> A) d n i : i < n -> nth i (map f (seq 0 n)) d = f i.
Proof. intros H. rewrite (nth_indep _ d (f 0)) by (rewrite map_length, seq_length; exact H). rewrite map_nth, seq_nth by exact H. reflexivity. Qed.
Lemma lookup_step_ok g vs i : good (g_nodes g) vs -> shaped (g_nodes g) -> g_size g = 2 ^ k -> i < length (g_nodes g) ->
  exists g', lookup_step o e g i = Some g' /\ good (g_nodes g') vs /\ shaped (g_nodes g') /\ g_size g' = 2 ^ k /\ g_blowup g' = g_blowup g /\ length (g_nodes g') = length (g_nodes g) /\
  (forall t bl, trace_ok t bl (g_nodes g) vs -> trace_ok t bl (g_nodes g') vs).
Proof.
  intros G Sh Es Hi. unfold lookup_step, g_get, get. destruct (nth_error (g_nodes g) i) as [nd|] eqn:En; [|apply nth_error_None in En; lia]. cbn [bind].
  destruct (good_sem _ _ i nd G En) as (v & p & Ev). destruct (proj2 G i nd v p En Ev) as (Ep & P & O). rewrite Ep, Es.
  destruct (Nat.ltb_spec (Nat.min LOOKUP_SIZE (2 ^ k / 2)) p) as [H|H]; [exists g; auto 10|]. destruct (is_coset (n_op nd)) eqn:Ec; [exists g; auto 10|].
  assert (H1 : p <= LOOKUP_SIZE) by lia. assert (H2 : p < 2 ^ k) by (pose proof (pow2_pos k); pose proof (Nat.div_lt (2 ^ k) 2 ltac:(lia) ltac:(lia)); lia).
  rewrite (make_lookup_ok g vs i nd v p G Sh En Ev H1 H2). cbn [bind]. rewrite set_ok by exact Hi. cbn [bind].
  eexists. split; [reflexivity|]. cbn [with_nodes g_nodes g_size g_blowup]. pose proof (periodic_pos k v p P) as Hp.
  split; [|split; [|split; [exact Es|split; [reflexivity|split; [apply upd_length|]]]]].
  - split; [rewrite upd_length; apply (proj1 G)|]. intros j nd' v' p' E E'. rewrite nth_error_upd in E by exact Hi. destruct (Nat.eqb_spec j i) as [->|Hj].
    + injection E as <-. rewrite Ev in E'. injection E' as <- <-. split; [exact Ep|]. split; [exact P|]. cbn [with_op n_op DagProofs.ok_op]. split; [rewrite map_length, seq_length; reflexivity|].
      intros r. rewrite map_seq_nth by (apply Nat.mod_upper_bound; lia). symmetry. eapply periodic_mod; [exact HkM|exact P].
    + apply (proj2 G j nd' v' p' E E').
  - apply Forall_forall. intros nd' Hin. apply In_nth_error in Hin as (j & E). rewrite nth_error_upd in E by exact Hi. unfold shaped in Sh. rewrite Forall_forall in Sh.
    destruct (j =? i); [injection E as <-; apply (Sh nd), (nth_error_In _ i), En|apply (Sh nd'), (nth_error_In _ j), E].
  - intros t bl T j nd' v' p' c off E E' Eo. rewrite nth_error_upd in E by exact Hi. destruct (j =? i); [injection E as <-; discriminate Eo|apply (T j nd' v' p' c off E E' Eo)].
Qed.
Lemma lookup_tables_ok g vs : good (g_nodes g) vs -> shaped (g_nodes g) -> g_size g = 2 ^ k ->
  exists g', lookup_tables o e g = Some g' /\ good (g_nodes g') vs /\ shaped (g_nodes g') /\ g_size g' = 2 ^ k /\ g_blowup g' = g_blowup g /\
  (forall t bl, trace_ok t bl (g_nodes g) vs -> trace_ok t bl (g_nodes g') vs).
Proof.
  intros G Sh Es. unfold lookup_tables. assert (Hl : forall i, In i (seq 0 (length (g_nodes g))) -> i < length (g_nodes g)) by (intros i Hi; apply in_seq in Hi; lia).
  revert Hl. generalize (seq 0 (length (g_nodes g))). intros l. assert (Q : forall n, length (g_nodes g) = n -> (forall i, In i l -> i < n) -> exists g' : graph F, for_each l (lookup_step o e) g = Some g' /\ good (g_nodes g') vs /\ shaped (g_nodes g') /\ g_size g' = 2 ^ k /\ g_blowup g' = g_blowup g /\
    (forall (t : table F) (bl : nat), trace_ok t bl (g_nodes g) vs -> trace_ok t bl (g_nodes g') vs)).
  2:{ intros Hl. apply (Q _ eq_refl Hl). }
  intros n. revert g G Sh Es. induction l as [|i l IH]; intros g G Sh Es Hn Hl; [exists g; auto 10|]. cbn [for_each].
  destruct (lookup_step_ok g vs i G Sh Es) as (g1 & E1 & G1 & S1 & Z1 & B1 & L1 & T1); [rewrite Hn; apply Hl; left; reflexivity|]. rewrite E1. cbn [bind].
  destruct (IH g1 G1 S1 Z1 ltac:(lia)) as (g2 & E2 & G2 & S2 & Z2 & B2 & T2); [intros j Hj; apply Hl; right; exact Hj|]. exists g2. split; [exact E2|]. split; [exact G2|]. split; [exact S2|]. split; [exact Z2|]. split; [congruence|]. intros t bl T. apply T2, T1, T.
Qed.

(** ** The jobs *)
Lemma concat_jobs {A} (v : nat -> A) job n : 0 < job -> concat (map (fun i => map v (seq (i * job) (Nat.min job (n - i * job)))) (seq 0 ((n + (job - 1)) / job))) = map v (seq 0 n).
Proof.
  intros Hj. assert (G : forall c s m, (m + (job - 1)) / job = c -> concat (map (fun i => map v (seq (s + i * job) (Nat.min job (m - i * job)))) (seq 0 c)) = map v (seq s m)).
  { induction c as [|c IH]; intros s m E.
    - apply Nat.div_small_iff in E; [|lia]. assert (m = 0) as -> by lia. reflexivity.
    - cbn [seq map concat]. rewrite <- seq_shift, map_map. rewrite Nat.mul_0_l, Nat.add_0_r, Nat.sub_0_r.
      assert (Hm : 0 < m). { destruct m; [|lia]. rewrite Nat.div_small in E by lia. discriminate. }
      destruct (Nat.le_gt_cases m job) as [H|H].
      + rewrite (Nat.min_r job m) by lia. assert (c = 0). { assert ((m + (job - 1)) / job < 2) by (apply Nat.div_lt_upper_bound; lia). lia. } subst c. cbn. apply app_nil_r.
      + rewrite (Nat.min_l job m) by lia. transitivity (map v (seq s job) ++ map v (seq (s + job) (m - job))).
        * f_equal. rewrite <- (IH (s + job) (m - job)).
          -- f_equal. apply map_ext. intros i. f_equal. f_equal; lia.
          -- replace (m + (job - 1)) with (m - job + (job - 1) + 1 * job) in E by lia. rewrite Nat.div_add in E by lia. lia.
        * rewrite <- map_app, <- seq_app. f_equal. f_equal. lia. }
  apply (G _ 0 n eq_refl).
Qed.
Lemma option_all_map_some {A C} (f : A -> option C) (h : A -> C) l : (forall a, In a l -> f a = Some (h a)) -> option_all (map f l) = Some (map h l).
Proof. induction l as [|a l IH]; intros H; [reflexivity|]. cbn [map option_all]. rewrite (H a) by (left; reflexivity). cbn [bind]. rewrite IH by (intros; apply H; right; assumption). reflexivity. Qed.
Lemma graph_jobs_ok job g vs t v p n : good (g_nodes g) vs -> shaped (g_nodes g) -> trace_ok t (g_blowup g) (g_nodes g) vs -> nth_error vs (length vs - 1) = Some (v, p) ->
  0 < job -> job mod CHUNK = 0 -> (Z.of_nat n < B)%Z -> graph_jobs o e job g t n = Some (map v (seq 0 n)).
Proof.
  intros G Sh T El Hj Hc Hn. unfold graph_jobs. rewrite (option_all_map_some _ (fun i => map v (seq (i * job) (Nat.min job (n - i * job))))).
  - cbn [bind]. rewrite concat_jobs by exact Hj. reflexivity.
  - intros i Hi. apply in_seq in Hi.
    assert (Hr : i * job < n). { assert (i < (n + (job - 1)) / job) as Q by lia. pose proof (Nat.mul_div_le (n + (job - 1)) job ltac:(lia)). assert (job * (i + 1) <= job * ((n + (job - 1)) / job)) by (apply Nat.mul_le_mono_l; lia). lia. }
    assert (Hm : (i * job) mod CHUNK = 0). { apply Nat.mod_divides in Hc as (c & ->); [|unfold CHUNK; lia]. rewrite (Nat.mul_comm CHUNK c), Nat.mul_assoc. apply Nat.mod_mul. unfold CHUNK. lia. }
    destruct (init_ok o L e M w SD k HkM t g vs (i * job) G Sh T Hm ltac:(lia)) as (g' & E & R & _). rewrite E. cbn [bind]. apply (take_ok o L M w k HkM t vs v p El _ _ g' R).
Qed.
End Shake.
