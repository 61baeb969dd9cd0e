(** Lemmas on the writes of components. *)
Require Import Field ZArith NArith Lia Bool List.
From Verif Require Import Word KnuthModel FieldSig FieldAlgModel Arr FftModel FftSpec PermuteProofs StarkBase PolyModel TraceModel TraceProps ExprModel ExprSpec ComponentModel.
Import ListNotations.
Open Scope nat_scope.

Section Writes.
Context {F : Type} (o : ops F).
(** [t] is a table of [s] rows and [n] columns. *)
Definition dims (t : table F) (s n : nat) : Prop := shaped t /\ t_rows t = s /\ t_cols t = n.
Lemma dims_new s n : dims (t_new o s n) s n.
Proof. split; [apply (C46_cells F o s n)|split; reflexivity]. Qed.
Lemma set_in t s n i j x t' : dims t s n -> t_set t i j x = Some t' -> i < s /\ j < n /\ dims t' s n /\ t_get t' i j = Some x /\ forall i' j', (i', j') <> (i, j) -> t_get t' i' j' = t_get t i' j'.
Proof.
  intros (Sh & Hs & Hn) E. destruct (C46_cells F o 0 0) as (_ & _ & H). destruct (H t i j x Sh) as (H1 & H2).
  destruct (Nat.ltb_spec i s) as [Hi|Hi]; [destruct (Nat.ltb_spec j n) as [Hj|Hj]|]; try (destruct H1 as [_ H1]; [lia|]; congruence).
  destruct H2 as (t1 & E1 & Sh1 & R1 & C1 & G1 & G2); [lia|lia|]. assert (t1 = t') by congruence. subst t1. unfold dims. repeat split; try congruence; assumption.
Qed.
Lemma set_some t s n i j x : dims t s n -> i < s -> j < n -> exists t', t_set t i j x = Some t'.
Proof. intros (Sh & Hs & Hn) Hi Hj. destruct (C46_cells F o 0 0) as (_ & _ & H). destruct (H t i j x Sh) as (_ & H2). destruct H2 as (t1 & E1 & _); [lia|lia|]. exists t1. exact E1. Qed.
Lemma apply_app (t : table F) ws ws' : apply_writes t (ws ++ ws') = let? t := apply_writes t ws in apply_writes t ws'.
Proof. unfold apply_writes. apply for_each_app. Qed.
Lemma apply_dims s n ws : forall (t t' : table F), dims t s n -> apply_writes t ws = Some t' -> dims t' s n.
Proof.
  induction ws as [|[[p l] v] ws IH]; intros t t' D E; cbn in E; [congruence|].
  destruct (t_set t l p v) as [t1|] eqn:E1; [|discriminate]. apply (IH t1 t'); [|exact E]. apply (set_in _ _ _ _ _ _ _ D E1).
Qed.
(** Writing through an injective map of the coordinates. *)
Lemma apply_mapped dbg n s R K (f : nat -> nat -> option (nat * nat)) (g : nat -> nat -> nat * nat) :
  (forall p l, p < n -> l < s -> f p l = Some (g p l) /\ fst (g p l) < K /\ snd (g p l) < R) ->
  (forall p l p' l', p < n -> l < s -> p' < n -> l' < s -> g p l = g p' l' -> (p, l) = (p', l')) ->
  forall ws (t t' T : table F), dims t s n -> apply_writes t ws = Some t' -> dims T R K ->
  exists ws' T', mapped dbg n s f ws = Some ws' /\ apply_writes T ws' = Some T' /\ dims T' R K /\
    (forall p l, p < n -> l < s -> t_get T (snd (g p l)) (fst (g p l)) = t_get t l p -> t_get T' (snd (g p l)) (fst (g p l)) = t_get t' l p) /\
    (forall row col, (forall p l, p < n -> l < s -> g p l <> (col, row)) -> t_get T' row col = t_get T row col).
Proof.
  intros Hf Hg. induction ws as [|[[p l] v] ws IH]; intros t t' T D E DT.
  - cbn in E. injection E as <-. exists [], T. cbn. split; [reflexivity|]. split; [reflexivity|]. split; [exact DT|]. auto.
  - cbn in E. destruct (t_set t l p v) as [t1|] eqn:E1; [|discriminate]. destruct (set_in _ _ _ _ _ _ _ D E1) as (Hl & Hp & D1 & G1 & G2).
    destruct (Hf p l Hp Hl) as (Ef & B1 & B2). destruct (set_some T R K (snd (g p l)) (fst (g p l)) v DT B2 B1) as (T1 & ET). destruct (set_in _ _ _ _ _ _ _ DT ET) as (_ & _ & DT1 & GT1 & GT2).
    destruct (IH t1 t' T1 D1 E DT1) as (ws' & T' & Em & Ea & DT' & H1 & H2). exists ((g p l, v) :: ws'), T'.
    split. { unfold mapped in *. cbn [map option_all]. rewrite (dassert_ok dbg (p <? n) (proj2 (Nat.ltb_lt p n) Hp)), (dassert_ok dbg (l <? s) (proj2 (Nat.ltb_lt l s) Hl)), Ef. cbn [bind]. rewrite Em. destruct (g p l) as [p1 l1]. reflexivity. }
    split. { destruct (g p l) as [p1 l1]. cbn [apply_writes for_each fst snd] in *. rewrite ET. exact Ea. }
    split; [exact DT'|]. split.
    + intros p2 l2 Hp2 Hl2 E2. apply H1; [exact Hp2|exact Hl2|]. destruct (Nat.eq_dec p2 p) as [->|N]; [destruct (Nat.eq_dec l2 l) as [->|N]|].
      * rewrite GT1, G1. reflexivity.
      * rewrite G2 by congruence. rewrite GT2; [exact E2|]. intros C. assert (g p l2 = g p l) by (destruct (g p l2), (g p l); cbn in C; congruence). apply Hg in H; try assumption. congruence.
      * rewrite G2 by congruence. rewrite GT2; [exact E2|]. intros C. assert (g p2 l2 = g p l) by (destruct (g p2 l2), (g p l); cbn in C; congruence). apply Hg in H; try assumption. congruence.
    + intros row col N. rewrite H2 by exact N. apply GT2. intros C. apply (N p l Hp Hl). destruct (g p l); cbn in C; congruence.
Qed.
End Writes.
