(** Replacing the leaves of an expression. *)
Require Import Field ZArith NArith Lia Bool List.
From Verif Require Import Word KnuthModel FieldSig FieldAlgModel Arr FftModel FftSpec PermuteProofs StarkBase PolyModel TraceModel TraceProps ExprModel ExprSpec ExprProofs CheckProps ComponentModel.
Import ListNotations.
Open Scope nat_scope.

Section Subst.
Context {F : Type} (o : ops F) (L : lawful o).
Context (sx : rexpr F) (st : nat -> Z -> rexpr F).
Fixpoint leaves (e : rexpr F) : rexpr F :=
  match e with
  | EX => sx | EConst c => EConst c | ETrace i j => st i j
  | EPoly p a => EPoly p (leaves a) | EClaim i n a => EClaim i n (leaves a)
  | EAdd a b => EAdd (leaves a) (leaves b) | ENeg a => ENeg (leaves a) | EMul a b => EMul (leaves a) (leaves b)
  | EInv a => EInv (leaves a) | EExp a n => EExp (leaves a) n
  end.
Lemma map_leaves (f : rexpr F -> option (rexpr F)) : f EX = Some sx -> (forall i j, f (ETrace i j) = Some (st i j)) ->
  (forall e, e <> EX -> (forall i j, e <> ETrace i j) -> f e = Some e) -> forall e, map_expr f e = Some (leaves e).
Proof.
  intros HX HT HO. induction e as [|c|i j|p a IH|i n a IH|a IHa b IHb|a IH|a IHa b IHb|a IH|a IH n]; cbn [map_expr leaves bind]; try rewrite IHa, IHb; try rewrite IH; cbn [bind]; auto; apply HO; try congruence; intros; discriminate.
Qed.
(** The two kinds of leaves are mapped to powers of X or cells. *)
Definition simple (e : rexpr F) : Prop := match e with EX | ETrace _ _ => True | EExp EX n => (0 <= n < 2 ^ 64)%Z | _ => False end.
Context (SX : simple sx) (ST : forall i j, simple (st i j)).
Lemma simple_num e : simple e -> numerators e = [e] /\ denominators e = [] /\ division_free e /\ usizes e.
Proof. destruct e as [| | | | | | | | |a n]; cbn [simple]; try contradiction; intros H; repeat split; destruct a; try contradiction; cbn; auto; apply H. Qed.
Lemma leaves_num e : numerators (leaves e) = map leaves (numerators e).
Proof.
  induction e as [|c|i j|p a IH|i n a IH|a IHa b IHb|a IH|a IHa b IHb|a IH|a IH n]; cbn [leaves numerators map]; try reflexivity.
  - apply (simple_num _ SX). - apply (simple_num _ (ST i j)). - rewrite IHa, IHb, map_app. reflexivity.
Qed.
Lemma leaves_den e : denominators (leaves e) = map leaves (denominators e).
Proof.
  induction e as [|c|i j|p a IH|i n a IH|a IHa b IHb|a IH|a IHa b IHb|a IH|a IH n]; cbn [leaves denominators map]; try reflexivity.
  - apply (simple_num _ SX). - apply (simple_num _ (ST i j)). - rewrite IHa, IHb, map_app. reflexivity.
Qed.
Lemma leaves_free e : division_free e -> division_free (leaves e).
Proof.
  induction e as [|c|i j|p a IH|i n a IH|a IHa b IHb|a IH|a IHa b IHb|a IH|a IH n]; cbn [leaves division_free]; auto; try tauto; intros _.
  - apply (simple_num _ SX). - apply (simple_num _ (ST i j)).
Qed.
Lemma leaves_usizes e : usizes e -> usizes (leaves e).
Proof.
  induction e as [|c|i j|p a IH|i n a IH|a IHa b IHb|a IH|a IHa b IHb|a IH|a IH n]; cbn [leaves usizes]; auto; try tauto; intros _.
  - apply (simple_num _ SX). - apply (simple_num _ (ST i j)).
Qed.
Lemma leaves_fraction e : fraction e -> fraction (leaves e).
Proof.
  intros [H1 H2]. unfold fraction. rewrite leaves_num, leaves_den. split; apply Forall_map; [eapply Forall_impl; [|exact H1]|eapply Forall_impl; [|exact H2]]; intros a; apply leaves_free.
Qed.
(** Values. *)
Lemma leaves_value x T x' T' e v : (forall u, value o x T sx u <-> u = x') -> (forall i j, refers e i j -> forall u, value o x T (st i j) u <-> T' i j = Some u) ->
  (value o x T (leaves e) v <-> value o x' T' e v).
Proof.
  intros HX. revert v. induction e as [|c|i j|p a IH|i n a IH|a IHa b IHb|a IH|a IHa b IHb|a IH|a IH n]; intros v HT; cbn [leaves refers] in *.
  - rewrite HX. split; [intros ->; constructor|intros V; inversion V; reflexivity].
  - split; intros V; inversion V; constructor.
  - rewrite (HT i j (conj eq_refl eq_refl)). split; [intros E; constructor; exact E|intros V; inversion V; assumption].
  - split; intros V; inversion V; subst; constructor; apply (IH _ HT); assumption.
  - split; intros V; inversion V.
  - split; intros V; inversion V; subst; constructor; (apply IHa || apply IHb); try assumption; intros; apply HT; auto.
  - split; intros V; inversion V; subst; constructor; apply (IH _ HT); assumption.
  - split; intros V; inversion V; subst; constructor; (apply IHa || apply IHb); try assumption; intros; apply HT; auto.
  - split; intros V; inversion V; subst; constructor; try assumption; apply (IH _ HT); assumption.
  - split; intros V; inversion V; subst; constructor; apply (IH _ HT); assumption.
Qed.
Lemma leaves_violated x T x' T' e : (forall u, value o x T sx u <-> u = x') -> (forall i j, refers e i j -> forall u, value o x T (st i j) u <-> T' i j = Some u) ->
  (violated o x T (leaves e) <-> violated o x' T' e).
Proof.
  intros HX HT. unfold violated. rewrite leaves_num, leaves_den. split; intros ((d & Hd & Vd) & N); split.
  - apply in_map_iff in Hd as (d0 & <- & Hd). exists d0. split; [exact Hd|]. apply (leaves_value x T x' T' d0); [exact HX| |exact Vd]. intros i j R. apply HT, (refers_den e d0); assumption.
  - intros n Hn V. apply (N (leaves n)); [apply in_map, Hn|]. apply (leaves_value x T x' T' n); [exact HX| |exact V]. intros i j R. apply HT, (refers_num e n); assumption.
  - exists (leaves d). split; [apply in_map, Hd|]. apply (leaves_value x T x' T' d); [exact HX| |exact Vd]. intros i j R. apply HT, (refers_den e d); assumption.
  - intros n Hn V. apply in_map_iff in Hn as (n0 & <- & Hn). apply (N n0 Hn). apply (leaves_value x T x' T' n0); [exact HX| |exact V]. intros i j R. apply HT, (refers_num e n0); assumption.
Qed.
End Subst.
Lemma value_trace {F} (o : ops F) x T i j u : value o x T (ETrace i j) u <-> T i j = Some u.
Proof. split; [intros V; inversion V; assumption|constructor; assumption]. Qed.
Lemma value_x {F} (o : ops F) x T u : value o x T EX u <-> u = x.
Proof. split; [intros V; inversion V; reflexivity|intros ->; constructor]. Qed.
