(** C43 (direct evaluation), C49 (degrees), C53 (constraint checking). *)
Require Import Field ZArith NArith Lia Bool List.
From Verif Require Import Word KnuthModel FieldSig FieldInstance FieldAlgModel FieldAlgProofs Arr FftModel PermuteProofs FftProofs StarkBase StarkInstance PolyModel PolyProps TraceModel TraceProps ExprModel ExprSpec ExprProofs.
Import ListNotations.
Open Scope nat_scope.

(** evaluate computes the value of the expression and panics exactly where it has none: where a divisor is
    zero, a trace cell is not available or a claim polynomial is left. *)
Theorem C43_evaluate : forall F (o : ops F), lawful o -> forall x T e, usizes e ->
  (forall v, eval_expr o x T e = Some v <-> value o x T e v) /\ (eval_expr o x T e = None <-> forall v, ~ value o x T e v).
Proof.
  intros F o L x T e U. split; [intros v; apply (eval_value o L); exact U|]. split.
  - intros E v V. apply (eval_value o L) in V; [|exact U]. congruence.
  - intros H. destruct (eval_expr o x T e) as [v|] eqn:E; [|reflexivity]. exfalso. apply (H v). apply (eval_value o L); assumption.
Qed.
Print Assumptions C43_evaluate.

(** ** C49 *)
Theorem C49_degree : forall F (o : ops F), lawful o -> forall td (tp : nat -> list F) (s : Z -> F) e n d,
  usizes e -> poly_safe o td e -> (0 <= td)%Z -> (forall i, (Z.of_nat (length (tp i)) <= td + 1)%Z) -> degree o true td e = Some (n, d) ->
  rational_function o (fun x i j => Some (peval o (tp i) (fmul o (s j) x))) e n d.
Proof. intros F o L td tp s e n d U S Ht Htp E. apply (degree_sound o L td tp s Ht Htp e n d U S E). Qed.
Print Assumptions C49_degree.

Section Refuted.
Context {F : Type} (o : ops F) (L : lawful o).
Add Field Ffield : (law_field o L).
Lemma two_terms a b x : peval o [a; b] x = fadd o a (fmul o b x).
Proof. rewrite !(peval_cons o L), !peval_nil. ring. Qed.
Lemma short_1 (p : list F) : (Z.of_nat (length p) <= 0 + 1)%Z -> exists a, forall x, peval o p x = a.
Proof. destruct p as [|a [|b p]]; intros H; [exists (f0 o); intros; apply peval_nil|exists a; intros; rewrite (peval_cons o L), peval_nil; ring|cbn in H; lia]. Qed.
Lemma refute_poly : fadd o (f1 o) (f1 o) <> f0 o -> forall T, ~ rational_function o T (EPoly [f1 o; f1 o] (EInv EX)) 0 1.
Proof.
  intros N2 T (N & D & HN & _ & H). destruct (short_1 N HN) as [a Ha].
  assert (V : forall x, x <> f0 o -> value o x (T x) (EPoly [f1 o; f1 o] (EInv EX)) (fadd o (f1 o) (finv o x))).
  { intros x Nx. replace (fadd o (f1 o) (finv o x)) with (peval o [f1 o; f1 o] (finv o x)) by (rewrite two_terms; ring). repeat constructor. exact Nx. }
  assert (Nm : fneg o (f1 o) <> f0 o) by (intros C; apply (f_1_neq_0 o L); transitivity (fneg o (fneg o (f1 o))); [ring|rewrite C; ring]).
  destruct (H _ _ (V _ Nm)) as [_ Em]. rewrite Ha in Em. assert (Ei : finv o (fneg o (f1 o)) = fneg o (f1 o)) by (symmetry; apply (finv_unique o L); ring).
  rewrite Ei in Em. assert (Ea : a = f0 o) by (rewrite <- Em; ring). clear Em.
  destruct (H _ _ (V _ (f_1_neq_0 o L))) as [Hd E1]. rewrite Ha, Ea in E1. apply (fmul_0_iff o L) in E1 as [E1|E1]; [|contradiction].
  apply N2. rewrite <- E1. f_equal. apply (finv_unique o L). ring.
Qed.
End Refuted.
(** Deviation: the bound is wrong for a polynomial applied to an expression with a denominator of larger
    degree: 1 + 1/X is given degrees (0, 1). *)
Theorem C49_poly_refuted : forall F (o : ops F), lawful o -> fadd o (f1 o) (f1 o) <> f0 o -> forall td T,
  degree o true td (EPoly [f1 o; f1 o] (EInv EX)) = Some (0%Z, 1%Z) /\ ~ rational_function o T (EPoly [f1 o; f1 o] (EInv EX)) 0 1.
Proof.
  intros F o L N2 td T. split; [|apply (refute_poly o L N2)]. unfold degree. cbn [degree_impl bind]. unfold poly_degree. cbn [length degree_loop nth].
  destruct (feqb_spec o L (f1 o) (f0 o)) as [C|_]; [exfalso; exact (f_1_neq_0 o L C)|]. reflexivity.
Qed.
Print Assumptions C49_poly_refuted.

(** Replacing the claim polynomials by polynomials within their degree bounds never raises the degree. *)
Section Claims.
Context {F : Type} (o : ops F).
Lemma scale_le k n d k' n' d' n1 d1 : (0 <= k' <= k)%Z -> (0 <= n' <= n)%Z -> (0 <= d' <= d)%Z ->
  (let? n := umul true k n in let? d := umul true k d in Some (n, d)) = Some (n1, d1) ->
  exists n2 d2, (let? n := umul true k' n' in let? d := umul true k' d' in Some (n, d)) = Some (n2, d2) /\ (0 <= n2 <= n1)%Z /\ (0 <= d2 <= d1)%Z.
Proof.
  intros Hk Hn Hd E. apply bind_some in E as (a & E1 & E). apply bind_some in E as (b & E2 & E). injection E as <- <-. apply umul_true in E1 as [-> E1]. apply umul_true in E2 as [-> E2].
  assert (0 <= k' * n' <= k * n)%Z by (split; [apply Z.mul_nonneg_nonneg; lia|apply Z.mul_le_mono_nonneg; lia]). assert (0 <= k' * d' <= k * d)%Z by (split; [apply Z.mul_nonneg_nonneg; lia|apply Z.mul_le_mono_nonneg; lia]).
  exists (k' * n')%Z, (k' * d')%Z. unfold umul. destruct (Z.ltb_spec (k' * n') B); [|lia]. cbn [bind]. destruct (Z.ltb_spec (k' * d') B); [|lia]. cbn [bind]. split; [reflexivity|]. lia.
Qed.
Lemma uadd_le a b a' b' c : (0 <= a' <= a)%Z -> (0 <= b' <= b)%Z -> uadd true a b = Some c -> uadd true a' b' = Some (a' + b')%Z /\ (0 <= a' + b' <= c)%Z.
Proof. intros Ha Hb E. apply uadd_true in E as [-> E]. unfold uadd. destruct (Z.ltb_spec (a' + b') B); [|lia]. split; [reflexivity|lia]. Qed.
Lemma substitute_degree claims xd td : (0 <= xd)%Z -> (0 <= td)%Z -> forall e e' n d, usizes e -> substitute_claim o claims e = Some e' -> degree_impl o true xd td e = Some (n, d) ->
  exists n' d', degree_impl o true xd td e' = Some (n', d') /\ (0 <= n' <= n)%Z /\ (0 <= d' <= d)%Z.
Proof.
  intros Hx Ht. unfold substitute_claim. induction e as [|c|i j|p a IH|i b a IH|a IHa b IHb|a IH|a IHa b IHb|a IH|a IH m]; intros e' n d U Es E; cbn [map_expr degree_impl usizes bind] in *.
  - injection Es as <-. injection E as <- <-. exists xd, 0%Z. split; [reflexivity|lia].
  - injection Es as <-. injection E as <- <-. exists 0%Z, 0%Z. split; [reflexivity|lia].
  - injection Es as <-. injection E as <- <-. exists td, 0%Z. split; [reflexivity|lia].
  - apply bind_some in Es as (x & Es & Ex). apply bind_some in Es as (a' & Ea & Es). injection Es as <-. injection Ex as <-. apply bind_some in E as ([n1 d1] & E1 & E). apply bind_some in E as (k & Ek & E).
    destruct (IH a' n1 d1 (proj2 U) Ea E1) as (n2 & d2 & E2 & Hn & Hd). cbn [degree_impl]. rewrite E2. cbn [bind]. rewrite Ek. cbn [bind]. apply (scale_le (Z.of_nat k) n1 d1 (Z.of_nat k) n2 d2 n d); [lia|lia|lia|exact E].
  - apply bind_some in Es as (x & Es & Ex). apply bind_some in Es as (a' & Ea & Es). injection Es as <-. apply bind_some in Ex as (p & Ep & Ex). apply bind_some in Ex as (k & Ek & Ex). destruct (Z.leb_spec (Z.of_nat k) b); [|discriminate]. injection Ex as <-.
    apply bind_some in E as ([n1 d1] & E1 & E). destruct (IH a' n1 d1 (proj2 U) Ea E1) as (n2 & d2 & E2 & Hn & Hd). cbn [degree_impl]. rewrite E2. cbn [bind]. rewrite Ek. cbn [bind]. apply (scale_le b n1 d1 (Z.of_nat k) n2 d2 n d); [lia|lia|lia|exact E].
  - apply bind_some in Es as (x & Es & Ex). apply bind_some in Es as (a' & Ea & Es). apply bind_some in Es as (b' & Eb & Es). injection Es as <-. injection Ex as <-.
    apply bind_some in E as ([n1 d1] & E1 & E). apply bind_some in E as ([n2 d2] & E2 & E). apply bind_some in E as (x1 & X1 & E). apply bind_some in E as (x2 & X2 & E). apply bind_some in E as (x3 & X3 & E). injection E as <- <-.
    destruct (IHa a' n1 d1 (proj1 U) Ea E1) as (n1' & d1' & E1' & Hn1 & Hd1). destruct (IHb b' n2 d2 (proj2 U) Eb E2) as (n2' & d2' & E2' & Hn2 & Hd2).
    cbn [degree_impl]. rewrite E1', E2'.
    destruct (uadd_le n1 d2 n1' d2' x1 ltac:(lia) ltac:(lia) X1) as [Y1 Y1']. destruct (uadd_le n2 d1 n2' d1' x2 ltac:(lia) ltac:(lia) X2) as [Y2 Y2']. destruct (uadd_le d1 d2 d1' d2' x3 ltac:(lia) ltac:(lia) X3) as [Y3 Y3'].
    eexists _, _. cbn [bind]. rewrite Y1, Y2, Y3. cbn [bind]. split; [reflexivity|]. lia.
  - apply bind_some in Es as (x & Es & Ex). apply bind_some in Es as (a' & Ea & Es). injection Es as <-. injection Ex as <-. exact (IH a' n d U Ea E).
  - apply bind_some in Es as (x & Es & Ex). apply bind_some in Es as (a' & Ea & Es). apply bind_some in Es as (b' & Eb & Es). injection Es as <-. injection Ex as <-.
    apply bind_some in E as ([n1 d1] & E1 & E). apply bind_some in E as ([n2 d2] & E2 & E). apply bind_some in E as (x1 & X1 & E). apply bind_some in E as (x2 & X2 & E). injection E as <- <-.
    destruct (IHa a' n1 d1 (proj1 U) Ea E1) as (n1' & d1' & E1' & Hn1 & Hd1). destruct (IHb b' n2 d2 (proj2 U) Eb E2) as (n2' & d2' & E2' & Hn2 & Hd2).
    destruct (uadd_le n1 n2 n1' n2' x1 ltac:(lia) ltac:(lia) X1) as [Y1 Y1']. destruct (uadd_le d1 d2 d1' d2' x2 ltac:(lia) ltac:(lia) X2) as [Y2 Y2'].
    eexists _, _. cbn [degree_impl]. rewrite E1', E2'. cbn [bind]. rewrite Y1, Y2. cbn [bind]. split; [reflexivity|]. lia.
  - apply bind_some in Es as (x & Es & Ex). apply bind_some in Es as (a' & Ea & Es). injection Es as <-. injection Ex as <-. apply bind_some in E as ([n1 d1] & E1 & E). injection E as <- <-.
    destruct (IH a' n1 d1 U Ea E1) as (n2 & d2 & E2 & Hn & Hd). cbn [degree_impl]. rewrite E2. eexists _, _. split; [reflexivity|]. lia.
  - apply bind_some in Es as (x & Es & Ex). apply bind_some in Es as (a' & Ea & Es). injection Es as <-. injection Ex as <-. apply bind_some in E as ([n1 d1] & E1 & E).
    destruct (IH a' n1 d1 (proj2 U) Ea E1) as (n2 & d2 & E2 & Hn & Hd). cbn [degree_impl]. rewrite E2. cbn [bind]. apply (scale_le m n1 d1 m n2 d2 n d); [lia|lia|lia|exact E].
Qed.
End Claims.
Theorem C49_claim : forall F (o : ops F) claims td e e' n d, (0 <= td)%Z -> usizes e -> substitute_claim o claims e = Some e' -> degree o true td e = Some (n, d) ->
  exists n' d', degree o true td e' = Some (n', d') /\ (n' <= n)%Z /\ (d' <= d)%Z.
Proof.
  intros F o claims td e e' n d Ht U Es E. destruct (substitute_degree o claims 1 td ltac:(lia) Ht e e' n d U Es E) as (n' & d' & E' & Hn & Hd). exists n', d'. split; [exact E'|]. lia.
Qed.
Print Assumptions C49_claim.

Lemma max_le3 t an bd bn ad N1 D1 N2 D2 x1 y1 x2 y2 :
  (an * t <= N1 <= an * t + x1)%Z -> (bn * t <= N2 <= bn * t + x2)%Z -> (ad * t <= D1 <= ad * t + y1)%Z -> (bd * t <= D2 <= bd * t + y2)%Z -> (0 <= t)%Z ->
  (Z.max (an + bd) (bn + ad) * t <= Z.max (N1 + D2) (N2 + D1) <= Z.max (an + bd) (bn + ad) * t + Z.max (x1 + y2) (x2 + y1))%Z.
Proof. intros. destruct (Z.max_spec (an + bd) (bn + ad)) as [[? ->]|[? ->]]; nia. Qed.
(** trace_degree counts the degree in multiples of the degree of the trace polynomials, up to the degree in X
    alone. *)
Theorem C49_trace_degree : forall F (o : ops F) t e n d a b n0 d0, (0 <= t)%Z -> usizes e ->
  degree o true t e = Some (n, d) -> trace_degree o true e = Some (a, b) -> degree o true 0 e = Some (n0, d0) ->
  (a * t <= n <= a * t + n0)%Z /\ (b * t <= d <= b * t + d0)%Z.
Proof.
  intros F o t e n d a b n0 d0 Ht. unfold degree, trace_degree. revert n d a b n0 d0. induction e as [|c|i j|p e IH|i k e IH|e1 IH1 e2 IH2|e IH|e1 IH1 e2 IH2|e IH|e IH k]; intros n d a b n0 d0 U E1 E2 E3; cbn [degree_impl usizes] in *.
  - injection E1 as <- <-. injection E2 as <- <-. injection E3 as <- <-. lia.
  - injection E1 as <- <-. injection E2 as <- <-. injection E3 as <- <-. lia.
  - injection E1 as <- <-. injection E2 as <- <-. injection E3 as <- <-. lia.
  - apply bind_some in E1 as ([n1 d1] & E1 & E1'). apply bind_some in E1' as (k & Ek & E1'). apply scale_spec in E1' as [-> ->].
    apply bind_some in E2 as ([n2 d2] & E2 & E2'). rewrite Ek in E2'. cbn [bind] in E2'. apply scale_spec in E2' as [-> ->].
    apply bind_some in E3 as ([n3 d3] & E3 & E3'). rewrite Ek in E3'. cbn [bind] in E3'. apply scale_spec in E3' as [-> ->]. destruct (IH _ _ _ _ _ _ (proj2 U) E1 E2 E3) as [H1 H2]. split; nia.
  - apply bind_some in E1 as ([n1 d1] & E1 & E1'). apply scale_spec in E1' as [-> ->]. apply bind_some in E2 as ([n2 d2] & E2 & E2'). apply scale_spec in E2' as [-> ->].
    apply bind_some in E3 as ([n3 d3] & E3 & E3'). apply scale_spec in E3' as [-> ->]. destruct (IH _ _ _ _ _ _ (proj2 U) E1 E2 E3) as [H1 H2]. destruct U as [U _]. split; nia.
  - apply bind_some in E1 as ([n1 d1] & E1 & E1'). apply bind_some in E1' as ([n1' d1'] & F1 & E1'). apply bind_some in E1' as (x1 & X1 & E1'). apply bind_some in E1' as (y1 & Y1 & E1'). apply bind_some in E1' as (z1 & Z1 & E1'). injection E1' as <- <-. apply uadd_true in X1 as [-> _]. apply uadd_true in Y1 as [-> _]. apply uadd_true in Z1 as [-> _].
    apply bind_some in E2 as ([n2 d2] & E2 & E2'). apply bind_some in E2' as ([n2' d2'] & F2 & E2'). apply bind_some in E2' as (x2 & X2 & E2'). apply bind_some in E2' as (y2 & Y2 & E2'). apply bind_some in E2' as (z2 & Z2 & E2'). injection E2' as <- <-. apply uadd_true in X2 as [-> _]. apply uadd_true in Y2 as [-> _]. apply uadd_true in Z2 as [-> _].
    apply bind_some in E3 as ([n3 d3] & E3 & E3'). apply bind_some in E3' as ([n3' d3'] & F3 & E3'). apply bind_some in E3' as (x3 & X3 & E3'). apply bind_some in E3' as (y3 & Y3 & E3'). apply bind_some in E3' as (z3 & Z3 & E3'). injection E3' as <- <-. apply uadd_true in X3 as [-> _]. apply uadd_true in Y3 as [-> _]. apply uadd_true in Z3 as [-> _].
    destruct (IH1 _ _ _ _ _ _ (proj1 U) E1 E2 E3) as [H1 H2]. destruct (IH2 _ _ _ _ _ _ (proj2 U) F1 F2 F3) as [H3 H4]. split; [apply max_le3; assumption|nia].
  - exact (IH _ _ _ _ _ _ U E1 E2 E3).
  - apply bind_some in E1 as ([n1 d1] & E1 & E1'). apply bind_some in E1' as ([n1' d1'] & F1 & E1'). apply bind_some in E1' as (x1 & X1 & E1'). apply bind_some in E1' as (y1 & Y1 & E1'). injection E1' as <- <-. apply uadd_true in X1 as [-> _]. apply uadd_true in Y1 as [-> _].
    apply bind_some in E2 as ([n2 d2] & E2 & E2'). apply bind_some in E2' as ([n2' d2'] & F2 & E2'). apply bind_some in E2' as (x2 & X2 & E2'). apply bind_some in E2' as (y2 & Y2 & E2'). injection E2' as <- <-. apply uadd_true in X2 as [-> _]. apply uadd_true in Y2 as [-> _].
    apply bind_some in E3 as ([n3 d3] & E3 & E3'). apply bind_some in E3' as ([n3' d3'] & F3 & E3'). apply bind_some in E3' as (x3 & X3 & E3'). apply bind_some in E3' as (y3 & Y3 & E3'). injection E3' as <- <-. apply uadd_true in X3 as [-> _]. apply uadd_true in Y3 as [-> _].
    destruct (IH1 _ _ _ _ _ _ (proj1 U) E1 E2 E3) as [H1 H2]. destruct (IH2 _ _ _ _ _ _ (proj2 U) F1 F2 F3) as [H3 H4]. split; nia.
  - apply bind_some in E1 as ([n1 d1] & E1 & E1'). injection E1' as <- <-. apply bind_some in E2 as ([n2 d2] & E2 & E2'). injection E2' as <- <-. apply bind_some in E3 as ([n3 d3] & E3 & E3'). injection E3' as <- <-.
    destruct (IH _ _ _ _ _ _ U E1 E2 E3) as [H1 H2]. split; assumption.
  - apply bind_some in E1 as ([n1 d1] & E1 & E1'). apply scale_spec in E1' as [-> ->]. apply bind_some in E2 as ([n2 d2] & E2 & E2'). apply scale_spec in E2' as [-> ->].
    apply bind_some in E3 as ([n3 d3] & E3 & E3'). apply scale_spec in E3' as [-> ->]. destruct (IH _ _ _ _ _ _ (proj2 U) E1 E2 E3) as [H1 H2]. destruct U as [U _]. split; nia.
Qed.
Print Assumptions C49_trace_degree.

Lemma option_all_inv {A C} (f : A -> option C) : forall l r, option_all (map f l) = Some r -> Forall2 (fun a c => f a = Some c) l r.
Proof.
  induction l as [|a l IH]; intros r E; cbn [map option_all] in E; [injection E as <-; constructor|]. apply bind_some in E as (c & E1 & E). apply bind_some in E as (r' & E2 & E). injection E as <-. constructor; [exact E1|apply IH, E2].
Qed.
Lemma fold_max_spec : forall l x, let m := fold_left Z.max l x in (x <= m)%Z /\ (forall y, In y l -> (y <= m)%Z) /\ (m = x \/ In m l).
Proof.
  induction l as [|y l IH]; intros x; cbn [fold_left].
  - split; [lia|]. split; [intros y []|left; reflexivity].
  - destruct (IH (Z.max x y)) as (H1 & H2 & H3). split; [lia|]. split; [intros z [<-|Hz]; [lia|apply H2, Hz]|]. destruct H3 as [->|H3]; [|right; right; exact H3]. destruct (Z.max_spec x y) as [[_ ->]|[_ ->]]; [right; left; reflexivity|left; reflexivity].
Qed.
(** The degree of a constraint system is the maximum over its constraints of the net trace degree; it panics
    without constraints. *)
Theorem C49_constraints_degree : forall F (o : ops F) (c : constraints (F := F)) D, c_degree o true c = Some D ->
  (forall e, In e (c_exprs c) -> exists a b, trace_degree o true e = Some (a, b) /\ (0 <= a - b <= D)%Z) /\
  (exists e a b, In e (c_exprs c) /\ trace_degree o true e = Some (a, b) /\ D = (a - b)%Z).
Proof.
  intros F o c D E. unfold c_degree in E. apply bind_some in E as (l & E & ED). apply option_all_inv in E.
  assert (G : forall e x, net_degree o true e = Some x -> exists a b, trace_degree o true e = Some (a, b) /\ x = (a - b)%Z /\ (0 <= a - b)%Z).
  { intros e x Ex. unfold net_degree in Ex. apply bind_some in Ex as ([a b] & E1 & E2). apply usub_true in E2 as [-> E2]. exists a, b. split; [exact E1|]. split; [reflexivity|lia]. }
  destruct l as [|x l]; [discriminate|]. injection ED as ED. destruct (fold_max_spec l x) as (H1 & H2 & H3). rewrite ED in *.
  assert (I : forall y, In y (x :: l) -> (y <= D)%Z) by (intros y [<-|Hy]; [exact H1|apply H2, Hy]).
  assert (J : In D (x :: l)) by (destruct H3 as [->|H3]; [left; reflexivity|right; exact H3]). clear H1 H2 H3 ED.
  split.
  - intros e He. apply (In_nth_error) in He as [i Hi]. assert (Ey : exists y, In y (x :: l) /\ net_degree o true e = Some y).
    { clear I J. revert i Hi. induction E as [|e0 y0 es ys H0 E IH]; intros [|i] Hi; try discriminate; cbn in Hi.
      - injection Hi as ->. exists y0. split; [left; reflexivity|exact H0].
      - destruct (IH i Hi) as (y & Iy & Ey). exists y. split; [right; exact Iy|exact Ey]. }
    destruct Ey as (y & Iy & Ey). destruct (G e y Ey) as (a & b & E1 & E2 & E3). exists a, b. split; [exact E1|]. specialize (I y Iy). lia.
  - assert (Ee : exists e, In e (c_exprs c) /\ net_degree o true e = Some D).
    { clear I G. induction E as [|e0 y0 es ys H0 E IH]; [destruct J|]. destruct J as [->|J]; [exists e0; split; [left; reflexivity|exact H0]|]. destruct (IH J) as (e & Ie & Ee). exists e. split; [right; exact Ie|exact Ee]. }
    destruct Ee as (e & Ie & Ee). destruct (G e D Ee) as (a & b & E1 & E2 & E3). exists e, a, b. auto.
Qed.
Print Assumptions C49_constraints_degree.

Section Combine.
Context {F : Type} (o : ops F) (L : lawful o).
Add Field Ffield : (law_field o L).
Lemma sum_value x T : forall l e v, value o x T (fold_left EAdd l e) v <-> exists u us, value o x T e u /\ Forall2 (value o x T) l us /\ v = fadd o u (fsum o us).
Proof.
  induction l as [|a l IH]; intros e v; cbn [fold_left].
  - split; [intros V; exists v, []; split; [exact V|]; split; [constructor|unfold fsum; cbn [fold_right]; ring]|]. intros (u & us & V & H & ->). inversion H; subst. replace (fadd o u (fsum o [])) with u by (unfold fsum; cbn [fold_right]; ring). exact V.
  - rewrite IH. split.
    + intros (u & us & V & H & ->). inversion V as [| | | |a' b' u1 u2 Va Vb| | | |]; subst. exists u1, (u2 :: us). split; [exact Va|]. split; [constructor; assumption|]. unfold fsum; cbn [fold_right]; ring.
    + intros (u & us & V & H & ->). inversion H as [|? w ? ws Vw Hw]; subst. exists (fadd o u w), ws. split; [constructor; assumption|]. split; [exact Hw|]. unfold fsum; cbn [fold_right]; ring.
Qed.
Lemma terms_value dbg nrows target : forall es cs l, length cs = 2 * length es -> option_all (map (combine_term o dbg nrows target) (List.combine es (tuples cs))) = Some l ->
  exists ks, Forall2 (fun e k => adjustment_degree o dbg nrows target e = Some k) es ks /\
  forall x T ts, Forall2 (value o x T) l ts <-> exists vs, Forall2 (value o x T) es vs /\
    ts = map (fun i => fmul o (fadd o (nth (2 * i) cs (f0 o)) (fmul o (nth (2 * i + 1) cs (f0 o)) (fexp o x (Z.to_N (nth i ks 0%Z))))) (nth i vs (f0 o))) (seq 0 (length es)).
Proof.
  induction es as [|e es IH]; intros cs l Lc E.
  - destruct cs; [|cbn in Lc; lia]. cbn in E. injection E as <-. exists []. split; [constructor|]. intros x T ts. split.
    + intros H. inversion H; subst. exists []. split; [constructor|reflexivity].
    + intros (vs & H & ->). constructor.
  - destruct cs as [|c1 [|c2 cs]]; [cbn in Lc; lia|cbn in Lc; lia|]. cbn [tuples List.combine map option_all combine_term] in E. apply bind_some in E as (a & E1 & E). apply bind_some in E1 as (k & Ek & E1). injection E1 as <-. apply bind_some in E as (l' & E2 & E). injection E as <-.
    destruct (IH cs l' ltac:(cbn in Lc; lia) E2) as (ks & Hks & H). exists (k :: ks). split; [constructor; assumption|]. intros x T ts.
    assert (Sh : forall v vs, map (fun i => fmul o (fadd o (nth (2 * i) (c1 :: c2 :: cs) (f0 o)) (fmul o (nth (2 * i + 1) (c1 :: c2 :: cs) (f0 o)) (fexp o x (Z.to_N (nth i (k :: ks) 0%Z))))) (nth i (v :: vs) (f0 o))) (seq 0 (length (e :: es)))
      = fmul o (fadd o c1 (fmul o c2 (fexp o x (Z.to_N k)))) v :: map (fun i => fmul o (fadd o (nth (2 * i) cs (f0 o)) (fmul o (nth (2 * i + 1) cs (f0 o)) (fexp o x (Z.to_N (nth i ks 0%Z))))) (nth i vs (f0 o))) (seq 0 (length es))).
    { intros v vs. cbn [length seq map]. f_equal. rewrite <- seq_shift, map_map. apply map_ext. intros i. replace (2 * S i) with (S (S (2 * i))) by lia. replace (S (S (2 * i)) + 1) with (S (S (2 * i + 1))) by lia. reflexivity. }
    split.
    + intros Hf. inversion Hf as [|? t ? ts' Vt Ht]; subst. apply H in Ht as (vs & Hvs & ->). inversion Vt as [| | | | | |a' b' u w Va Vb| |]; subst. inversion Va as [| | | |a' b' u1 u2 V1 V2| | | |]; subst. inversion V1; subst. inversion V2 as [| | | | | |a' b' u3 u4 V3 V4| |]; subst. inversion V3; subst. inversion V4 as [| | | | | | | |a' n' u5 V5]; subst. inversion V5; subst.
      exists (w :: vs). split; [constructor; assumption|]. symmetry. apply Sh.
    + intros (vs & Hvs & ->). inversion Hvs as [|? v ? vs' Vv Hv]; subst. rewrite Sh. constructor; [|apply H; exists vs'; split; [exact Hv|reflexivity]]. repeat constructor. exact Vv.
Qed.
End Combine.
(** The combination of the constraints with the coefficients (a_0, b_0, a_1, b_1, ...) is the sum of
    (a_i + b_i x^(k_i)) times the i-th constraint, where k_i raises the degree bound of the i-th constraint to
    degree * rows - 1. *)
Theorem C49_combine : forall F (o : ops F), lawful o -> forall (c : constraints (F := F)) cs E, combine o true c cs = Some E ->
  exists D ks, c_degree o true c = Some D /\ length cs = 2 * length (c_exprs c) /\
  Forall2 (fun e k => exists num den, degree o true (Z.of_nat (c_nrows c) - 1) e = Some (num, den) /\ (0 <= k)%Z /\ (k + num = (D * Z.of_nat (c_nrows c) - 1) + den)%Z) (c_exprs c) ks /\
  forall x T v, value o x T E v <-> exists vs, Forall2 (value o x T) (c_exprs c) vs /\
    v = fsum o (map (fun i => fmul o (fadd o (nth (2 * i) cs (f0 o)) (fmul o (nth (2 * i + 1) cs (f0 o)) (fexp o x (Z.to_N (nth i ks 0%Z))))) (nth i vs (f0 o))) (seq 0 (length (c_exprs c)))).
Proof.
  intros F o L c cs E0 E. unfold combine in E. destruct (Nat.eqb_spec (2 * length (c_exprs c)) (length cs)) as [Lc|]; [|discriminate].
  apply bind_some in E as (target & Et & E). apply bind_some in E as (l & El & E). injection E as <-. unfold target_degree in Et. apply bind_some in Et as (D & ED & Et). apply bind_some in Et as (t & Ht & Et).
  apply umul_true in Ht as [-> _]. apply usub_true in Et as [-> Hpos]. destruct (terms_value o true (c_nrows c) _ (c_exprs c) cs l (eq_sym Lc) El) as (ks & Hks & H).
  exists D, ks. split; [exact ED|]. split; [symmetry; exact Lc|]. split.
  - clear - Hks. induction Hks as [|e k es ks Hk Hks IH]; constructor; [|exact IH]. unfold adjustment_degree in Hk. apply bind_some in Hk as (t & Ht & Hk). apply usub_true in Ht as [-> _]. apply bind_some in Hk as ([num den] & Hd & Hk).
    apply bind_some in Hk as (s & Hs & Hk). apply uadd_true in Hs as [-> _]. apply usub_true in Hk as [-> Hk]. exists num, den. split; [exact Hd|]. lia.
  - intros x T v. destruct l as [|e0 l].
    + apply option_all_inv in El. destruct (c_exprs c) as [|e es] eqn:Ees; [unfold c_degree in ED; rewrite Ees in ED; discriminate ED|]. destruct cs as [|c1 [|c2 cs]]; [cbn in Lc; lia|cbn in Lc; lia|]. inversion El.
    + unfold e_sum. rewrite (sum_value o L). split.
      * intros (u & us & V & Hus & ->). destruct (proj1 (H x T (u :: us))) as (vs & Hvs & Eq); [constructor; assumption|]. exists vs. split; [exact Hvs|]. rewrite <- Eq. reflexivity.
      * intros (vs & Hvs & ->). match goal with |- exists u us, _ /\ _ /\ fsum o ?m = _ => assert (X : Forall2 (value o x T) (e0 :: l) m) by (apply H; exists vs; split; [exact Hvs|reflexivity]); revert X; generalize m; intros ts X; inversion X as [|? u ? us V Hus Q1 Q2] end. exists u, us. split; [exact V|]. split; [exact Hus|]. reflexivity.
Qed.
Print Assumptions C49_combine.

(** The release profile computes the same degrees and combination whenever the debug profile returns. *)
Section Release.
Context {F : Type} (o : ops F).
Lemma bind_mono {A C} (x y : option A) (f g : A -> option C) r : (forall a, x = Some a -> y = Some a) -> (forall a r, f a = Some r -> g a = Some r) -> bind x f = Some r -> bind y g = Some r.
Proof. intros H1 H2 E. apply bind_some in E as (a & E1 & E2). rewrite (H1 a E1). cbn [bind]. apply H2, E2. Qed.
Ltac mono := repeat first [ assumption | apply umul_rel | apply uadd_rel | apply usub_rel
  | match goal with |- bind _ _ = Some _ -> bind _ _ = Some _ => apply bind_mono end
  | match goal with |- forall _, _ => intro end
  | match goal with |- (match ?p with (_, _) => _ end) = Some _ -> _ => destruct p end ].
Lemma degree_impl_rel xd td : forall e r, degree_impl o true xd td e = Some r -> degree_impl o false xd td e = Some r.
Proof.
  induction e as [|c|i j|p a IH|i b a IH|a IHa b IHb|a IH|a IHa b IHb|a IH|a IH m]; intros r; cbn [degree_impl]; try exact (fun x => x); try exact (IH r).
  - apply bind_mono; [exact IH|]. intros [n d] r'. apply bind_mono; [trivial|]. intros k r''. apply bind_mono; [apply umul_rel|]. intros n' r3. apply bind_mono; [apply umul_rel|trivial].
  - apply bind_mono; [exact IH|]. intros [n d] r'. apply bind_mono; [apply umul_rel|]. intros n' r3. apply bind_mono; [apply umul_rel|trivial].
  - apply bind_mono; [exact IHa|]. intros [n d] r'. apply bind_mono; [exact IHb|]. intros [n2 d2] r2. apply bind_mono; [apply uadd_rel|]. intros x r3. apply bind_mono; [apply uadd_rel|]. intros y r4. apply bind_mono; [apply uadd_rel|trivial].
  - apply bind_mono; [exact IHa|]. intros [n d] r'. apply bind_mono; [exact IHb|]. intros [n2 d2] r2. apply bind_mono; [apply uadd_rel|]. intros x r3. apply bind_mono; [apply uadd_rel|trivial].
  - apply bind_mono; [exact IH|trivial].
  - apply bind_mono; [exact IH|]. intros [n d] r'. apply bind_mono; [apply umul_rel|]. intros n' r3. apply bind_mono; [apply umul_rel|trivial].
Qed.
Lemma option_all_mono {A C} (f g : A -> option C) : (forall a c, f a = Some c -> g a = Some c) -> forall l r, option_all (map f l) = Some r -> option_all (map g l) = Some r.
Proof.
  intros H. induction l as [|a l IH]; intros r; cbn [map option_all]; [trivial|]. apply bind_mono; [apply H|]. intros c r'. apply bind_mono; [exact IH|trivial].
Qed.
Lemma c_degree_rel c r : c_degree o true c = Some r -> c_degree o false c = Some r.
Proof.
  unfold c_degree. apply bind_mono; [|trivial]. apply option_all_mono. intros e d. unfold net_degree, trace_degree. apply bind_mono; [apply degree_impl_rel|]. intros [n m] r'. apply usub_rel.
Qed.
Lemma combine_rel c cs r : combine o true c cs = Some r -> combine o false c cs = Some r.
Proof.
  unfold combine. destruct (_ =? _); [|trivial]. apply bind_mono.
  - unfold target_degree. intros a. apply bind_mono; [apply c_degree_rel|]. intros d r'. apply bind_mono; [apply umul_rel|]. intros t r''. apply usub_rel.
  - intros t r'. apply bind_mono; [|trivial]. apply option_all_mono. intros [e [lo hi]] e'. cbn [combine_term]. apply bind_mono; [|trivial]. unfold adjustment_degree. intros k. apply bind_mono; [apply usub_rel|]. intros td r''. apply bind_mono; [apply degree_impl_rel|].
    intros [n d] r3. apply bind_mono; [apply uadd_rel|]. intros s r4. apply usub_rel.
Qed.
End Release.
Theorem C49_release : forall F (o : ops F) td e r c D cs E, 
  (degree o true td e = Some r -> degree o false td e = Some r) /\ (c_degree o true c = Some D -> c_degree o false c = Some D) /\ (combine o true c cs = Some E -> combine o false c cs = Some E).
Proof. intros F o td e r c D cs E. split; [apply degree_impl_rel|]. split; [apply c_degree_rel|apply combine_rel]. Qed.
Print Assumptions C49_release.

(** Fibonacci-like: (t(1) - t(0)^3) (X - w^3) / (X^4 - 1) over a trace of 4 rows. *)
Definition ex_constraint {F} (o : ops F) (w3 : F) : rexpr F :=
  e_div (EMul (e_sub (ETrace 0 1) (EExp (ETrace 0 0) 3)) (e_sub EX (EConst w3))) (e_sub (EExp EX 4) (EConst (f1 o))).
Example C49_ex : let e := ex_constraint tiny_ops (tiny 75) in let c := Constraints 4 1 [e] 16 0 45 [] in
  usizes e /\ poly_safe tiny_ops 3 e /\ degree tiny_ops true 3 e = Some (10%Z, 4%Z) /\ c_degree tiny_ops true c = Some 3%Z /\
  match combine tiny_ops true c [tiny 1; tiny 2] with Some (EMul (EAdd _ (EMul _ (EExp EX 5))) _) => true | _ => false end = true /\
  option_map fe_val (eval_expr tiny_ops (tiny 2) (fun _ j => Some (tiny (3 + j))) e) = Some 2%Z.
Proof. split; [cbn; repeat split; lia|]. split; [cbn; tauto|]. split; [vm_compute; reflexivity|]. split; [vm_compute; reflexivity|]. split; vm_compute; reflexivity. Qed.
