(** C53: checking constraints on a trace table. *)
Require Import Field ZArith NArith Lia Bool List.
From Verif Require Import Word KnuthModel FieldSig FieldInstance FieldAlgModel FieldAlgProofs Arr FftModel FftSpec PermuteProofs FftProofs StarkBase StarkInstance PolyModel PolyProps TraceModel TraceProps ExprModel ExprSpec ExprProofs ExprProps.
Import ListNotations.
Open Scope nat_scope.

Section Proofs.
Context {F : Type} (o : ops F) (L : lawful o).
Add Field Ffield : (law_field o L).
Lemma check_free x T : forall e, usizes e -> division_free e -> (forall i j, refers e i j -> T i j <> None) -> exists v, check o x T e = Some (v, true) /\ value o x T e v.
Proof.
  induction e as [|c|i j|p a IH|i b a IH|a IHa b IHb|a IH|a IHa b IHb|a IH|a IH m]; intros U D R; cbn [usizes division_free refers check] in *; try contradiction.
  - exists x. split; [reflexivity|constructor].
  - exists c. split; [reflexivity|constructor].
  - specialize (R i j (conj eq_refl eq_refl)). destruct (T i j) as [v|] eqn:E; [|congruence]. exists v. split; [reflexivity|constructor; exact E].
  - destruct (IH (proj2 U) D R) as (v & -> & V). cbn [bind]. exists (evaluate o p v). split; [reflexivity|]. rewrite (evaluate_spec o L). constructor. exact V.
  - destruct (IHa (proj1 U) (proj1 D) (fun i j H => R i j (or_introl H))) as (u & -> & Vu). destruct (IHb (proj2 U) (proj2 D) (fun i j H => R i j (or_intror H))) as (v & -> & Vv). eexists. split; [reflexivity|]. constructor; assumption.
  - destruct (IH U D R) as (v & -> & V). eexists. split; [reflexivity|]. constructor; assumption.
  - destruct (IHa (proj1 U) (proj1 D) (fun i j H => R i j (or_introl H))) as (u & -> & Vu). destruct (IHb (proj2 U) (proj2 D) (fun i j H => R i j (or_intror H))) as (v & -> & Vv). eexists. split; [reflexivity|]. constructor; assumption.
  - destruct (IH (proj2 U) D R) as (v & -> & V). eexists. split; [reflexivity|]. rewrite (pow_usize_spec o L) by (unfold B; lia). constructor; assumption.
Qed.
Lemma check_frac x T : forall e, usizes e -> fraction e -> (forall i j, refers e i j -> T i j <> None) -> exists v ok, check o x T e = Some (v, ok) /\
  ((exists n, In n (numerators e) /\ value o x T n (f0 o)) /\ ok = true /\ v = f0 o \/
   (forall n, In n (numerators e) -> ~ value o x T n (f0 o)) /\ (exists d, In d (denominators e) /\ value o x T d (f0 o)) /\ ok = false \/
   (forall n, In n (numerators e) -> ~ value o x T n (f0 o)) /\ (forall d, In d (denominators e) -> ~ value o x T d (f0 o)) /\ ok = true /\ v <> f0 o).
Proof.
  assert (leaf : forall e, usizes e -> numerators e = [e] -> denominators e = [] -> fraction e -> (forall i j, refers e i j -> T i j <> None) -> exists v ok, check o x T e = Some (v, ok) /\
    ((exists n, In n (numerators e) /\ value o x T n (f0 o)) /\ ok = true /\ v = f0 o \/
     (forall n, In n (numerators e) -> ~ value o x T n (f0 o)) /\ (exists d, In d (denominators e) /\ value o x T d (f0 o)) /\ ok = false \/
     (forall n, In n (numerators e) -> ~ value o x T n (f0 o)) /\ (forall d, In d (denominators e) -> ~ value o x T d (f0 o)) /\ ok = true /\ v <> f0 o)).
  { intros e U En Ed [D _] R. rewrite En in *. rewrite Ed in *. inversion D as [|? ? De _]; subst. destruct (check_free x T e U De R) as (v & E & V). exists v, true. split; [exact E|]. destruct (feq_dec o L v (f0 o)) as [->|Nv].
    - left. split; [exists e; split; [left; reflexivity|exact V]|]. split; reflexivity.
    - right; right. split; [|split; [intros d []|split; [reflexivity|exact Nv]]]. intros n [<-|[]] V0. apply Nv. exact (value_fun o x T e v (f0 o) V V0). }
  induction e as [|c|i j|p a _|i b a _|a _ b _|a _|a IHa b IHb|a _|a _ m]; intros U Fr R; try (apply leaf; [exact U|reflexivity|reflexivity|exact Fr|exact R]).
  - destruct Fr as [Fn Fd]. cbn [numerators denominators] in Fn, Fd. apply Forall_app in Fn as [Fna Fnb]. apply Forall_app in Fd as [Fda Fdb].
    destruct (IHa (proj1 U) (conj Fna Fda) (fun i j H => R i j (or_introl H))) as (u & oku & Eu & Hu). destruct (IHb (proj2 U) (conj Fnb Fdb) (fun i j H => R i j (or_intror H))) as (v & okv & Ev & Hv).
    cbn [check numerators denominators]. rewrite Eu, Ev. cbn [bind]. eexists _, _. split; [apply f_equal, surjective_pairing|].
    destruct Hu as [((n & In1 & Vn) & -> & ->)|[(Nu & (d & Id & Vd) & ->)|(Nu & Du & -> & Nzu)]].
    + left. split; [exists n; split; [apply in_or_app; left; exact In1|exact Vn]|]. destruct okv; cbn; [split; [reflexivity|ring]|]. rewrite (feqb_refl o L). split; reflexivity.
    + destruct Hv as [((n & In2 & Vn) & -> & ->)|[(Nv & (d' & Id' & Vd') & ->)|(Nv & Dv & -> & Nzv)]].
      * left. split; [exists n; split; [apply in_or_app; right; exact In2|exact Vn]|]. cbn. rewrite (feqb_refl o L). split; reflexivity.
      * right; left. split; [intros n Hn; apply in_app_or in Hn as [Hn|Hn]; auto|]. split; [exists d; split; [apply in_or_app; left; exact Id|exact Vd]|]. reflexivity.
      * right; left. split; [intros n Hn; apply in_app_or in Hn as [Hn|Hn]; auto|]. split; [exists d; split; [apply in_or_app; left; exact Id|exact Vd]|]. cbn. destruct (feqb_spec o L v (f0 o)); [contradiction|reflexivity].
    + destruct Hv as [((n & In2 & Vn) & -> & ->)|[(Nv & (d' & Id' & Vd') & ->)|(Nv & Dv & -> & Nzv)]].
      * left. split; [exists n; split; [apply in_or_app; right; exact In2|exact Vn]|]. cbn. split; [reflexivity|ring].
      * right; left. split; [intros n Hn; apply in_app_or in Hn as [Hn|Hn]; auto|]. split; [exists d'; split; [apply in_or_app; right; exact Id'|exact Vd']|]. cbn. destruct (feqb_spec o L u (f0 o)); [contradiction|reflexivity].
      * right; right. split; [intros n Hn; apply in_app_or in Hn as [Hn|Hn]; auto|]. split; [intros n Hn; apply in_app_or in Hn as [Hn|Hn]; auto|]. cbn. split; [reflexivity|]. apply (fmul_neq_0 o L); assumption.
  - destruct Fr as [_ Fd]. cbn [denominators] in Fd. inversion Fd as [|? ? Da _]; subst. destruct (check_free x T a U Da R) as (v & E & V). cbn [check numerators denominators]. rewrite E. cbn [bind].
    destruct (feqb_spec o L v (f0 o)) as [->|Nv]; eexists _, _; (split; [reflexivity|]).
    + right; left. split; [intros n []|]. split; [exists a; split; [left; reflexivity|exact V]|reflexivity].
    + right; right. split; [intros n []|]. split; [|split; [reflexivity|exact Nv]]. intros d [<-|[]] V0. apply Nv. exact (value_fun o x T a v (f0 o) V V0).
Qed.
Lemma check_row_spec x T : forall l which, (forall e, In e l -> exists r, check o x T e = Some r) ->
  exists res, check_row o x T which l = Some res /\
  match res with
  | None => forall k e, nth_error l k = Some e -> exists v, check o x T e = Some (v, true)
  | Some w => exists k e v, w = which + k /\ nth_error l k = Some e /\ check o x T e = Some (v, false) /\ forall k' e', k' < k -> nth_error l k' = Some e' -> exists v, check o x T e' = Some (v, true)
  end.
Proof.
  induction l as [|e l IH]; intros which H; cbn [check_row].
  - exists None. split; [reflexivity|]. intros [|k] e E; discriminate.
  - destruct (H e (or_introl eq_refl)) as ([v ok] & E). rewrite E. cbn [bind snd]. destruct ok.
    + destruct (IH (S which) (fun e' H' => H e' (or_intror H'))) as (res & -> & Hres). exists res. split; [reflexivity|]. destruct res as [w|].
      * destruct Hres as (k & e' & v' & -> & Ek & Ec & Hb). exists (S k), e', v'. split; [lia|]. split; [exact Ek|]. split; [exact Ec|]. intros [|k'] e'' Hk He; [injection He as <-; exists v; exact E|]. apply (Hb k' e''); [lia|exact He].
      * intros [|k] e' He; [injection He as <-; exists v; exact E|]. apply (Hres k e' He).
    + exists (Some which). split; [reflexivity|]. exists 0, e, v. split; [lia|]. split; [reflexivity|]. split; [exact E|]. intros k' e' Hk. lia.
Qed.
End Proofs.

(** One constraint at one point: the verdict is negative exactly if the constraint is violated. *)
Theorem C53_check : forall F (o : ops F), lawful o -> forall x T e, usizes e -> fraction e -> (forall i j, refers e i j -> T i j <> None) ->
  exists v ok, check o x T e = Some (v, ok) /\ (ok = false <-> violated o x T e).
Proof.
  intros F o L x T e U Fr R. destruct (check_frac o L x T e U Fr R) as (v & ok & E & H). exists v, ok. split; [exact E|]. unfold violated.
  destruct H as [((n & Hn & Vn) & -> & _)|[(Nn & D & ->)|(Nn & Dn & -> & _)]]; split; try discriminate; try reflexivity.
  - intros (_ & H). exfalso. exact (H n Hn Vn).
  - intros _. split; assumption.
  - intros ((d & Hd & Vd) & _). exfalso. exact (Dn d Hd Vd).
Qed.
Print Assumptions C53_check.

Section Rows.
Context {F : Type} (o : ops F) (L : lawful o).
Lemma cc_trace_spec (t : table F) row i j : row < t_rows t -> (- Z.of_nat (t_rows t) <= j)%Z -> (- 2 ^ 63 < j)%Z -> cc_trace t row i j = row_trace t row i j.
Proof.
  intros Hr Hj Hm. unfold cc_trace, row_trace. destruct (Z.ltb_spec 0 j); [f_equal; f_equal; f_equal; lia|]. destruct (Z.eqb_spec j (- 2 ^ 63)); [lia|].
  destruct (Z.ltb_spec (Z.of_nat row) (Z.abs j)).
  - destruct (Z.leb_spec (Z.abs j) (Z.of_nat (t_rows t) + Z.of_nat row)); [|lia]. f_equal. f_equal. apply Z.mod_unique with (-1)%Z; lia.
  - f_equal. f_equal. apply Z.mod_unique with 0%Z; lia.
Qed.
(** A constraint that only refers to cells of the table, with offsets that do not go back more than the number of rows. *)
Definition refers_within (t : table F) (e : rexpr F) : Prop := forall i j, refers e i j -> i < t_cols t /\ (- Z.of_nat (t_rows t) <= j)%Z /\ (- 2 ^ 63 < j)%Z.
Lemma value_ext x T T' : (forall i j, T i j = T' i j) -> forall e v, value o x T e v -> value o x T' e v.
Proof. intros H e v V. induction V; constructor; try assumption. rewrite <- H. assumption. Qed.
Lemma value_ext_on x T T' e v : (forall i j, refers e i j -> T i j = T' i j) -> value o x T e v -> value o x T' e v.
Proof.
  intros H V. induction V; cbn [refers] in H.
  - constructor.
  - constructor.
  - constructor. rewrite <- H by (split; reflexivity). assumption.
  - constructor. apply IHV. exact H.
  - constructor; [apply IHV1; intros; apply H; left; assumption|apply IHV2; intros; apply H; right; assumption].
  - constructor. apply IHV. exact H.
  - constructor; [apply IHV1; intros; apply H; left; assumption|apply IHV2; intros; apply H; right; assumption].
  - constructor; [apply IHV; exact H|assumption].
  - constructor. apply IHV. exact H.
Qed.
Lemma refers_num (e n : rexpr F) i j : In n (numerators e) -> refers n i j -> refers e i j.
Proof.
  induction e as [|c|i0 j0|p a _|i0 b a _|a _ b _|a _|a IHa b IHb|a _|a _ m]; cbn [numerators]; intros Hn Hr; try (destruct Hn as [<-|[]]; exact Hr); try contradiction.
  apply in_app_or in Hn as [Hn|Hn]; [left; auto|right; auto].
Qed.
Lemma refers_den (e n : rexpr F) i j : In n (denominators e) -> refers n i j -> refers e i j.
Proof.
  induction e as [|c|i0 j0|p a _|i0 b a _|a _ b _|a _|a IHa b IHb|a _|a _ m]; cbn [denominators]; intros Hn Hr; try contradiction.
  - apply in_app_or in Hn as [Hn|Hn]; [left; auto|right; auto].
  - destruct Hn as [<-|[]]; exact Hr.
Qed.
Lemma violated_ext x T T' e : (forall i j, refers e i j -> T i j = T' i j) -> violated o x T e -> violated o x T' e.
Proof.
  intros H ((d & Hd & Vd) & Hn). split.
  - exists d. split; [exact Hd|]. apply (value_ext_on x T); [|exact Vd]. intros i j R. apply H. apply (refers_den e d); assumption.
  - intros n Hi V. apply (Hn n Hi). apply (value_ext_on x T'); [|exact V]. intros i j R. symmetry. apply H. apply (refers_num e n); assumption.
Qed.
Definition row_ok (t : table F) (exprs : list (rexpr F)) (x : F) (row : nat) : Prop := forall k e, nth_error exprs k = Some e -> ~ violated o x (row_trace t row) e.
Lemma rows_spec t exprs g : shaped t -> (forall e, In e exprs -> usizes e /\ fraction e /\ refers_within t e) -> forall n a, a + n <= t_rows t ->
  exists res, check_rows o t exprs g (fpw o g a) (seq a n) = Some res /\
  match res with
  | None => forall row k e, a <= row < a + n -> nth_error exprs k = Some e -> ~ violated o (fpw o g row) (row_trace t row) e
  | Some (row, which) => a <= row < a + n /\ (exists e, nth_error exprs which = Some e /\ violated o (fpw o g row) (row_trace t row) e) /\
      forall row' k e, a <= row' -> row' < row \/ row' = row /\ k < which -> nth_error exprs k = Some e -> ~ violated o (fpw o g row') (row_trace t row') e
  end.
Proof.
  intros Sh He. induction n as [|n IH]; intros a Ha; cbn [seq check_rows].
  - exists None. split; [reflexivity|]. intros row k e Hr. lia.
  - assert (CE : forall e, In e exprs -> exists v ok, check o (fpw o g a) (cc_trace t a) e = Some (v, ok) /\ (ok = false <-> violated o (fpw o g a) (row_trace t a) e)).
    { intros e Ie. destruct (He e Ie) as (U & Fr & W). destruct (C53_check F o L (fpw o g a) (cc_trace t a) e U Fr) as (v & ok & E & H).
      - intros i j Rf. destruct (W i j Rf) as (Hi & Hj & Hm). rewrite cc_trace_spec by (assumption || lia). unfold row_trace. rewrite (t_get_ok o); [discriminate|exact Sh| |exact Hi].
        pose proof (Z.mod_pos_bound (Z.of_nat a + j) (Z.of_nat (t_rows t)) ltac:(lia)). lia.
      - exists v, ok. split; [exact E|]. rewrite H. split; apply violated_ext; intros i j Rf; destruct (W i j Rf) as (Hi & Hj & Hm); [|symmetry]; apply cc_trace_spec; (assumption || lia). }
    destruct (check_row_spec o (fpw o g a) (cc_trace t a) exprs 0) as (res & -> & Hres).
    { intros e Ie. destruct (CE e Ie) as (v & ok & E & _). exists (v, ok). exact E. }
    cbn [bind]. destruct res as [w|].
    + destruct Hres as (k & e & v & -> & Ek & Ec & Hb). exists (Some (a, 0 + k)). split; [reflexivity|]. split; [lia|]. split.
      * exists e. split; [exact Ek|]. destruct (CE e (nth_error_In _ _ Ek)) as (v' & ok & E & H). apply H. congruence.
      * intros row' k' e' Hr [Hlt|(-> & Hk)] E'; [lia|]. intros V. destruct (CE e' (nth_error_In _ _ E')) as (v' & ok & E & H). apply H in V. destruct (Hb k' e' Hk E') as (v'' & E''). congruence.
    + assert (Hx : fmul o (fpw o g a) g = fpw o g (S a)) by (cbn; pose proof (F_R (law_field o L)) as R; apply (Rmul_comm R)). rewrite Hx.
      assert (R0 : forall k e, nth_error exprs k = Some e -> ~ violated o (fpw o g a) (row_trace t a) e).
      { intros k e Ek V. destruct (CE e (nth_error_In _ _ Ek)) as (v' & ok & E & H). apply H in V. destruct (Hres k e Ek) as (v'' & E''). congruence. }
      destruct (IH (S a) ltac:(lia)) as (res & -> & Hres'). exists res. split; [reflexivity|]. destruct res as [[row which]|].
      * destruct Hres' as (Hrow & Hv & Hb). split; [lia|]. split; [exact Hv|]. intros row' k e Hr Hlt Ek. destruct (Nat.eq_dec row' a) as [->|Na]; [apply (R0 k e Ek)|]. apply (Hb row' k e); [lia|exact Hlt|exact Ek].
      * intros row k e Hr Ek. destruct (Nat.eq_dec row a) as [->|Na]; [apply (R0 k e Ek)|]. apply (Hres' row k e); [lia|exact Ek].
Qed.
End Rows.
(** check_constraints on constraints written as fractions: Ok if no constraint is violated at any row, where
    at row r the point is the r-th power of the trace generator and offsets wrap around; otherwise the error
    names the first violation, by row and then by constraint. *)
Theorem C53_check_constraints : forall F (o : ops F), lawful o -> forall e M w, sound o e M w -> forall t k exprs,
  shaped t -> k <= M -> t_rows t = 2 ^ k -> (forall c, In c exprs -> usizes c /\ fraction c /\ refers_within t c) ->
  exists res, check_constraints o e exprs t = Some res /\
  let bad row which := exists c, nth_error exprs which = Some c /\ violated o (fpw o (w k) row) (row_trace t row) c in
  match res with
  | None => forall row which, row < 2 ^ k -> ~ bad row which
  | Some (row, which) => row < 2 ^ k /\ bad row which /\ forall row' which', row' < row \/ row' = row /\ which' < which -> ~ bad row' which'
  end.
Proof.
  intros F o L e M w SD t k exprs Sh Hk HR He. unfold check_constraints. rewrite HR, (s_root _ _ _ _ SD k Hk). cbn [bind].
  destruct (rows_spec o L t exprs (w k) Sh He (2 ^ k) 0 ltac:(lia)) as (res & E & Hres). change (fpw o (w k) 0) with (f1 o) in E. rewrite E. exists res. split; [reflexivity|]. destruct res as [[row which]|].
  - destruct Hres as (H1 & H2 & H3). split; [lia|]. split; [exact H2|]. intros row' which' Hlt (c & Ec & V). exact (H3 row' which' c ltac:(lia) Hlt Ec V).
  - intros row which Hr (c & Ec & V). exact (Hres row which c ltac:(lia) Ec V).
Qed.
Print Assumptions C53_check_constraints.
(** A constraint that divides by nothing is accepted whatever the trace. *)
Theorem C53_unselected : forall F (o : ops F), lawful o -> forall x T e, usizes e -> division_free e -> (forall i j, refers e i j -> T i j <> None) ->
  exists v, check o x T e = Some (v, true).
Proof. intros F o L x T e U D R. destruct (check_free o L x T e U D R) as (v & E & _). exists v. exact E. Qed.
Print Assumptions C53_unselected.
Section Deviation.
Context {F : Type} (o : ops F) (L : lawful o).
Add Field Ffield : (law_field o L).
Definition two := fadd o (f1 o) (f1 o).
Lemma sub_self a : fadd o a (fneg o a) = f0 o. Proof. ring. Qed.
Lemma four : two <> f0 o -> fadd o two (f1 o) <> f0 o -> fadd o (finv o two) (fneg o two) <> f0 o.
Proof.
  intros N2 N3 C. apply N3. assert (E : finv o two = two) by (transitivity (fadd o (fadd o (finv o two) (fneg o two)) two); [ring|rewrite C; ring]).
  pose proof (finv_l o L two N2) as I. rewrite E in I. transitivity (fsub o (fmul o two two) (f1 o)); [unfold two; ring|rewrite I; ring].
Qed.
Lemma half_diff : two <> f0 o -> fadd o (f1 o) two <> f0 o -> fadd o two (fneg o (finv o two)) <> f0 o.
Proof.
  intros N2 N3 C. apply N3. assert (E : finv o two = two) by (transitivity (fsub o two (fadd o two (fneg o (finv o two)))); [ring|rewrite C; ring]).
  pose proof (finv_l o L two N2) as I. rewrite E in I. transitivity (fsub o (fmul o two two) (f1 o)); [unfold two; ring|rewrite I; ring].
Qed.
End Deviation.
(** Deviation: check takes an inverse for the value itself, so with a division inside a divisor it both rejects
    expressions that have a value and accepts expressions that have none. *)
Theorem C53_nested_deviation : forall F (o : ops F), lawful o -> let two := fadd o (f1 o) (f1 o) in two <> f0 o -> fadd o two (f1 o) <> f0 o -> forall x T,
  (exists v, value o x T (EInv (EAdd (EInv (EConst two)) (ENeg (EConst two)))) v) /\ check o x T (EInv (EAdd (EInv (EConst two)) (ENeg (EConst two)))) = Some (f1 o, false) /\
  (forall v, ~ value o x T (EInv (EAdd (EInv (EConst two)) (ENeg (EConst (finv o two))))) v) /\ exists v, check o x T (EInv (EAdd (EInv (EConst two)) (ENeg (EConst (finv o two))))) = Some (v, true).
Proof.
  intros F o L two' N2 N3 x T. change two' with (two o) in *. clear two'. split; [|split; [|split]].
  - eexists. constructor; [constructor; [constructor; [constructor|exact N2]|constructor; constructor]|]. apply (four o L); assumption.
  - cbn [check bind]. destruct (feqb_spec o L (two o) (f0 o)); [contradiction|]. cbn [bind andb]. rewrite (sub_self o L), (feqb_refl o L). reflexivity.
  - intros v V. inversion V as [| | | | | | |a u Va Nu|]; subst. inversion Va as [| | | |a b u1 u2 V1 V2| | | |]; subst. inversion V1 as [| | | | | | |a u3 V3 N'|]; subst. inversion V3; subst. inversion V2 as [| | | | |a u4 V4| | |]; subst. inversion V4; subst. apply Nu. apply (sub_self o L).
  - cbn [check bind]. destruct (feqb_spec o L (two o) (f0 o)); [contradiction|]. cbn [bind andb].
    destruct (feqb_spec o L (fadd o (two o) (fneg o (finv o (two o)))) (f0 o)) as [C|]; [|eexists; reflexivity]. exfalso. apply (half_diff o L N2); [|exact C]. intros C'. apply N3. rewrite <- C'. pose proof (F_R (law_field o L)) as R. apply (Radd_comm R).
Qed.
Print Assumptions C53_nested_deviation.
(** Deviation: check_specific_constraint evaluates at the point of the previous row (with the trace cells of
    the row itself), so it accepts a row that check_constraints reports. *)
Theorem C53_specific_deviation : forall F (o : ops F), lawful o -> forall e M w, sound o e M w -> forall t k row, shaped t -> k <= M -> t_rows t = 2 ^ k -> 0 < row < 2 ^ k ->
  let c := e_div (EConst (f1 o)) (e_sub EX (EConst (fpw o (w k) row))) in
  check_constraints o e [c] t = Some (Some (row, 0)) /\ check_specific_constraint o e [c] t row 0 = Some true.
Proof.
  intros F o L e M w SD t k row Sh Hk HR Hrow c. pose proof (s_max _ _ _ _ SD) as HM.
  assert (Sub : forall a b, fadd o a (fneg o b) = f0 o -> a = b).
  { intros a b H. apply (fsub_0_iff o L). pose proof (F_R (law_field o L)) as R. rewrite (Rsub_def R). exact H. }
  assert (Z0 : fadd o (fpw o (w k) row) (fneg o (fpw o (w k) row)) = f0 o) by (pose proof (F_R (law_field o L)) as R; apply (Ropp_def R)).
  assert (V : forall x T, violated o x T c <-> x = fpw o (w k) row).
  { intros x T. split.
    - intros ((d & Hd & Vd) & _). unfold c, e_div in Hd. cbn [denominators] in Hd. destruct Hd as [<-|[]]. inversion Vd as [| | | |a b u v Va Vb E0 E1| | | |]; subst. inversion Va; subst. inversion Vb as [| | | | |a u' V'| | |]; subst. inversion V'; subst. apply Sub. assumption.
    - intros ->. split.
      + exists (e_sub EX (EConst (fpw o (w k) row))). split; [left; reflexivity|]. rewrite <- Z0. unfold e_sub. apply v_add; [apply v_x|]. apply v_neg, v_const.
      + intros n Hn Vn. destruct Hn as [<-|[]]. inversion Vn as [|c0 E0 E1| | | | | | |]. exact (f_1_neq_0 o L E1). }
  split.
  - destruct (C53_check_constraints F o L e M w SD t k [c] Sh Hk HR) as (res & E & Hres).
    { intros c' [<-|[]]. split; [cbn; tauto|]. split; [split; repeat constructor|]. intros i j Rf. cbn in Rf. tauto. }
    rewrite E. cbn zeta in Hres. destruct res as [[row' which]|].
    + destruct Hres as (H1 & (c' & Ec & Vc) & _). destruct which as [|which]; [|destruct which; discriminate Ec]. injection Ec as <-. apply V in Vc. f_equal. f_equal. f_equal. symmetry. apply (w_inj o L e M w SD k); [exact Hk|lia|exact H1|symmetry; exact Vc].
    + exfalso. apply (Hres row 0); [lia|]. exists c. split; [reflexivity|]. apply V. reflexivity.
  - unfold check_specific_constraint. rewrite HR, (s_root _ _ _ _ SD k Hk). cbn [bind nth_error]. destruct row as [|row]; [lia|]. rewrite (pow_nat o L k) by lia. cbn [check bind e_div e_sub c]. unfold c, e_div, e_sub. cbn [check bind andb].
    destruct (feqb_spec o L (fadd o (fpw o (w k) row) (fneg o (fpw o (w k) (S row)))) (f0 o)) as [C|]; [|reflexivity]. exfalso. apply Sub in C. apply (w_inj o L e M w SD k) in C; lia.
Qed.
Print Assumptions C53_specific_deviation.

(** The recurrence t(r + 1) = t(r)^3 from 2 on four rows, enforced on all rows but the last one. *)
Definition cubes (last : Z) : option (table (fe tiny_field)) :=
  let? t := t_set (t_new tiny_ops 4 1) 0 0 (tiny 2) in let? t := t_set t 1 0 (tiny 8) in let? t := t_set t 2 0 (tiny 27) in t_set t 3 0 (tiny last).
Definition w3 := fpw tiny_ops (fe_w tiny_good 2) 3.
Example C53_ex : let c := ex_constraint tiny_ops w3 in
  usizes c /\ fraction c /\ length (numerators c) = 2 /\ (forall t : table (fe tiny_field), t_rows t = 4 -> t_cols t = 1 -> refers_within t c) /\
  (let? t := cubes 89 in check_constraints tiny_ops tiny_engine [c] t) = Some None /\ (let? t := cubes 90 in check_constraints tiny_ops tiny_engine [c] t) = Some (Some (2, 0)).
Proof.
  split; [cbn; repeat split; lia|]. split; [split; repeat constructor|]. split; [reflexivity|]. split; [|split; vm_compute; reflexivity].
  intros t HR HC i j Rf. rewrite HR, HC. cbn in Rf. destruct Rf as [[[[-> ->]|[-> ->]]|[[]|[]]]|[[]|[]]]; lia.
Qed.
