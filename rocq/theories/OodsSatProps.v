(** C54: a trace that satisfies the constraints passes the out-of-domain check. *)
Require Import Field ZArith NArith Lia Bool List Sorted.
From Verif Require Import Word KnuthModel FieldSig FieldInstance FieldAlgModel FieldAlgProofs FieldProps Arr FftSpec FftModel PermuteProofs FftProofs FftProps StarkBase StarkInstance PolyModel PolyProps TraceModel TraceProps ExprModel ExprSpec ExprProofs ExprProps CheckProps PolyRoots OodsModel OodsProofs OodsProps.
Import ListNotations.
Open Scope nat_scope.

(** ** Specification *)
(** [ex] is a product of expressions and inverses of expressions, themselves without division, that selects [rows] of a
    trace of 2^k rows: on each of them one of the denominators vanishes, their degree bounds add up to the number of the
    rows, and there is a point where none vanishes. *)
Definition selects {F} (o : ops F) (g : F) (k : nat) (tp : list (list F)) (ex : rexpr F) (rows : list nat) : Prop :=
  fraction ex /\ NoDup rows /\ (forall r, In r rows -> r < 2 ^ k) /\
  (exists degrees, Forall2 (fun d n => degree o true (2 ^ Z.of_nat k - 1) d = Some (Z.of_nat n, 0%Z)) (denominators ex) degrees /\ list_sum degrees = length rows) /\
  (forall r, In r rows -> exists d, In d (denominators ex) /\ value o (fpw o g r) (poly_trace o g (2 ^ k) tp (fpw o g r)) d (f0 o)) /\
  exists x, forall d, In d (denominators ex) -> exists v, value o x (poly_trace o g (2 ^ k) tp x) d v /\ v <> f0 o.

Section Complete.
Context {F : Type} (o : ops F) (L : lawful o).
Add Field Ffield : (law_field o L).
Declare Scope ffC. Delimit Scope ffC with g.
Local Notation "0" := (f0 o) : ffC. Local Notation "1" := (f1 o) : ffC. Local Notation "x + y" := (fadd o x y) : ffC. Local Notation "x - y" := (fsub o x y) : ffC.
Local Notation "x * y" := (fmul o x y) : ffC. Local Notation "x ^ n" := (fpw o x n) : ffC.

Lemma free_degree td : (0 <= td)%Z -> forall e n d, usizes e -> division_free e -> degree o true td e = Some (n, d) -> d = 0%Z /\ poly_safe o td e.
Proof.
  intros Ht. assert (N0 : forall e n d, usizes e -> degree o true td e = Some (n, d) -> (0 <= n)%Z) by (intros e n d U E; apply (degree_nonneg o 1 td ltac:(lia) Ht e n d U E)).
  assert (G : forall e n d, division_free e -> degree o true td e = Some (n, d) -> d = 0%Z).
  { unfold degree. induction e as [|c|i j|p a IH|i b a IH|a IHa b IHb|a IH|a IHa b IHb|a IH|a IH m]; intros n d D E; cbn [division_free degree_impl] in *; try (injection E as <- <-; reflexivity); try contradiction.
    - apply bind_some in E as ([n1 d1] & E1 & E). apply bind_some in E as (k & E2 & E). apply scale_spec in E as [-> ->]. rewrite (IH n1 d1 D E1). lia.
    - apply bind_some in E as ([n1 d1] & E1 & E). apply bind_some in E as ([n2 d2] & E2 & E). apply bind_some in E as (x & E3 & E). apply bind_some in E as (y & E4 & E). apply bind_some in E as (z & E5 & E). injection E as <- <-. apply uadd_true in E5 as [-> _].
      rewrite (IHa n1 d1 (proj1 D) E1), (IHb n2 d2 (proj2 D) E2). reflexivity.
    - apply (IH n d D E).
    - apply bind_some in E as ([n1 d1] & E1 & E). apply bind_some in E as ([n2 d2] & E2 & E). apply bind_some in E as (x & E3 & E). apply bind_some in E as (y & E4 & E). injection E as <- <-. apply uadd_true in E4 as [-> _].
      rewrite (IHa n1 d1 (proj1 D) E1), (IHb n2 d2 (proj2 D) E2). reflexivity.
    - apply bind_some in E as ([n1 d1] & E1 & E). apply scale_spec in E as [-> ->]. rewrite (IH n1 d1 D E1). lia. }
  intros e n d U D E. split; [apply (G e n d D E)|]. clear n d E. induction e as [|c|i j|p a IH|i b a IH|a IHa b IHb|a IH|a IHa b IHb|a IH|a IH m]; cbn [poly_safe usizes division_free] in *; try exact I; try contradiction; try (apply IH; tauto); try (split; [apply IHa|apply IHb]; tauto).
  split; [apply IH; tauto|]. right. intros n d E. rewrite (G a n d D E). apply (N0 a n d (proj2 U) E).
Qed.
Lemma free_poly k g tp e n d : Forall (fun p => length p <= 2 ^ k) tp -> usizes e -> division_free e -> degree o true (2 ^ Z.of_nat k - 1) e = Some (n, d) ->
  exists p, (Z.of_nat (length p) <= n + 1)%Z /\ forall x v, value o x (poly_trace o g (2 ^ k) tp x) e v -> v = peval o p x.
Proof.
  intros Htp U D E. pose proof (Z.pow_pos_nonneg 2 (Z.of_nat k) ltac:(lia) ltac:(lia)) as P. destruct (free_degree (2 ^ Z.of_nat k - 1) ltac:(lia) e n d U D E) as [-> PS].
  destruct (C49_degree F o L (2 ^ Z.of_nat k - 1)%Z (fun i => nth i tp []) (fun j => fpw o g (Z.to_nat (j mod Z.of_nat (2 ^ k)))) e n 0%Z U PS ltac:(lia)) as (N & Dn & LN & LD & H); [|exact E|].
  { intros i. destruct (Nat.lt_ge_cases i (length tp)) as [Hi|Hi]; [|rewrite nth_overflow by exact Hi; cbn; lia]. rewrite Forall_forall in Htp. specialize (Htp _ (nth_In tp [] Hi)). apply Nat2Z.inj_le in Htp. rewrite Nat2Z.inj_pow in Htp. change (Z.of_nat 2) with 2%Z in Htp. lia. }
  exists (pscale o (finv o (nth 0 Dn (f0 o))) N). split; [rewrite (pscale_len o); exact LN|]. intros x v V. destruct (H x v V) as [Nd Ev]. destruct Dn as [|c [|c' Dn]]; [exfalso; apply Nd, peval_nil| |cbn [length] in LD; lia].
  rewrite (peval_cons o L), peval_nil in Nd, Ev. replace (c + x * 0)%g with c in * by ring. rewrite (pscale_eval o L), <- Ev. cbn [nth]. transitivity (v * (c * finv o c))%g; [rewrite (finv_r o L c Nd); ring|ring].
Qed.
Lemma factor_zero x T n : forall N, usizes N -> division_free N -> (forall i j, refers N i j -> T i j <> None) -> In n (numerators N) -> value o x T n (f0 o) -> value o x T N (f0 o).
Proof.
  induction N as [|c|i j|p a _|i b a _|a _ b _|a _|a IHa b IHb|a _|a _ m]; cbn [usizes division_free refers numerators]; intros U D R Hn V; try (destruct Hn as [<-|[]]; exact V); try contradiction.
  apply in_app_or in Hn as [Hn|Hn].
  - destruct (check_free o L x T b (proj2 U) (proj2 D) (fun i j H => R i j (or_intror H))) as (v & _ & Vb). replace (f0 o) with (0 * v)%g by ring. constructor; [|exact Vb]. apply IHa; [tauto|tauto|intros i j H; apply R; left; exact H|exact Hn|exact V].
  - destruct (check_free o L x T a (proj1 U) (proj1 D) (fun i j H => R i j (or_introl H))) as (v & _ & Va). replace (f0 o) with (v * 0)%g by ring. constructor; [exact Va|]. apply IHb; [tauto|tauto|intros i j H; apply R; right; exact H|exact Hn|exact V].
Qed.
Lemma free_numerators : forall N : rexpr F, division_free N -> Forall division_free (numerators N) /\ denominators N = [].
Proof.
  induction N as [|c|i j|p a _|i b a _|a _ b _|a _|a IHa b IHb|a _|a _ m]; cbn [division_free numerators denominators]; intros D; try contradiction; try (split; [constructor; [exact D|constructor]|reflexivity]).
  destruct (IHa (proj1 D)) as [A1 A2], (IHb (proj2 D)) as [B1 B2]. split; [apply Forall_app; split; assumption|]. rewrite A2, B2. reflexivity.
Qed.

Context (e : engine F) (M : nat) (w : nat -> F) (SD : sound o e M w).
(** The cells of the table are the values of the trace polynomials. *)
Definition interpolated (k : nat) (t : table F) (tp : list (list F)) : Prop :=
  shaped t /\ t_rows t = 2 ^ k /\ t_cols t = length tp /\ Forall (fun p => length p = 2 ^ k) tp /\ forall r j, r < 2 ^ k -> j < length tp -> t_get t r j = Some (peval o (nth j tp []) (w k ^ r)%g).
Lemma row_poly k t tp r i j : k <= M -> interpolated k t tp -> r < 2 ^ k -> i < length tp -> row_trace t r i j = poly_trace o (w k) (2 ^ k) tp (w k ^ r)%g i j.
Proof.
  intros Hk (_ & HR & HC & _ & Ht) Hr Hi. unfold row_trace, poly_trace. rewrite HR. pose proof (pow2_pos k) as P. rewrite Ht; [|apply Nat2Z.inj_lt; rewrite Z2Nat.id; apply Z.mod_pos_bound; lia|exact Hi]. f_equal. f_equal.
  pose proof (coset_index o L e M w SD k 0 r j ltac:(lia)) as C. rewrite Nat.add_0_r in C. change (2 ^ 0) with 1 in C. rewrite <- C. f_equal. f_equal. f_equal. lia.
Qed.
(** A fraction is a quotient of polynomials. *)
Lemma frac_poly k g tp : Forall (fun p => length p <= 2 ^ k) tp -> forall ex num den, usizes ex -> fraction ex -> degree o true (2 ^ Z.of_nat k - 1) ex = Some (num, den) ->
  exists pn pd, (Z.of_nat (length pn) <= num + 1)%Z /\ (Z.of_nat (length pd) <= den + 1)%Z /\ forall x, let T := poly_trace o g (2 ^ k) tp x in
    (peval o pd x = f0 o <-> exists d, In d (denominators ex) /\ value o x T d (f0 o)) /\
    ((exists n, In n (numerators ex) /\ value o x T n (f0 o)) -> peval o pn x = f0 o) /\
    (forall v, value o x T ex v -> peval o pd x <> f0 o /\ (v * peval o pd x)%g = peval o pn x) /\
    (peval o pd x <> f0 o -> exists v, value o x T ex v).
Proof.
  intros Htp. pose proof (Z.pow_pos_nonneg 2 (Z.of_nat k) ltac:(lia) ltac:(lia)) as P. assert (Tdef : forall x i j, poly_trace o g (2 ^ k) tp x i j <> None) by (intros; discriminate).
  assert (one : forall x, peval o [f1 o] x = f1 o) by (intros x; rewrite (peval_cons o L), peval_nil; ring).
  assert (leaf : forall ex num den, usizes ex -> fraction ex -> numerators ex = [ex] -> denominators ex = [] -> degree o true (2 ^ Z.of_nat k - 1) ex = Some (num, den) ->
    exists pn pd, (Z.of_nat (length pn) <= num + 1)%Z /\ (Z.of_nat (length pd) <= den + 1)%Z /\ forall x, let T := poly_trace o g (2 ^ k) tp x in
    (peval o pd x = f0 o <-> exists d, In d (denominators ex) /\ value o x T d (f0 o)) /\
    ((exists n, In n (numerators ex) /\ value o x T n (f0 o)) -> peval o pn x = f0 o) /\
    (forall v, value o x T ex v -> peval o pd x <> f0 o /\ (v * peval o pd x)%g = peval o pn x) /\
    (peval o pd x <> f0 o -> exists v, value o x T ex v)).
  { intros ex num den U [Fn _] En Ed E. rewrite En in *. rewrite Ed in *. inversion Fn as [|? ? Fx _]; subst. destruct (free_degree (2 ^ Z.of_nat k - 1) ltac:(lia) ex num den U Fx E) as [-> _]. destruct (free_poly k g tp ex num 0%Z Htp U Fx E) as (pn & Ln & Hn).
    exists pn, [f1 o]. split; [exact Ln|]. split; [cbn; lia|]. intros x T. rewrite one. split; [split; [intros C; exfalso; exact (F_1_neq_0 (law_field o L) C)|intros (d & [] & _)]|]. split; [intros (n & [<-|[]] & V); symmetry; exact (Hn x _ V)|]. split.
    - intros v V. split; [exact (F_1_neq_0 (law_field o L))|]. rewrite <- (Hn x v V). ring.
    - intros _. destruct (check_free o L x T ex U Fx (fun i j _ => Tdef x i j)) as (v & _ & V). exists v. exact V. }
  induction ex as [|c|i j|p a _|i b a _|a _ b _|a _|a IHa b IHb|a _|a _ m]; intros num den U Fr E; try (apply leaf; [exact U|exact Fr|reflexivity|reflexivity|exact E]).
  - destruct Fr as [Fn Fd]. cbn [numerators denominators] in Fn, Fd. apply Forall_app in Fn as [Fna Fnb]. apply Forall_app in Fd as [Fda Fdb]. unfold degree in E. cbn [degree_impl] in E.
    apply bind_some in E as ([n1 d1] & E1 & E). apply bind_some in E as ([n2 d2] & E2 & E). apply bind_some in E as (s & E3 & E). apply bind_some in E as (s' & E4 & E). injection E as <- <-. apply uadd_true in E3 as [-> _]. apply uadd_true in E4 as [-> _].
    destruct (IHa n1 d1 (proj1 U) (conj Fna Fda) E1) as (pn & pd & Ln & Ld & H). destruct (IHb n2 d2 (proj2 U) (conj Fnb Fdb) E2) as (qn & qd & Ln' & Ld' & H').
    destruct (degree_nonneg o 1 (2 ^ Z.of_nat k - 1) ltac:(lia) ltac:(lia) a n1 d1 (proj1 U) E1) as [N1 D1]. destruct (degree_nonneg o 1 (2 ^ Z.of_nat k - 1) ltac:(lia) ltac:(lia) b n2 d2 (proj2 U) E2) as [N2 D2].
    exists (pmul o pn qn), (pmul o pd qd). pose proof (pmul_len o pn qn). pose proof (pmul_len o pd qd). split; [lia|]. split; [lia|]. intros x T. destruct (H x) as (A1 & A2 & A3 & A4). destruct (H' x) as (B1 & B2 & B3 & B4). fold T in A1, A2, A3, A4, B1, B2, B3, B4. rewrite !(pmul_eval o L). cbn [numerators denominators]. split; [|split; [|split]].
    + split.
      * intros Z0. apply (proj1 (fmul_0_iff o L _ _)) in Z0 as [Z0|Z0]; [apply A1 in Z0|apply B1 in Z0]; destruct Z0 as (d & Hd & V); exists d; (split; [apply in_or_app; auto|exact V]).
      * intros (d & Hd & V). apply in_app_or in Hd as [Hd|Hd]; [rewrite (proj2 A1)|rewrite (proj2 B1)]; try ring; exists d; split; assumption.
    + intros (n & Hn & V). apply in_app_or in Hn as [Hn|Hn]; [rewrite A2|rewrite B2]; try ring; exists n; split; assumption.
    + intros v V. inversion V as [| | | | | |a' b' u1 u2 V1 V2| |]; subst. destruct (A3 u1 V1) as [N1' E1']. destruct (B3 u2 V2) as [N2' E2']. split; [apply (fmul_neq_0 o L); assumption|]. rewrite <- E1', <- E2'. ring.
    + intros Nz. destruct A4 as (u1 & V1); [intros C; apply Nz; rewrite C; ring|]. destruct B4 as (u2 & V2); [intros C; apply Nz; rewrite C; ring|]. exists (u1 * u2)%g. constructor; assumption.
  - destruct Fr as [_ Fd]. cbn [denominators] in Fd. inversion Fd as [|? ? Fa _]; subst. unfold degree in E. cbn [degree_impl] in E. apply bind_some in E as ([n1 d1] & E1 & E). injection E as <- <-. destruct (free_degree (2 ^ Z.of_nat k - 1) ltac:(lia) a n1 d1 U Fa E1) as [-> _]. destruct (free_poly k g tp a n1 0%Z Htp U Fa E1) as (pd & Ld & Hd).
    exists [f1 o], pd. split; [cbn; lia|]. split; [exact Ld|]. intros x T. rewrite one. cbn [numerators denominators]. destruct (check_free o L x T a U Fa (fun i j _ => Tdef x i j)) as (u & _ & Vu). split; [|split; [intros (n & [] & _)|split]].
    + split; [intros Z0; exists a; split; [left; reflexivity|]; rewrite <- Z0, <- (Hd x u Vu); exact Vu|intros (d & [<-|[]] & V); symmetry; exact (Hd x _ V)].
    + intros v V. inversion V as [| | | | | | |a' u' V' Nu|]; subst. rewrite <- (Hd x u' V'). split; [exact Nu|]. apply (finv_l o L). exact Nu.
    + intros Nz. exists (finv o u). constructor; [exact Vu|]. rewrite (Hd x u Vu). exact Nz.
Qed.
Lemma frac_degree k : forall ex num den degrees, usizes ex -> fraction ex -> degree o true (2 ^ Z.of_nat k - 1) ex = Some (num, den) ->
  Forall2 (fun d n => degree o true (2 ^ Z.of_nat k - 1) d = Some (Z.of_nat n, 0%Z)) (denominators ex) degrees -> den = Z.of_nat (list_sum degrees).
Proof.
  pose proof (Z.pow_pos_nonneg 2 (Z.of_nat k) ltac:(lia) ltac:(lia)) as P.
  assert (leaf : forall ex num den degrees, usizes ex -> fraction ex -> numerators ex = [ex] -> denominators ex = [] -> degree o true (2 ^ Z.of_nat k - 1) ex = Some (num, den) ->
    Forall2 (fun d n => degree o true (2 ^ Z.of_nat k - 1) d = Some (Z.of_nat n, 0%Z)) (denominators ex) degrees -> den = Z.of_nat (list_sum degrees)).
  { intros ex num den degrees U [Fn _] En Ed E H. rewrite En in Fn. rewrite Ed in H. inversion Fn as [|? ? Fx _]; subst. inversion H; subst. destruct (free_degree (2 ^ Z.of_nat k - 1) ltac:(lia) ex num den U Fx E) as [-> _]. reflexivity. }
  induction ex as [|c|i j|p a _|i b a _|a _ b _|a _|a IHa b IHb|a _|a _ m]; intros num den degrees U Fr E H; try (eapply leaf; [exact U|exact Fr|reflexivity|reflexivity|exact E|exact H]).
  - destruct Fr as [Fn Fd]. cbn [numerators denominators] in Fn, Fd, H. apply Forall_app in Fn as [Fna Fnb]. apply Forall_app in Fd as [Fda Fdb]. unfold degree in E. cbn [degree_impl] in E.
    apply bind_some in E as ([n1 d1] & E1 & E). apply bind_some in E as ([n2 d2] & E2 & E). apply bind_some in E as (s & E3 & E). apply bind_some in E as (s' & E4 & E). injection E as <- <-. apply uadd_true in E4 as [-> _].
    apply Forall2_app_inv_l in H as (da & db & Ha & Hb & ->). rewrite (IHa n1 d1 da (proj1 U) (conj Fna Fda) E1 Ha), (IHb n2 d2 db (proj2 U) (conj Fnb Fdb) E2 Hb), list_sum_app. lia.
  - cbn [denominators] in H. inversion H as [|? n ? degrees' Hd H']; subst. inversion H'; subst. unfold degree in E, Hd. cbn [degree_impl] in E. rewrite Hd in E. cbn [bind] in E. injection E as <- <-. cbn. lia.
Qed.
Lemma satisfied_poly k t tp ex rows : k <= M -> interpolated k t tp -> usizes ex -> (forall i j, refers ex i j -> i < length tp) -> selects o (w k) k tp ex rows ->
  (forall r, In r rows -> ~ violated o (w k ^ r)%g (row_trace t r) ex) -> forall num den, degree o true (2 ^ Z.of_nat k - 1) ex = Some (num, den) ->
  exists q, (Z.of_nat (length q) <= Z.max 0 (num - den + 1))%Z /\ (forall x v, value o x (poly_trace o (w k) (2 ^ k) tp x) ex v -> v = peval o q x) /\
  forall x, (exists v, value o x (poly_trace o (w k) (2 ^ k) tp x) ex v) \/ exists r, In r rows /\ x = (w k ^ r)%g.
Proof.
  intros Hk HI U HR (Fr & ND & Hrows & (degrees & Hdeg & Sdeg) & HD & x0 & Hx0) Hv num den E. pose proof HI as (_ & _ & _ & Htp & _).
  assert (Htp' : Forall (fun p => length p <= 2 ^ k) tp) by (eapply Forall_impl; [|exact Htp]; intros p ->; constructor).
  pose proof (frac_degree k ex num den degrees U Fr E Hdeg) as Eden. rewrite Sdeg in Eden. destruct (frac_poly k (w k) tp Htp' ex num den U Fr E) as (pn & pd & Ln & Ld & HP).
  set (zs := map (fun r => (w k ^ r)%g) rows).
  assert (NDz : NoDup zs). { unfold zs. clear - ND Hrows SD Hk L. induction rows as [|r rows IH]; cbn [map]; [constructor|]. inversion ND as [|? ? Hr ND']; subst. constructor; [|apply IH; [exact ND'|intros r' H; apply Hrows; right; exact H]].
    intros C. apply in_map_iff in C as (r' & Er & Hr'). apply Hr. replace r with r'; [exact Hr'|]. apply (w_inj o L e M w SD k r' r Hk); [apply Hrows; right; exact Hr'|apply Hrows; left; reflexivity|exact Er]. }
  assert (Lz : length zs = length rows) by apply map_length.
  destruct (vanishing_quotient o L zs pd NDz) as (qd & Lqd & Eqd). { intros z Hz. apply in_map_iff in Hz as (r & <- & Hr). apply (proj1 (HP _)). exact (HD r Hr). }
  destruct (vanishing_quotient o L zs pn NDz) as (qn & Lqn & Eqn).
  { intros z Hz. apply in_map_iff in Hz as (r & <- & Hr). specialize (Hv r Hr). pose proof (Hrows r Hr) as Hlt. apply (proj1 (proj2 (HP _))).
    assert (X : forall y v, (forall i j, refers y i j -> refers ex i j) -> value o (w k ^ r)%g (row_trace t r) y v <-> value o (w k ^ r)%g (poly_trace o (w k) (2 ^ k) tp (w k ^ r)%g) y v).
    { intros y v Ry. split; apply (value_ext_on o); intros i j R; [|symmetry]; apply (row_poly k t tp r i j Hk HI Hlt), (HR i j), Ry, R. }
    assert (Rn : forall y, In y (numerators ex) \/ In y (denominators ex) -> forall i j, refers y i j -> refers ex i j).
    { clear. induction ex as [|c|i j|p a _|i b a _|a _ b _|a _|a IHa b IHb|a _|a _ m]; intros y Hy i' j' R; cbn [numerators denominators] in Hy; try (destruct Hy as [[<-|[]]|[]]; exact R).
      - cbn [refers]. destruct Hy as [Hy|Hy]; apply in_app_or in Hy as [Hy|Hy]; [left; apply (IHa y)|right; apply (IHb y)|left; apply (IHa y)|right; apply (IHb y)]; auto.
      - destruct Hy as [[]|[<-|[]]]. exact R. }
    destruct (check_frac o L (w k ^ r)%g (row_trace t r) ex U Fr) as (v & ok & _ & [((n & Hin & Vn) & _)|[(Nn & (d & Hin & Vd) & _)|(_ & Dn & _)]]).
    - intros i j R. rewrite (row_poly k t tp r i j Hk HI Hlt (HR i j R)). discriminate.
    - exists n. split; [exact Hin|]. apply X; [apply Rn; left; exact Hin|exact Vn].
    - exfalso. apply Hv. split; [exists d; split; assumption|exact Nn].
    - exfalso. destruct (HD r Hr) as (d & Hin & Vd). apply (Dn d Hin). apply X; [apply Rn; right; exact Hin|exact Vd]. }
  set (c := nth 0 qd (f0 o)). assert (Eqd' : forall x, peval o pd x = (linear_factors o zs x * c)%g).
  { intros x. rewrite Eqd. f_equal. unfold c. destruct qd as [|a [|b qd]]; [apply peval_nil|rewrite (peval_cons o L), peval_nil; cbn [nth]; ring|cbn [length] in Lqd; lia]. }
  assert (Nc : c <> f0 o).
  { intros C. assert (Z0 : peval o pd x0 = f0 o) by (rewrite Eqd', C; ring). apply (proj1 (HP x0)) in Z0 as (d & Hd & V). destruct (Hx0 d Hd) as (v & V' & Nv). apply Nv. exact (value_fun o _ _ _ _ _ V' V). }
  exists (pscale o (finv o c) qn). split; [rewrite (pscale_len o); lia|]. split.
  - intros x v V. destruct (proj1 (proj2 (proj2 (HP x))) v V) as [Nd Ev]. rewrite (pscale_eval o L). rewrite Eqd' in Nd, Ev. rewrite Eqn in Ev. assert (Nl : linear_factors o zs x <> f0 o) by (intros C; apply Nd; rewrite C; ring).
    apply (fmul_cancel_l o L (linear_factors o zs x * c)%g _ _ Nd). transitivity (v * (linear_factors o zs x * c))%g; [ring|]. rewrite Ev. field. exact Nc.
  - intros x. destruct (feq_dec o L (peval o pd x) (f0 o)) as [E0|Nd]; [right|left; apply (HP x); exact Nd].
    rewrite Eqd' in E0. assert (Z : linear_factors o zs x = f0 o). { apply (fmul_cancel_l o L c _ _ Nc). transitivity (linear_factors o zs x * c)%g; [ring|]. rewrite E0. ring. }
    clear - Z L. unfold zs in Z. induction rows as [|r rows IH]; cbn [map linear_factors] in Z.
    * exfalso. apply (F_1_neq_0 (law_field o L)). exact Z.
    * apply (proj1 (fmul_0_iff o L _ _)) in Z as [Z|Z]; [exists r; split; [left; reflexivity|apply (proj1 (fsub_0_iff o L _ _)), Z]|]. destruct (IH Z) as (r' & H1 & H2). exists r'. split; [right; exact H1|exact H2].
Qed.
(** ** The combination *)
Definition shift_by (k : nat) (p : list F) : list F := match p with [] => [] | _ => repeat (f0 o) k ++ p end.
Lemma shift_by_eval k p x : peval o (shift_by k p) x = (x ^ k * peval o p x)%g.
Proof. destruct p as [|a p]; cbn [shift_by]; [rewrite peval_nil; ring|]. rewrite (peval_app o L), (peval_zeros o L), repeat_length. ring. Qed.
Lemma shift_by_len k p bound : length p = 0 \/ k + length p <= bound -> length (shift_by k p) <= bound.
Proof. intros H. destruct p as [|a p]; cbn [shift_by]; [cbn; lia|]. rewrite app_length, repeat_length. cbn [length] in *. lia. Qed.
Lemma sum_polys (T : F -> nat -> Z -> option F) bound : forall es ks cs, Forall2 (fun ex k => exists q, (length q = 0 \/ (0 <= k /\ k + Z.of_nat (length q) <= Z.of_nat bound)%Z) /\ forall x v, value o x (T x) ex v -> v = peval o q x) es ks ->
  exists C, length C <= bound /\ forall x vs, Forall2 (value o x (T x)) es vs ->
  fsum o (map (fun i => fmul o (fadd o (nth (2 * i) cs (f0 o)) (fmul o (nth (2 * i + 1) cs (f0 o)) (fexp o x (Z.to_N (nth i ks 0%Z))))) (nth i vs (f0 o))) (seq 0 (length es))) = peval o C x.
Proof.
  induction es as [|ex es IH]; intros ks cs H.
  - exists []. split; [cbn; lia|]. intros x vs _. rewrite peval_nil. reflexivity.
  - inversion H as [|? k ? ks' (q & Lq & Hq) H']; subst. destruct (IH ks' (skipn 2 cs) H') as (C & LC & HC).
    exists (padd o (padd o (pscale o (nth 0 cs (f0 o)) q) (pscale o (nth 1 cs (f0 o)) (shift_by (Z.to_nat k) q))) C). split.
    + rewrite !(padd_len o), !(pscale_len o). pose proof (shift_by_len (Z.to_nat k) q bound ltac:(lia)). lia.
    + intros x vs V. inversion V as [|? v ? vs' Vv V']; subst. specialize (HC x vs' V'). cbn [length seq map]. rewrite fsum_cons, !(padd_eval o L), !(pscale_eval o L), shift_by_eval, <- HC. cbn [nth Nat.mul Nat.add]. rewrite (Hq x v Vv).
      rewrite <- (fpw_N o x (Z.to_N k)), Z_N_nat. rewrite <- seq_shift, map_map. f_equal; [ring|]. apply fsum_map_ext. intros i _. cbn [nth]. rewrite !nth_skipn. replace (S i + (S i + 0)) with (2 + (i + (i + 0))) by lia. replace (2 + (i + (i + 0)) + 1) with (2 + (i + (i + 0) + 1)) by lia. reflexivity.
Qed.
Fixpoint no_claims (x : rexpr F) : Prop := match x with EX | EConst _ | ETrace _ _ => True | EClaim _ _ _ => False | EPoly _ y | ENeg y | EInv y | EExp y _ => no_claims y | EAdd y z | EMul y z => no_claims y /\ no_claims z end.
Lemma no_claims_sub claims : forall E : rexpr F, no_claims E -> substitute_claim o claims E = Some E.
Proof.
  unfold substitute_claim. induction E as [|c|i j|p x IH|i n x IH|x IHx y IHy|x IH|x IHx y IHy|x IH|x IH n]; intros H; cbn [map_expr bind no_claims] in *; try reflexivity; try contradiction; try (rewrite IH by exact H; reflexivity).
  - rewrite IHx by apply H. cbn [bind]. rewrite IHy by apply H. reflexivity.
  - rewrite IHx by apply H. cbn [bind]. rewrite IHy by apply H. reflexivity.
Qed.
Lemma free_no_claims : forall x : rexpr F, division_free x -> no_claims x.
Proof. induction x; cbn [division_free no_claims]; intros H; try exact I; try contradiction; try tauto. Qed.
Lemma frac_no_claims : forall x : rexpr F, fraction x -> no_claims x.
Proof.
  induction x as [|c|i j|p a _|i b a _|a _ b _|a _|a IHa b IHb|a _|a _ m]; intros [Fn Fd]; cbn [numerators denominators] in Fn, Fd; try (inversion Fn as [|? ? Fx _]; subst; apply free_no_claims; exact Fx).
  - apply Forall_app in Fn as [? ?]. apply Forall_app in Fd as [? ?]. split; [apply IHa|apply IHb]; split; assumption.
  - inversion Fd as [|? ? Fx _]; subst. apply (free_no_claims a Fx).
Qed.
Lemma combine_no_claims c cs E : combine o true c cs = Some E -> (forall ex, In ex (c_exprs c) -> no_claims ex) -> no_claims E.
Proof.
  unfold combine. destruct (_ =? _); [|discriminate]. intros H U. apply bind_some in H as (t & _ & H). apply bind_some in H as (l & H & H2). injection H2 as <-. apply option_all_inv in H.
  assert (G : Forall no_claims l).
  { assert (Hin : forall x, In x (List.combine (c_exprs c) (tuples cs)) -> no_claims (fst x)) by (intros [ex kk] Hx; apply in_combine_l in Hx; apply U, Hx).
    revert Hin. induction H as [|[ex [lo hi]] x es l H1 H IH]; intros Hin; constructor; [|apply IH; intros y Hy; apply Hin; right; exact Hy].
    cbn [combine_term] in H1. apply bind_some in H1 as (kk & Hk & H1). injection H1 as <-. cbn [no_claims]. split; [tauto|]. apply (Hin (ex, (lo, hi)) ltac:(left; reflexivity)). }
  destruct l as [|ex l]; cbn [e_sum]; [exact I|]. inversion G as [|? ? Ge Gl]; subst. clear - Ge Gl. revert ex Ge. induction Gl as [|x l Hx Gl IH]; intros ex Ge; cbn [fold_left]; [exact Ge|]. apply IH. split; assumption.
Qed.
(** If every constraint is satisfied then the combined constraint is a polynomial, with a value off the trace domain. *)
Lemma combined_poly k a t tp c cs E Dg : k <= M -> interpolated k t tp -> c_nrows c = 2 ^ k ->
  (forall ex, In ex (c_exprs c) -> usizes ex /\ (forall i j, refers ex i j -> i < length tp) /\ exists rows, selects o (w k) k tp ex rows /\ forall r, In r rows -> ~ violated o (w k ^ r)%g (row_trace t r) ex) ->
  c_degree o true c = Some Dg -> (Dg <= 2 ^ Z.of_nat a)%Z -> combine o true c cs = Some E ->
  (exists C, length C = 2 ^ (k + a) /\ forall x v, value o x (poly_trace o (w k) (2 ^ k) tp x) E v -> v = peval o C x) /\
  forall x, (forall r, r < 2 ^ k -> x <> (w k ^ r)%g) -> exists v, value o x (poly_trace o (w k) (2 ^ k) tp x) E v.
Proof.
  intros Hk HI Hn Hc ED HD Ec. destruct (C49_combine F o L c cs E Ec) as (D' & ks & ED' & Lc & Hks & HV). rewrite ED in ED'. injection ED' as <-. rewrite Hn in Hks.
  assert (E2 : (Z.of_nat (2 ^ k) = 2 ^ Z.of_nat k)%Z) by (rewrite Nat2Z.inj_pow; reflexivity). rewrite E2 in Hks. assert (P : (0 < 2 ^ Z.of_nat k)%Z) by (apply Z.pow_pos_nonneg; lia).
  assert (Q : forall ex num den, In ex (c_exprs c) -> degree o true (2 ^ Z.of_nat k - 1) ex = Some (num, den) -> exists q, (Z.of_nat (length q) <= Z.max 0 (num - den + 1))%Z /\ (forall x v, value o x (poly_trace o (w k) (2 ^ k) tp x) ex v -> v = peval o q x) /\
    forall x, (exists v, value o x (poly_trace o (w k) (2 ^ k) tp x) ex v) \/ exists r, r < 2 ^ k /\ x = (w k ^ r)%g).
  { intros ex num den Hin Ed. destruct (Hc ex Hin) as (U & R & rows & Sel & Sat). destruct (satisfied_poly k t tp ex rows Hk HI U R Sel Sat num den Ed) as (q & L1 & H1 & H2). exists q. split; [exact L1|]. split; [exact H1|]. intros x.
    destruct (H2 x) as [V|(r & Hr & ->)]; [left; exact V|]. right. exists r. split; [|reflexivity]. destruct Sel as (_ & _ & Hrows & _). apply Hrows, Hr. }
  split.
  - destruct (sum_polys (fun x => poly_trace o (w k) (2 ^ k) tp x) (2 ^ (k + a)) (c_exprs c) ks cs) as (C & LC & HC).
    { clear - Hks Q HD E2 P.
      assert (G : forall es', (forall ex, In ex es' -> In ex (c_exprs c)) -> forall ks, Forall2 (fun (e0 : rexpr F) (k0 : Z) => exists num den : Z, degree o true (2 ^ Z.of_nat k - 1) e0 = Some (num, den) /\ (0 <= k0)%Z /\ (k0 + num)%Z = (Dg * 2 ^ Z.of_nat k - 1 + den)%Z) es' ks ->
        Forall2 (fun ex k0 => exists q, (length q = 0 \/ (0 <= k0 /\ k0 + Z.of_nat (length q) <= Z.of_nat (2 ^ (k + a)))%Z) /\ forall x v, value o x (poly_trace o (w k) (2 ^ k) tp x) ex v -> v = peval o q x) es' ks).
      { clear ks Hks. intros es' Hin ks H. induction H as [|ex k0 es' ks (num & den & Ed & K0 & Ek) H IH]; constructor; [|apply IH; intros ex' H'; apply Hin; right; exact H'].
        destruct (Q ex num den ltac:(apply Hin; left; reflexivity) Ed) as (q & Lq & Hq & _). exists q. split; [|exact Hq]. destruct (length q) eqn:El; [left; reflexivity|]. right. split; [exact K0|]. rewrite <- El in *.
        rewrite Nat2Z.inj_pow, Nat2Z.inj_add, Z.pow_add_r by lia. change (Z.of_nat 2) with 2%Z. assert (Dg * 2 ^ Z.of_nat k <= 2 ^ Z.of_nat a * 2 ^ Z.of_nat k)%Z by (apply Z.mul_le_mono_nonneg_r; lia). lia. }
      apply (G (c_exprs c)); [trivial|]. exact Hks. }
    exists (C ++ repeat (f0 o) (2 ^ (k + a) - length C)). split; [rewrite app_length, repeat_length; lia|]. intros x v V. apply HV in V as (vs & Hvs & ->). rewrite (HC x vs Hvs), (peval_app o L), (peval_zeros o L). ring.
  - intros x Hx. assert (X : exists vs, Forall2 (value o x (poly_trace o (w k) (2 ^ k) tp x)) (c_exprs c) vs).
    { clear - Q Hks Hx. revert Q. induction Hks as [|ex k0 es ks (num & den & Ed & _) Hks IH]; intros Q; [exists []; constructor|]. destruct IH as (vs & Hvs); [intros ex' num' den' Hin; apply Q; right; exact Hin|].
      destruct (Q ex num den ltac:(left; reflexivity) Ed) as (_ & _ & _ & H). destruct (H x) as [(v & V)|(r & Hr & Ex)]; [|exfalso; exact (Hx r Hr Ex)]. exists (v :: vs). constructor; assumption. }
    destruct X as (vs & Hvs). eexists. apply HV. exists vs. split; [exact Hvs|reflexivity].
Qed.
End Complete.

(** The constants of the constraints: c, or a power of a constant. *)
Definition constant {F} (o : ops F) (C : rexpr F) (c : F) : Prop := C = EConst c \/ exists g n, C = EExp (EConst g) n /\ (0 <= n < 2 ^ 64)%Z /\ c = fexp o g (Z.to_N n).
(** The usual denominators: X^(2^j) - c, with c the value of X^(2^j) on the row r, selects the 2^j rows that differ from r by a
    multiple of 2^(k - j); X - c selects the row r where X is c. *)
Theorem C54_selects : forall F (o : ops F), lawful o -> forall e M w, sound o e M w -> forall k tp ex C c r, k <= M -> fraction ex -> constant o C c ->
  (forall j, j <= k -> r < 2 ^ (k - j) -> c = fpw o (w k) (r * 2 ^ j) -> denominators ex = [e_sub (EExp EX (2 ^ Z.of_nat j)) C] -> selects o (w k) k tp ex (map (fun i => r + i * 2 ^ (k - j)) (seq 0 (2 ^ j)))) /\
  (r < 2 ^ k -> c = fpw o (w k) r -> denominators ex = [e_sub EX C] -> selects o (w k) k tp ex [r]).
Proof.
  intros F o L e M w SD k tp ex C c r Hk Fr HC. pose proof (s_max _ _ _ _ SD) as HM. pose proof (pow2_pos k) as P2.
  assert (VC : forall x T, value o x T C c) by (intros x T; destruct HC as [->|(g & n & -> & _ & ->)]; repeat constructor).
  assert (DC : forall td, degree o true td C = Some (0, 0)%Z) by (intros td; destruct HC as [->|(g & n & -> & Hn & ->)]; [reflexivity|]; unfold degree; cbn [degree_impl bind]; unfold umul; rewrite Z.mul_0_r; reflexivity).
  assert (Nw : forall i, fpw o (w k) i <> f0 o) by (intros i; apply (fpw_neq_0 o L), (w_neq_0 o L e M w SD k Hk)).
  assert (Sum1 : forall n, list_sum [n] = n) by (intros n; cbn; lia).
  split; [intros j Hj Hr Ec Ed|intros Hr Ec Ed]; (split; [exact Fr|]).
  - assert (Hz : (0 < 2 ^ Z.of_nat j < B)%Z) by (change B with (2 ^ 64)%Z; split; [apply Z.pow_pos_nonneg; lia|apply Z.pow_lt_mono_r; lia]).
    assert (E2 : (Z.of_nat (2 ^ j) = 2 ^ Z.of_nat j)%Z) by (rewrite Nat2Z.inj_pow; reflexivity). pose proof (pow2_pos (k - j)) as Pk. pose proof (pow2_pos j) as Pj. assert (Ek : 2 ^ j * 2 ^ (k - j) = 2 ^ k) by (rewrite <- Nat.pow_add_r; f_equal; lia).
    assert (Ze : forall x, fexp o x (Z.to_N (2 ^ Z.of_nat j)) = fpw o x (2 ^ j)) by (intros x; rewrite <- (fpw_N o), Z_N_nat, <- E2, Nat2Z.id; reflexivity).
    split; [apply FinFun.Injective_map_NoDup; [|apply seq_NoDup]; intros a b H; nia|]. split; [intros r' Hr'; apply in_map_iff in Hr' as (i & <- & Hi); apply in_seq in Hi; nia|]. split; [|split].
    + exists [2 ^ j]. rewrite Sum1, map_length, seq_length. split; [|reflexivity]. rewrite Ed. constructor; [|constructor]. rewrite E2. unfold degree, e_sub. cbn [degree_impl bind]. assert (M1 : umul true (2 ^ Z.of_nat j) 1 = Some (2 ^ Z.of_nat j)%Z) by (unfold umul; rewrite Z.mul_1_r; destruct (Z.ltb_spec (2 ^ Z.of_nat j) B); [reflexivity|lia]).
      assert (M0 : umul true (2 ^ Z.of_nat j) 0 = Some 0%Z) by (unfold umul; rewrite Z.mul_0_r; reflexivity). rewrite M1. cbn [bind]. rewrite M0. cbn [bind]. fold (degree o true (2 ^ Z.of_nat k - 1) C). rewrite DC. cbn [bind].
      assert (A1 : uadd true (2 ^ Z.of_nat j) 0 = Some (2 ^ Z.of_nat j)%Z) by (unfold uadd; rewrite Z.add_0_r; destruct (Z.ltb_spec (2 ^ Z.of_nat j) B); [reflexivity|lia]). rewrite A1. change (uadd true 0 0) with (Some 0%Z). cbn [bind]. rewrite Z.max_l by lia. reflexivity.
    + intros r' Hr'. apply in_map_iff in Hr' as (i & <- & Hi). rewrite Ed. eexists. split; [left; reflexivity|]. replace (f0 o) with (fadd o (fexp o (fpw o (w k) (r + i * 2 ^ (k - j))) (Z.to_N (2 ^ Z.of_nat j))) (fneg o c)).
      { constructor; [constructor; constructor|]. constructor. apply VC. }
      rewrite Ze, <- (fpw_mul o L), Nat.mul_add_distr_r. replace (i * 2 ^ (k - j) * 2 ^ j) with (2 ^ k * i) by lia. rewrite (fpw_add o L), (fpw_mul o L _ (2 ^ k)), (w_one o e M w SD k Hk), (fpw_one o L), <- Ec. rewrite (oods_comm o L), (oods_one o L). apply (Ropp_def (F_R (law_field o L))).
    + exists (f0 o). rewrite Ed. intros d [<-|[]]. exists (fadd o (fexp o (f0 o) (Z.to_N (2 ^ Z.of_nat j))) (fneg o c)). split; [constructor; [constructor; constructor|]; constructor; apply VC|]. rewrite Ze. intros Z0.
      apply (Nw (r * 2 ^ j)). rewrite <- Ec. apply (oods_neg_zero o L). transitivity (fadd o (fpw o (f0 o) (2 ^ j)) (fneg o c)); [|exact Z0]. f_equal. destruct (2 ^ j) as [|n]; [lia|]. cbn [fpw]. symmetry. apply (proj2 (fmul_0_iff o L _ _)). left. reflexivity.
  - split; [repeat constructor; intros []|]. split; [intros r' [<-|[]]; exact Hr|]. split; [|split].
    + exists [1]. split; [|reflexivity]. rewrite Ed. constructor; [|constructor]. unfold degree, e_sub. cbn [degree_impl bind]. fold (degree o true (2 ^ Z.of_nat k - 1) C). rewrite DC. reflexivity.
    + intros r' [<-|[]]. rewrite Ed. eexists. split; [left; reflexivity|]. replace (f0 o) with (fadd o (fpw o (w k) r) (fneg o c)) by (rewrite <- Ec; apply (Ropp_def (F_R (law_field o L)))). constructor; [constructor|]. constructor. apply VC.
    + exists (f0 o). rewrite Ed. intros d [<-|[]]. exists (fadd o (f0 o) (fneg o c)). split; [constructor; [constructor|]; constructor; apply VC|]. intros Z0. apply (Nw r). rewrite <- Ec. apply (oods_neg_zero o L), Z0.
Qed.
Print Assumptions C54_selects.

(** A trace accepted by the constraint checker passes the out-of-domain check: constraints that are quotients as
    above, whose combined degree is at most 2^a times the number of rows, on a table of 2^k rows. The coset
    generator is not a root of unity of the order of the coset. *)
Theorem C54_completeness : forall F (o : ops F), lawful o -> forall e M w, sound o e M w -> forall dbg k b a t tp ldes (c : constraints (F := F)) cs E args Dg,
  k + b <= M -> a <= b -> shaped t -> t_rows t = 2 ^ k -> 0 < t_cols t -> c_nrows c = 2 ^ k -> fpw o (egen e) (2 ^ (k + a)) <> f1 o ->
  interpolate o e t = Some tp -> check_constraints o e (c_exprs c) t = Some None ->
  (forall ex, In ex (c_exprs c) -> usizes ex /\ refers_within t ex /\ (forall i j, refers ex i j -> (j < 2 ^ 63)%Z) /\ exists rows, selects o (w k) k tp ex rows) ->
  c_degree o true c = Some Dg -> (Dg <= 2 ^ Z.of_nat a)%Z -> combine o true c cs = Some E -> c_trace_arguments c = Some args ->
  option_all (map (fun p => low_degree_extension o e p (2 ^ b)) tp) = Some ldes ->
  exists ct values H, extract_trace_coset o e ldes (2 ^ (k + a)) = Some ct /\ coset_values o e ct (2 ^ a) E = Some values /\ constraint_polynomials o e values (2 ^ a) (2 ^ k) = Some H /\ length H = 2 ^ a /\ Forall (fun p => length p = 2 ^ k) H /\
  forall z, (forall r, r < 2 ^ k -> z <> fpw o (w k) r) -> exists tv v, oods_trace_values o e tp args z = Some tv /\
    oods_value_from_trace_values o dbg c [] cs (claimed_trace_map args tv) z = Some v /\
    oods_value_from_constraint_values o (oods_constraint_values o H z) z = v.
Proof.
  intros F o L e M w SD dbg k b a t tp ldes c cs E args Dg Hm Hab Sh HR HC Hn Hg Ei Ek Hc ED HD Ec Ea El.
  destruct (C46_interpolate F o L e M w SD t k Sh ltac:(lia) HR) as (ps & Eps & Lps & _ & Hps). rewrite Ei in Eps. injection Eps as <-.
  assert (HI : interpolated o w k t tp).
  { split; [exact Sh|]. split; [exact HR|]. split; [symmetry; exact Lps|]. rewrite <- Lps in Hps. split.
    - apply Forall_forall. intros p Hp. apply In_nth_error in Hp as (j & Hj). assert (Hlt : j < length tp) by (apply nth_error_Some; congruence). destruct (Hps j Hlt) as (p' & Ep & Lp & _). rewrite Hj in Ep. injection Ep as <-. exact Lp.
    - intros r j Hr Hj. destruct (Hps j Hj) as (p & Ep & _ & Hp). rewrite (Hp r Hr), (evaluate_spec o L). erewrite nth_error_nth by exact Ep. reflexivity. }
  pose proof HI as (_ & _ & _ & Htp & _).
  assert (Nt : tp <> []) by (destruct tp; [cbn in Lps; lia|discriminate]).
  assert (Sat : forall ex, In ex (c_exprs c) -> forall r, r < 2 ^ k -> ~ violated o (fpw o (w k) r) (row_trace t r) ex).
  { destruct (C53_check_constraints F o L e M w SD t k (c_exprs c) Sh ltac:(lia) HR) as (res & Er & Hres).
    - intros ex Hin. destruct (Hc ex Hin) as (U & W & _ & rows & Fr & _). split; [exact U|]. split; [exact Fr|exact W].
    - rewrite Ek in Er. injection Er as <-. intros ex Hin r Hr V. apply In_nth_error in Hin as (n & Hnth). apply (Hres r n Hr). exists ex. split; assumption. }
  destruct (combined_poly o L e M w SD k a t tp c cs E Dg ltac:(lia) HI Hn) as ((C & LC & HCv) & HV); [|exact ED|exact HD|exact Ec|].
  { intros ex Hin. destruct (Hc ex Hin) as (U & W & _ & rows & Sel). split; [exact U|]. split; [intros i j R; rewrite Lps; apply (W i j R)|]. exists rows. split; [exact Sel|]. intros r Hr. apply (Sat ex Hin). destruct Sel as (_ & _ & Hrows & _). apply Hrows, Hr. }
  assert (UC : forall ex, In ex (c_exprs c) -> usizes ex) by (intros ex Hin; apply (Hc ex Hin)).
  assert (RO : references_ok (length tp) (c_exprs c)). { intros ex i j Hin R. destruct (Hc ex Hin) as (_ & W & J & _). specialize (W i j R). specialize (J i j R). lia. }
  destruct (extract_spec o L e M w SD k b a tp ldes Hm Hab Nt Htp El) as (ct & Et & ERc & ECc & HT).
  assert (NC : substitute_claim o [] E = Some E). { apply no_claims_sub, (combine_no_claims o c cs E Ec). intros ex Hin. destruct (Hc ex Hin) as (_ & _ & _ & rows & Fr & _). apply frac_no_claims, Fr. }
  assert (UE : usizes E) by apply (combine_usizes o c cs E Ec UC).
  assert (RE : forall i j, refers E i j -> i < length tp) by (intros i j R; destruct (combine_refers o true c cs E i j Ec R) as (ex & H1 & H2); apply (RO ex i j H1 H2)).
  assert (Ev : exists values, coset_values o e ct (2 ^ a) E = Some values).
  { unfold coset_values. rewrite ERc, (s_root _ _ _ _ SD (k + a) ltac:(lia)). cbn [bind].
    destruct (option_all_ok (fun row => eval_expr o (fmul o (egen e) (pow_usize o (w (k + a)) (Z.of_nat row))) (coset_trace ct (2 ^ a) row) E) (fun _ _ => True) (2 ^ (k + a)) 0) as (l & El' & _); [|exists l; exact El'].
    intros row [_ Hrow]. cbn [Nat.add] in Hrow. rewrite (e_pow o L e M w SD) by (pose proof (Nat.pow_le_mono_r 2 (k + a) M); lia). set (x := fmul o (egen e) (fpw o (w (k + a)) row)).
    destruct (HV x) as (v & V).
    - intros r Hr Ex. apply Hg. rewrite <- (w_pow o L e M w SD k a) in Ex by lia. rewrite <- (fpw_mul o L) in Ex. unfold x in Ex. pose proof (f_equal (fun y => fpw o y (2 ^ (k + a))) Ex) as Ex'. cbv beta in Ex'. rewrite (fpw_mul_base o L), <- !(fpw_mul o L) in Ex'.
      rewrite (Nat.mul_comm row), (Nat.mul_comm (2 ^ a * r)), !(fpw_mul o L), (w_one o e M w SD (k + a)) in Ex' by lia. rewrite !(fpw_one o L) in Ex'. rewrite (oods_comm o L) in Ex'. rewrite (oods_one o L) in Ex'. exact Ex'.
    - exists v. split; [|exact I]. apply (eval_value o L _ _ _ _ UE). revert V. apply (value_ext_on o). intros i j R. unfold coset_trace, poly_trace. rewrite ERc. pose proof (pow2_pos (k + a)). symmetry. rewrite HT; [|apply Nat2Z.inj_lt; rewrite Z2Nat.id; apply Z.mod_pos_bound; lia|apply (RE i j R)]. f_equal. f_equal.
      rewrite (coset_index o L e M w SD k a row j ltac:(lia)). unfold x. apply (oods_assoc o L). }
  destruct Ev as (values & Ev).
  destruct (C54_consistency F o L e M w SD dbg k b a tp ldes ct c [] cs E E c args values C Hm Hab Nt Htp RO UC El Et Ec NC eq_refl Ea Ev LC HCv) as (H & EH & LH & FH & HH).
  exists ct, values, H. split; [exact Et|]. split; [exact Ev|]. split; [exact EH|]. split; [exact LH|]. split; [exact FH|]. intros z Hz. destruct (HH z) as (tv & Etv & Hv). destruct (HV z Hz) as (v & V). destruct (Hv v V) as [H1 H2]. exists tv, v. split; [exact Etv|]. split; assumption.
Qed.
Print Assumptions C54_completeness.

(** Non-vacuity: the cubing trace 2, 8, 27, 89 modulo 97 with its transition constraint, degree 3, evaluated on a coset of
    size 16; both sides of the comparison are
    computed at the point 2; they differ for a wrong last cell. *)
Definition oods_cs := [tiny 3; tiny 11].
Definition oods_c := Constraints 4 1 [ex_constraint tiny_ops w3] 4 0 1 [1].
Definition oods_run (last : Z) : option (Z * Z) :=
  let? t := cubes last in
  let? tp := interpolate tiny_ops tiny_engine t in
  let? ldes := option_all (map (fun p => low_degree_extension tiny_ops tiny_engine p 4) tp) in
  let? ct := extract_trace_coset tiny_ops tiny_engine ldes 16 in
  let? E := combine tiny_ops true oods_c oods_cs in
  let? args := c_trace_arguments oods_c in
  let? values := coset_values tiny_ops tiny_engine ct 4 E in
  let? H := constraint_polynomials tiny_ops tiny_engine values 4 4 in
  let? tv := oods_trace_values tiny_ops tiny_engine tp args (tiny 2) in
  let? v := oods_value_from_trace_values tiny_ops true oods_c [] oods_cs (claimed_trace_map args tv) (tiny 2) in
  Some (fe_val v, fe_val (oods_value_from_constraint_values tiny_ops (oods_constraint_values tiny_ops H (tiny 2)) (tiny 2))).
Example C54_ex : c_degree tiny_ops true oods_c = Some 3%Z /\ c_trace_arguments oods_c = Some [(0, 0%Z); (0, 1%Z)] /\ oods_run 89 = Some (15, 15)%Z /\ oods_run 90 = Some (37, 47)%Z /\
  (forall tp, selects tiny_ops (fe_w tiny_good 2) 2 tp (ex_constraint tiny_ops w3) [0; 1; 2; 3]) /\ fe_val (fpw tiny_ops (egen tiny_engine) 16) <> 1%Z /\
  match combine tiny_ops true oods_c oods_cs with Some _ => True | None => False end.
Proof.
  split; [vm_compute; reflexivity|]. split; [reflexivity|]. split; [vm_compute; reflexivity|]. split; [vm_compute; reflexivity|]. split; [|split; [vm_compute; discriminate|vm_compute; exact I]].
  intros tp. apply (proj1 (C54_selects _ tiny_ops tiny_lawful tiny_engine 5 (fe_w tiny_good) tiny_sound 2 tp (ex_constraint tiny_ops w3) (EConst (f1 tiny_ops)) (f1 tiny_ops) 0 ltac:(lia) ltac:(repeat constructor) (or_introl eq_refl)) 2); [lia|cbn; lia|reflexivity|reflexivity].
Qed.
