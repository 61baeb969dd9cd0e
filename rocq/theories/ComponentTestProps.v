(** C47: the Test component and its combinations. *)
Require Import Field ZArith NArith Lia Bool List.
From Verif Require Import Word KnuthModel FieldSig FieldInstance FieldAlgModel Arr FftModel FftSpec PermuteProofs StarkBase StarkInstance PolyModel TraceModel TraceProps ExprModel ExprSpec ExprProofs CheckProps OodsProofs ComponentModel ComponentProofs ComponentSubst ComponentSpec ComponentProps ComponentCheckProps.
Import ListNotations.
Open Scope nat_scope.

Section Test.
Context {F : Type} (o : ops F) (L : lawful o) (e : engine F) (M : nat) (w : nat -> F) (SD : sound o e M w).
Add Field Ffield : (law_field o L).
(** The sequence x0, x1, x0 x1 + c, ... *)
Fixpoint sequence (c x0 x1 : F) (n : nat) : F := match n with O => x0 | S n => sequence c x1 (fadd o (fmul o x0 x1) c) n end.
Lemma sequence_step c n : forall x0 x1, sequence c x0 x1 (S (S n)) = fadd o (fmul o (sequence c x0 x1 n) (sequence c x0 x1 (S n))) c.
Proof. induction n as [|n IH]; intros x0 x1; [reflexivity|]. cbn [sequence]. apply IH. Qed.
Lemma test_apply columns rows c : 0 < columns -> forall n i x0 x1 t, i + n <= rows * columns -> dims t rows columns ->
  exists t', apply_writes t (test_writes o columns i n c x0 x1) = Some t' /\ dims t' rows columns /\
  (forall r col, col < columns -> r * columns + col < i -> t_get t' r col = t_get t r col) /\
  (forall r col, col < columns -> i <= r * columns + col < i + n -> t_get t' r col = Some (sequence c x0 x1 (r * columns + col - i))).
Proof.
  intros Hc. induction n as [|n IH]; intros i x0 x1 t Hi D.
  - exists t. split; [reflexivity|]. split; [exact D|]. split; [auto|]. intros. lia.
  - cbn [test_writes]. pose proof (Nat.div_mod i columns ltac:(lia)) as DM. pose proof (Nat.mod_upper_bound i columns ltac:(lia)) as UB. assert (Hq : i / columns < rows) by (apply Nat.div_lt_upper_bound; lia).
    destruct (set_some o t rows columns (i / columns) (i mod columns) x0 D Hq UB) as (t1 & E1). destruct (set_in o _ _ _ _ _ _ _ D E1) as (_ & _ & D1 & G1 & G2).
    destruct (IH (S i) x1 (fadd o (fmul o x0 x1) c) t1 ltac:(lia) D1) as (t' & E & D' & K1 & K2). exists t'. split; [cbn [apply_writes for_each]; rewrite E1; exact E|]. split; [exact D'|].
    assert (J : forall r col, col < columns -> r * columns + col = i -> r = i / columns /\ col = i mod columns).
    { intros r col Hcol Q. apply (cell_inj columns); [exact Hcol|exact UB|]. lia. }
    split.
    + intros r col Hcol Hr. rewrite K1 by lia. apply G2. intros Q. injection Q as -> ->. lia.
    + intros r col Hcol Hr. destruct (Nat.eq_dec (r * columns + col) i) as [Q|Q].
      * rewrite K1 by lia. destruct (J r col Hcol Q) as [-> ->]. replace (i / columns * columns + i mod columns - i) with 0 by lia. exact G1.
      * rewrite K2 by lia. f_equal. replace (r * columns + col - i) with (S (r * columns + col - S i)) by lia. reflexivity.
Qed.
Lemma test_trace dbg k columns seed claim wit : exists t, trace_table o (k_test o e dbg (2 ^ k) columns seed) (claim, wit) = Some t /\ dims t (2 ^ k) columns /\
  forall r col, r < 2 ^ k -> col < columns -> t_get t r col = Some (sequence claim seed wit (r * columns + col)).
Proof.
  unfold trace_table. cbn [k_test k_size k_trace k_polynomials bind fst snd]. rewrite !dassert_ok by apply Nat.eqb_refl. cbn [bind].
  destruct (Nat.eq_dec columns 0) as [->|N].
  - rewrite Nat.mul_0_r. exists (t_new o (2 ^ k) 0). split; [reflexivity|]. split; [apply dims_new|]. intros. lia.
  - destruct (test_apply columns (2 ^ k) claim ltac:(lia) (2 ^ k * columns) 0 seed wit (t_new o (2 ^ k) columns) ltac:(lia) (dims_new o _ _)) as (t & E & D & _ & K). exists t. split; [exact E|]. split; [exact D|].
    intros r col Hr Hcol. rewrite K; [f_equal; f_equal; lia|exact Hcol|]. split; [lia|]. apply cell_lt; assumption.
Qed.
(** Values *)
Lemma val_sub x T a b u v : value o x T a u -> value o x T b v -> value o x T (e_sub a b) (fsub o u v).
Proof. intros. replace (fsub o u v) with (fadd o u (fneg o v)) by ring. constructor; [assumption|constructor; assumption]. Qed.
Lemma val_sub_inv x T a b u : value o x T (e_sub a b) u -> exists p q, value o x T a p /\ value o x T b q /\ u = fsub o p q.
Proof. intros V. inversion V as [| | | |a' b' p q Va Vb| | | |]; subst. inversion Vb as [| | | | |b' q' Vb'| | |]; subst. exists p, q'. split; [assumption|]. split; [assumption|ring]. Qed.
Lemma val_exp0 x T om : value o x T (EExp (EConst om) 0) (f1 o).
Proof. replace (f1 o) with (fexp o om (Z.to_N 0)) by reflexivity. constructor. constructor. Qed.
Lemma val_exp1 x T om : value o x T (EExp (EConst om) 1) om.
Proof. assert (E : fexp o om (Z.to_N 1) = om) by (change (Z.to_N 1) with (N.of_nat 1); rewrite (fexp_nat o); apply (fpw_1 o L)). rewrite <- E at 2. constructor. constructor. Qed.
Lemma val_fun x T a u v : usizes a -> value o x T a u -> value o x T a v -> u = v.
Proof. intros U A B. apply (eval_value o L) in A, B; [congruence|exact U|exact U]. Qed.
Lemma sub_0 a b : fsub o a b = f0 o -> a = b. Proof. apply (fsub_0_iff o L). Qed.
Lemma first_den om x T : value o x T (e_sub EX (EExp (EConst om) 0)) (f0 o) <-> x = f1 o.
Proof.
  split.
  - intros V. apply val_sub_inv in V as (p & q & Vp & Vq & E). assert (Hp : p = x) by (inversion Vp; reflexivity). rewrite Hp in E. clear p Vp Hp. assert (q = f1 o) by (apply (val_fun x T (EExp (EConst om) 0)); [cbn; lia|exact Vq|apply val_exp0]). subst. symmetry in E. apply sub_0 in E. exact E.
  - intros ->. replace (f0 o) with (fsub o (f1 o) (f1 o)) by ring. apply val_sub; [constructor|apply val_exp0].
Qed.
Lemma pow_den n x T : value o x T (e_sub (EExp EX (Z.of_nat n)) (EConst (f1 o))) (f0 o) -> fpw o x n = f1 o.
Proof.
  intros V. apply val_sub_inv in V as (p & q & Vp & Vq & E). assert (Hq : q = f1 o) by (inversion Vq; reflexivity). apply (value_power o) in Vp. rewrite Hq, Vp in E. symmetry in E. apply sub_0 in E. exact E.
Qed.
Lemma row_in (t : table F) k r i j : t_rows t = 2 ^ k -> (0 <= Z.of_nat r + j < Z.of_nat (2 ^ k))%Z -> row_trace t r i j = t_get t (Z.to_nat (Z.of_nat r + j)) i.
Proof. intros R H. rewrite (row_get t (2 ^ k)) by exact R. rewrite Z.mod_small by exact H. reflexivity. Qed.

(** The rows exempted from the i-th recurrence *)
Definition exempt (i columns r : nat) : Prop := r = 0 /\ i <= 1 \/ r = 1 /\ i = 0 /\ columns = 1.
Lemma exempt_zero k i columns r T : 0 < k \/ columns <> 1 -> k <= M -> exempt i columns r -> exists n, In n (numerators (test_exceptions o (w k) i columns)) /\ value o (fpw o (w k) r) T n (f0 o).
Proof.
  intros Hk1 Hk Ex. unfold test_exceptions. destruct (Nat.eqb_spec i 0) as [->|Ni]; [destruct (Nat.eqb_spec columns 1) as [->|Nc]|]; cbn [andb].
  - cbn [numerators]. destruct Ex as [[-> _]|[-> _]].
    + exists (e_sub EX (EExp (EConst (w k)) 0)). split; [left; reflexivity|]. apply first_den. reflexivity.
    + exists (e_sub EX (EExp (EConst (w k)) 1)). split; [right; left; reflexivity|]. rewrite (fpw_1 o L). replace (f0 o) with (fsub o (w k) (w k)) by ring. apply val_sub; [constructor|apply val_exp1].
  - cbn [Nat.leb]. destruct Ex as [[-> _]|[_ [_ C]]]; [|contradiction]. exists (e_sub EX (EExp (EConst (w k)) 0)). split; [left; reflexivity|]. apply first_den. reflexivity.
  - destruct Ex as [[-> Hi]|[_ [C _]]]; [|contradiction]. rewrite (proj2 (Nat.leb_le i 1) Hi). exists (e_sub EX (EExp (EConst (w k)) 0)). split; [left; reflexivity|]. apply first_den. reflexivity.
Qed.
Definition constraints_of (k columns : nat) (seed claim : F) : list (rexpr F) :=
  (if 1 <=? 2 ^ k * columns then [e_div (e_sub (ETrace 0 0) (EConst seed)) (e_sub EX (EExp (EConst (w k)) 0))] else []) ++
  (if 3 <=? 2 ^ k * columns then map (test_constraint o (w k) (2 ^ k) columns claim) (seq 0 columns) else []).
Lemma in_constraints k columns seed claim c : In c (constraints_of k columns seed claim) ->
  (1 <= 2 ^ k * columns /\ c = e_div (e_sub (ETrace 0 0) (EConst seed)) (e_sub EX (EExp (EConst (w k)) 0))) \/
  exists i, i < columns /\ 3 <= 2 ^ k * columns /\ c = test_constraint o (w k) (2 ^ k) columns claim i.
Proof.
  unfold constraints_of. intros H. apply in_app_iff in H as [H|H].
  - left. destruct (Nat.leb_spec 1 (2 ^ k * columns)); [|destruct H]. destruct H as [<-|[]]. auto.
  - right. destruct (Nat.leb_spec 3 (2 ^ k * columns)); [|destruct H]. apply in_map_iff in H as (i & <- & Hi). apply in_seq in Hi. exists i. split; [lia|]. auto.
Qed.
Lemma sources_shape (i columns : nat) : i < columns -> exists a ja b jb, @test_sources F i columns = (ETrace a ja, ETrace b jb) /\ a < columns /\ b < columns /\
  (ja <= 0)%Z /\ (jb <= 0)%Z /\ (columns <> 1 -> (-1 <= ja)%Z /\ (-1 <= jb)%Z) /\ (-2 <= ja)%Z /\ (-2 <= jb)%Z /\
  (forall r, ~ exempt i columns r -> (0 <= Z.of_nat r + ja)%Z /\ (0 <= Z.of_nat r + jb)%Z /\
     Z.to_nat (Z.of_nat r + ja) * columns + a + 2 = r * columns + i /\ Z.to_nat (Z.of_nat r + jb) * columns + b + 1 = r * columns + i).
Proof.
  intros Hi. unfold test_sources, exempt. destruct (Nat.eqb_spec i 0) as [->|Ni]; [destruct (Nat.eqb_spec columns 1) as [->|Nc]|destruct (Nat.eqb_spec i 1) as [->|N1]]; cbn [andb].
  - exists 0, (-2)%Z, 0, (-1)%Z. repeat split; try lia.
  - exists (columns - 2), (-1)%Z, (columns - 1), (-1)%Z. split; [reflexivity|]. split; [lia|]. split; [lia|]. split; [lia|]. split; [lia|]. split; [lia|]. split; [lia|]. split; [lia|]. intros r Hr. assert (1 <= r) by lia. destruct r as [|r]; [lia|].
    replace (Z.to_nat (Z.of_nat (S r) + -1)) with r by lia. rewrite Nat.mul_succ_l. lia.
  - exists (columns - 1), (-1)%Z, 0, 0%Z. split; [reflexivity|]. split; [lia|]. split; [lia|]. split; [lia|]. split; [lia|]. split; [lia|]. split; [lia|]. split; [lia|]. intros r Hr. assert (1 <= r) by lia. destruct r as [|r]; [lia|].
    replace (Z.to_nat (Z.of_nat (S r) + -1)) with r by lia. rewrite Z.add_0_r, Nat2Z.id. rewrite Nat.mul_succ_l. lia.
  - exists (i - 2), 0%Z, (i - 1), 0%Z. split; [reflexivity|]. split; [lia|]. split; [lia|]. split; [lia|]. split; [lia|]. split; [lia|]. split; [lia|]. split; [lia|]. intros r _. rewrite Z.add_0_r, Nat2Z.id. lia.
Qed.
Lemma exceptions_shape om i columns : usizes (test_exceptions o om i columns) /\ Forall division_free (numerators (test_exceptions o om i columns)) /\ denominators (test_exceptions o om i columns) = [] /\ forall a j, ~ refers (test_exceptions o om i columns) a j.
Proof.
  unfold test_exceptions. destruct ((i =? 0) && (columns =? 1)); [|destruct (i <=? 1)]; cbn; repeat split; try lia; try (repeat constructor; fail); intuition.
Qed.
Definition recurrence (a : nat) (ja : Z) (b : nat) (jb : Z) (claim : F) (i : nat) : rexpr F := e_sub (e_sub (ETrace i 0) (EMul (ETrace a ja) (ETrace b jb))) (EConst claim).
Lemma constraint_parts om rows columns claim i a ja b jb : @test_sources F i columns = (ETrace a ja, ETrace b jb) ->
  let c := test_constraint o om rows columns claim i in
  numerators c = recurrence a ja b jb claim i :: numerators (test_exceptions o om i columns) /\ denominators c = [e_sub (EExp EX (Z.of_nat rows)) (EConst (f1 o))] /\
  (forall i' j', refers c i' j' <-> (i', j') = (i, 0%Z) \/ (i', j') = (a, ja) \/ (i', j') = (b, jb)).
Proof.
  intros E c. unfold c, test_constraint. rewrite E. destruct (exceptions_shape om i columns) as (_ & _ & D & R). unfold e_div. cbn [numerators denominators]. rewrite D. split; [cbn; rewrite app_nil_r; reflexivity|]. split; [reflexivity|].
  intros i' j'. specialize (R i' j'). unfold e_sub. cbn [refers]. split; [|intros [Q|[Q|Q]]; injection Q as -> ->; tauto].
  intros H. decompose [or] H; subst; try contradiction; try (destruct H0; subst); intuition (subst; auto).
Qed.

Lemma get_dim (t : table F) : shaped t -> forall i j, i < t_rows t -> j < t_cols t -> exists v, t_get t i j = Some v /\ True.
Proof. intros Sh i j Hi Hj. eexists. split; [apply (t_get_ok o t i j Sh Hi Hj)|exact I]. Qed.
Lemma not_exempt i columns r : exempt i columns r \/ ~ exempt i columns r.
Proof. unfold exempt. destruct (Nat.eq_dec r 0), (Nat.eq_dec r 1), (le_lt_dec i 1), (Nat.eq_dec i 0), (Nat.eq_dec columns 1); subst; try lia; (right; lia) || (left; lia). Qed.
Lemma selected_pow k x T : k <= M -> (exists r, r < 2 ^ k /\ x = fpw o (w k) r) -> value o x T (e_sub (EExp EX (Z.of_nat (2 ^ k))) (EConst (f1 o))) (f0 o).
Proof.
  intros Hk (r & Hr & ->). replace (f0 o) with (fsub o (f1 o) (f1 o)) by ring. apply val_sub; [|constructor].
  assert (E : fpw o (fpw o (w k) r) (2 ^ k) = f1 o). { rewrite <- (fpw_mul o L), Nat.mul_comm, (fpw_mul o L), (w_one o e M w SD k Hk). apply (fpw_one o L). }
  apply (value_power o). symmetry. exact E.
Qed.
(** The i-th recurrence in a row which is not exempted *)
Lemma recurrence_value k columns claim i a ja b jb r t : i < columns -> k <= M -> r < 2 ^ k -> dims t (2 ^ k) columns -> @test_sources F i columns = (ETrace a ja, ETrace b jb) -> ~ exempt i columns r ->
  exists u v x y, t_get t r i = Some u /\ row_trace t r a ja = Some x /\ row_trace t r b jb = Some y /\ t_get t (Z.to_nat (Z.of_nat r + ja)) a = Some x /\ t_get t (Z.to_nat (Z.of_nat r + jb)) b = Some y /\
  v = fsub o (fsub o u (fmul o x y)) claim /\ value o (fpw o (w k) r) (row_trace t r) (recurrence a ja b jb claim i) v.
Proof.
  intros Hi Hk Hr (Sh & R & Cc) ES Ne. destruct (sources_shape i columns Hi) as (a' & ja' & b' & jb' & ES' & Ha & Hb & Ja & Jb & _ & _ & _ & P). rewrite ES in ES'. injection ES' as <- <- <- <-. destruct (P r Ne) as (A1 & B1 & A2 & B2).
  destruct (get_dim t Sh r i) as (u & Eu & _); [rewrite R; exact Hr|rewrite Cc; exact Hi|].
  destruct (get_dim t Sh (Z.to_nat (Z.of_nat r + ja)) a) as (x & Ex & _); [rewrite R; lia|rewrite Cc; exact Ha|].
  destruct (get_dim t Sh (Z.to_nat (Z.of_nat r + jb)) b) as (y & Ey & _); [rewrite R; lia|rewrite Cc; exact Hb|].
  assert (E1 : row_trace t r a ja = Some x) by (rewrite (row_in t k) by (auto; lia); exact Ex).
  assert (E2 : row_trace t r b jb = Some y) by (rewrite (row_in t k) by (auto; lia); exact Ey).
  assert (E3 : row_trace t r i 0 = Some u) by (rewrite (row_in t k) by (auto; lia); rewrite Z.add_0_r, Nat2Z.id; exact Eu).
  exists u, (fsub o (fsub o u (fmul o x y)) claim), x, y. repeat (split; [assumption || reflexivity|]).
  unfold recurrence. repeat (apply val_sub || constructor); assumption.
Qed.
Lemma recurrence_usizes a ja b jb claim i : @usizes F (recurrence a ja b jb claim i). Proof. cbn. tauto. Qed.
Lemma first_value k seed t u columns : 0 < columns -> dims t (2 ^ k) columns -> t_get t 0 0 = Some u -> forall x, value o x (row_trace t 0) (e_sub (ETrace 0 0) (EConst seed)) (fsub o u seed).
Proof. intros Hc (Sh & R & Cc) E x. apply val_sub; constructor. rewrite (row_in t k) by (auto; pose proof (pow2_pos k); lia). exact E. Qed.

Lemma test_holds k columns seed claim t : k <= M -> dims t (2 ^ k) columns ->
  (holds o (w k) (2 ^ k) t (constraints_of k columns seed claim) <-> exists wit, forall r col, r < 2 ^ k -> col < columns -> t_get t r col = Some (sequence claim seed wit (r * columns + col))).
Proof.
  intros Hk D. pose proof D as (Sh & R & Cc). pose proof (pow2_pos k) as P2. split.
  - intros H.
    assert (H0 : 0 < columns -> t_get t 0 0 = Some seed).
    { intros Hc. destruct (get_dim t Sh 0 0) as (u & Eu & _); [lia|lia|]. rewrite Eu. f_equal. apply sub_0.
      assert (I : In (e_div (e_sub (ETrace 0 0) (EConst seed)) (e_sub EX (EExp (EConst (w k)) 0))) (constraints_of k columns seed claim)).
      { unfold constraints_of. apply in_app_iff. left. destruct (Nat.leb_spec 1 (2 ^ k * columns)); [left; reflexivity|]. exfalso. assert (2 ^ k * columns = 0) as Z0 by lia. apply Nat.mul_eq_0 in Z0. lia. }
      specialize (H 0 _ P2 I). destruct (feqb o (fsub o u seed) (f0 o)) eqn:Q; [apply (law_eqb o L), Q|]. exfalso. apply H. split.
      - eexists. split; [cbn; left; reflexivity|]. apply first_den. reflexivity.
      - intros n Hn. cbn in Hn. destruct Hn as [<-|[]]. intros V. assert (fsub o u seed = f0 o) as Q'; [|apply (law_eqb o L) in Q'; congruence].
        eapply val_fun; [|apply (first_value k seed t u columns Hc D Eu)|exact V]. cbn. tauto. }
    assert (HR : 3 <= 2 ^ k * columns -> forall i r, i < columns -> r < 2 ^ k -> ~ exempt i columns r -> exists a ja b jb x y, @test_sources F i columns = (ETrace a ja, ETrace b jb) /\
      t_get t (Z.to_nat (Z.of_nat r + ja)) a = Some x /\ t_get t (Z.to_nat (Z.of_nat r + jb)) b = Some y /\ t_get t r i = Some (fadd o (fmul o x y) claim)).
    { intros H3 i r Hi Hr Ne. destruct (sources_shape i columns Hi) as (a & ja & b & jb & ES & _). destruct (recurrence_value k columns claim i a ja b jb r t Hi Hk Hr D ES Ne) as (u & v & x & y & Eu & _ & _ & Ex & Ey & Ev & V).
      exists a, ja, b, jb, x, y. repeat (split; [assumption|]). rewrite Eu. f_equal.
      assert (Hv : v = f0 o); [|rewrite Hv in Ev; symmetry in Ev; apply sub_0 in Ev; rewrite <- Ev; ring].
      assert (I : In (test_constraint o (w k) (2 ^ k) columns claim i) (constraints_of k columns seed claim)).
      { unfold constraints_of. apply in_app_iff. right. rewrite (proj2 (Nat.leb_le 3 _) H3). apply in_map, in_seq. lia. }
      specialize (H r _ Hr I). destruct (constraint_parts (w k) (2 ^ k) columns claim i a ja b jb ES) as (N & Dn & _).
      destruct (feqb o v (f0 o)) eqn:Q; [apply (law_eqb o L), Q|]. exfalso. apply H. split.
      - rewrite Dn. eexists. split; [left; reflexivity|]. apply selected_pow; eauto.
      - rewrite N. intros n [<-|Hn] V0.
        + assert (v = f0 o) as Q'; [|apply (law_eqb o L) in Q'; congruence]. eapply val_fun; [apply recurrence_usizes|exact V|exact V0].
        + unfold test_exceptions in Hn. destruct ((i =? 0) && (columns =? 1)) eqn:B0; [apply andb_true_iff in B0 as [B1 B2]; apply Nat.eqb_eq in B1, B2|destruct (i <=? 1) eqn:B1; [apply Nat.leb_le in B1|]]; cbn [numerators app] in Hn.
          * destruct Hn as [<-|[<-|[]]].
            -- apply first_den in V0. apply Ne. left. split; [|lia]. apply (w_inj o L e M w SD k r 0); auto.
            -- apply val_sub_inv in V0 as (p & q & Vp & Vq & E). assert (Hp : p = fpw o (w k) r) by (inversion Vp; reflexivity). assert (Hq : q = w k) by (eapply val_fun; [|exact Vq|apply val_exp1]; cbn; lia). rewrite Hp, Hq in E. symmetry in E. apply sub_0 in E.
               apply Ne. right. split; [|auto]. assert (1 < 2 ^ k) by nia. apply (w_inj o L e M w SD k r 1); auto. rewrite (fpw_1 o L). exact E.
          * destruct Hn as [<-|[]]. apply first_den in V0. apply Ne. left. split; [|lia]. apply (w_inj o L e M w SD k r 0); auto.
          * destruct Hn as [<-|[]]. assert (E : f1 o = f0 o) by (inversion V0; congruence). exact (f_1_neq_0 o L E). }
    destruct (Nat.eq_dec columns 0) as [->|Nc]; [exists seed; intros; lia|]. specialize (H0 ltac:(lia)).
    assert (S1 : exists wit, 1 < 2 ^ k * columns -> t_get t (1 / columns) (1 mod columns) = Some wit).
    { destruct (le_lt_dec (2 ^ k * columns) 1); [exists seed; intros; lia|]. destruct (get_dim t Sh (1 / columns) (1 mod columns)) as (v & E & _); [rewrite R; apply Nat.div_lt_upper_bound; lia|rewrite Cc; apply Nat.mod_upper_bound; lia|]. exists v. auto. }
    destruct S1 as (wit & S1). exists wit.
    assert (G : forall n r col, r < 2 ^ k -> col < columns -> r * columns + col = n -> t_get t r col = Some (sequence claim seed wit n)).
    { induction n as [n IH] using lt_wf_ind. intros r col Hr Hcol En. assert (Hn : n < 2 ^ k * columns) by (rewrite <- En; apply cell_lt; assumption).
      destruct n as [|[|n]].
      - assert (r = 0 /\ col = 0) as [-> ->]; [|exact H0]. destruct r; [lia|]. cbn in En. lia.
      - assert (r = 1 / columns /\ col = 1 mod columns) as [-> ->]; [|apply S1; lia]. apply (cell_inj columns); [exact Hcol|apply Nat.mod_upper_bound; lia|]. rewrite En. pose proof (Nat.div_mod 1 columns ltac:(lia)). lia.
      - rewrite (sequence_step claim n seed wit). assert (Ne : ~ exempt col columns r). { unfold exempt. intros [[-> ?]|[-> [? ?]]]; lia. }
        destruct (HR ltac:(lia) col r Hcol Hr Ne) as (a & ja & b & jb & x & y & ES & Ex & Ey & ->). destruct (sources_shape col columns Hcol) as (a' & ja' & b' & jb' & ES' & Ha & Hb & Ja & Jb & _ & _ & _ & P). rewrite ES in ES'. injection ES' as <- <- <- <-. destruct (P r Ne) as (A1 & B1 & A2 & B2).
        rewrite (IH n ltac:(lia) _ a) in Ex by lia. rewrite (IH (S n) ltac:(lia) _ b) in Ey by lia. assert (Qx : x = sequence claim seed wit n) by congruence. assert (Qy : y = sequence claim seed wit (S n)) by congruence. rewrite Qx, Qy. reflexivity. }
    intros r col Hr Hcol. apply G; auto.
  - intros (wit & G) r c Hr Hc [Hd Hn]. apply in_constraints in Hc as [[H1 ->]|(i & Hi & H3 & ->)].
    + destruct Hd as (d & Id & Vd). cbn in Id. destruct Id as [<-|[]]. apply first_den in Vd. assert (r = 0) as -> by (apply (w_inj o L e M w SD k r 0); auto). assert (0 < columns) as Hc by (destruct columns; lia).
      apply (Hn (e_sub (ETrace 0 0) (EConst seed))); [cbn; left; reflexivity|]. pose proof (first_value k seed t _ columns Hc D (G 0 0 P2 Hc) (fpw o (w k) 0)) as V. cbn [Nat.mul Nat.add sequence] in V. replace (f0 o) with (fsub o seed seed) by ring. exact V.
    + destruct (sources_shape i columns Hi) as (a & ja & b & jb & ES & Ha & Hb & Ja & Jb & _ & _ & _ & P). destruct (constraint_parts (w k) (2 ^ k) columns claim i a ja b jb ES) as (N & Dn & _). rewrite N in Hn. destruct (not_exempt i columns r) as [Ex|Ne].
      * destruct (exempt_zero k i columns r (row_trace t r) ltac:(destruct k; [right; cbn in H3; lia|left; lia]) Hk Ex) as (n & In_ & V). exact (Hn n (or_intror In_) V).
      * destruct (recurrence_value k columns claim i a ja b jb r t Hi Hk Hr D ES Ne) as (u & v & x & y & Eu & _ & _ & Ex & Ey & Ev & V). destruct (P r Ne) as (A1 & B1 & A2 & B2).
        rewrite G in Eu, Ex, Ey by lia. injection Eu as Eu. injection Ex as Ex. injection Ey as Ey. apply (Hn _ (or_introl eq_refl)). assert (v = f0 o) as <-; [|exact V]. rewrite Ev, <- Eu.
        replace (r * columns + i) with (S (S (Z.to_nat (Z.of_nat r + ja) * columns + a))) by lia. rewrite sequence_step, Ex. replace (S (Z.to_nat (Z.of_nat r + ja) * columns + a)) with (Z.to_nat (Z.of_nat r + jb) * columns + b) by lia. rewrite Ey. ring.
Qed.

Lemma test_fits k columns seed claim c : k <= M -> In c (constraints_of k columns seed claim) ->
  usizes c /\ fraction c /\ (forall i j, refers c i j -> i < columns /\ (- 2 ^ Z.of_nat k <= j)%Z) /\ selects_rows o (2 ^ k) c /\ stays_inside o (w k) (2 ^ k) c.
Proof.
  intros Hk Hc. pose proof (pow2_pos k) as P2. pose proof (s_max o e M w SD) as HM. assert (B64 : (Z.of_nat (2 ^ k) < 2 ^ 64)%Z) by (rewrite pow_Z; apply Z.pow_lt_mono_r; lia). assert (P0 : (1 <= 2 ^ Z.of_nat k)%Z) by (rewrite <- pow_Z; lia).
  apply in_constraints in Hc as [[H1 ->]|(i & Hi & H3 & ->)].
  - assert (Hc : 0 < columns) by (destruct columns; lia). split; [cbn; lia|]. split; [cbn; split; repeat constructor|]. split; [|split].
    + intros i j Rf. cbn in Rf. destruct Rf as [[Rf|[]]|[[]|[]]]; destruct Rf as [-> ->] || injection Rf as -> ->; lia.
    + intros x T d Id V. cbn in Id. destruct Id as [<-|[]]. apply first_den in V. rewrite V. apply (fpw_one o L).
    + intros r Hr. left. intros i j Rf. cbn in Rf. destruct Rf as [[Rf|[]]|[[]|[]]]; destruct Rf as [-> ->] || injection Rf as -> ->; lia.
  - destruct (sources_shape i columns Hi) as (a & ja & b & jb & ES & Ha & Hb & Ja & Jb & J1 & Ja2 & Jb2 & P). destruct (constraint_parts (w k) (2 ^ k) columns claim i a ja b jb ES) as (N & Dn & Rf). destruct (exceptions_shape (w k) i columns) as (Ue & Fe & De & _).
    assert (K2 : columns <> 1 \/ (2 <= 2 ^ Z.of_nat k)%Z). { destruct (Nat.eq_dec columns 1) as [->|]; [right|left; assumption]. rewrite <- pow_Z. lia. }
    split; [|split; [|split; [|split]]].
    + unfold test_constraint. rewrite ES. unfold e_div. cbn [usizes e_sub]. repeat split; auto; try lia.
    + split; [rewrite N; constructor; [cbn; tauto|exact Fe]|rewrite Dn; repeat constructor].
    + intros i' j' R'. apply Rf in R' as [Q|[Q|Q]]; injection Q as -> ->; lia.
    + intros x T d Id V. rewrite Dn in Id. destruct Id as [<-|[]]. apply (pow_den _ x T V).
    + intros r Hr. destruct (not_exempt i columns r) as [Ex|Ne].
      * right. intros T [_ Hn]. rewrite N in Hn. destruct (exempt_zero k i columns r T ltac:(destruct k; [right; cbn in H3; lia|left; lia]) Hk Ex) as (n & In_ & V). exact (Hn n (or_intror In_) V).
      * left. destruct (P r Ne) as (A1 & B1 & _). intros i' j' R'. apply Rf in R' as [Q|[Q|Q]]; injection Q as -> ->; lia.
Qed.
Lemma test_constraints dbg k columns seed claim : k <= M -> k_constraints (k_test o e dbg (2 ^ k) columns seed) claim = Some (constraints_of k columns seed claim).
Proof. intros Hk. cbn [k_test k_constraints]. rewrite (s_root o e M w SD k Hk). reflexivity. Qed.
Lemma test_produces dbg k columns seed claim wit : k <= M -> exists t, produces o (k_test o e dbg (2 ^ k) columns seed) (claim, wit) k t (constraints_of k columns seed claim) /\
  holds o (w k) (2 ^ k) t (constraints_of k columns seed claim) /\ forall r col, r < 2 ^ k -> col < columns -> t_get t r col = Some (sequence claim seed wit (r * columns + col)).
Proof.
  intros Hk. destruct (test_trace dbg k columns seed claim wit) as (t & E & D & G). exists t. split; [|split; [apply (test_holds k columns seed claim t Hk D); exists wit; exact G|exact G]].
  split; [reflexivity|]. split; [exact E|]. split; [apply (test_constraints dbg k columns seed claim Hk)|]. intros c Hc. destruct (test_fits k columns seed claim c Hk Hc) as (A & B & C & _). auto.
Qed.
End Test.

(** The Test component's table is its sequence, row by row; its own check always succeeds; and its constraints fit
    all combinators. *)
Theorem C47_test : forall F (o : ops F), lawful o -> forall e M w, sound o e M w -> forall dbg k columns seed claim wit, k <= M -> k < 63 ->
  exists t cs, produces o (k_test o e dbg (2 ^ k) columns seed) (claim, wit) k t cs /\
  (forall r col, r < 2 ^ k -> col < columns -> t_get t r col = Some (sequence o claim seed wit (r * columns + col))) /\
  (forall c, In c cs -> selects_rows o (2 ^ k) c /\ stays_inside o (w k) (2 ^ k) c) /\
  k_check o e (k_test o e dbg (2 ^ k) columns seed) (claim, wit) = Some None.
Proof.
  intros F o L e M w SD dbg k columns seed claim wit Hk H63. destruct (test_produces o L e M w SD dbg k columns seed claim wit Hk) as (t & P & H & G). exists t, (constraints_of o w k columns seed claim). split; [exact P|]. split; [exact G|]. split.
  - intros c Hc. destruct (test_fits o L e M w SD k columns seed claim c Hk Hc) as (_ & _ & _ & A & B). auto.
  - destruct (check_holds o L e M w SD _ _ _ _ _ Hk H63 P) as (r & -> & Hr). f_equal. apply Hr, H.
Qed.
Print Assumptions C47_test.

(** The constraints of the Test component admit nothing else: a table of its shape satisfies them exactly if it
    is the sequence for some witness. *)
Theorem C47_test_only : forall F (o : ops F), lawful o -> forall e M w, sound o e M w -> forall dbg k columns seed claim cs t, k <= M ->
  k_constraints (k_test o e dbg (2 ^ k) columns seed) claim = Some cs -> shaped t -> t_rows t = 2 ^ k -> t_cols t = columns ->
  (holds o (w k) (2 ^ k) t cs <-> exists wit, forall r col, r < 2 ^ k -> col < columns -> t_get t r col = Some (sequence o claim seed wit (r * columns + col))).
Proof.
  intros F o L e M w SD dbg k columns seed claim cs t Hk E Sh R Cc. rewrite (test_constraints o e M w SD dbg k columns seed claim Hk) in E. injection E as <-. apply (test_holds o L e M w SD k columns seed claim t Hk). split; auto.
Qed.
Print Assumptions C47_test_only.

(** Combinations of Test components check: side by side, folded, and one below the other with a common claim. *)
Theorem C47_test_combined : forall F (o : ops F), lawful o -> forall e M w, sound o e M w -> forall dbg k columns seed, 
  (forall columns' seed' claim wit claim' wit', k <= M -> k < 63 -> k_check o e (k_horizontal dbg (k_test o e dbg (2 ^ k) columns seed) (k_test o e dbg (2 ^ k) columns' seed')) ((claim, wit), (claim', wit')) = Some None) /\
  (forall folds claim wit, k + folds <= M -> k + folds < 63 -> exists folded, k_fold dbg (k_test o e dbg (2 ^ k) columns seed) folds = Some folded /\ k_check o e folded (claim, wit) = Some None) /\
  (forall m claim wits, k + m <= M -> k + m < 63 -> length wits = 2 ^ m -> exists vertical, k_vertical dbg (k_test o e dbg (2 ^ k) columns seed) (2 ^ m) = Some vertical /\ k_check o e vertical (map (fun wit => (claim, wit)) wits) = Some None).
Proof.
  intros F o L e M w SD dbg k columns seed. split; [|split].
  - intros columns' seed' claim wit claim' wit' Hk H63. destruct (C47_test F o L e M w SD dbg k columns seed claim wit Hk H63) as (t & cs & P & _ & _ & K). destruct (C47_test F o L e M w SD dbg k columns' seed' claim' wit' Hk H63) as (t' & cs' & P' & _ & _ & K').
    apply (C47_horizontal F o L e M w SD dbg _ _ _ _ _ _ _ _ k t t' cs cs' Hk H63 P P'). split; assumption.
  - intros folds claim wit Hk H63. assert (Hf : folds < 64) by lia. destruct (C47_test F o L e M w SD dbg k columns seed claim wit ltac:(lia) ltac:(lia)) as (t & cs & P & _ & S & K).
    destruct (k_fold dbg (k_test o e dbg (2 ^ k) columns seed) folds) as [folded|] eqn:E.
    + exists folded. split; [reflexivity|]. apply (C47_fold F o L e M w SD dbg _ _ _ folds folded (claim, wit) k t cs Hf Hk H63 E P); [|exact K]. intros c Hc. apply S, Hc.
    + exfalso. unfold k_fold, reduction in E. rewrite (proj2 (Nat.ltb_lt folds 64) Hf) in E. discriminate.
  - intros m claim wits Hk H63 Hl. destruct (k_vertical dbg (k_test o e dbg (2 ^ k) columns seed) (2 ^ m)) as [vertical|] eqn:E; [|exfalso; unfold k_vertical in E; rewrite is_pow2 in E; discriminate].
    exists vertical. split; [reflexivity|]. apply (C47_vertical F o L e M w SD dbg _ _ _ vertical m _ k (constraints_of o w k columns seed claim) Hk H63 E).
    + rewrite map_length. exact Hl.
    + intros wit Hw. apply in_map_iff in Hw as (x & <- & _). destruct (test_produces o L e M w SD dbg k columns seed claim x ltac:(lia)) as (t & P & _). exists t. exact P.
    + intros c Hc. apply (test_fits o L e M w SD k columns seed claim c ltac:(lia) Hc).
    + intros wit Hw. apply in_map_iff in Hw as (x & <- & _). destruct (C47_test F o L e M w SD dbg k columns seed claim x ltac:(lia) ltac:(lia)) as (t & cs & _ & _ & _ & K). exact K.
Qed.
Print Assumptions C47_test_combined.

(** Four Test components of 2 rows and 3 columns, in the field of 97 elements: the sequence is as computed by hand,
    and the vertical combination checks. *)
Example C47_test_ex : map (fun n => fe_val (sequence tiny_ops (tiny 3) (tiny 2) (tiny 5) n)) (seq 0 5) = [2; 5; 13; 68; 14]%Z.
Proof. vm_compute. reflexivity. Qed.
Example C47_test_combined_ex : exists vertical, k_vertical true (k_test tiny_ops tiny_engine true (2 ^ 1) 3 (tiny 2)) (2 ^ 2) = Some vertical /\
  k_check tiny_ops tiny_engine vertical (map (fun wit => (tiny 3, wit)) [tiny 5; tiny 6; tiny 7; tiny 8]) = Some None.
Proof. apply (C47_test_combined _ tiny_ops (fe_lawful tiny_good) tiny_engine 5 _ tiny_sound true 1 3 (tiny 2)); [lia|lia|reflexivity]. Qed.
