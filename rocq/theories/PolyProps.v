(** C42: dense polynomials. *)
Require Import ZArith Lia Bool List.
From Verif Require Import Word KnuthModel FieldSig FieldInstance FieldAlgModel Arr FftModel FftSpec PermuteProofs FftProofs FftProps StarkBase StarkInstance PolyModel.
Import ListNotations.
Open Scope nat_scope.

Section Proofs.
Context {F : Type} (o : ops F) (L : lawful o).
Add Field Ffield : (law_field o L).
Declare Scope ff3. Delimit Scope ff3 with g.
Notation "0" := (f0 o) : ff3. Notation "1" := (f1 o) : ff3. Notation "x + y" := (fadd o x y) : ff3. Notation "x - y" := (fsub o x y) : ff3.
Notation "x * y" := (fmul o x y) : ff3. Notation "x ^ n" := (fpw o x n) : ff3.
Lemma evaluate_spec p x : evaluate o p x = peval o p x.
Proof.
  induction p as [|c p IH]; [reflexivity|]. rewrite (peval_cons o L), <- IH. unfold evaluate. cbn [rev]. rewrite fold_left_app. cbn [fold_left]. ring.
Qed.
Lemma degree_loop_spec p d : degree_loop o p d <= d /\ (forall i, degree_loop o p d < i <= d -> nth i p (f0 o) = f0 o) /\ (nth (degree_loop o p d) p (f0 o) = f0 o -> degree_loop o p d = 0).
Proof.
  induction d as [|d (H1 & H2 & H3)]; [cbn; split; [lia|]; split; [intros i Hi; lia|reflexivity]|]. cbn [degree_loop]. destruct (feqb_spec o L (nth (S d) p (f0 o)) (f0 o)) as [E|N].
  - split; [lia|]. split; [|exact H3]. intros i Hi. destruct (Nat.eq_dec i (S d)) as [->|]; [exact E|apply H2; lia].
  - split; [lia|]. split; [intros i Hi; lia|]. intros E. contradiction.
Qed.
(** The quotients produced by the division loop, in the order of the loop (highest first). *)
Fixpoint quotients (z r : F) (l : list F) : list F := match l with [] => [] | a :: l => r :: quotients z (r * z + a)%g l end.
Lemma quotients_length z l : forall r, length (quotients z r l) = length l.
Proof. induction l as [|a l IH]; intros r; cbn; [reflexivity|]. rewrite IH. reflexivity. Qed.
Lemma divide_loop_spec z c : forall l t r, length l = length t -> divide_loop o z c r l t = map (fun p => (fst p + c * snd p)%g) (combine t (quotients z r l)).
Proof. induction l as [|a l IH]; intros [|b t] r E; cbn in *; try reflexivity; try discriminate. rewrite IH by lia. reflexivity. Qed.
(** Horner on a reversed list, starting from [r]. *)
Definition horner (x r : F) (l : list F) : F := fold_left (fun acc a => (acc * x + a)%g) l r.
Lemma horner_spec x l : forall r, horner x r l = (r * x ^ length l + peval o (rev l) x)%g.
Proof.
  induction l as [|a l IH]; intros r; [unfold horner; cbn [fold_left rev length fpw]; rewrite peval_nil; ring|]. cbn [horner fold_left]. change (horner x (r * x + a)%g l = (r * x ^ length (a :: l) + peval o (rev (a :: l)) x)%g). rewrite IH. cbn [rev length fpw].
  rewrite (peval_app o L), rev_length, (peval_cons o L), peval_nil. ring.
Qed.
Lemma quotients_spec z X : forall l r, ((X - z) * peval o (rev (quotients z r l)) X = r * X ^ length l + peval o (rev l) X - horner z r l)%g.
Proof.
  induction l as [|a l IH]; intros r.
  - unfold horner. cbn [quotients fold_left rev length fpw]. rewrite !peval_nil. ring.
  - cbn [quotients rev length fpw]. rewrite !(peval_app o L), !(peval_cons o L), !peval_nil, !rev_length, quotients_length. specialize (IH (r * z + a)%g).
    change (horner z r (a :: l)) with (horner z (r * z + a)%g l).
    transitivity ((X - z) * peval o (rev (quotients z (r * z + a) l)) X + X ^ length l * (X - z) * r)%g; [ring|]. rewrite IH. ring.
Qed.
Lemma quotients_0 z p X : ((X - z) * peval o (rev (quotients z 0 (rev p))) X = peval o p X - peval o p z)%g.
Proof. rewrite quotients_spec, horner_spec, rev_involutive. ring. Qed.
End Proofs.
Lemma combine_snoc {A C} (a : list A) (b : list C) x y : length a = length b -> combine (a ++ [x]) (b ++ [y]) = combine a b ++ [(x, y)].
Proof. revert b. induction a as [|u a IH]; intros [|v b] E; cbn in *; try discriminate; [reflexivity|]. rewrite IH by lia. reflexivity. Qed.

Theorem C42_evaluate : forall F (o : ops F), lawful o -> forall p x,
  evaluate o p x = fsum o (map (fun i => fmul o (nth i p (f0 o)) (fpw o x i)) (seq 0 (length p))).
Proof. intros F o L p x. apply (evaluate_spec o L). Qed.
Print Assumptions C42_evaluate.

(** The degree is the largest index of a non-zero coefficient; 0 if there is none. *)
Theorem C42_degree : forall F (o : ops F), lawful o -> forall p, p <> [] ->
  exists d, poly_degree o p = Some d /\ d < length p /\ (forall i, d < i -> nth i p (f0 o) = f0 o) /\ (d <> 0 -> nth d p (f0 o) <> f0 o).
Proof.
  intros F o L p N. unfold poly_degree. destruct (length p) as [|n] eqn:E; [destruct p; [contradiction|discriminate E]|]. exists (degree_loop o p n).
  destruct (degree_loop_spec o L p n) as (H1 & H2 & H3). split; [reflexivity|]. split; [lia|]. split; [|intros Nz Z; apply Nz, H3, Z].
  intros i Hi. destruct (Nat.le_gt_cases i n); [apply H2; lia|]. apply nth_overflow. lia.
Qed.
Print Assumptions C42_degree.

(** divide_out_point_into(z, c, target) adds to the target c times a polynomial q of smaller degree
    with (X - z) q(X) = P(X) - P(z). *)
Theorem C42_divide : forall F (o : ops F), lawful o -> forall p z c target, length target = length p ->
  exists q, length q = length p /\ (forall i, length p <= i + 1 -> nth i q (f0 o) = f0 o) /\
  divide_out_point_into o p z c target = map (fun tq => fadd o (fst tq) (fmul o c (snd tq))) (combine target q) /\
  forall X, fmul o (fsub o X z) (peval o q X) = fsub o (peval o p X) (peval o p z).
Proof.
  intros F o L p z c target E. exists (rev (quotients o z (f0 o) (rev p))). split; [rewrite rev_length, quotients_length, rev_length; reflexivity|]. split; [|split].
  - intros i Hi. destruct (rev p) as [|a l] eqn:R.
    + cbn. destruct i; reflexivity.
    + cbn [quotients rev]. assert (Ll : length p = S (length l)) by (rewrite <- (rev_length p), R; reflexivity).
      destruct (Nat.eq_dec i (length l)) as [->|].
      * rewrite app_nth2; rewrite rev_length, quotients_length; [|lia]. rewrite Nat.sub_diag. reflexivity.
      * apply nth_overflow. rewrite app_length, rev_length, quotients_length. cbn. lia.
  - unfold divide_out_point_into. rewrite (divide_loop_spec o) by (rewrite !rev_length; congruence). rewrite <- map_rev. f_equal.
    set (qs := quotients o z (f0 o) (rev p)). assert (Lq : length qs = length target) by (unfold qs; rewrite quotients_length, rev_length; congruence). clearbody qs. clear E.
    rewrite <- (rev_involutive qs) at 1. rewrite <- (rev_length qs) in Lq. generalize dependent (rev qs). clear qs. intros qs Lq.
    revert qs Lq. induction target as [|t target IH]; intros [|q qs] Lq; cbn in *; try reflexivity; try discriminate.
    rewrite combine_snoc by (rewrite !rev_length; lia). rewrite rev_app_distr. cbn [combine rev app]. f_equal. apply IH. lia.
  - intros X. apply (quotients_0 o L).
Qed.
Print Assumptions C42_divide.

(** ** Low degree extension *)
Lemma for_each_collect {A} (f : nat -> option (list A)) (g : nat -> list A) : forall n a acc, (forall i, a <= i < a + n -> f i = Some (g i)) ->
  for_each (seq a n) (fun acc i => let? v := f i in Some (acc ++ v)) acc = Some (acc ++ concat (map g (seq a n))).
Proof.
  induction n as [|n IH]; intros a acc H; [cbn; rewrite app_nil_r; reflexivity|]. cbn [seq for_each map concat]. rewrite H by lia. cbn [bind]. rewrite IH by (intros i Hi; apply H; lia). rewrite app_assoc. reflexivity.
Qed.
Lemma concat_length {A} (g : nat -> list A) len : forall n a, (forall i, a <= i < a + n -> length (g i) = len) -> length (concat (map g (seq a n))) = n * len.
Proof. induction n as [|n IH]; intros a H; [reflexivity|]. cbn [seq map concat]. rewrite app_length, H, IH by (try lia; intros i Hi; apply H; lia). reflexivity. Qed.
Lemma concat_nth {A} (g : nat -> list A) len d : forall n a i j, (forall i, a <= i < a + n -> length (g i) = len) -> i < n -> j < len ->
  nth (i * len + j) (concat (map g (seq a n))) d = nth j (g (a + i)) d.
Proof.
  induction n as [|n IH]; intros a i j H Hi Hj; [lia|]. cbn [seq map concat]. assert (La : length (g a) = len) by (apply H; lia). destruct i as [|i].
  - rewrite app_nth1 by lia. cbn. rewrite Nat.add_0_r. reflexivity.
  - rewrite app_nth2 by (cbn; lia). rewrite La. replace (S i * len + j - len) with (i * len + j) by (cbn; lia). rewrite IH; [f_equal; f_equal; lia|intros k Hk; apply H; lia|lia|lia].
Qed.
Section Lde.
Context {F : Type} (o : ops F) (L : lawful o).
Add Field Ffield3 : (law_field o L).
Declare Scope ff4. Delimit Scope ff4 with g.
Notation "x * y" := (fmul o x y) : ff4. Notation "x ^ n" := (fpw o x n) : ff4.
Lemma peval_shift p c x : peval o (clone_shifted_serial o (repeat (f0 o) (length p)) p c) x = peval o p (c * x)%g.
Proof.
  destruct (C56_clone_shifted F o L (repeat (f0 o) (length p)) p c) as [Hl Hn]. rewrite repeat_length in *. unfold peval. rewrite Hl. apply fsum_map_ext. intros i Hi. apply in_seq in Hi.
  rewrite Hn by lia. destruct (Nat.ltb_spec i (length p)); [|lia]. rewrite (fpw_mul_base o L). ring.
Qed.
Lemma eq_dev x : fadd o (fneg o x) (fmul o x (fadd o (f1 o) (fmul o x (f0 o)))) = fadd o (f0 o) (fmul o x (fadd o (f0 o) (fmul o x (f0 o)))).
Proof. ring. Qed.
Context (e : engine F) (M : nat) (w : nat -> F) (SD : sound o e M w).
Lemma lde_spec k b p : k + b <= M -> length p = 2 ^ k -> exists v, low_degree_extension o e p (2 ^ b) = Some v /\ length v = 2 ^ (k + b) /\
  forall m, m < 2 ^ (k + b) -> nth m v (f0 o) = peval o p (egen e * w (k + b)%nat ^ rev_bits (k + b) m)%g.
Proof.
  intros H Lp. pose proof (s_max _ _ _ _ SD) as HM. unfold low_degree_extension. rewrite Lp, <- Nat.pow_add_r, (s_root _ _ _ _ SD (k + b) H). cbn [bind].
  set (cof := fun i => (egen e * w (k + b)%nat ^ rev_bits b i)%g).
  assert (Ex : forall i, exists v, e_fft o e (clone_shifted_serial o (repeat (f0 o) (2 ^ k)) p (cof i)) = Some v /\ length v = 2 ^ k /\
     forall j, j < 2 ^ k -> nth j v (f0 o) = peval o p (cof i * w k ^ rev_bits k j)%g).
  { intros i. destruct (C56_clone_shifted F o L (repeat (f0 o) (2 ^ k)) p (cof i)) as [Hl _]. rewrite repeat_length in Hl.
    destruct (e_fft_spec o L e M w SD k _ ltac:(lia) Hl) as (v & E & Lv & Hv). exists v. split; [exact E|]. split; [exact Lv|]. intros j Hj. rewrite Hv by exact Hj. rewrite <- Lp at 1. apply peval_shift. }
  set (f := fun i => e_fft o e (clone_shifted_serial o (repeat (f0 o) (2 ^ k)) p (cof i))). set (g := fun i => match f i with Some v => v | None => [] end).
  assert (Fg : forall i, f i = Some (g i)) by (intros i; unfold g, f; destruct (Ex i) as (v & -> & _); reflexivity).
  assert (Lg : forall i, length (g i) = 2 ^ k) by (intros i; unfold g, f; destruct (Ex i) as (v & -> & Lv & _); exact Lv).
  assert (Ng : forall i j, j < 2 ^ k -> nth j (g i) (f0 o) = peval o p (cof i * w k ^ rev_bits k j)%g) by (intros i; unfold g, f; destruct (Ex i) as (v & -> & _ & Hv); exact Hv).
  rewrite (for_each_ext _ _ (fun acc i => let? v := f i in Some (acc ++ v))).
  2:{ intros acc i Hi. apply in_seq in Hi. rewrite permute_index_spec by lia. cbn [bind]. unfold f, cof. rewrite (e_pow o L e M w SD); [reflexivity|].
      pose proof (rev_lt b i). assert (2 ^ b <= 2 ^ M) by (apply Nat.pow_le_mono_r; lia). lia. }
  rewrite (for_each_collect f g) by (intros i _; apply Fg). cbn [bind app]. eexists. split; [reflexivity|]. split.
  - rewrite (concat_length g (2 ^ k)) by (intros i _; apply Lg). rewrite <- Nat.pow_add_r. f_equal. lia.
  - intros m Hm. pose proof (pow2_pos k). set (i := m / 2 ^ k). set (j := m mod 2 ^ k).
    assert (Em : m = i * 2 ^ k + j) by (unfold i, j; pose proof (Nat.div_mod m (2 ^ k)); lia). assert (Hj : j < 2 ^ k) by (apply Nat.mod_upper_bound; lia).
    assert (Hi : i < 2 ^ b) by (apply Nat.div_lt_upper_bound; [lia|rewrite <- Nat.pow_add_r; exact Hm]). clearbody i j. subst m.
    rewrite (concat_nth g (2 ^ k)) by (try assumption; intros; apply Lg). cbn [Nat.add]. rewrite Ng by exact Hj. rewrite (rev_split b k i j) by exact Hj.
    unfold cof. f_equal. rewrite (fpw_add o L), Nat.mul_comm, (fpw_mul o L), (w_pow o L e M w SD k b) by lia. ring.
Qed.
End Lde.
(** The extension by [2^b] of a polynomial with [2^k] coefficients lists its values at
    generator * w^i, for w the root of unity of order 2^(k+b), in bit-reversed order. *)
Theorem C42_lde : forall F (o : ops F), lawful o -> forall e M w, sound o e M w -> forall k b p, k + b <= M -> length p = 2 ^ k ->
  exists v, low_degree_extension o e p (2 ^ b) = Some v /\ length v = 2 ^ (k + b) /\
  forall i j, i < 2 ^ (k + b) -> permute_index (edbg e) (2 ^ (k + b)) i = Some j ->
    nth j v (f0 o) = evaluate o p (fmul o (egen e) (fpw o (w (k + b)) i)).
Proof.
  intros F o L e M w SD k b p H Lp. destruct (lde_spec o L e M w SD k b p H Lp) as (v & E & Lv & Hv). exists v. split; [exact E|]. split; [exact Lv|]. intros i j Hi Hj.
  pose proof (s_max _ _ _ _ SD). rewrite permute_index_spec in Hj by lia. injection Hj as <-. rewrite Hv by apply rev_lt. rewrite rev_rev by exact Hi. rewrite (evaluate_spec o L). reflexivity.
Qed.
Print Assumptions C42_lde.

(** Deviation: equality of polynomials is equality of their values at one constant. *)
Theorem C42_eq_deviation : forall F (o : ops F), lawful o -> forall x p q,
  (poly_eqb o x p q = true <-> peval o p x = peval o q x) /\ poly_eqb o x [fneg o x; f1 o] [f0 o; f0 o] = true /\ [fneg o x; f1 o] <> [f0 o; f0 o].
Proof.
  intros F o L x p q. assert (G : forall p q, poly_eqb o x p q = true <-> peval o p x = peval o q x) by (intros p0 q0; unfold poly_eqb; rewrite !(evaluate_spec o L); apply (law_eqb o L)).
  split; [apply G|]. split.
  - apply G. rewrite !(peval_cons o L), !peval_nil. apply (eq_dev o L).
  - intros E. injection E as _ E. exact (f_1_neq_0 o L E).
Qed.
Print Assumptions C42_eq_deviation.
(** Only powers of two coefficients can be used, so a polynomial is never empty. *)
Theorem C42_new : forall F (o : ops F) (l : list F) n, (poly_new l = Some l <-> exists k, length l = 2 ^ k) /\ (poly_new l = None <-> forall k, length l <> 2 ^ k) /\
  (poly_zeros o n = if is_power_of_two n then Some (repeat (f0 o) n) else None).
Proof.
  intros F o l n. unfold poly_new, poly_zeros. split; [|split; [|reflexivity]].
  - destruct (is_power_of_two (length l)) eqn:E; split; try discriminate; try reflexivity.
    + intros _. eexists. exact (is_pow2_inv _ E).
    + intros [k Ek]. rewrite Ek, is_pow2 in E. discriminate E.
  - destruct (is_power_of_two (length l)) eqn:E; split; try discriminate; try reflexivity.
    + intros H. exfalso. exact (H _ (is_pow2_inv _ E)).
    + intros _ k Ek. rewrite Ek, is_pow2 in E. discriminate E.
Qed.
Print Assumptions C42_new.
Example C42_ex : sound tiny_ops tiny_engine 5 (fe_w tiny_good) /\ sound felt_ops felt_engine 63 (fe_w proth_good) /\
  option_map (map fe_val) (low_degree_extension tiny_ops tiny_engine [tiny 1; tiny 2] 4) = Some [11%Z; 88%Z; 27%Z; 72%Z; 59%Z; 40%Z; 16%Z; 83%Z] /\
  map fe_val (divide_out_point_into tiny_ops [tiny 3; tiny 1; tiny 4; tiny 1] (tiny 2) (tiny 1) [tiny 0; tiny 0; tiny 0; tiny 0]) = [13%Z; 6%Z; 1%Z; 0%Z].
Proof. split; [exact tiny_sound|]. split; [exact felt_sound|]. split; vm_compute; reflexivity. Qed.
