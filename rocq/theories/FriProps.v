(** C44: FRI folding. *)
Require Import Field ZArith Lia Bool List.
From Verif Require Import Word KnuthModel FieldSig FieldAlgModel FieldAlgProofs FieldInstance FieldProps Arr FftSpec FftModel PermuteProofs FftProofs FftProps StarkBase StarkInstance PolyModel PolyProps FriModel.
Import ListNotations.
Open Scope nat_scope.

(** ** Specification *)
(** The folded polynomial: twice the even part plus [c] times the odd part, each in half the variable. *)
Fixpoint fold_poly {F} (o : ops F) (c : F) (p : list F) : list F :=
  let two := fadd o (f1 o) (f1 o) in
  match p with
  | [] => []
  | [a] => [fmul o two a]
  | a :: b :: p => fmul o two (fadd o a (fmul o c b)) :: fold_poly o c p
  end.
(** [m] folds, with the challenges c, c^2, c^4, ... *)
Fixpoint folds_poly {F} (o : ops F) (m : nat) (c : F) (p : list F) : list F :=
  match m with O => p | S m => folds_poly o m (fmul o c c) (fold_poly o c p) end.
(** The layer [v] holds the values of [p] on the subgroup of order 2^K, in bit-reversed order. *)
Definition layer_of {F} (o : ops F) (w : nat -> F) (K : nat) (p v : list F) : Prop :=
  length v = 2 ^ K /\ forall i, i < 2 ^ K -> nth i v (f0 o) = peval o p (fpw o (w K) (rev_bits K i)).

(** ** Proofs *)
Section Fold.
Context {F : Type} (o : ops F) (L : lawful o).
Add Field Ffield44 : (law_field o L).
Declare Scope ff44. Delimit Scope ff44 with g.
Notation "0" := (f0 o) : ff44. Notation "1" := (f1 o) : ff44. Notation "x + y" := (fadd o x y) : ff44. Notation "x - y" := (fsub o x y) : ff44.
Notation "x * y" := (fmul o x y) : ff44. Notation "x ^ n" := (fpw o x n) : ff44. Notation "- x" := (fneg o x) : ff44.

Lemma fold_poly_length c : forall p n, length p = 2 * n -> length (fold_poly o c p) = n.
Proof.
  intros p n. revert p. induction n as [|n IH]; intros p E; [destruct p; [reflexivity|discriminate E]|].
  destruct p as [|a [|b p]]; cbn [length] in E; try lia. cbn [fold_poly length]. f_equal. apply IH. lia.
Qed.
Lemma list_ind2 (P : list F -> Prop) : P [] -> (forall a, P [a]) -> (forall a b p, P p -> P (a :: b :: p)) -> forall p, P p.
Proof.
  intros H0 H1 H2. assert (G : forall p, P p /\ forall a, P (a :: p)); [|intros p; apply G].
  induction p as [|b p [I1 I2]]; [split; auto|]. split; [apply I2|]. intros a. apply H2, I1.
Qed.
Lemma fold_poly_eval c x : forall p, (x * peval o (fold_poly o c p) (x * x) = x * (peval o p x + peval o p (- x)) + c * (peval o p x - peval o p (- x)))%g.
Proof.
  apply list_ind2; cbn [fold_poly]; intros; rewrite ?(peval_cons o L), ?peval_nil; [ring|ring|].
  match goal with H : fmul _ _ _ = _ |- _ => rename H into IH end.
  set (R := peval o p x) in *. set (R' := peval o p (- x)%g) in *. set (G := peval o (fold_poly o c p) (x * x)%g) in *.
  transitivity (x * ((1 + 1) * (a + c * b)) + x * x * (x * G))%g; [ring|]. rewrite IH. ring.
Qed.
Lemma fold_value c p x : x <> f0 o ->
  ((peval o p x + peval o p (- x)) + c * finv o x * (peval o p x - peval o p (- x)) = peval o (fold_poly o c p) (x * x))%g.
Proof.
  intros N. apply (fmul_cancel_l o L x); [exact N|]. rewrite fold_poly_eval. field. exact N.
Qed.

Lemma fold_pairs_spec c n : forall v t, length v = 2 * n -> n <= length t ->
  length (fold_pairs o c v t) = n /\ forall i, i < n -> nth i (fold_pairs o c v t) (f0 o) =
    ((nth (2 * i) v 0 + nth (2 * i + 1) v 0) + c * nth i t 0 * (nth (2 * i) v 0 - nth (2 * i + 1) v 0))%g.
Proof.
  induction n as [|n IH]; intros v t Lv Lt.
  - destruct v; [|discriminate Lv]. split; [reflexivity|lia].
  - destruct v as [|p0 [|p1 v]]; cbn [length] in Lv; try lia. destruct t as [|x t]; cbn [length] in Lt; [lia|]. cbn [fold_pairs].
    destruct (IH v t ltac:(lia) ltac:(lia)) as [I1 I2]. split; [cbn [length]; lia|]. intros i Hi. destruct i as [|i]; [reflexivity|].
    replace (2 * S i) with (S (S (2 * i))) by lia. cbn [Nat.add nth]. rewrite (Nat.add_comm _ 1). cbn [Nat.add nth].
    rewrite I2 by lia. rewrite (Nat.add_comm (2 * i) 1). reflexivity.
Qed.
Fixpoint pfolds (m : nat) (c : F) (t v : list F) : list F := match m with O => v | S m => pfolds m (fmul o c c) t (fold_pairs o c v t) end.
Lemma fold_layer_pfolds m c t v : 1 <= m <= 4 -> fold_layer o m c t v = Some (pfolds m c t v).
Proof. intros H. destruct m as [|[|[|[|[|m]]]]]; try lia; reflexivity. Qed.

Context (e : engine F) (M : nat) (w : nat -> F) (SD : sound o e M w).
(** The table of inverses *)
Definition xtable (K0 : nat) (t : list F) : Prop := length t = 2 ^ (K0 - 1) /\ forall K i, S K <= K0 -> i < 2 ^ K -> nth i t (f0 o) = finv o (w (S K) ^ rev_bits K i)%g.
Lemma powers_from_spec a r n : forall i, i < n -> nth i (powers_from o a r n) (f0 o) = (a * r ^ i)%g.
Proof. revert a. induction n as [|n IH]; intros a i Hi; [lia|]. cbn [powers_from]. destruct i as [|i]; cbn [nth fpw]; [ring|]. rewrite IH by lia. ring. Qed.
Lemma powers_from_length a r n : length (powers_from o a r n) = n.
Proof. revert a. induction n as [|n IH]; intros a; [reflexivity|]. cbn [powers_from length]. rewrite IH. reflexivity. Qed.
Lemma finv_fpw x n : x <> f0 o -> (finv o x ^ n = finv o (x ^ n))%g.
Proof.
  intros N. apply (finv_unique o L). rewrite <- (fpw_mul_base o L). replace (x * finv o x)%g with (1)%g by (field; exact N). apply (fpw_one o L).
Qed.
Lemma rev_zero k : rev_bits k 0 = 0.
Proof. induction k as [|k IH]; [reflexivity|]. rewrite rev_low by apply pow2_pos. rewrite IH. reflexivity. Qed.
Lemma rev_pad b a l : l < 2 ^ b -> rev_bits (b + a) l = rev_bits b l * 2 ^ a.
Proof. intros H. pose proof (rev_split a b 0 l H) as E. cbn [Nat.mul Nat.add] in E. rewrite E, rev_zero. lia. Qed.
Lemma w_rev K j i : K + j <= M -> i < 2 ^ K -> (w (K + j) ^ rev_bits (K + j) i = w K ^ rev_bits K i)%g.
Proof. intros H Hi. rewrite rev_pad by exact Hi. rewrite (Nat.mul_comm _ (2 ^ j)), (fpw_mul o L), (w_pow o L e M w SD) by exact H. reflexivity. Qed.
Lemma w_rev' K j i : S K + j <= M -> i < 2 ^ K -> (w (S K + j) ^ rev_bits (K + j) i = w (S K) ^ rev_bits K i)%g.
Proof. intros H Hi. rewrite rev_pad by exact Hi. rewrite (Nat.mul_comm _ (2 ^ j)), (fpw_mul o L), (w_pow o L e M w SD) by exact H. reflexivity. Qed.
Lemma x_inv_spec K0 : 1 <= K0 <= M -> exists t, fri_x_inv o e (2 ^ K0) = Some (Some t) /\ xtable K0 t.
Proof.
  intros HK. pose proof (s_max _ _ _ _ SD) as HM. unfold fri_x_inv. rewrite (s_root _ _ _ _ SD K0) by lia. cbn [bind].
  pose proof (w_neq_0 o L e M w SD K0 ltac:(lia)) as Nw. rewrite (inv_opt_ne o L) by exact Nw. cbn [bind].
  replace (2 ^ K0 / 2) with (2 ^ (K0 - 1)) by (replace K0 with (S (K0 - 1)) at 2 by lia; rewrite Nat.pow_succ_r', Nat.mul_comm, Nat.div_mul; lia).
  destruct (permute_spec (f0 o) (edbg e) (K0 - 1) (powers_from o (f1 o) (finv o (w K0)) (2 ^ (K0 - 1))) ltac:(lia) ltac:(apply powers_from_length)) as (t & Et & Lt & Ht).
  rewrite Et. cbn [bind]. exists t. split; [reflexivity|]. split; [exact Lt|]. intros K i HK1 Hi.
  assert (PI : 2 ^ K <= 2 ^ (K0 - 1)) by (apply Nat.pow_le_mono_r; lia).
  rewrite Ht by lia. rewrite powers_from_spec by apply rev_lt. rewrite finv_fpw by exact Nw.
  transitivity (finv o (w K0 ^ rev_bits (K0 - 1) i)%g); [ring|]. f_equal.
  replace K0 with (S K + (K0 - S K)) by lia. replace (S K + (K0 - S K) - 1) with (K + (K0 - S K)) by lia. apply w_rev'; [lia|exact Hi].
Qed.
(** One fold of a layer *)
Lemma fold_step K0 t K p v c : K0 <= M -> S K <= K0 -> xtable K0 t -> layer_of o w (S K) p v -> layer_of o w K (fold_poly o c p) (fold_pairs o c v t).
Proof.
  intros HM HK [Lt Ht] [Lv Hv]. assert (PI : 2 ^ K <= 2 ^ (K0 - 1)) by (apply Nat.pow_le_mono_r; lia).
  destruct (fold_pairs_spec c (2 ^ K) v t) as [L1 H1]; [rewrite Lv; reflexivity|lia|]. split; [exact L1|]. intros i Hi. rewrite H1 by exact Hi.
  assert (PS : 2 ^ S K = 2 * 2 ^ K) by reflexivity. rewrite !Hv by lia. rewrite rev_even, rev_odd, (fpw_add o L).
  pose proof (w_neg o L e M w SD K ltac:(lia)) as En. rewrite Nat.add_1_r in En. rewrite En. rewrite (Ht K i HK Hi).
  set (x := (w (S K) ^ rev_bits K i)%g). assert (Nx : x <> f0 o) by (apply (fpw_neq_0 o L), (w_neq_0 o L e M w SD); lia).
  replace (- (1) * x)%g with (- x)%g by ring. rewrite fold_value by exact Nx. f_equal. unfold x.
  rewrite <- (fpw_mul_base o L), <- (s_half _ _ _ _ SD K) by lia. reflexivity.
Qed.
Lemma folds_step K0 t : K0 <= M -> xtable K0 t -> forall m K p v c, m + K <= K0 -> layer_of o w (m + K) p v -> layer_of o w K (folds_poly o m c p) (pfolds m c t v).
Proof.
  intros HM Ht. induction m as [|m IH]; intros K p v c HK Hv; [exact Hv|]. cbn [folds_poly pfolds]. apply IH; [lia|].
  apply (fold_step K0); [lia|lia|exact Ht|exact Hv].
Qed.
(** Lengths do not depend on what the layer holds. *)
Lemma pfolds_length K0 t : xtable K0 t -> forall m K v c, m + K <= K0 -> length v = 2 ^ (m + K) -> length (pfolds m c t v) = 2 ^ K.
Proof.
  intros [Lt _]. induction m as [|m IH]; intros K v c HK Lv; [exact Lv|]. cbn [pfolds]. apply IH; [lia|].
  apply (fold_pairs_spec c (2 ^ (m + K))); [rewrite Lv; reflexivity|]. rewrite Lt. apply Nat.pow_le_mono_r; lia.
Qed.

(** ** Verifier *)
Definition slice (v : list F) (s n : nat) : list F := map (fun j => nth j v (f0 o)) (seq s n).
Lemma slice_eq v s n : s + n <= length v -> firstn n (skipn s v) = slice v s n.
Proof.
  revert s. induction n as [|n IH]; intros s H; [reflexivity|]. unfold slice in *. cbn [seq map]. rewrite <- (IH (S s)) by lia.
  rewrite <- (firstn_skipn s v) at 2. rewrite app_nth2 by (rewrite firstn_length; lia). rewrite firstn_length, Nat.min_l, Nat.sub_diag by lia.
  assert (E : skipn s v = nth 0 (skipn s v) (f0 o) :: skipn (S s) v).
  { clear IH. revert v H. induction s as [|s IH]; intros [|a v] H; cbn [length] in H; try lia; [reflexivity|]. cbn [skipn] in *. apply IH. lia. }
  rewrite E at 1. reflexivity.
Qed.
(** The points the verifier looks up *)
Definition eval_points (K0 : nat) (eval_x : list F) : Prop := length eval_x = 2 ^ K0 /\ forall i, i < 2 ^ K0 -> nth i eval_x (f0 o) = (w K0 ^ i)%g.
Lemma fold_chunks_spec K0 K eval_x t v c index : K0 <= M -> S K <= K0 -> eval_points K0 eval_x -> xtable K0 t -> length v = 2 ^ S K ->
  forall n k, index + k + n <= 2 ^ K ->
  fold_chunks o (edbg e) (2 ^ S K) index (2 ^ (K0 - S K)) eval_x c k (slice v (2 * (index + k)) (2 * n)) = Some (slice (fold_pairs o c v t) (index + k) n).
Proof.
  intros HM HK [Lx Hx] [Lt Ht] Lv. assert (PI : 2 ^ K <= 2 ^ (K0 - 1)) by (apply Nat.pow_le_mono_r; lia).
  destruct (fold_pairs_spec c (2 ^ K) v t) as [L1 H1]; [rewrite Lv; reflexivity|lia|].
  pose proof (s_max _ _ _ _ SD) as HM64.
  induction n as [|n IH]; intros k Hk; [reflexivity|]. replace (2 * S n) with (S (S (2 * n))) by lia. unfold slice. cbn [seq map fold_chunks].
  replace (2 ^ S K / 2) with (2 ^ K) by (rewrite Nat.pow_succ_r', Nat.mul_comm, Nat.div_mul; lia).
  rewrite permute_index_spec by lia. cbn [bind]. pose proof (rev_lt K (index + k)) as RL.
  assert (PB : rev_bits K (index + k) * 2 ^ (K0 - S K) < 2 ^ K0).
  { replace K0 with (K + (1 + (K0 - S K))) at 2 by lia. rewrite !Nat.pow_add_r. cbn [Nat.pow]. pose proof (pow2_pos (K0 - S K)). nia. }
  rewrite (nth_error_nth' eval_x (f0 o)) by lia. cbn [bind]. rewrite Hx by exact PB.
  assert (EX : (w K0 ^ (rev_bits K (index + k) * 2 ^ (K0 - S K)) = w (S K) ^ rev_bits K (index + k))%g).
  { rewrite (Nat.mul_comm _ (2 ^ _)), (fpw_mul o L). replace K0 with (S K + (K0 - S K)) at 1 by lia. rewrite (w_pow o L e M w SD) by lia. reflexivity. }
  rewrite EX. unfold fri_single_fold, f_div. rewrite (inv_opt_ne o L) by (apply (fpw_neq_0 o L), (w_neq_0 o L e M w SD); lia). cbn [bind].
  specialize (IH (S k) ltac:(lia)). unfold slice in IH. replace (S (S (2 * (index + k)))) with (2 * (index + S k)) by lia. rewrite IH. cbn [bind]. do 2 f_equal.
  - rewrite H1 by lia. rewrite (Ht K) by lia. replace (S (2 * (index + k))) with (2 * (index + k) + 1) by lia. reflexivity.
  - rewrite Nat.add_succ_r. reflexivity.
Qed.
Lemma fri_fold_spec K0 eval_x t : K0 <= M -> eval_points K0 eval_x -> xtable K0 t -> forall m fuel K v c i index, m + K <= K0 -> m <= fuel -> length v = 2 ^ (m + K) -> i < 2 ^ K ->
  (m <> 0 -> index = 2 ^ (m - 1) * i) ->
  fri_fold_loop o (edbg e) fuel (slice v (i * 2 ^ m) (2 ^ m)) c (2 ^ (K0 - (m + K))) index (2 ^ (m + K)) eval_x = Some (nth i (pfolds m c t v) (f0 o)).
Proof.
  intros HM Hx Ht. induction m as [|m IH]; intros fuel K v c i index HK Hf Lv Hi Hidx.
  - unfold slice. change (2 ^ 0) with 1. rewrite Nat.mul_1_r. cbn [seq map]. destruct fuel; reflexivity.
  - rewrite (Hidx ltac:(discriminate)). destruct fuel as [|fuel]; [lia|]. replace (S m - 1) with m by lia.
    assert (H2 : 2 ^ S m = 2 * 2 ^ m) by reflexivity. pose proof (pow2_pos m) as Pm.
    assert (Ls : length (slice v (i * 2 ^ S m) (2 ^ S m)) = 2 ^ S m) by (unfold slice; rewrite map_length, seq_length; reflexivity).
    assert (FC : fold_chunks o (edbg e) (2 ^ (S m + K)) (2 ^ m * i) (2 ^ (K0 - (S m + K))) eval_x c 0 (slice v (i * 2 ^ S m) (2 ^ S m)) = Some (slice (fold_pairs o c v t) (i * 2 ^ m) (2 ^ m))).
    { cbn [Nat.add]. replace (i * 2 ^ S m) with (2 * (2 ^ m * i + 0)) by (rewrite H2; lia). rewrite H2. replace (i * 2 ^ m) with (2 ^ m * i + 0) by lia.
      apply (fold_chunks_spec K0 (m + K)); [exact HM|lia|exact Hx|exact Ht|exact Lv|]. rewrite Nat.pow_add_r. nia. }
    cbn [fri_fold_loop]. destruct (slice v (i * 2 ^ S m) (2 ^ S m)) as [|a [|b l]] eqn:ES; cbn [length] in Ls; try lia.
    rewrite FC. cbn [bind].
    replace (2 ^ (S m + K) / 2) with (2 ^ (m + K)) by (cbn [Nat.add]; rewrite Nat.pow_succ_r', Nat.mul_comm, Nat.div_mul; lia).
    replace (2 * 2 ^ (K0 - (S m + K))) with (2 ^ (K0 - (m + K))) by (replace (K0 - (m + K)) with (S (K0 - (S m + K))) by lia; reflexivity).
    cbn [pfolds]. apply IH; [lia|lia| |exact Hi|].
    + apply (fold_pairs_spec c (2 ^ (m + K))); [rewrite Lv; reflexivity|]. rewrite (proj1 Ht). apply Nat.pow_le_mono_r; lia.
    + intros Nm. destruct m as [|m]; [contradiction|]. replace (S m - 1) with m by lia. rewrite Nat.pow_succ_r'. replace (2 * 2 ^ m * i) with (2 ^ m * i * 2) by lia. apply Nat.div_mul. lia.
Qed.
(** ** Last layer *)
Lemma last_layer_spec d b p v : d + b <= M -> length p = 2 ^ d -> layer_of o w (d + b) p v -> last_layer o e (2 ^ b) v = Some p.
Proof.
  intros HM Lp [Lv Hv]. pose proof (s_max _ _ _ _ SD) as HM64. pose proof (pow2_pos b) as Pb. unfold last_layer. destruct (Nat.eqb_spec (2 ^ b) 0); [lia|].
  rewrite Lv, Nat.pow_add_r, Nat.div_mul by lia. assert (PL : 2 ^ d <= 2 ^ (d + b)) by (apply Nat.pow_le_mono_r; lia).
  assert (Lf : length (firstn (2 ^ d) v) = 2 ^ d) by (rewrite firstn_length; lia).
  destruct (permute_spec (f0 o) (edbg e) d (firstn (2 ^ d) v) ltac:(lia) Lf) as (u & Eu & Lu & Hu). rewrite Eu. cbn [bind].
  destruct (e_ifft_spec o L e M w SD d p u ltac:(lia) Lp Lu) as (y & Ey & Ly & Hy).
  { intros i Hi. rewrite Hu by exact Hi. pose proof (rev_lt d i). rewrite nth_firstn by lia. rewrite Hv by lia. rewrite w_rev by lia. rewrite rev_rev by exact Hi. reflexivity. }
  rewrite Ey. cbn [bind]. destruct (permute_spec (f0 o) (edbg e) d y ltac:(lia) Ly) as (z & Ez & Lz & Hz). rewrite Ez. f_equal.
  apply (list_ext0 o); [congruence|]. intros i Hi. rewrite Lz in Hi. rewrite Hz by exact Hi. rewrite Hy by apply rev_lt. rewrite rev_rev by exact Hi. reflexivity.
Qed.
Lemma last_check_spec K p v i : K <= M -> (exists d, length p = 2 ^ d) -> layer_of o w K p v -> i < 2 ^ K -> forall y,
  last_check o (edbg e) (2 ^ K) (w K) p i y = Some (feqb o (nth i v (f0 o)) y).
Proof.
  intros HK [d Ld] [Lv Hv] Hi y. pose proof (s_max _ _ _ _ SD) as HM64. unfold last_check. rewrite permute_index_spec by lia. cbn [bind].
  unfold poly_new. rewrite Ld, is_pow2. cbn [bind]. pose proof (rev_lt K i).
  assert (2 ^ K <= 2 ^ M) by (apply Nat.pow_le_mono_r; lia). rewrite (e_pow o L e M w SD) by lia. rewrite (evaluate_spec o L), <- Hv by exact Hi. reflexivity.
Qed.
End Fold.

(** ** Theorems *)
(** The folded polynomial is the one FRI asks for, and has half as many coefficients. *)
Theorem C44_folded_polynomial : forall F (o : ops F), lawful o -> forall c p,
  (forall x, x <> f0 o -> peval o (fold_poly o c p) (fmul o x x) =
     fadd o (fadd o (peval o p x) (peval o p (fneg o x))) (fmul o (fmul o c (finv o x)) (fsub o (peval o p x) (peval o p (fneg o x))))) /\
  (forall n, length p = 2 * n -> length (fold_poly o c p) = n).
Proof.
  intros F o L c p. split; [|intros n; apply fold_poly_length]. intros x N. symmetry. apply (fold_value o L); exact N.
Qed.
Print Assumptions C44_folded_polynomial.
(** The prover's fold of a layer of values of p by [m] = 1..4 reductions is the layer of the values of the
    [m] times folded polynomial. [2 ^ K0] is the size of the first layer, for which the inverses are computed. *)
Theorem C44_prover : forall F (o : ops F), lawful o -> forall e M w, sound o e M w -> forall K0, 1 <= K0 <= M ->
  exists x_inv, fri_x_inv o e (2 ^ K0) = Some (Some x_inv) /\
  forall m K c p v, 1 <= m <= 4 -> m + K <= K0 -> layer_of o w (m + K) p v ->
  exists v', fold_layer o m c x_inv v = Some v' /\ layer_of o w K (folds_poly o m c p) v'.
Proof.
  intros F o L e M w SD K0 HK. destruct (x_inv_spec o L e M w SD K0 HK) as (t & Et & Ht). exists t. split; [exact Et|].
  intros m K c p v Hm HK1 Hv. eexists. split; [apply fold_layer_pfolds; exact Hm|]. apply (folds_step o L e M w SD K0); [lia|exact Ht|exact HK1|exact Hv].
Qed.
Print Assumptions C44_prover.
(** On every layer, whatever it holds, the verifier's fold of the coset number i is the element number i of the
    layer the prover computed. [eval_x] are the powers of the root, in natural order. *)
Theorem C44_agreement : forall F (o : ops F), lawful o -> forall e M w, sound o e M w -> forall K0 eval_x, 1 <= K0 <= M ->
  eval_x = map (fun i => fpw o (w K0) i) (seq 0 (2 ^ K0)) ->
  exists x_inv, fri_x_inv o e (2 ^ K0) = Some (Some x_inv) /\
  forall m K c v, 1 <= m <= 4 -> m + K <= K0 -> length v = 2 ^ (m + K) ->
  exists v', fold_layer o m c x_inv v = Some v' /\ length v' = 2 ^ K /\
  forall i, i < 2 ^ K ->
    fri_fold o (edbg e) (firstn (2 ^ m) (skipn (i * 2 ^ m) v)) c (2 ^ (K0 - (m + K))) (2 ^ m / 2 * i) (2 ^ (m + K)) eval_x = nth_error v' i.
Proof.
  intros F o L e M w SD K0 eval_x HK EX. destruct (x_inv_spec o L e M w SD K0 HK) as (t & Et & Ht). exists t. split; [exact Et|].
  intros m K c v Hm HK1 Lv. eexists. split; [apply fold_layer_pfolds; exact Hm|]. pose proof (pfolds_length o w K0 t Ht m K v c HK1 Lv) as Lf.
  split; [exact Lf|]. intros i Hi. rewrite (nth_error_nth' _ (f0 o)) by lia. assert (LE : i * 2 ^ m + 2 ^ m <= length v) by (rewrite Lv, (Nat.add_comm m), Nat.pow_add_r; pose proof (pow2_pos m); nia).
  rewrite (slice_eq o) by exact LE. unfold fri_fold. apply (fri_fold_spec o L e M w SD K0 eval_x t); [lia| |exact Ht|exact HK1| |exact Lv|exact Hi|].
  - subst eval_x. split; [rewrite map_length, seq_length; reflexivity|]. intros j Hj.
    rewrite (nth_indep _ (f0 o) (fpw o (w K0) 0)) by (rewrite map_length, seq_length; exact Hj). rewrite (map_nth (fun i => fpw o (w K0) i)), seq_nth by exact Hj. reflexivity.
  - unfold slice. rewrite map_length, seq_length. apply Nat.lt_le_incl, Nat.pow_gt_lin_r. lia.
  - intros _. f_equal. replace m with (S (m - 1)) at 1 by lia. rewrite Nat.pow_succ_r', Nat.mul_comm, Nat.div_mul; lia.
Qed.
Print Assumptions C44_agreement.
(** The last layer of a polynomial with 2^d coefficients on a domain [2 ^ b] times as large is sent as exactly
    those coefficients, and then the verifier's check accepts, for each position, exactly the layer's value. *)
Theorem C44_last_layer : forall F (o : ops F), lawful o -> forall e M w, sound o e M w -> forall d b p v, d + b <= M -> length p = 2 ^ d -> layer_of o w (d + b) p v ->
  last_layer o e (2 ^ b) v = Some p /\
  forall i, i < 2 ^ (d + b) -> forall y, exists r, last_check o (edbg e) (2 ^ (d + b)) (w (d + b)) p i y = Some r /\ (r = true <-> y = nth i v (f0 o)).
Proof.
  intros F o L e M w SD d b p v HM Lp Hv. split; [apply (last_layer_spec o L e M w SD d b); assumption|].
  intros i Hi y. eexists. split; [apply (last_check_spec o L e M w SD _ p v); [exact HM|exists d; exact Lp|exact Hv|exact Hi]|].
  split; [intros E; symmetry; apply (law_eqb o L), E|intros ->; apply (law_eqb o L); reflexivity].
Qed.
Print Assumptions C44_last_layer.
(** Deviation: the prover panics for a layout entry of 0 or above 4. *)
Theorem C44_other_reductions_panic : forall F (o : ops F) m c x_inv v, m = 0 \/ 4 < m -> fold_layer o m c x_inv v = None.
Proof. intros F o m c x_inv v H. destruct m as [|[|[|[|[|m]]]]]; try reflexivity; lia. Qed.
Print Assumptions C44_other_reductions_panic.

(** A cubic polynomial on 8 points, folded twice, in the field with 97 elements. *)
Definition fri_p : list (fe tiny_field) := map tiny [3; 1; 4; 5]%Z.
Definition fri_v : list (fe tiny_field) := map (fun i => peval tiny_ops fri_p (fpw tiny_ops (fe_w tiny_good 3) (rev_bits 3 i))) (seq 0 8).
Definition fri_eval_x : list (fe tiny_field) := map (fun i => fpw tiny_ops (fe_w tiny_good 3) i) (seq 0 8).
Definition fri_run (m : nat) : option (list Z) :=
  match fri_x_inv tiny_ops tiny_engine 8 with
  | Some (Some t) => option_map (map fe_val) (fold_layer tiny_ops m (tiny 7) t fri_v)
  | _ => None
  end.
Example C44_ex : layer_of tiny_ops (fe_w tiny_good) 3 fri_p fri_v /\ map fe_val fri_v = [13; 1; 8; 87; 17; 68; 91; 30]%Z /\ fri_run 1 = Some [1; 39; 87; 50]%Z /\ fri_run 2 = Some [21; 21]%Z /\
  map fe_val (folds_poly tiny_ops 1 (tiny 7) fri_p) = [20; 78]%Z /\
  option_map fe_val (fri_fold tiny_ops true (firstn 4 (skipn 4 fri_v)) (tiny 7) 1 2 8 fri_eval_x) = Some 21%Z.
Proof.
  split.
  - split; [reflexivity|]. intros i Hi. unfold fri_v. set (g := fun i => peval tiny_ops fri_p (fpw tiny_ops (fe_w tiny_good 3) (rev_bits 3 i))).
    rewrite (nth_indep _ (f0 tiny_ops) (g 0)) by (rewrite map_length, seq_length; exact Hi). rewrite map_nth, seq_nth by exact Hi. reflexivity.
  - split; [vm_compute; reflexivity|]. split; [vm_compute; reflexivity|]. split; [vm_compute; reflexivity|]. split; vm_compute; reflexivity.
Qed.
