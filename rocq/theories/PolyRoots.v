(** Roots of polynomials. *)
Require Import Field ZArith Lia Bool List.
From Verif Require Import FieldSig FieldAlgModel Arr FftSpec FftModel StarkBase PolyModel PolyProps.
Import ListNotations.
Open Scope nat_scope.

Section Roots.
Context {F : Type} (o : ops F) (L : lawful o).
Add Field FfieldR : (law_field o L).
Declare Scope ffR. Delimit Scope ffR with g.
Notation "0" := (f0 o) : ffR. Notation "1" := (f1 o) : ffR. Notation "x + y" := (fadd o x y) : ffR. Notation "x - y" := (fsub o x y) : ffR.
Notation "x * y" := (fmul o x y) : ffR. Notation "x ^ n" := (fpw o x n) : ffR. Notation "- x" := (fneg o x) : ffR.

Lemma drop_last q x : nth (length q - 1) q (f0 o) = f0 o -> peval o (firstn (length q - 1) q) x = peval o q x.
Proof.
  intros H. destruct (length q) as [|n] eqn:E; [destruct q; [reflexivity|discriminate E]|]. rewrite <- (firstn_skipn (S n - 1) q) at 2.
  rewrite (peval_app o L). assert (Ls : length (skipn (S n - 1) q) = 1) by (rewrite skipn_length; lia).
  destruct (skipn (S n - 1) q) as [|a [|b l]] eqn:Es; cbn [length] in Ls; try lia.
  assert (a = f0 o). { rewrite <- H. rewrite <- (firstn_skipn (S n - 1) q), app_nth2 by (rewrite firstn_length; lia). rewrite firstn_length, Es. replace (S n - 1 - Nat.min (S n - 1) (length q)) with 0 by lia. reflexivity. }
  subst a. rewrite (peval_cons o L), peval_nil. ring.
Qed.
(** Dividing out one point *)
Lemma divide_root p z : exists q, length q = length p - 1 /\ forall X, ((X - z) * peval o q X = peval o p X - peval o p z)%g.
Proof.
  destruct (C42_divide F o L p z (f1 o) (repeat (f0 o) (length p)) ltac:(apply repeat_length)) as (q & Lq & Hq & _ & E).
  exists (firstn (length p - 1) q). split; [rewrite firstn_length; lia|]. intros X. rewrite <- E. f_equal. rewrite <- Lq. apply drop_last. apply Hq. lia.
Qed.
(** A polynomial that vanishes at as many points as it has coefficients vanishes everywhere. *)
Lemma root_bound : forall zs p, NoDup zs -> length p <= length zs -> (forall z, In z zs -> peval o p z = f0 o) -> forall x, peval o p x = f0 o.
Proof.
  induction zs as [|z zs IH]; intros p ND Lp Hz x.
  - destruct p; [apply peval_nil|cbn in Lp; lia].
  - inversion ND as [|? ? Nin ND']; subst. destruct (divide_root p z) as (q & Lq & E).
    assert (Q : forall x, peval o q x = f0 o).
    { apply IH; [exact ND'|cbn [length] in Lp; lia|]. intros z' Hz'. assert (N : (z' - z)%g <> f0 o). { intros C. apply (proj1 (fsub_0_iff o L _ _)) in C. rewrite C in Hz'. exact (Nin Hz'). }
      apply (fmul_cancel_l o L (z' - z)%g); [exact N|]. rewrite E, (Hz z'), (Hz z) by (cbn; auto). ring. }
    specialize (E x). rewrite Q, (Hz z) in E by (cbn; auto). transitivity (peval o p x - 0)%g; [ring|]. rewrite <- E. ring.
Qed.
(** Two polynomials with at most [n] coefficients that agree at [n] points agree everywhere. *)
Lemma agree_bound zs p q : NoDup zs -> length p <= length zs -> length q <= length zs -> (forall z, In z zs -> peval o p z = peval o q z) -> forall x, peval o p x = peval o q x.
Proof.
  intros ND Lp Lq H. set (n := length zs) in *.
  assert (Pad : forall p, length p <= n -> exists p', length p' = n /\ forall x, peval o p' x = peval o p x).
  { intros r Hr. exists (r ++ repeat (f0 o) (n - length r)). split; [rewrite app_length, repeat_length; lia|]. intros x. rewrite (peval_app o L), (peval_zeros o L). ring. }
  destruct (Pad p Lp) as (p' & Lp' & Ep). destruct (Pad q Lq) as (q' & Lq' & Eq). set (r := map (fun i => (nth i p' 0 - nth i q' 0)%g) (seq 0 n)).
  assert (Er : forall x, peval o r x = (peval o p' x - peval o q' x)%g).
  { intros x. unfold peval. rewrite Lp', Lq'. unfold r at 2. rewrite map_length, seq_length.
    transitivity (fsum o (map (fun i => (nth i p' 0 * x ^ i + - (1) * (nth i q' 0 * x ^ i))%g) (seq 0 n))).
    - apply (fsum_map_ext o). intros i Hi. apply in_seq in Hi. unfold r. rewrite (nth_indep _ (f0 o) (nth 0 p' 0 - nth 0 q' 0)%g) by (rewrite map_length, seq_length; lia).
      rewrite (map_nth (fun i => (nth i p' 0 - nth i q' 0)%g) (seq 0 n) 0 i), seq_nth by lia. cbn [Nat.add]. ring.
    - rewrite (fsum_map_add o L), (fsum_map_mul o L). ring. }
  intros x. assert (Z : peval o r x = f0 o).
  { apply (root_bound zs); [exact ND|unfold r; rewrite map_length, seq_length; lia|]. intros z Hz. rewrite Er, Ep, Eq, H by exact Hz. ring. }
  rewrite Er, Ep, Eq in Z. apply (proj1 (fsub_0_iff o L _ _)) in Z. exact Z.
Qed.
(** A polynomial that vanishes at distinct points is a multiple of the product of the linear factors. *)
Fixpoint linear_factors (zs : list F) (x : F) : F := match zs with [] => f1 o | z :: zs => ((x - z) * linear_factors zs x)%g end.
Lemma vanishing_quotient : forall zs p, NoDup zs -> (forall z, In z zs -> peval o p z = f0 o) ->
  exists q, length q = length p - length zs /\ forall x, peval o p x = (linear_factors zs x * peval o q x)%g.
Proof.
  induction zs as [|z zs IH]; intros p ND Hz.
  - exists p. split; [cbn; lia|]. intros x. cbn. ring.
  - inversion ND as [|? ? Nin ND']; subst. destruct (divide_root p z) as (q & Lq & E). destruct (IH q ND') as (r & Lr & Er).
    { intros z' Hz'. assert (N : (z' - z)%g <> f0 o). { intros C. apply (proj1 (fsub_0_iff o L _ _)) in C. rewrite C in Hz'. exact (Nin Hz'). }
      apply (fmul_cancel_l o L (z' - z)%g); [exact N|]. rewrite E, (Hz z'), (Hz z) by (cbn; auto). ring. }
    exists r. split; [cbn [length]; lia|]. intros x. cbn [linear_factors]. specialize (E x). rewrite (Hz z) in E by (left; reflexivity). rewrite Er in E.
    transitivity (peval o p x - 0)%g; [ring|]. rewrite <- E. ring.
Qed.
End Roots.
