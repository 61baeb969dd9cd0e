(** What the STARK code uses of the field and transform layers, in one bundle: the functions
    [Root::root], [From<usize>], [FieldElement::generator], the transforms of primefield/src/fft and
    the configuration they run in (build profile, feature, thread schedule). *)
Require Import Field ZArith Lia Bool List Permutation.
From Verif Require Import Word KnuthModel FieldSig FieldAlgModel FieldAlgProofs Arr FftModel FftSpec PermuteProofs FftProofs FftProps.
Import ListNotations.
Open Scope nat_scope.

Record engine (F : Type) : Type := Engine {
  eroot : nat -> option (option F);   (* FieldElement::root(usize) *)
  efrom : nat -> option F;            (* FieldElement::from(usize) *)
  egen : F;                           (* FieldElement::generator() *)
  eml : nat;                          (* MAX_LOOP of the recursive transform *)
  edbg : bool;                        (* debug build *)
  estd : bool;                        (* feature std: the parallel transform for large sizes *)
  eord1 : nat -> list nat;            (* order in which the row jobs of a size run *)
  eord2 : nat -> list nat
}.
Arguments eroot {F}. Arguments efrom {F}. Arguments egen {F}. Arguments eml {F}. Arguments edbg {F}. Arguments estd {F}. Arguments eord1 {F}. Arguments eord2 {F}.

Section Base.
Context {F : Type} (o : ops F).
(** primefield/src/fft/mod.rs:71-89 *)
Definition e_fft (e : engine F) (v : list F) : option (list F) := fft o (eroot e) (eml e) (edbg e) (estd e) (eord1 e (length v)) (eord2 e (length v)) v.
Definition e_ifft (e : engine F) (v : list F) : option (list F) := ifft o (eroot e) (efrom e) (eml e) (edbg e) (estd e) (eord1 e (length v)) (eord2 e (length v)) v.

(** ** Specification *)
(** The value at [x] of the polynomial with coefficients [p], lowest degree first. *)
Definition peval (p : list F) (x : F) : F := fsum o (map (fun i => fmul o (nth i p (f0 o)) (fpw o x i)) (seq 0 (length p))).
(** [w k] is the root of unity of order 2^k the engine uses, for k up to [M]. *)
Record sound (e : engine F) (M : nat) (w : nat -> F) : Prop := {
  s_max : M < 64;
  s_root : forall k, k <= M -> eroot e (2 ^ k) = Some (Some (w k));
  s_prim : forall k, k <= M -> primitive o (w k) (2 ^ k);
  s_half : forall k, k < M -> w k = fmul o (w (S k)) (w (S k));
  s_from : forall k, k <= M -> efrom e (2 ^ k) = Some (fnat o (2 ^ k));
  s_ord1 : forall k, k <= M -> schedule k (eord1 e (2 ^ k));
  s_ord2 : forall k, k <= M -> schedule k (eord2 e (2 ^ k));
  s_gen : egen e <> f0 o
}.
Context (L : lawful o).
Add Field Ffield : (law_field o L).
Declare Scope ff2. Delimit Scope ff2 with g.
Notation "0" := (f0 o) : ff2. Notation "1" := (f1 o) : ff2. Notation "x + y" := (fadd o x y) : ff2. Notation "x - y" := (fsub o x y) : ff2.
Notation "x * y" := (fmul o x y) : ff2. Notation "x ^ n" := (fpw o x n) : ff2.

Lemma peval_nil x : peval [] x = f0 o. Proof. reflexivity. Qed.
Lemma peval_cons c p x : peval (c :: p) x = (c + x * peval p x)%g.
Proof.
  unfold peval. cbn [length seq map]. rewrite fsum_cons. cbn [nth fpw]. rewrite <- seq_shift, map_map.
  rewrite <- (fsum_map_mul o L). replace (c * f1 o)%g with c by ring. f_equal. apply fsum_map_ext. intros i _. cbn [nth fpw]. ring.
Qed.
Lemma peval_app p q x : peval (p ++ q) x = (peval p x + x ^ length p * peval q x)%g.
Proof. induction p as [|c p IH]; [rewrite peval_nil; cbn [app length fpw]; ring|]. cbn [app length fpw]. rewrite !peval_cons, IH. ring. Qed.
Lemma peval_zeros n x : peval (repeat (f0 o) n) x = f0 o.
Proof. induction n as [|n IH]; [reflexivity|]. cbn [repeat]. rewrite peval_cons, IH. ring. Qed.
Lemma peval_dft p w i : dft o (length p) w (fun j => nth j p (f0 o)) i = peval p (w ^ i)%g.
Proof. unfold dft, peval. apply fsum_map_ext. intros j _. f_equal. apply (fpw_mul o L). Qed.
Lemma peval_ext p q x : length p = length q -> (forall i, i < length p -> nth i p (f0 o) = nth i q (f0 o)) -> peval p x = peval q x.
Proof. intros E H. unfold peval. rewrite E. apply fsum_map_ext. intros i Hi. apply in_seq in Hi. rewrite H by lia. reflexivity. Qed.

Lemma list_ext0 (p q : list F) : length p = length q -> (forall i, i < length p -> nth i p (f0 o) = nth i q (f0 o)) -> p = q.
Proof. intros E H. apply list_ext with (d := f0 o); assumption. Qed.

Context (e : engine F) (M : nat) (w : nat -> F) (SD : sound e M w).
Lemma w_pow k j : (k + j <= M)%nat -> (w (k + j) ^ (2 ^ j) = w k)%g.
Proof.
  revert k. induction j as [|j IH]; intros k H; [rewrite Nat.add_0_r; cbn; ring|].
  rewrite <- Nat.add_succ_comm in *. rewrite Nat.pow_succ_r', (Nat.mul_comm 2), (fpw_mul o L), IH by lia. cbn [fpw]. rewrite (s_half _ _ _ SD k) by lia. ring.
Qed.
Lemma w_one k : k <= M -> (w k ^ (2 ^ k) = f1 o)%g. Proof. intros H. apply (s_prim _ _ _ SD k H). Qed.
Lemma w_neq_0 k : k <= M -> w k <> f0 o.
Proof. intros H. apply (primitive_neq_0 o L (2 ^ k)); [apply pow2_pos|apply (s_prim _ _ _ SD k H)]. Qed.
Lemma w_neg k : k < M -> (w (k + 1) ^ (2 ^ k) = fneg o (f1 o))%g.
Proof. intros H. pose proof (primitive_root_like o L (k + 1) (w (k + 1)) (s_prim _ _ _ SD (k + 1)%nat ltac:(lia)) ltac:(lia)) as R. replace (k + 1 - 1)%nat with k in R by lia. exact R. Qed.
Lemma w_inj k i j : k <= M -> i < 2 ^ k -> j < 2 ^ k -> (w k ^ i = w k ^ j)%g -> i = j.
Proof.
  intros Hk. assert (G : forall a b, a < b -> b < 2 ^ k -> (w k ^ a <> w k ^ b)%g).
  { intros a b Hab Hb E. destruct (s_prim _ _ _ SD k Hk) as [_ P]. apply (P (b - a)); [lia|]. apply (fmul_cancel_l o L (w k ^ a)%g); [apply (fpw_neq_0 o L), w_neq_0, Hk|].
    rewrite <- (fpw_add o L). replace (a + (b - a))%nat with b by lia. rewrite <- E. ring. }
  intros Hi Hj E. destruct (Nat.lt_trichotomy i j) as [H|[H|H]]; [exfalso; apply (G i j); assumption|exact H|exfalso; apply (G j i); [assumption|assumption|congruence]].
Qed.
(** The transform of a coefficient list: its values at the powers of the root, in bit-reversed order. *)
Lemma e_fft_spec k p : k <= M -> length p = 2 ^ k -> exists v, e_fft e p = Some v /\ length v = 2 ^ k /\
  forall i, i < 2 ^ k -> nth i v (f0 o) = peval p (w k ^ rev_bits k i)%g.
Proof.
  intros Hk Lp. unfold e_fft, fft. rewrite Lp, (s_root _ _ _ SD k Hk). cbn [bind].
  destruct (fft_root_spec o L (eml e) (edbg e) (estd e) k (eord1 e (2 ^ k)) (eord2 e (2 ^ k)) p (w k)) as (v & E & Lv & H).
  - pose proof (s_max _ _ _ SD). lia.
  - exact Lp.
  - apply w_one, Hk.
  - apply (primitive_root_like o L), (s_prim _ _ _ SD k Hk).
  - apply (s_ord1 _ _ _ SD k Hk).
  - apply (s_ord2 _ _ _ SD k Hk).
  - exists v. split; [exact E|]. split; [exact Lv|]. intros i Hi. rewrite H by exact Hi. rewrite <- Lp. apply peval_dft.
Qed.
(** The inverse transform of values in natural order gives the coefficients in bit-reversed order. *)
Lemma e_ifft_spec k p v : k <= M -> length p = 2 ^ k -> length v = 2 ^ k -> (forall i, i < 2 ^ k -> nth i v (f0 o) = peval p (w k ^ i)%g) ->
  exists u, e_ifft e v = Some u /\ length u = 2 ^ k /\ forall i, i < 2 ^ k -> nth i u (f0 o) = nth (rev_bits k i) p (f0 o).
Proof.
  intros Hk Lp Lv Hv. pose proof (s_max _ _ _ SD) as HM. pose proof (s_prim _ _ _ SD k Hk) as Pw. pose proof (pow2_pos k) as P2.
  destruct (e_fft_spec k p Hk Lp) as (a & Ea & La & Ha). unfold e_fft in Ea. rewrite Lp in Ea.
  pose proof (C27_round_trip F o L (eroot e) (efrom e) (eml e) (edbg e) (estd e) k (eord1 e (2 ^ k)) (eord2 e (2 ^ k)) (eord1 e (2 ^ k)) (eord2 e (2 ^ k)) p (w k)
    ltac:(lia) Lp (s_root _ _ _ SD k Hk) Pw (s_from _ _ _ SD k Hk) (s_ord1 _ _ _ SD k Hk) (s_ord2 _ _ _ SD k Hk) (s_ord1 _ _ _ SD k Hk) (s_ord2 _ _ _ SD k Hk)) as RT.
  rewrite Ea in RT. cbn [bind] in RT. destruct (permute_spec (f0 o) (edbg e) k a ltac:(lia) La) as (b & Eb & Lb & Hb). rewrite Eb in RT. cbn [bind] in RT.
  assert (b = v). { apply list_ext0; [congruence|]. intros i Hi. rewrite Lb in Hi. rewrite Hb by exact Hi. rewrite Ha by apply rev_lt. rewrite rev_rev by exact Hi. symmetry. apply Hv, Hi. }
  subst b. unfold e_ifft. rewrite Lv. destruct (ifft _ _ _ _ _ _ _ _ v) as [u|] eqn:Eu; [|discriminate RT]. cbn [bind] in RT. exists u. split; [reflexivity|].
  assert (Lu : length u = 2 ^ k). { destruct (C27_ifft F o L (eroot e) (efrom e) (eml e) (edbg e) (estd e) k (eord1 e (2 ^ k)) (eord2 e (2 ^ k)) v (w k) ltac:(lia) Lv (s_root _ _ _ SD k Hk) Pw (s_from _ _ _ SD k Hk) (s_ord1 _ _ _ SD k Hk) (s_ord2 _ _ _ SD k Hk)) as (u' & Eu' & Lu' & _). congruence. }
  split; [exact Lu|]. intros i Hi. destruct (permute_spec (f0 o) (edbg e) k u ltac:(lia) Lu) as (p' & Ep & Lp' & Hp'). rewrite Ep in RT. injection RT as ->.
  rewrite Hp' by apply rev_lt. rewrite rev_rev by exact Hi. reflexivity.
Qed.
(** Interpolation: every vector of 2^k values is the value vector of a polynomial with 2^k coefficients. *)
Lemma interp k v : k <= M -> length v = 2 ^ k -> exists p, length p = 2 ^ k /\ forall i, i < 2 ^ k -> nth i v (f0 o) = peval p (w k ^ i)%g.
Proof.
  intros Hk Lv. pose proof (s_prim _ _ _ SD k Hk) as Pw. pose proof (pow2_pos k) as P2. pose proof (fnat_pow2 o L k (w k) Pw) as N0.
  pose (y := fpw o (w k) (2 ^ k - 1)). pose (x := fun m => nth m v (f0 o)).
  exists (map (fun j => (finv o (fnat o (2 ^ k)) * dft o (2 ^ k) y x j)%g) (seq 0 (2 ^ k))). split; [rewrite map_length, seq_length; reflexivity|].
  intros i Hi. rewrite <- peval_dft. rewrite map_length, seq_length.
  pose proof (primitive_inv o L _ (w k) P2 Pw) as Py. pose proof (dft_inverse o L (2 ^ k) y x i P2 Py Hi) as D.
  assert (Ey : fpw o y (2 ^ k - 1) = w k).
  { unfold y. rewrite <- (fpw_mul o L). destruct (Nat.eq_dec (2 ^ k) 1) as [E1|N1].
    - rewrite E1. cbn. destruct Pw as [P _]. rewrite E1 in P. cbn in P. rewrite <- P. ring.
    - replace ((2 ^ k - 1) * (2 ^ k - 1)) with (2 ^ k * (2 ^ k - 2) + 1) by nia. rewrite (fpw_add o L), (fpw_mul o L), (proj1 Pw), (fpw_one o L). cbn. ring. }
  rewrite Ey in D. apply (fmul_cancel_l o L (fnat o (2 ^ k))); [exact N0|]. fold (x i). rewrite <- D. unfold dft at 1 3.
  rewrite <- (fsum_map_mul o L). apply (fsum_map_ext o). intros j Hj. apply in_seq in Hj.
  rewrite (nth_indep _ (f0 o) ((finv o (fnat o (2 ^ k)) * dft o (2 ^ k) y x 0)%g)) by (rewrite map_length, seq_length; lia).
  rewrite (map_nth (fun j => (finv o (fnat o (2 ^ k)) * dft o (2 ^ k) y x j)%g) (seq 0 (2 ^ k)) 0 j), seq_nth by lia. cbn [Nat.add]. field. exact N0.
Qed.
Lemma e_pow a n : n <= 2 ^ M -> pow_usize o a (Z.of_nat n) = (a ^ n)%g.
Proof. intros H. apply (pow_nat o L M); [apply (s_max _ _ _ SD)|exact H]. Qed.
End Base.
