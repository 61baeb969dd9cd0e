(** Properties C26-C29 and C56: bit reversal, the Fourier transforms, transposition, shifted copies. *)
Require Import ZArith Znumtheory Arith Lia Bool List Permutation.
Require Import Ring Field Field_theory Ring_theory.
From Verif Require Import Word KnuthModel BinaryModel BinaryProofs U256Model U256Spec MontgomeryProofs FieldSig FieldSpec FieldModel FieldInstance FieldAlgModel FieldAlgProofs FieldProps Arr FftSpec FftModel PermuteProofs FftProofs.
Import ListNotations.
Open Scope nat_scope.

(** ** C26 *)
Lemma rev_testbit k : forall i j, j < k -> Nat.testbit (rev_bits k i) (k - 1 - j) = Nat.testbit i j.
Proof.
  induction k as [|k IH]; intros i j Hj; [lia|]. cbn [rev_bits]. pose proof (rev_lt k (i / 2)) as R.
  destruct j as [|j].
  - replace (S k - 1 - 0) with k by lia.
    apply Nat.b2n_inj. rewrite !Nat.testbit_spec'. rewrite Nat.add_comm, Nat.div_add by (apply Nat.pow_nonzero; lia).
    rewrite Nat.div_small by assumption. rewrite Nat.pow_0_r, Nat.div_1_r. cbn [Nat.add]. apply Nat.mod_mod. lia.
  - replace (S k - 1 - S j) with (k - 1 - j) by lia.
    assert (E : Nat.testbit i (S j) = Nat.testbit (i / 2) j) by (rewrite <- Nat.div2_div, Nat.div2_spec, Nat.shiftr_spec' by lia; f_equal; lia).
    rewrite E, <- (IH (i / 2) j) by lia. apply Nat.b2n_inj. rewrite !Nat.testbit_spec'.
    replace (2 ^ k) with (2 ^ j * 2 * 2 ^ (k - 1 - j)).
    + rewrite Nat.mul_assoc. rewrite Nat.add_comm, Nat.div_add by (apply Nat.pow_nonzero; lia).
      rewrite Nat.mul_assoc. rewrite Nat.mod_add by lia. reflexivity.
    + rewrite (Nat.mul_comm (2 ^ j)), <- pow2_S, <- Nat.pow_add_r. f_equal. lia.
Qed.

Theorem C26_permute_index : forall dbg k i, k < 64 -> i < 2 ^ k ->
  exists j, permute_index dbg (2 ^ k) i = Some j /\ j < 2 ^ k /\
  (forall b, b < k -> Nat.testbit j (k - 1 - b) = Nat.testbit i b) /\
  permute_index dbg (2 ^ k) j = Some i.
Proof.
  intros dbg k i Hk Hi. exists (rev_bits k i). pose proof (rev_lt k i).
  split; [apply permute_index_spec; assumption|]. split; [assumption|]. split; [intros b Hb; apply rev_testbit; assumption|].
  rewrite permute_index_spec by assumption. rewrite rev_rev by assumption. reflexivity.
Qed.
Print Assumptions C26_permute_index.

Lemma perm_of_injection {A} (u v : list A) (s : nat -> nat) : length u = length v ->
  (forall i, i < length v -> s i < length v) -> (forall i j, i < length v -> j < length v -> s i = s j -> i = j) ->
  (forall i, i < length v -> nth_error u i = nth_error v (s i)) -> Permutation v u.
Proof.
  intros Lu Hs Inj H. apply Permutation_nth_error. split; [congruence|].
  exists (fun i => if i <? length v then s i else i). split.
  - intros i j E. destruct (Nat.ltb_spec i (length v)), (Nat.ltb_spec j (length v)); auto.
    + specialize (Hs i H0). lia.
    + specialize (Hs j H1). lia.
  - intros i. destruct (Nat.ltb_spec i (length v)); [apply H; assumption|].
    rewrite !(proj2 (nth_error_None _ _)) by lia. reflexivity.
Qed.
Lemma nth_error_ext {A} (u : list A) i (v : list A) j : i < length u -> j < length v ->
  (forall d, nth i u d = nth j v d) -> nth_error u i = nth_error v j.
Proof.
  intros Hi Hj H. destruct u as [|d u]; [cbn in Hi; lia|]. rewrite (nth_error_nth' _ d) by assumption. rewrite (nth_error_nth' v d) by assumption.
  rewrite H. reflexivity.
Qed.

Theorem C26_permute : forall A dbg k (v : list A), k < 64 -> length v = 2 ^ k ->
  exists v', permute dbg v = Some v' /\ Permutation v v' /\
  (forall i j, i < 2 ^ k -> permute_index dbg (2 ^ k) i = Some j -> nth_error v' i = nth_error v j) /\
  permute dbg v' = Some v.
Proof.
  intros A dbg k v Hk Lv. destruct v as [|d0 v0] eqn:Ev; [cbn in Lv; pose proof (pow2_pos k); lia|]. rewrite <- Ev in *. clear Ev v0.
  destruct (permute_spec d0 dbg k v Hk Lv) as (v' & E & L' & H').
  assert (N : forall i, i < 2 ^ k -> nth_error v' i = nth_error v (rev_bits k i)).
  { intros i Hi. pose proof (rev_lt k i). rewrite (nth_error_nth' v' d0) by lia. rewrite (nth_error_nth' v d0) by lia. rewrite H' by assumption. reflexivity. }
  exists v'. split; [exact E|]. split.
  - apply (perm_of_injection v' v (rev_bits k)); [congruence| | |].
    + intros i Hi. rewrite Lv in *. apply rev_lt.
    + intros i j Hi Hj Eij. rewrite Lv in *. rewrite <- (rev_rev k i Hi), <- (rev_rev k j Hj). congruence.
    + intros i Hi. apply N. lia.
  - split.
    + intros i j Hi Ej. rewrite permute_index_spec in Ej by assumption. injection Ej as <-. apply N. assumption.
    + destruct (permute_spec d0 dbg k v' Hk L') as (v2 & E2 & L2 & H2). rewrite E2. f_equal.
      apply list_ext with (d := d0); [congruence|]. intros i Hi. rewrite L2 in Hi. pose proof (rev_lt k i).
      rewrite H2, H', rev_rev by assumption. reflexivity.
Qed.
Print Assumptions C26_permute.

(** Outside their domain a debug build panics. *)
Theorem C26_debug_panics : forall size i, (size <= i \/ (1 < size /\ forall k, size <> 2 ^ k)) -> permute_index true size i = None.
Proof.
  intros size i [H|[H N]]; unfold permute_index.
  - destruct (Nat.ltb_spec i size); [lia|reflexivity].
  - destruct (i <? size); [|reflexivity]. cbn [dassert bind]. destruct (Nat.eqb_spec size 1); [lia|].
    destruct (is_power_of_two size) eqn:E; [|reflexivity]. exfalso. exact (N _ (is_pow2_inv _ E)).
Qed.
Print Assumptions C26_debug_panics.

Example C26_example : permute true [10; 11; 12; 13; 14; 15; 16; 17] = Some [10; 14; 12; 16; 11; 15; 13; 17] /\ permute_index true 8 3 = Some 6.
Proof. split; reflexivity. Qed.

(** ** C27, C28 *)
(** An order in which the row jobs of a transform of length 2^K may run: there are 2^(K/2) of them. *)
Definition schedule (K : nat) (order : list nat) : Prop := Permutation order (seq 0 (2 ^ (K / 2))).

(** Every entry of the transform, in bit-reversed order, with explicit root. *)
Theorem C27_fft_root : forall F (o : ops F), lawful o -> forall ml dbg std K order1 order2 v w,
  K < 64 -> length v = 2 ^ K -> primitive o w (2 ^ K) -> schedule K order1 -> schedule K order2 ->
  exists v', fft_root o ml dbg std order1 order2 v w = Some v' /\ length v' = 2 ^ K /\
  forall i j, i < 2 ^ K -> permute_index dbg (2 ^ K) i = Some j ->
    nth j v' (f0 o) = dft o (2 ^ K) w (fun m => nth m v (f0 o)) i.
Proof.
  intros F o L ml dbg std K order1 order2 v w HK Lv Pw S1 S2.
  destruct (fft_root_spec o L ml dbg std K order1 order2 v w HK Lv (proj1 Pw) (primitive_root_like o L K w Pw) S1 S2) as (v' & E & L' & H').
  exists v'. split; [exact E|]. split; [exact L'|]. intros i j Hi Ej. rewrite permute_index_spec in Ej by assumption. injection Ej as <-.
  rewrite H' by apply rev_lt. rewrite rev_rev by assumption. reflexivity.
Qed.
Print Assumptions C27_fft_root.

Section Inverse.
Context {F : Type} (o : ops F) (L : lawful o).
Add Field Ffield : (law_field o L).
Lemma fnat_pow2 K w : primitive o w (2 ^ K) -> fnat o (2 ^ K) <> f0 o.
Proof.
  intros Pw. destruct K as [|K0].
  - cbn. intros C. apply (f_1_neq_0 o L). rewrite <- C. ring.
  - assert (N2 : fnat o 2 <> f0 o).
    { intros C. cbn in C. pose proof (primitive_root_like o L _ w Pw ltac:(lia)) as R. destruct Pw as [_ P2].
      apply (P2 (2 ^ (S K0 - 1))).
      - replace (S K0 - 1) with K0 by lia. rewrite pow2_S. pose proof (pow2_pos K0). lia.
      - rewrite R. transitivity (fsub o (fadd o (f1 o) (fadd o (f1 o) (f0 o))) (f1 o)); [rewrite C; ring|ring]. }
    clear Pw. induction (S K0) as [|K IH]; [cbn; intros C; apply (f_1_neq_0 o L); rewrite <- C; ring|].
    rewrite pow2_S, (fnat_mul o L). apply (fmul_neq_0 o L); assumption.
Qed.
End Inverse.

(** The inverse transform: entry j (bit-reversed index i) is the sum of v_m * w^(-i*m), divided by the length. *)
Theorem C27_ifft : forall F (o : ops F), lawful o -> forall root_fn from_usize ml dbg std K order1 order2 v w,
  K < 64 -> length v = 2 ^ K -> root_fn (2 ^ K) = Some (Some w) -> primitive o w (2 ^ K) -> from_usize (2 ^ K) = Some (fnat o (2 ^ K)) ->
  schedule K order1 -> schedule K order2 ->
  exists v', ifft o root_fn from_usize ml dbg std order1 order2 v = Some v' /\ length v' = 2 ^ K /\
  forall i j, i < 2 ^ K -> permute_index dbg (2 ^ K) i = Some j ->
    fmul o (fnat o (2 ^ K)) (nth j v' (f0 o)) = dft o (2 ^ K) (finv o w) (fun m => nth m v (f0 o)) i.
Proof.
  intros F o L root_fn from_usize ml dbg std K order1 order2 v w HK Lv Hr Pw Hf S1 S2. unfold ifft. rewrite Lv, Hr. cbn [bind].
  pose proof (pow2_pos K) as P2. destruct (Nat.ltb_spec 0 (2 ^ K)); [|lia]. cbn [bind]. rewrite Hf. cbn [bind].
  pose proof (fnat_pow2 o L K w Pw) as N0. rewrite (inv_opt_ne o L) by assumption. cbn [bind].
  rewrite (pow_nat o L K) by lia.
  destruct (C27_fft_root F o L ml dbg std K order1 order2 v (fpw o w (2 ^ K - 1)) HK Lv (primitive_inv o L _ w P2 Pw) S1 S2) as (v' & -> & L' & H').
  cbn [bind]. eexists. split; [reflexivity|]. split; [rewrite map_length; exact L'|]. intros i j Hi Ej.
  assert (Hj : j < 2 ^ K) by (rewrite permute_index_spec in Ej by assumption; injection Ej as <-; apply rev_lt).
  rewrite (nth_map _ _ _ (f0 o)) by lia. rewrite (H' i j Hi Ej).
  assert (Iv : finv o w = fpw o w (2 ^ K - 1)).
  { symmetry. apply (finv_unique o L). rewrite <- (fpw_S o). replace (S (2 ^ K - 1)) with (2 ^ K) by lia. apply Pw. }
  rewrite Iv. pose proof (F_R (law_field o L)) as R. rewrite (Rmul_comm R _ (finv o _)), (Rmul_assoc R).
  rewrite (finv_r o L) by assumption. apply (Rmul_1_l R).
Qed.
Print Assumptions C27_ifft.

(** Forward transform, un-permute, inverse transform, un-permute: the identity. *)
Theorem C27_round_trip : forall F (o : ops F), lawful o -> forall root_fn from_usize ml dbg std K o1 o2 o3 o4 v w,
  K < 64 -> length v = 2 ^ K -> root_fn (2 ^ K) = Some (Some w) -> primitive o w (2 ^ K) -> from_usize (2 ^ K) = Some (fnat o (2 ^ K)) ->
  schedule K o1 -> schedule K o2 -> schedule K o3 -> schedule K o4 ->
  (let? u := fft o root_fn ml dbg std o1 o2 v in
   let? u := permute dbg u in
   let? u := ifft o root_fn from_usize ml dbg std o3 o4 u in
   permute dbg u) = Some v.
Proof.
  intros F o L root_fn from_usize ml dbg std K o1 o2 o3 o4 v w HK Lv Hr Pw Hf S1 S2 S3 S4.
  unfold fft. rewrite Lv, Hr. cbn [bind].
  destruct (C27_fft_root F o L ml dbg std K o1 o2 v w HK Lv Pw S1 S2) as (u1 & -> & L1 & H1). cbn [bind].
  destruct (permute_spec (f0 o) dbg K u1 HK L1) as (u2 & -> & L2 & H2). cbn [bind].
  destruct (C27_ifft F o L root_fn from_usize ml dbg std K o3 o4 u2 w HK L2 Hr Pw Hf S3 S4) as (u3 & -> & L3 & H3). cbn [bind].
  destruct (permute_spec (f0 o) dbg K u3 HK L3) as (u4 & -> & L4 & H4). f_equal.
  pose proof (pow2_pos K) as P2. pose proof (fnat_pow2 o L K w Pw) as N0.
  apply list_ext with (d := f0 o); [congruence|]. intros i Hi. rewrite L4 in Hi. rewrite H4 by assumption.
  apply (fmul_cancel_l o L (fnat o (2 ^ K))); [assumption|].
  rewrite (H3 i (rev_bits K i) Hi) by (apply permute_index_spec; assumption).
  assert (Iv : finv o w = fpw o w (2 ^ K - 1)).
  { symmetry. apply (finv_unique o L). rewrite <- (fpw_S o). replace (S (2 ^ K - 1)) with (2 ^ K) by lia. apply Pw. }
  rewrite Iv. rewrite (dft_ext o _ _ _ (fun j => dft o (2 ^ K) w (fun m => nth m v (f0 o)) j)).
  - apply (dft_inverse o L); assumption.
  - intros j Hj. rewrite H2 by assumption. apply H1; [assumption|]. apply permute_index_spec; assumption.
Qed.
Print Assumptions C27_round_trip.

(** The prime fields of the code meet the hypotheses for every 2^K that divides the order of the group. *)
Open Scope Z_scope.
Lemma order_primitive P (G : good P) w (n : nat) : (0 < n)%nat ->
  order_exactly (val (p_modulus P)) (fe_val w) (Z.of_nat n) -> primitive (fe_ops G) w n.
Proof.
  intros Hn [H1 H2]. assert (E : forall k : nat, fpw (fe_ops G) w k = f1 (fe_ops G) <-> fe_val w ^ Z.of_nat k mod val (p_modulus P) = 1).
  { intros k. rewrite <- (fexp_nat (fe_ops G) w k). pose proof (fe_exp_val G w (N.of_nat k)) as V. rewrite nat_N_Z in V. split.
    - intros Hk. rewrite Hk in V. rewrite <- V. apply (fe1_val G).
    - intros Hk. apply (fe_val_inj G). rewrite V, Hk. symmetry. apply (fe1_val G). }
  split; [apply E; exact H1|]. intros k Hk C. apply E in C. apply (H2 (Z.of_nat k)); [lia|exact C].
Qed.
Lemma fe_fnat_val P (G : good P) n : fe_val (fnat (fe_ops G) n) = Z.of_nat n mod val (p_modulus P).
Proof.
  pose proof (g_range_pos G) as Hm || idtac. induction n as [|n IH].
  - cbn [fnat]. transitivity 0; [apply (fe0_val G)|]. change (Z.of_nat 0) with 0. rewrite Z.mod_0_l; [reflexivity|].
    pose proof (fe_val_range G (fe0 G)). lia.
  - cbn [fnat]. change (fadd (fe_ops G)) with (fe_add (P := P)). rewrite (fe_add_val G), IH.
    change (f1 (fe_ops G)) with (fe1 G). rewrite (fe1_val G). rewrite Zplus_mod_idemp_r. f_equal. lia.
Qed.
Theorem C27_field : forall P (G : good P) g, constants_ok P (val (p_modulus P)) g -> forall K, (K < 64)%nat ->
  (2 ^ Z.of_nat K | val (p_modulus P) - 1) ->
  exists w, fe_root G (2 ^ K) = Some (Some w) /\ primitive (fe_ops G) w (2 ^ K) /\
  order_exactly (val (p_modulus P)) (fe_val w) (2 ^ Z.of_nat K) /\
  fe_from_usize G (2 ^ K) = Some (fnat (fe_ops G) (2 ^ K)).
Proof.
  intros P G g C K HK D. pose proof (pow2_pos K) as P2.
  pose proof (pow2_bound K (2 ^ K) HK (Nat.le_refl _)) as Bd. unfold B in Bd.
  assert (Ez : Z.of_nat (2 ^ K) = 2 ^ Z.of_nat K) by (rewrite Nat2Z.inj_pow; reflexivity).
  destruct (C21_root_usize P G g (Z.of_nat (2 ^ K)) C) as (r & E & Hr & Hw); [lia|].
  destruct r as [w|]; [|exfalso; apply (proj2 Hr); [rewrite Ez; exact D|reflexivity]].
  specialize (Hw w eq_refl). exists w. split; [exact E|]. split; [apply order_primitive; [lia|exact Hw]|]. split; [rewrite <- Ez; exact Hw|].
  unfold fe_from_usize. destruct C as (Cs & _).
  destruct (C23_from_unsigned P _ (Z.of_nat (2 ^ K)) Cs) as (x & -> & Rx); [lia|]. cbn [bind]. f_equal.
  apply (fe_val_inj G). rewrite fe_fnat_val. apply (lift_ok G (fe0 G) (Some x) x _ eq_refl Rx).
Qed.
Print Assumptions C27_field.
Open Scope nat_scope.

(** Evaluation on a coset: the transform of the scaled coefficients evaluates the polynomial at c * w^i. *)
Theorem C27_fft_cofactor : forall F (o : ops F), lawful o -> forall root_fn ml dbg std K order1 order2 v w c,
  K < 64 -> length v = 2 ^ K -> root_fn (2 ^ K) = Some (Some w) -> primitive o w (2 ^ K) -> schedule K order1 -> schedule K order2 ->
  exists v', fft_cofactor o root_fn ml dbg std order1 order2 v c = Some v' /\ length v' = 2 ^ K /\
  forall i j, i < 2 ^ K -> permute_index dbg (2 ^ K) i = Some j ->
    nth j v' (f0 o) = fsum o (map (fun m => fmul o (nth m v (f0 o)) (fpw o (fmul o c (fpw o w i)) m)) (seq 0 (2 ^ K))).
Proof.
  intros F o L root_fn ml dbg std K order1 order2 v w c HK Lv Hr Pw S1 S2. unfold fft_cofactor, fft.
  destruct (shift_by_spec o L c v) as [Ls Hs]. rewrite Ls, Lv, Hr. cbn [bind].
  destruct (C27_fft_root F o L ml dbg std K order1 order2 (shift_by o c v) w HK) as (v' & -> & L' & H'); [congruence|assumption|assumption|assumption|].
  exists v'. split; [reflexivity|]. split; [exact L'|]. intros i j Hi Ej. rewrite (H' i j Hi Ej). unfold dft. apply (fsum_map_ext o).
  intros m Hm. apply in_seq in Hm. rewrite Hs by lia. pose proof (F_R (law_field o L)) as R.
  rewrite (fpw_mul_base o L), <- (fpw_mul o L), (Rmul_assoc R). reflexivity.
Qed.
Print Assumptions C27_fft_cofactor.

(** Finding: [ifft_cofactor] scales its bit-reversed output by position, so coefficient i, which is
    at position j = reverse(i), is scaled by c^(-j) instead of c^(-i). *)
Theorem C27_ifft_cofactor_deviation : forall F (o : ops F), lawful o -> forall root_fn from_usize ml dbg std K order1 order2 v w c,
  K < 64 -> length v = 2 ^ K -> root_fn (2 ^ K) = Some (Some w) -> primitive o w (2 ^ K) -> from_usize (2 ^ K) = Some (fnat o (2 ^ K)) ->
  schedule K order1 -> schedule K order2 -> c <> f0 o ->
  exists u v', ifft o root_fn from_usize ml dbg std order1 order2 v = Some u /\
  ifft_cofactor o root_fn from_usize ml dbg std order1 order2 v c = Some v' /\ length v' = 2 ^ K /\
  forall j, j < 2 ^ K -> fmul o (nth j v' (f0 o)) (fpw o c j) = nth j u (f0 o).
Proof.
  intros F o L root_fn from_usize ml dbg std K order1 order2 v w c HK Lv Hr Pw Hf S1 S2 Nc.
  destruct (C27_ifft F o L root_fn from_usize ml dbg std K order1 order2 v w HK Lv Hr Pw Hf S1 S2) as (u & E & Lu & _).
  exists u. unfold ifft_cofactor. rewrite E. cbn [bind]. rewrite (inv_opt_ne o L) by assumption. cbn [bind].
  destruct (shift_by_spec o L (finv o c) u) as [Ls Hs]. eexists. split; [reflexivity|]. split; [reflexivity|]. split; [congruence|].
  intros j Hj. rewrite Hs by lia. pose proof (F_R (law_field o L)) as R. rewrite <- (Rmul_assoc R), <- (fpw_mul_base o L), (finv_l o L) by assumption.
  rewrite (fpw_one o L), (Rmul_comm R), (Rmul_1_l R). reflexivity.
Qed.
Print Assumptions C27_ifft_cofactor_deviation.

Definition tiny_fft := fft tiny_ops (fe_root tiny_good) 128 true true [0; 1] [1; 0].
Definition tiny_vals (r : option (list (fe tiny_field))) : option (list Z) := option_map (map fe_val) r.
Theorem C27_ifft_cofactor_refuted :
  tiny_vals (let? u := fft_cofactor tiny_ops (fe_root tiny_good) 128 true true [0; 1] [1; 0] [tiny 1; tiny 2; tiny 3; tiny 4] (tiny 5) in
   let? u := permute true u in
   let? u := ifft_cofactor tiny_ops (fe_root tiny_good) (fe_from_usize tiny_good) 128 true true [0; 1] [1; 0] u (tiny 5) in
   permute true u) <> Some [1%Z; 2%Z; 3%Z; 4%Z].
Proof. vm_compute. discriminate. Qed.
Print Assumptions C27_ifft_cofactor_refuted.

(** Finding: other lengths. A debug build panics; a release build of [fft] accepts any length that
    divides p - 1 and returns a vector that is not the transform. *)
Theorem C27_debug_length : forall F (o : ops F) root_fn ml std order1 order2 v, lawful o -> (forall k, length v <> 2 ^ k) -> (length v < 1024) ->
  fft o root_fn ml true std order1 order2 v = None.
Proof.
  intros F o root_fn ml std order1 order2 v L N Sm. unfold fft. destruct (root_fn (length v)) as [[w|]|]; [|reflexivity|reflexivity]. cbn [bind].
  unfold fft_root. destruct (Nat.leb_spec 1024 (length v)); [lia|]. rewrite andb_false_r. unfold get_twiddles.
  destruct (is_power_of_two (length v)) eqn:E; [exfalso; exact (N _ (is_pow2_inv _ E))|reflexivity].
Qed.
Print Assumptions C27_debug_length.
Theorem C27_release_length_refuted :
  match fe_root tiny_good 3 with
  | Some (Some w) => tiny_vals (Some (map (fun i => dft tiny_ops 3 w (fun m => nth m [tiny 1; tiny 2; tiny 3] (tiny 0)) i) [0; 1; 2])) = Some [6%Z; 60%Z; 34%Z]
  | _ => False
  end /\
  tiny_vals (fft tiny_ops (fe_root tiny_good) 128 false true [0] [0] [tiny 1; tiny 2; tiny 3]) = Some [3%Z; 96%Z; 3%Z].
Proof. split; vm_compute; reflexivity. Qed.
Print Assumptions C27_release_length_refuted.

(** C28: the parallel square-root transform gives exactly the vector of the recursive one, for every
    schedule of the row jobs of its two parallel phases, every loop threshold and both profiles. *)
Theorem C28_radix_sqrt : forall F (o : ops F), lawful o -> forall ml ml' dbg dbg' K order1 order2 v w,
  0 < K -> K < 64 -> length v = 2 ^ K -> primitive o w (2 ^ K) -> schedule K order1 -> schedule K order2 ->
  exists v', radix_sqrt o ml dbg order1 order2 v w = Some v' /\
  (let? twiddles := get_twiddles o dbg' w (2 ^ K) in fft_vec_recursive o 64 ml' dbg' v twiddles 0 1 1) = Some v' /\
  forall i j, i < 2 ^ K -> permute_index dbg (2 ^ K) i = Some j ->
    nth j v' (f0 o) = dft o (2 ^ K) w (fun m => nth m v (f0 o)) i.
Proof.
  intros F o L ml ml' dbg dbg' K order1 order2 v w K0 HK Lv Pw S1 S2. pose proof (primitive_root_like o L K w Pw) as Rt.
  destruct (radix_sqrt_spec o L ml dbg K order1 order2 v w K0 HK Lv (proj1 Pw) Rt S1 S2) as (v' & E & L' & H').
  destruct (fft_root_spec o L ml' dbg' false K order1 order2 v w HK Lv (proj1 Pw) Rt S1 S2) as (v2 & E2 & L2 & H2).
  unfold fft_root in E2. cbn [andb] in E2. rewrite Lv in E2.
  assert (v2 = v') by (apply list_ext with (d := f0 o); [congruence|]; intros i Hi; rewrite L2 in Hi; rewrite H', H2 by assumption; reflexivity).
  subst v2. exists v'. split; [exact E|]. split; [exact E2|]. intros i j Hi Ej. rewrite permute_index_spec in Ej by assumption. injection Ej as <-.
  rewrite H' by apply rev_lt. rewrite rev_rev by assumption. reflexivity.
Qed.
Print Assumptions C28_radix_sqrt.
(** Hence the transform of a slice does not depend on the feature, profile, threshold or schedule. *)
Theorem C28_independence : forall F (o : ops F), lawful o -> forall ml ml' dbg dbg' std std' K o1 o2 o1' o2' v w,
  K < 64 -> length v = 2 ^ K -> primitive o w (2 ^ K) -> schedule K o1 -> schedule K o2 -> schedule K o1' -> schedule K o2' ->
  fft_root o ml dbg std o1 o2 v w = fft_root o ml' dbg' std' o1' o2' v w.
Proof.
  intros F o L ml ml' dbg dbg' std std' K o1 o2 o1' o2' v w HK Lv Pw S1 S2 S3 S4. pose proof (primitive_root_like o L K w Pw) as Rt.
  destruct (fft_root_spec o L ml dbg std K o1 o2 v w HK Lv (proj1 Pw) Rt S1 S2) as (v1 & -> & L1 & H1).
  destruct (fft_root_spec o L ml' dbg' std' K o1' o2' v w HK Lv (proj1 Pw) Rt S3 S4) as (v2 & -> & L2 & H2).
  f_equal. apply list_ext with (d := f0 o); [congruence|]. intros i Hi. rewrite L1 in Hi. rewrite H1, H2 by assumption. reflexivity.
Qed.
Print Assumptions C28_independence.

Example C28_example : schedule 4 [2; 0; 3; 1] /\
  match fe_root tiny_good 16 with
  | Some (Some w) => primitive tiny_ops w (2 ^ 4) /\
    tiny_vals (radix_sqrt tiny_ops 2 true [2; 0; 3; 1] [3; 1; 0; 2] (map (fun i => tiny (Z.of_nat (i * i + 1))) (seq 0 16)) w)
    = tiny_vals (let? t := get_twiddles tiny_ops true w 16 in fft_vec_recursive tiny_ops 64 128 true (map (fun i => tiny (Z.of_nat (i * i + 1))) (seq 0 16)) t 0 1 1)
  | _ => False end.
Proof.
  split.
  - unfold schedule. cbn. apply NoDup_Permutation.
    + repeat constructor; cbn; lia.
    + repeat constructor; cbn; lia.
    + intros x. cbn. lia.
  - destruct (C27_field tiny_field tiny_good 5 tiny_constants 4 ltac:(lia)) as (w & E & Pw & _); [exists 6%Z; reflexivity|].
    change 16 with (2 ^ 4) at 1. rewrite E. split; [exact Pw|].
    destruct (C28_radix_sqrt _ tiny_ops tiny_lawful 2 128 true true 4 [2; 0; 3; 1] [3; 1; 0; 2] (map (fun i => tiny (Z.of_nat (i * i + 1))) (seq 0 16)) w) as (v' & E1 & E2 & _);
      [lia|lia|reflexivity|exact Pw| | |].
    1,2: unfold schedule; cbn; apply NoDup_Permutation; [repeat constructor; cbn; lia|repeat constructor; cbn; lia|intros x; cbn; lia].
    rewrite E1. change (get_twiddles tiny_ops true w 16) with (get_twiddles tiny_ops true w (2 ^ 4)). rewrite E2. reflexivity.
Qed.
Example C27_example : tiny_vals (tiny_fft [tiny 1; tiny 2; tiny 3; tiny 4]) = Some [10%Z; 95%Z; 51%Z; 42%Z].
Proof. vm_compute. reflexivity. Qed.

(** ** C29 *)
Theorem C29_transpose : forall A dbg (m : list A) size stretch, length m = size * size * stretch ->
  (stretch = 1 /\ size mod 2 = 0 \/ stretch = 2) ->
  exists m', transpose_square_stretch dbg m size stretch = Some m' /\
  (forall row col k, row < size -> col < size -> k < stretch ->
    nth_error m' ((row * size + col) * stretch + k) = nth_error m ((col * size + row) * stretch + k)) /\
  Permutation m m' /\ transpose_square_stretch dbg m' size stretch = Some m.
Proof.
  intros A dbg m size st Lm H. assert (D : m = [] \/ exists d : A, True) by (destruct m; [left; reflexivity|right; eauto]). destruct D as [->|[d _]].
  - exists []. assert (T : transpose_square_stretch dbg (@nil A) size st = Some []).
    { destruct (Nat.eq_dec size 0) as [->|N].
      - unfold transpose_square_stretch. destruct H as [[-> _]| ->]; destruct dbg; reflexivity.
      - exfalso. cbn in Lm. destruct H as [[-> _]| ->]; nia. }
    split; [exact T|]. split; [|split; [constructor|exact T]]. intros. rewrite !(proj2 (nth_error_None _ _)); [reflexivity|cbn; lia|cbn; lia].
  - assert (Tr : forall m : list A, length m = size * size * st -> exists m', transpose_square_stretch dbg m size st = Some m' /\ length m' = length m /\
      forall r c k, inr size st r c k -> nth_error m' (ix size st r c k) = nth_error m (ix size st c r k)).
    { intros u Lu. destruct (transpose_spec d dbg u size st Lu H) as (u' & E & L' & Hu). exists u'. split; [exact E|]. split; [exact L'|].
      intros r c k I. assert (I' : inr size st c r k) by (destruct I as (?&?&?); repeat split; assumption).
      pose proof (ix_lt size st u Lu r c k I). pose proof (ix_lt size st u Lu c r k I').
      rewrite (nth_error_nth' u' d) by lia. rewrite (nth_error_nth' u d) by lia. rewrite Hu by assumption. reflexivity. }
    destruct (Tr m Lm) as (m' & E & L' & Hm). exists m'. split; [exact E|]. split; [|split].
    + intros row col k H1 H2 H3. apply (Hm row col k). repeat split; assumption.
    + set (s := fun p => ix size st ((p / st) mod size) (p / st / size) (p mod st)).
      assert (S : forall r c k, inr size st r c k -> s (ix size st r c k) = ix size st c r k).
      { intros r c k (H1 & H2 & H3). unfold s, ix. rewrite Nat.div_add_l by lia. rewrite (Nat.div_small k) by assumption. rewrite Nat.add_0_r.
        rewrite (Nat.add_comm _ k), Nat.mod_add, (Nat.mod_small k) by lia.
        rewrite Nat.div_add_l by lia. rewrite (Nat.div_small c) by assumption. rewrite (Nat.add_comm _ c), Nat.mod_add, (Nat.mod_small c) by lia. lia. }
      assert (Sw : forall r c k, inr size st r c k -> inr size st c r k) by (intros r c k (?&?&?); repeat split; assumption).
      apply (perm_of_injection m' m s); [assumption| | |].
      * intros i Hi. destruct (ix_surj size st m Lm i Hi) as (r & c & k & I & ->). rewrite S by assumption. apply (ix_lt size st m Lm). apply Sw. assumption.
      * intros i j Hi Hj Eq. destruct (ix_surj size st m Lm i Hi) as (r & c & k & I & ->). destruct (ix_surj size st m Lm j Hj) as (r' & c' & k' & I' & ->).
        rewrite !S in Eq by assumption. apply ix_inj in Eq; [|apply Sw; assumption|apply Sw; assumption]. destruct Eq as (-> & -> & ->). reflexivity.
      * intros i Hi. destruct (ix_surj size st m Lm i Hi) as (r & c & k & I & ->). rewrite S by assumption. apply Hm. assumption.
    + destruct (Tr m' ltac:(congruence)) as (m2 & E2 & L2 & Hm2). rewrite E2. f_equal. apply list_ext with (d := d); [congruence|].
      intros i Hi. rewrite L2, L' in Hi. destruct (ix_surj size st m Lm i Hi) as (r & c & k & I & ->).
      assert (I' : inr size st c r k) by (destruct I as (?&?&?); repeat split; assumption).
      pose proof (ix_lt size st m Lm r c k I). specialize (Hm2 r c k I). rewrite (Hm c r k I') in Hm2.
      rewrite (nth_error_nth' m2 d) in Hm2 by lia. rewrite (nth_error_nth' m d) in Hm2 by lia. injection Hm2 as Hm2. exact Hm2.
Qed.
Print Assumptions C29_transpose.

(** Every other shape is rejected by a panic: wrong length, odd size without stretch, other stretches. *)
Theorem C29_panics : forall A dbg (m : list A) size stretch,
  (length m <> size * size * stretch \/ (stretch = 1 /\ size mod 2 <> 0) \/ (stretch <> 1 /\ stretch <> 2)) ->
  transpose_square_stretch dbg m size stretch = None.
Proof.
  intros A dbg m size st H. unfold transpose_square_stretch. destruct (Nat.eqb_spec (length m) (size * size * st)) as [E|]; [|reflexivity]. cbn [negb].
  destruct H as [H|[[-> H]|[H1 H2]]]; [contradiction| |].
  - unfold transpose_square_1. rewrite dassert_ok by (apply Nat.eqb_eq; lia). cbn [bind].
    destruct (Nat.eqb_spec (size mod 2) 0); [contradiction|reflexivity].
  - destruct st as [|[|[|st]]]; try reflexivity; contradiction.
Qed.
Print Assumptions C29_panics.
Example C29_example : transpose_square_stretch true [1; 2; 3; 4; 5; 6; 7; 8; 9; 10; 11; 12; 13; 14; 15; 16] 4 1
  = Some [1; 5; 9; 13; 2; 6; 10; 14; 3; 7; 11; 15; 4; 8; 12; 16] /\
  transpose_square_stretch true [1; 2; 3; 4; 5; 6; 7; 8] 2 2 = Some [1; 2; 5; 6; 3; 4; 7; 8] /\
  transpose_square_stretch false [1; 2; 3; 4; 5; 6; 7; 8; 9] 3 1 = None.
Proof. repeat split; reflexivity. Qed.

(** ** C56: shifted copies *)
Theorem C56_clone_shifted : forall F (o : ops F), lawful o -> forall dst src c,
  length (clone_shifted_serial o dst src c) = length dst /\
  forall i, i < length dst -> nth i (clone_shifted_serial o dst src c) (f0 o) =
    if i <? length src then fmul o (nth i src (f0 o)) (fpw o c i) else nth i dst (f0 o).
Proof.
  intros F o L dst src c. unfold clone_shifted_serial. destruct (zip_scale_spec o L (f1 o) c dst src) as [H1 H2]. split; [exact H1|].
  intros i Hi. rewrite H2 by assumption. rewrite (Rmul_1_l (F_R (law_field o L))). reflexivity.
Qed.
Print Assumptions C56_clone_shifted.

(** The rayon version, for every thread count and every order of its chunk jobs, is the serial one. *)
Theorem C56_parallel : forall F (o : ops F), lawful o -> forall threads order dst src c, 0 < threads ->
  (Z.of_nat (length src) < 2 ^ 64)%Z ->
  (let cs := Nat.max (Z.to_nat 1024) (length src / threads) in
   Permutation order (seq 0 (Nat.min (chunk_count cs (length dst)) (chunk_count cs (length src))))) ->
  clone_shifted_rayon o threads order dst src c = Some (clone_shifted_serial o dst src c).
Proof.
  intros F o L threads order dst src c Ht Hl Hp. cbv zeta in Hp. unfold clone_shifted_rayon. destruct (Nat.eqb_spec threads 0); [lia|].
  set (cs := Nat.max (Z.to_nat 1024) (length src / threads)) in *.
  assert (Hcs : 0 < cs) by (unfold cs; apply Nat.lt_le_trans with (Z.to_nat 1024); [lia|apply Nat.le_max_l]). clearbody cs. cbv zeta.
  destruct (par_chunks_spec cs (fun i d => Some (zip_scale o (pow_usize o c (Z.of_nat (i * cs))) c d (chunk cs i src))) order dst) as (v' & -> & L' & H').
  { apply (Permutation_NoDup (Permutation_sym Hp)). apply seq_NoDup. }
  { intros i _. eexists. split; [reflexivity|]. apply (zip_scale_spec o L). }
  f_equal. destruct (C56_clone_shifted F o L dst src c) as [Ls Hs]. apply list_ext with (d := f0 o); [congruence|].
  intros p Hp1. rewrite L' in Hp1. rewrite Hs by assumption.
  set (i := p / cs). set (j := p mod cs). assert (Ep : p = i * cs + j) by (unfold i, j; pose proof (Nat.div_mod p cs); lia).
  assert (Hj : j < cs) by (apply Nat.mod_upper_bound; lia). clearbody i j.
  assert (CC : forall n, i < chunk_count cs n <-> i * cs < n).
  { intros n0. unfold chunk_count. pose proof (Nat.div_mod (n0 + (cs - 1)) cs ltac:(lia)) as D. pose proof (Nat.mod_upper_bound (n0 + (cs - 1)) cs ltac:(lia)) as M.
    set (q := (n0 + (cs - 1)) / cs) in *. split; intros; nia. }
  assert (IO : In i order <-> i * cs < length dst /\ i * cs < length src).
  { rewrite <- !CC. split; intros Hi.
    - apply (Permutation_in _ Hp), in_seq in Hi. lia.
    - apply (Permutation_in _ (Permutation_sym Hp)). apply in_seq. lia. }
  destruct (H' i) as [Hin Hout]. rewrite Ep at 1. rewrite <- chunk_nth by assumption.
  destruct (Nat.ltb_spec (i * cs) (length src)) as [Is|Is].
  - assert (Hi : In i order) by (apply IO; lia). specialize (Hin Hi). injection Hin as <-.
    destruct (zip_scale_spec o L (pow_usize o c (Z.of_nat (i * cs))) c (chunk cs i dst) (chunk cs i src)) as [_ Hz].
    rewrite Hz by (rewrite chunk_length; lia). rewrite !chunk_length, !chunk_nth by assumption. rewrite <- Ep.
    rewrite (pow_usize_spec o L) by (unfold B; lia). replace (Z.to_N (Z.of_nat (i * cs))) with (N.of_nat (i * cs)) by lia. rewrite (fexp_nat o).
    rewrite <- (fpw_add o L), <- Ep. destruct (Nat.ltb_spec j (Nat.min cs (length src - i * cs))), (Nat.ltb_spec p (length src)); try lia; reflexivity.
  - rewrite Hout by (intros C; apply IO in C; lia). rewrite chunk_nth by assumption. rewrite <- Ep. destruct (Nat.ltb_spec p (length src)); [lia|reflexivity].
Qed.
Print Assumptions C56_parallel.
Example C56_example : tiny_vals (Some (clone_shifted_serial tiny_ops [tiny 0; tiny 0; tiny 0; tiny 9] [tiny 1; tiny 2; tiny 3] (tiny 5))) = Some [1%Z; 10%Z; 75%Z; 9%Z] /\
  tiny_vals (clone_shifted_rayon tiny_ops 4 [0] [tiny 0; tiny 0; tiny 0; tiny 9] [tiny 1; tiny 2; tiny 3] (tiny 5)) = Some [1%Z; 10%Z; 75%Z; 9%Z].
Proof. split; vm_compute; reflexivity. Qed.
