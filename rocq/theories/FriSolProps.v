(** The contract folds the FRI layers as the library: contracts/fri.sol, primefield.sol, utils.sol. *)
Require Import ZArith Arith Lia Bool List Sorting.Sorted.
From Verif Require Import Word KnuthModel FieldSig FieldInstance FieldAlgModel Arr FftModel FftSpec StarkBase PolyModel PolyProps StarkInstance FriModel ContractModel FriSolModel FriSolProofs FriSolBits.
Import ListNotations.
Open Scope Z_scope.

(** A word of the contract stands for the element of the field with this value. *)
Definition word (u : Felt) : Z := fe_val u.
(** The evaluation domain of size [2 ^ n]: the point at position [q], in bit reversed order, as in the library *)
Definition point (n q : nat) : Felt := fpw felt_ops (fe_w proth_good n) (rev_bits n q).
(** What the contract keeps for the position [q] of a layer of size [2 ^ n]: the position, the value and the inverse of the point *)
Definition kept (n : nat) (v : nat -> Felt) (q : nat) : Z * Z * Z := (Z.of_nat q, word (v q), word (finv felt_ops (point n q))).
(** The positions of the coset number [i] of size [2 ^ m] *)
Definition coset_positions (m i : nat) : list nat := seq (i * 2 ^ m) (2 ^ m).
Definition increasing (l : list nat) : Prop := StronglySorted lt l.

(** ** One coset *)
(** Whatever the coset holds, the contract folds it to the value of the library's verifier, and gets the inverse of the
    point of the folded value. [eval_x] and [K0] are the domain of the first layer, [m + K] the layer folded. *)
Theorem C72_coset : forall dbg K0 eval_x, (K0 <= 63)%nat -> eval_x = map (fun i => fpw felt_ops (fe_w proth_good K0) i) (seq 0 (2 ^ K0)) ->
  forall m K coset c i, (1 <= m <= 3 -> m + K <= K0 -> length coset = 2 ^ m -> i < 2 ^ K ->
  exists y, fri_fold felt_ops dbg coset c (2 ^ (K0 - (m + K))) (2 ^ m / 2 * i) (2 ^ (m + K)) eval_x = Some y /\
  fold_coset (map word coset) (word (finv felt_ops (point (m + K) (i * 2 ^ m)))) (word c) = Some (word y, word (finv felt_ops (point K i))))%nat.
Proof.
  intros dbg K0 eval_x HK0 Hx m K coset c i Hm HK Lc Hi. destruct (fold_coset_spec dbg K0 eval_x HK0 Hx m K coset c i Hm HK Lc Hi) as (y & E1 & E2). exists y. split; [exact E1|].
  unfold point. rewrite <- pt_point. exact E2.
Qed.
Print Assumptions C72_coset.

(** ** One layer *)
(** [v] is any layer; the contract is given its values at the increasing positions [qs], and, in order, those at the other
    positions of the cosets that they meet, the cosets [is_]. Then it goes over exactly these cosets, with their values, which
    it hashes for the Merkle proof, and keeps for each the library's fold. What it keeps is the input for the next layer. *)
Theorem C72_layer : forall dbg K0 eval_x, (K0 <= 63)%nat -> eval_x = map (fun i => fpw felt_ops (fe_w proth_good K0) i) (seq 0 (2 ^ K0)) ->
  forall m K (v : nat -> Felt) c qs is_ ext, (1 <= m <= 3 -> m + K <= K0 -> increasing qs -> increasing is_ -> (forall q, In q qs -> q < 2 ^ (m + K)) ->
  (forall i, In i is_ <-> exists q, In q qs /\ q / 2 ^ m = i) ->
  exists v', (forall i, In i is_ -> fri_fold felt_ops dbg (map v (coset_positions m i)) c (2 ^ (K0 - (m + K))) (2 ^ m / 2 * i) (2 ^ (m + K)) eval_x = Some (v' i)) /\
  fold_layer (length qs) (2 ^ m) (word c) (map (kept (m + K) v) qs)
    (map (fun j => word (v j)) (filter (fun j => negb (existsb (Nat.eqb j) qs)) (flat_map (coset_positions m) is_)) ++ ext) =
  Some (map (fun i => (map (fun j => word (v j)) (coset_positions m i), kept K v' i)) is_))%nat.
Proof.
  intros dbg K0 eval_x HK0 Hx m K v c qs is_ ext Hm HK Sq Si Hq Hi. exists (lib_fold dbg K0 eval_x m K v c).
  assert (HiK : (forall i, In i is_ -> i < 2 ^ K)%nat).
  { intros i Ii. apply Hi in Ii as (q & Iq & E). specialize (Hq q Iq). rewrite <- E. apply Nat.div_lt_upper_bound; [apply Nat.pow_nonzero; discriminate|]. rewrite <- Nat.pow_add_r. exact Hq. }
  split; [intros i Ii; exact (proj1 (lib_fold_some dbg K0 eval_x HK0 Hx m K Hm HK v c i (HiK i Ii)))|].
  assert (Fe : filter (fun j => negb (existsb (Nat.eqb j) qs)) (flat_map (coset_positions m) is_) = filter (absent qs) (flat_map (coset_positions m) is_)).
  { apply filter_ext. intros j. unfold absent. destruct (in_dec Nat.eq_dec j qs) as [I|N].
    - apply negb_false_iff, existsb_exists. exists j. split; [exact I|apply Nat.eqb_refl].
    - apply negb_true_iff. destruct (existsb (Nat.eqb j) qs) eqn:E; [|reflexivity]. apply existsb_exists in E as (x & Ix & E). apply Nat.eqb_eq in E. subst x. contradiction. }
  rewrite Fe. exact (fold_layer_spec dbg K0 eval_x HK0 Hx m K Hm HK v c is_ qs (length qs) ext Sq Si Hi HiK (Nat.le_refl _)).
Qed.
Print Assumptions C72_layer.

(** ** The first and the last layer *)
(** What is kept for the first layer is computed from the position alone; the generator of each layer is the library's root. *)
Theorem C72_points : (forall n q, (n <= 40)%nat -> (q < 2 ^ n)%nat -> init_x_inv (Z.of_nat q) (Z.of_nat n) = Some (word (finv felt_ops (point n q)))) /\
  (forall n, (n <= 63)%nat -> root (2 ^ Z.of_nat n) = Some (word (fe_w proth_good n)) /\ eroot felt_engine (2 ^ n) = Some (Some (fe_w proth_good n))) /\
  (forall m K, (m + K <= 63)%nat -> next_generator (word (fe_w proth_good (m + K))) (2 ^ Z.of_nat m) = word (fe_w proth_good K)).
Proof.
  split; [exact init_spec|]. split; [|exact generator_spec]. intros n Hn. split; [exact (root_spec n Hn)|]. exact (s_root _ _ _ _ felt_sound n Hn).
Qed.
Print Assumptions C72_points.
(** The contract accepts a value against the coefficients of the last layer when the library does. *)
Theorem C72_last_layer : forall dbg K coefficients q y, (K <= 40)%nat -> (q < 2 ^ K)%nat -> (exists d, length coefficients = 2 ^ d)%nat ->
  last_check felt_ops dbg (2 ^ K) (fe_w proth_good K) coefficients q y = Some (last_layer_check (word (fe_w proth_good K)) (Z.of_nat K) (map word coefficients) (Z.of_nat q) (word y)).
Proof. exact last_spec. Qed.
Print Assumptions C72_last_layer.

(** ** The parts *)
(** The evaluation of a polynomial with unrolled loop and unreduced sums is its value, for all words that leave room for a sum. *)
Theorem C72_horner : forall coefficients x, Forall (fun c => 0 <= c < 2 ^ 256 - MODULUS) coefficients ->
  horner_eval coefficients x = fold_right (fun c r => c + x * r) 0 coefficients mod MODULUS.
Proof. intros l x H. exact (horner_spec x l H). Qed.
Print Assumptions C72_horner.
(** Reversal of bits: both functions; the fast one for up to 40 bits. *)
Theorem C72_bits : (forall k n, (k <= 256)%nat -> bit_reverse (Z.of_nat n) k = Z.of_nat (rev_bits k n)) /\
  (forall k n, (k <= 40)%nat -> Z.of_nat n < 2 ^ Z.of_nat k -> bit_reverse2 (Z.of_nat n) (Z.of_nat k) = Z.of_nat (rev_bits k n)) /\
  (forall d, 0 < d < 2 ^ 64 -> 2 ^ num_bits d <= d < 2 ^ (num_bits d + 1)).
Proof.
  split; [|split].
  - intros k n Hk. unfold bit_reverse. rewrite (bit_reverse_loop_spec k n 0 0); [apply Z.add_0_l|split; [lia|reflexivity]|lia|lia].
  - exact bit_reverse2_spec.
  - intros d Hd. rewrite num_bits_spec by exact Hd. rewrite Z.add_1_r. apply Z.log2_spec. lia.
Qed.
Print Assumptions C72_bits.

(** ** Where they differ *)
(** The library folds each coset once. When a query was drawn twice, the contract goes over its coset a second time: the
    values that complete the coset once do not suffice, and it reverts. *)
Theorem C72_duplicate_refuted : forall fuel a b x c, fold_layer fuel 2 c [(0, a, x); (0, a, x)] [b] = None /\ fold_layer (S fuel) 2 c [(0, a, x)] [b] <> None.
Proof.
  intros fuel a b x c. split; [|destruct fuel; discriminate]. destruct fuel as [|[|fuel]]; reflexivity.
Qed.
Print Assumptions C72_duplicate_refuted.
(** A layout entry of 0 is accepted, and leaves 0 as the inverse of the point: all later folds ignore the odd part. *)
Theorem C72_layout_refuted : forall a x c, fold_coset [a] x c = Some (a, 0) /\ forall p0 p1 c', 0 <= p0 < MODULUS -> 0 <= p1 < MODULUS -> fold_coset [p0; p1] 0 c' = Some ((p0 + p1) mod MODULUS, 0).
Proof.
  intros a x c. split; [reflexivity|]. intros p0 p1 c' H0 H1. assert (M2 : 2 * MODULUS < 2 ^ 256) by reflexivity. unfold fold_coset, fold, y_addmod, y_mulmod, wrap. change (MODULUS =? 0) with false. cbn iota.
  rewrite Z.mul_0_r, Z.mod_0_l, Z.mul_0_l, Z.mod_0_l by discriminate. rewrite Z.add_0_r, (Z.mod_small (p0 + p1) (2 ^ 256)) by lia. reflexivity.
Qed.
Print Assumptions C72_layout_refuted.
(** Nothing checks that the words of a proof are reduced. For words above the bound the sums overflow and the results are
    not the value in the field. *)
Theorem C72_unreduced_refuted : horner_eval [0; 2 ^ 256 - 1; 1] 1 <> (0 + (2 ^ 256 - 1) + 1) mod MODULUS /\ fold (2 ^ 256 - 1) 1 0 <> (2 ^ 256 - 1 + 1) mod MODULUS /\
  fold 0 (MODULUS + 1) 1 <> (0 + (MODULUS + 1) + 1 * (0 - (MODULUS + 1))) mod MODULUS.
Proof. split; [|split]; intros E; vm_compute in E; discriminate. Qed.
Print Assumptions C72_unreduced_refuted.

(** ** A case: queries 1, 2 and 5 of a layer of sixteen values, folded in cosets of four *)
Example C72_ex : forall (v : nat -> Felt) c, exists v', fold_layer 3 4 (word c) (map (kept 4 v) [1; 2; 5]%nat) (map (fun j => word (v j)) [0; 3; 4; 6; 7]%nat) =
  Some [(map (fun j => word (v j)) [0; 1; 2; 3]%nat, kept 2 v' 0); (map (fun j => word (v j)) [4; 5; 6; 7]%nat, kept 2 v' 1)].
Proof.
  intros v c. destruct (C72_layer true 4 _ ltac:(lia) eq_refl 2 2 v c [1; 2; 5]%nat [0; 1]%nat [] ltac:(lia) ltac:(lia)) as (v' & _ & E).
  - repeat constructor.
  - repeat constructor.
  - intros q Hq. cbn in Hq. change (2 ^ (2 + 2))%nat with 16%nat. lia.
  - intros i. split.
    + intros [<-|[<-|[]]]; [exists 1%nat|exists 5%nat]; (split; [cbn; tauto|reflexivity]).
    + intros (q & [<-|[<-|[<-|[]]]] & <-); cbn; tauto.
  - exists v'. rewrite app_nil_r in E. exact E.
Qed.
Example C72_numbers : fold_coset [1; 2; 3; 4; 5; 6; 7; 8] 7 11 = Some (2351963772586490629364689976148042782413124361669922584212831859082794155911, 7 ^ 8) /\ horner_eval [1; 2; 3; 4; 5; 6; 7; 8; 9; 10; 11] 10 = 120987654321 /\ bit_reverse2 6 4 = 6 /\ bit_reverse2 1 20 = 2 ^ 19 /\ num_bits (2 ^ 20) = 20.
Proof. repeat split; vm_compute; reflexivity. Qed.
