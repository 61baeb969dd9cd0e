(** C45: the query indices. *)
Require Import ZArith Lia Bool List Permutation Sorted.
From Verif Require Import Word U256Model U256Spec U256Proofs BinaryModel BinaryProofs EncodingSpec EncodingProofs KnuthModel MerkleSpec ChannelModel ChannelSpec ChannelProps QueryModel.
Import ListNotations.
Open Scope Z_scope.

(** ** Specification *)
(** Index number [j] of a coin with digest [d] and counter [k]: the 64 bit word number [j mod 4], most
    significant first, of the hash number [j / 4], reduced to [bits] bits. *)
Definition query_index (keccak : list Z -> list Z) (d : list Z) (k bits : Z) (j : nat) : Z :=
  (num 256 (challenge keccak d (k + Z.of_nat (j / 4))) / 2 ^ (192 - 64 * Z.of_nat (j mod 4))) mod 2 ^ bits.
(** ** Proofs *)
Lemma query_mask_ok dbg bits : 0 <= bits < 64 -> query_mask dbg bits = Some (Z.ones bits).
Proof. intros H. unfold query_mask. destruct (Z.ltb_spec bits 64); [|lia]. rewrite Z.ones_equiv. reflexivity. Qed.
Lemma low_bits y bits : wf y -> 0 <= bits < 64 -> Z.land (l0 y) (Z.ones bits) = val y mod 2 ^ bits.
Proof.
  intros Hy Hb. rewrite Z.land_ones by lia. rewrite val_B.
  replace (l0 y + B * l1 y + B * B * l2 y + B * B * B * l3 y) with (l0 y + ((l1 y + l2 y * B + l3 y * (B * B)) * 2 ^ (64 - bits)) * 2 ^ bits).
  - symmetry. apply Z.mod_add. apply Z.pow_nonzero; lia.
  - rewrite <- Z.mul_assoc, <- Z.pow_add_r by lia. replace (64 - bits + bits) with 64 by lia. change (2 ^ 64) with B. ring.
Qed.
Definition words (bits v : Z) : list Z := map (fun i => (v / 2 ^ (192 - 64 * Z.of_nat i)) mod 2 ^ bits) (seq 0 4).
Lemma v_chunk_ok dbg bits v : wf v -> 0 <= bits < 64 -> v_chunk dbg bits v = Some (words bits (val v)).
Proof.
  intros Hv Hb. unfold v_chunk. rewrite query_mask_ok by exact Hb. cbn [bind].
  assert (S : forall s, 0 <= s -> Z.land (l0 (u_shr v s)) (Z.ones bits) = (val v / 2 ^ s) mod 2 ^ bits).
  { intros s Hs. destruct (u_shr_spec v s Hv Hs) as [W1 <-]. apply low_bits; assumption. }
  rewrite !S by lia. rewrite low_bits by assumption. unfold words. cbn [seq map].
  change (192 - 64 * Z.of_nat 0) with (256 - 64). change (192 - 64 * Z.of_nat 1) with (256 - 128). change (192 - 64 * Z.of_nat 2) with (256 - 192).
  change (192 - 64 * Z.of_nat 3) with 0. rewrite Z.pow_0_r, Z.div_1_r. reflexivity.
Qed.
Lemma p_chunk_ok dbg bits v : wf v -> 0 <= bits < 64 -> p_chunk dbg bits v = Some (words bits (val v)).
Proof.
  intros Hv Hb. rewrite <- (v_chunk_ok dbg) by assumption. unfold p_chunk, v_chunk. destruct (query_mask dbg bits); [|reflexivity]. cbn [bind].
  assert (A : forall y, wf y -> as_uint 64 y = l0 y). { intros y (H & _). unfold as_uint. apply Z.mod_small. exact H. }
  rewrite !A; [reflexivity|exact Hv| | |]; apply u_shr_spec; (exact Hv || lia).
Qed.

Section Loop.
Context (dbg : bool) (keccak : list Z -> list Z) (HK : forall y, is_hash (keccak y)) (bits : Z) (Hb : 0 <= bits < 64) (chunk : u256 -> option (list Z)) (HC : forall v, wf v -> chunk v = Some (words bits (val v))).
Lemma words_index d k m : words bits (num 256 (challenge keccak d (k + Z.of_nat m))) = map (query_index keccak d k bits) (seq (4 * m) 4).
Proof.
  unfold words. assert (SA : forall n a b, seq (a + b) n = map (Nat.add a) (seq b n)).
  { induction n as [|n IH]; intros a b; [reflexivity|]. cbn [seq map]. f_equal. rewrite <- IH. f_equal. lia. }
  replace (4 * m)%nat with (m * 4 + 0)%nat by lia. rewrite SA.
  rewrite map_map. apply map_ext_in. intros i Hi. apply in_seq in Hi. unfold query_index.
  rewrite Nat.div_add_l, (Nat.div_small i 4), Nat.add_0_r, (Nat.add_comm (m * 4) i), Nat.mod_add, Nat.mod_small by lia. reflexivity.
Qed.
Lemma loop_ok d k num : 0 <= k -> k + Z.of_nat ((num + 3) / 4) < 2 ^ 64 -> forall fuel m, (num <= 4 * (m + fuel))%nat -> (m <= (num + 3) / 4)%nat ->
  indices_loop dbg keccak chunk fuel num (map (query_index keccak d k bits) (seq 0 (4 * m))) (Coin d (k + Z.of_nat m)) =
  Some (map (query_index keccak d k bits) (seq 0 (4 * ((num + 3) / 4))), Coin d (k + Z.of_nat ((num + 3) / 4))).
Proof.
  intros Hk Hn. change (2 ^ 64) with B in Hn. pose proof (Nat.div_mod (num + 3) 4 ltac:(lia)) as DM. pose proof (Nat.mod_upper_bound (num + 3) 4 ltac:(lia)) as MB.
  set (t := ((num + 3) / 4)%nat) in *. set (r := ((num + 3) mod 4)%nat) in *. clearbody t r.
  assert (Done : forall fuel, indices_loop dbg keccak chunk fuel num (map (query_index keccak d k bits) (seq 0 (4 * t))) (Coin d (k + Z.of_nat t)) = Some (map (query_index keccak d k bits) (seq 0 (4 * t)), Coin d (k + Z.of_nat t))).
  { intros fuel. destruct fuel; cbn [indices_loop]; rewrite map_length, seq_length; destruct (Nat.ltb_spec (4 * t) num); try lia; reflexivity. }
  induction fuel as [|fuel IH]; intros m Hf Hm.
  - replace m with t by lia. apply Done.
  - destruct (Nat.eq_dec m t) as [->|N]; [apply Done|]. cbn [indices_loop]. rewrite map_length, seq_length.
    destruct (Nat.ltb_spec (4 * m) num) as [_|H]; [|lia].
    unfold draw_u256, draw_bytes. cbn [counter digest]. rewrite incr_ok by lia. cbn [bind]. fold (challenge keccak d (k + Z.of_nat m)).
    destruct (HK (d ++ repeat 0 24 ++ u64_to_be (k + Z.of_nat m))) as [L32 Dg]. fold (challenge keccak d (k + Z.of_nat m)) in L32, Dg.
    destruct (from_bytes_be_spec _ L32 Dg) as [Wv Vv]. rewrite HC by exact Wv. cbn [bind]. rewrite Vv, words_index, <- map_app.
    replace (seq 0 (4 * m) ++ seq (4 * m) 4) with (seq 0 (4 * S m)) by (rewrite <- seq_app; f_equal; lia).
    replace (k + Z.of_nat m + 1) with (k + Z.of_nat (S m)) by lia. apply IH; lia.
Qed.
Lemma get_indices_ok sort d k num : 0 <= k -> k + Z.of_nat ((num + 3) / 4) < 2 ^ 64 ->
  get_indices dbg keccak sort chunk num (Coin d k) = Some (sort (map (query_index keccak d k bits) (seq 0 num)), Coin d (k + Z.of_nat ((num + 3) / 4))).
Proof.
  intros Hk Hn. unfold get_indices. pose proof (loop_ok d k num Hk Hn num 0 ltac:(lia) ltac:(lia)) as E.
  rewrite Nat.mul_0_r in E. cbn [seq map] in E. rewrite Z.add_0_r in E. rewrite E. rewrite firstn_map.
  pose proof (Nat.div_mod (num + 3) 4 ltac:(lia)) as DM. pose proof (Nat.mod_upper_bound (num + 3) 4 ltac:(lia)) as MB.
  replace (4 * ((num + 3) / 4))%nat with (num + (4 * ((num + 3) / 4) - num))%nat by lia. rewrite seq_app, firstn_app, firstn_all2, seq_length, Nat.sub_diag by (rewrite seq_length; lia).
  cbn [firstn]. rewrite app_nil_r. reflexivity.
Qed.
End Loop.
Lemma sorted_unique (a b : list Z) : StronglySorted Z.le a -> StronglySorted Z.le b -> Permutation a b -> a = b.
Proof.
  revert b. induction a as [|x a IH]; intros b Sa Sb P.
  - apply Permutation_nil in P. congruence.
  - destruct b as [|y b]; [apply Permutation_sym, Permutation_nil in P; discriminate|].
    apply StronglySorted_inv in Sa, Sb. destruct Sa as [Sa Fa], Sb as [Sb Fb].
    assert (x = y).
    { assert (Ix : In x (y :: b)) by (apply (Permutation_in _ P); left; reflexivity).
      assert (Iy : In y (x :: a)) by (apply (Permutation_in _ (Permutation_sym P)); left; reflexivity).
      rewrite Forall_forall in Fa, Fb. destruct Ix as [->|Ix]; [reflexivity|]. destruct Iy as [->|Iy]; [reflexivity|].
      apply Fb in Ix. apply Fa in Iy. lia. }
    subst y. f_equal. apply IH; auto. apply Permutation_cons_inv in P. exact P.
Qed.

(** ** Theorems *)
(** From one coin state, and whatever sorting functions they use, prover and verifier derive the same list: the
    first [num] words of the hashes drawn, each reduced below the domain size, sorted. Both leave the coin in
    the same state, having drawn a quarter of [num] hashes. *)
Theorem C45_indices : forall dbg keccak sort_p sort_v size d k num bits, (forall y, is_hash (keccak y)) ->
  sorts (fun x => x) sort_p -> sorts (fun x => x) sort_v -> 0 <= bits < 64 -> size = 2 ^ bits -> 0 <= k -> k + Z.of_nat ((num + 3) / 4) < 2 ^ 64 ->
  p_query_bits dbg size = Some bits /\ v_query_bits size = bits /\
  exists l, p_get_indices dbg keccak sort_p num bits (Coin d k) = Some (l, Coin d (k + Z.of_nat ((num + 3) / 4))) /\
    v_get_indices dbg keccak sort_v num bits (Coin d k) = Some (l, Coin d (k + Z.of_nat ((num + 3) / 4))) /\
    length l = num /\ StronglySorted Z.le l /\ Forall (fun i => 0 <= i < size) l /\
    Permutation l (map (query_index keccak d k bits) (seq 0 num)).
Proof.
  intros dbg keccak sort_p sort_v size d k num bits HK Sp Sv Hb -> Hk Hn. pose proof (Z.pow_pos_nonneg 2 bits ltac:(lia) ltac:(lia)) as P2.
  assert (PW : 2 ^ bits < B) by (change B with (2 ^ 64); apply Z.pow_lt_mono_r; lia).
  split; [|split].
  - unfold p_query_bits. rewrite clz64_log, Z.log2_pow2 by lia. destruct (Z.leb_spec (63 - bits) 63); [|lia]. f_equal. lia.
  - unfold v_query_bits. destruct (ctz64_spec (2 ^ bits) P2) as (C0 & o & E).
    destruct (Z.lt_trichotomy bits (ctz64 (2 ^ bits))) as [H|[H|H]]; [|congruence|]; exfalso; set (t := ctz64 (2 ^ bits)) in *; clearbody t.
    + replace t with (bits + (t - bits)) in E by lia. rewrite Z.pow_add_r, Z.mul_assoc, (Z.mul_comm _ (2 ^ bits)), <- Z.mul_assoc in E by lia.
      assert (E1 : 1 = (2 * o + 1) * 2 ^ (t - bits)) by (apply (Z.mul_cancel_l _ _ (2 ^ bits)); lia). replace (t - bits) with (1 + (t - bits - 1)) in E1 by lia.
      rewrite Z.pow_add_r in E1 by lia. change (2 ^ 1) with 2 in E1. lia.
    + replace bits with ((bits - t - 1) + 1 + t) in E at 1 by lia. rewrite !Z.pow_add_r in E by lia. apply Z.mul_cancel_r in E; [|apply Z.pow_nonzero; lia]. change (2 ^ 1) with 2 in E. lia.
  - set (q := map (query_index keccak d k bits) (seq 0 num)). destruct (Sp q) as [Pp Sop]. destruct (Sv q) as [Pv Sov]. exists (sort_p q).
    assert (E : sort_v q = sort_p q). { apply sorted_unique; [exact Sov|exact Sop|]. eapply Permutation_trans; [apply Permutation_sym, Pv|exact Pp]. }
    split; [|split; [|split; [|split; [|split]]]].
    + apply get_indices_ok; auto. intros v Hv. apply p_chunk_ok; auto.
    + rewrite <- E. apply get_indices_ok; auto. intros v Hv. apply v_chunk_ok; auto.
    + rewrite <- (Permutation_length Pp). unfold q. rewrite map_length, seq_length. reflexivity.
    + exact Sop.
    + apply (Permutation_Forall Pp). unfold q. rewrite Forall_map, Forall_forall. intros j _. unfold query_index. apply Z.mod_pos_bound. exact P2.
    + apply Permutation_sym, Pp.
Qed.
Print Assumptions C45_indices.
(** Deviation: the list is not duplicate free. With more queries than points there is always a duplicate, and
    equal words are never merged. *)
Theorem C45_duplicates_deviation : forall dbg keccak sort d k num bits l c, (forall y, is_hash (keccak y)) -> sorts (fun x => x) sort ->
  0 <= bits < 64 -> 0 <= k -> k + Z.of_nat ((num + 3) / 4) < 2 ^ 64 -> v_get_indices dbg keccak sort num bits (Coin d k) = Some (l, c) ->
  (2 ^ bits < Z.of_nat num -> ~ NoDup l) /\
  ((exists i j, (i < j < num)%nat /\ query_index keccak d k bits i = query_index keccak d k bits j) <-> ~ NoDup l).
Proof.
  intros dbg keccak sort d k num bits l c HK Ss Hb Hk Hn E. destruct (C45_indices dbg keccak sort sort (2 ^ bits) d k num bits HK Ss Ss Hb eq_refl Hk Hn) as (_ & _ & l' & _ & E' & Ll & _ & Fl & P).
  rewrite E' in E. injection E as <- _. split.
  - intros H N. assert (Le : (length l' <= length (map Z.of_nat (seq 0 (Z.to_nat (2 ^ bits)))))%nat).
    { apply NoDup_incl_length; [exact N|]. intros x Hx. rewrite Forall_forall in Fl. apply Fl in Hx. apply in_map_iff. exists (Z.to_nat x). split; [lia|]. apply in_seq. lia. }
    rewrite map_length, seq_length in Le. lia.
  - split.
    + intros (i & j & Hij & Eq) N. apply (Permutation_NoDup P) in N. rewrite (NoDup_nth _ 0) in N. rewrite map_length, seq_length in N.
      assert (i = j); [|lia]. apply N; try lia. assert (A : forall a, (a < num)%nat -> nth a (map (query_index keccak d k bits) (seq 0 num)) 0 = query_index keccak d k bits a).
      { intros a Ha. rewrite (nth_indep _ 0 (query_index keccak d k bits 0)) by (rewrite map_length, seq_length; exact Ha). rewrite map_nth, seq_nth by exact Ha. reflexivity. }
      rewrite !A by lia. exact Eq.
    + intros N. set (f := query_index keccak d k bits) in *. assert (N' : ~ NoDup (map f (seq 0 num))) by (intros H; apply N, (Permutation_NoDup (Permutation_sym P)), H). clear - N'.
      assert (G : forall n, (exists i j, (i < j < n)%nat /\ f i = f j) \/ NoDup (map f (seq 0 n))).
      { induction n as [|n IH]; [right; constructor|]. destruct IH as [(i & j & H & Ef)|IH]; [left; exists i, j; split; [lia|exact Ef]|].
        rewrite seq_S, map_app. cbn [map Nat.add]. destruct (in_dec Z.eq_dec (f n) (map f (seq 0 n))) as [Hin|Hin].
        - left. apply in_map_iff in Hin. destruct Hin as (i & Ei & Hi). apply in_seq in Hi. exists i, n. split; [lia|exact Ei].
        - right. apply (Permutation_NoDup (l := f n :: map f (seq 0 n))); [apply Permutation_cons_append|]. constructor; assumption. }
      destruct (G num) as [H|H]; [exact H|contradiction].
Qed.
Print Assumptions C45_duplicates_deviation.

(** Two passes, six indices below 16, with the third word of the first hash met again. *)
Fixpoint insert_z (x : Z) (l : list Z) : list Z := match l with [] => [x] | y :: r => if x <=? y then x :: l else y :: insert_z x r end.
Definition isort (l : list Z) : list Z := fold_right insert_z [] l.
Lemma isort_sorts : sorts (fun x => x) isort.
Proof.
  assert (I : forall x l, Permutation (x :: l) (insert_z x l) /\ (StronglySorted Z.le l -> StronglySorted Z.le (insert_z x l))).
  { intros x l. induction l as [|y l [IP IS]]; cbn [insert_z]; [split; [reflexivity|intros _; repeat constructor]|].
    destruct (Z.leb_spec x y) as [H|H].
    - split; [reflexivity|]. intros Sl. constructor; [exact Sl|]. apply StronglySorted_inv in Sl. destruct Sl as [_ Fl]. constructor; [exact H|]. eapply Forall_impl; [|exact Fl]. cbn. lia.
    - split; [eapply Permutation_trans; [apply perm_swap|]; constructor; exact IP|]. intros Sl. apply StronglySorted_inv in Sl. destruct Sl as [Sl Fl]. constructor; [exact (IS Sl)|].
      apply (Permutation_Forall IP). constructor; [lia|exact Fl]. }
  intros l. induction l as [|x l [IP IS]]; [split; constructor|]. cbn [isort fold_right]. fold (isort l). destruct (I x (isort l)) as [P1 S1]. split; [|exact (S1 IS)].
  eapply Permutation_trans; [constructor; exact IP|exact P1].
Qed.
Definition toy_hash (m : list Z) : list Z := map (fun i => (fold_left Z.add m 0 * 7 + Z.of_nat i) mod 256) (seq 0 32).
Lemma toy_is_hash m : is_hash (toy_hash m).
Proof.
  split; [unfold toy_hash; rewrite map_length, seq_length; reflexivity|]. unfold toy_hash. rewrite Forall_map, Forall_forall. intros i _. red. apply Z.mod_pos_bound. lia.
Qed.
Example C45_ex :
  p_get_indices true toy_hash isort 6 4 (Coin [1; 2] 0) = Some ([3; 4; 4; 11; 12; 12], Coin [1; 2] 2) /\
  v_get_indices false toy_hash isort 6 4 (Coin [1; 2] 0) = Some ([3; 4; 4; 11; 12; 12], Coin [1; 2] 2) /\
  map (query_index toy_hash [1; 2] 0 4) (seq 0 6) = [12; 4; 12; 4; 3; 11].
Proof. vm_compute. auto. Qed.
