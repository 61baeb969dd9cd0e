(** Facts about the tree indices of MerkleModel. *)
Require Import ZArith Arith Lia Bool List.
From Verif Require Import Word U256Proofs KnuthModel KnuthProofs BinaryModel BinaryProofs Arr MerkleModel MerkleSpec.
Import ListNotations.
Open Scope Z_scope.

Lemma pow_pos' d : 0 <= d -> 0 < 2 ^ d. Proof. intros. apply Z.pow_pos_nonneg; lia. Qed.
Lemma pow_S d : 0 <= d -> 2 ^ (d + 1) = 2 * 2 ^ d. Proof. intros. rewrite Z.pow_add_r by lia. lia. Qed.
Lemma pow_le a b : 0 <= a <= b -> 2 ^ a <= 2 ^ b. Proof. intros. apply Z.pow_le_mono_r; lia. Qed.
Lemma log2_node d k : 0 <= d -> 0 <= k < 2 ^ d -> Z.log2 (2 ^ d + k) = d.
Proof. intros. apply Z.log2_unique; [lia|]. replace (Z.succ d) with (d + 1) by lia. rewrite pow_S by lia. lia. Qed.
Lemma node_inv x : valid_index x -> exists d k, 0 <= d < 64 /\ 0 <= k < 2 ^ d /\ x = 2 ^ d + k.
Proof.
  intros V. exists (Z.log2 x), (x - 2 ^ Z.log2 x).
  pose proof (Z.log2_spec x ltac:(unfold valid_index in V; lia)) as [A1 A2]. pose proof (Z.log2_nonneg x).
  replace (Z.succ (Z.log2 x)) with (Z.log2 x + 1) in A2 by lia. rewrite pow_S in A2 by lia.
  assert (Z.log2 x < 64). { apply Z.log2_lt_pow2; [unfold valid_index in V; lia|apply V]. }
  lia.
Qed.
Lemma node_valid d k : 0 <= d < 64 -> 0 <= k < 2 ^ d -> valid_index (2 ^ d + k).
Proof.
  intros Hd Hk. unfold valid_index. pose proof (pow_le (d + 1) 64 ltac:(lia)) as A. rewrite pow_S in A by lia.
  pose proof (pow_pos' d). lia.
Qed.
Lemma depth_log x : valid_index x -> i_depth x = Z.log2 x.
Proof. intros [V _]. unfold i_depth. rewrite clz64_log by lia. lia. Qed.
Lemma depth_node d k : 0 <= d < 64 -> 0 <= k < 2 ^ d -> i_depth (2 ^ d + k) = d.
Proof. intros Hd Hk. rewrite depth_log by (apply node_valid; assumption). apply log2_node; lia. Qed.
Lemma offset_node d k : 0 <= d < 64 -> 0 <= k < 2 ^ d -> i_offset (2 ^ d + k) = k.
Proof. intros Hd Hk. unfold i_offset. rewrite depth_node by assumption. rewrite Z.shiftl_mul_pow2 by lia. lia. Qed.

Lemma z_is_pow2_pow d : 0 <= d -> z_is_pow2 (2 ^ d) = true.
Proof.
  intros. pose proof (pow_pos' d). unfold z_is_pow2. rewrite Z.log2_pow2 by lia. rewrite Z.eqb_refl.
  destruct (Z.ltb_spec 0 (2 ^ d)); [reflexivity|lia].
Qed.
Lemma z_is_pow2_inv n : z_is_pow2 n = true -> exists d, 0 <= d /\ n = 2 ^ d.
Proof.
  unfold z_is_pow2. intros E. apply andb_prop in E as [E1 E2]. apply Z.ltb_lt in E1. apply Z.eqb_eq in E2.
  exists (Z.log2 n). split; [apply Z.log2_nonneg|congruence].
Qed.
Lemma z_is_pow2_no d k : 0 <= d -> 0 < k < 2 ^ d -> z_is_pow2 (2 ^ d + k) = false.
Proof.
  intros Hd Hk. unfold z_is_pow2. rewrite log2_node by lia. apply andb_false_intro2. apply Z.eqb_neq. lia.
Qed.
Lemma lor_node d k : 0 <= d -> 0 <= k < 2 ^ d -> Z.lor (2 ^ d) k = 2 ^ d + k.
Proof. intros. apply (lor_disjoint _ _ d); [lia| |lia]. apply Z.mod_same. pose proof (pow_pos' d). lia. Qed.
Lemma from_size_offset_ok d k : 0 <= d < 64 -> 0 <= k < 2 ^ d -> from_size_offset (2 ^ d) k = Ok (2 ^ d + k).
Proof.
  intros Hd Hk. unfold from_size_offset, max_size. rewrite z_is_pow2_pow by lia. cbn [negb].
  pose proof (pow_le d 63 ltac:(lia)). destruct (Z.leb_spec (2 ^ d) (2 ^ 63)); [cbn [negb]|lia].
  destruct (Z.ltb_spec k (2 ^ d)); [cbn [negb]|lia]. rewrite lor_node by lia. reflexivity.
Qed.
Lemma from_size_offset_range d k : 0 <= d < 64 -> 2 ^ d <= k -> from_size_offset (2 ^ d) k = Err IndexOutOfRange.
Proof.
  intros Hd Hk. unfold from_size_offset, max_size. rewrite z_is_pow2_pow by lia. cbn [negb].
  pose proof (pow_le d 63 ltac:(lia)). destruct (Z.leb_spec (2 ^ d) (2 ^ 63)); [cbn [negb]|lia].
  destruct (Z.ltb_spec k (2 ^ d)); [lia|]. reflexivity.
Qed.
Lemma size_at_depth_ok d : 0 <= d < 64 -> size_at_depth d = Some (2 ^ d).
Proof. intros. unfold size_at_depth. destruct (Z.ltb_spec d 64); [reflexivity|lia]. Qed.
Lemma from_depth_offset_ok d k : 0 <= d < 64 -> 0 <= k < 2 ^ d -> from_depth_offset d k = Some (Ok (2 ^ d + k)).
Proof. intros. unfold from_depth_offset. rewrite size_at_depth_ok by lia. cbn [bind]. rewrite from_size_offset_ok by assumption. reflexivity. Qed.
Lemma as_index_ok x : valid_index x -> as_index x = Some (x - 1).
Proof. intros [V _]. unfold as_index, sub64. destruct (Z.leb_spec 1 x); [reflexivity|lia]. Qed.
Lemma depth_for_size_pow d : 0 <= d < 64 -> depth_for_size (2 ^ d) = Some d.
Proof.
  intros Hd. unfold depth_for_size, next_power_of_two. pose proof (pow_le d 63 ltac:(lia)). pose proof (pow_pos' d ltac:(lia)).
  destruct (Z.leb_spec (2 ^ d) (2 ^ 63)); [cbn [bind]|lia].
  assert (C : ctz64 (2 ^ d) = d).
  { destruct (ctz64_spec (2 ^ d) ltac:(lia)) as (A1 & o & A2).
    set (c := ctz64 (2 ^ d)) in *. clearbody c. destruct (Z.lt_trichotomy c d) as [L|[E|L]]; [exfalso|exact E|exfalso].
    - replace d with (c + (d - c - 1) + 1) in A2 by lia. rewrite pow_S, Z.pow_add_r in A2 by lia.
      pose proof (pow_pos' c ltac:(lia)).
      assert (2 * 2 ^ (d - c - 1) = 2 * o + 1) by (apply (Z.mul_reg_r _ _ (2 ^ c)); lia). lia.
    - replace c with (d + (c - d)) in A2 by lia. rewrite Z.pow_add_r in A2 by lia. pose proof (pow_pos' (c - d) ltac:(lia)).
      assert (Q : 1 = (2 * o + 1) * 2 ^ (c - d)) by (apply (Z.mul_reg_r _ _ (2 ^ d)); lia).
      replace (c - d) with (c - d - 1 + 1) in Q by lia. rewrite pow_S in Q by lia. lia. }
  destruct (Z.leb_spec (2 ^ d) 1).
  - assert (d = 0). { destruct (Z.eq_dec d 0); [assumption|]. pose proof (pow_le 1 d ltac:(lia)). change (2 ^ 1) with 2 in *. lia. }
    subst. reflexivity.
  - rewrite Z.log2_up_pow2 by lia. rewrite C. reflexivity.
Qed.

(** parents, siblings, children *)
Lemma parent_node d k : 0 <= d -> 0 <= k < 2 ^ (d + 1) -> i_parent (2 ^ (d + 1) + k) = Some (2 ^ d + k / 2).
Proof.
  intros Hd Hk. unfold i_parent, is_root. rewrite pow_S in * by lia. pose proof (pow_pos' d ltac:(lia)).
  destruct (Z.eqb_spec (2 * 2 ^ d + k) 1); [lia|]. rewrite Z.shiftr_div_pow2 by lia. change (2 ^ 1) with 2.
  replace (2 * 2 ^ d + k) with (k + 2 ^ d * 2) by lia. rewrite Z.div_add by lia. f_equal. lia.
Qed.
Lemma lxor1 k : 0 <= k -> Z.lxor k 1 = if k mod 2 =? 0 then k + 1 else k - 1.
Proof.
  intros Hk. pose proof (Z.div_mod k 2 ltac:(lia)). pose proof (Z.mod_pos_bound k 2 ltac:(lia)).
  apply Z.bits_inj'. intros i Hi.
  rewrite Z.lxor_spec. destruct (Z.eq_dec i 0) as [->|Ni].
  - rewrite !Z.bit0_odd. destruct (Z.eqb_spec (k mod 2) 0) as [E|E].
    + rewrite Z.odd_add. destruct (Z.odd k); reflexivity.
    + rewrite Z.odd_sub. destruct (Z.odd k); reflexivity.
  - replace (Z.testbit 1 i) with false by (symmetry; change 1 with (2 ^ 0); apply Z.pow2_bits_false; lia).
    rewrite xorb_false_r. replace i with (Z.succ (i - 1)) by lia.
    destruct (Z.eqb_spec (k mod 2) 0) as [E|E].
    + assert (K : k = 2 * (k / 2)) by lia. rewrite K at 2. rewrite Z.testbit_odd_succ by lia.
      rewrite K at 1. rewrite Z.testbit_even_succ by lia. reflexivity.
    + assert (K : k = 2 * (k / 2) + 1) by lia. rewrite K at 1. rewrite Z.testbit_odd_succ by lia.
      replace (k - 1) with (2 * (k / 2)) by lia. rewrite Z.testbit_even_succ by lia. reflexivity.
Qed.
Lemma sibling_node d k : 0 <= d -> 0 <= k < 2 ^ (d + 1) ->
  i_sibling (2 ^ (d + 1) + k) = Some (2 ^ (d + 1) + (if k mod 2 =? 0 then k + 1 else k - 1)).
Proof.
  intros Hd Hk. unfold i_sibling, is_root. rewrite pow_S in * by lia. pose proof (pow_pos' d ltac:(lia)).
  destruct (Z.eqb_spec (2 * 2 ^ d + k) 1); [lia|]. rewrite lxor1 by lia.
  replace ((2 * 2 ^ d + k) mod 2) with (k mod 2).
  - f_equal. destruct (k mod 2 =? 0); lia.
  - replace (2 * 2 ^ d + k) with (k + 2 ^ d * 2) by lia. rewrite Z.mod_add by lia. reflexivity.
Qed.
Lemma is_left_node d k : 0 <= d -> is_left (2 ^ (d + 1) + k) = (k mod 2 =? 0).
Proof.
  intros Hd. unfold is_left. rewrite pow_S by lia. replace (2 * 2 ^ d + k) with (k + 2 ^ d * 2) by lia.
  rewrite Z.mod_add by lia. reflexivity.
Qed.
Lemma left_child_node d k : 0 <= d < 63 -> 0 <= k < 2 ^ d -> left_child (2 ^ d + k) = 2 ^ (d + 1) + 2 * k.
Proof.
  intros Hd Hk. unfold left_child, w64. rewrite Z.shiftl_mul_pow2 by lia. change (2 ^ 1) with 2.
  pose proof (node_valid (d + 1) (2 * k) ltac:(lia) ltac:(rewrite pow_S by lia; lia)) as [A1 A2].
  rewrite pow_S in * by lia. rewrite Z.mod_small; [lia|]. unfold B. lia.
Qed.
Lemma right_child_node d k : 0 <= d < 63 -> 0 <= k < 2 ^ d -> right_child (2 ^ d + k) = 2 ^ (d + 1) + (2 * k + 1).
Proof.
  intros Hd Hk. unfold right_child. fold (left_child (2 ^ d + k)). rewrite left_child_node by assumption.
  rewrite (lor_disjoint _ _ 1); [lia|lia| |lia]. rewrite pow_S by lia. change (2 ^ 1) with 2.
  rewrite <- Z.mul_add_distr_l, Z.mul_comm. apply Z.mod_mul. lia.
Qed.

(** The last common ancestor of two different nodes of one layer. *)
Lemma lca_val x y : valid_index x -> valid_index y -> i_depth x = i_depth y -> x <> y ->
  let t := Z.log2 (Z.lxor x y) in 0 <= t < i_depth x /\ last_common_ancestor x y = x / 2 ^ (t + 1).
Proof.
  intros Vx Vy D N t. rewrite !depth_log in * by assumption. set (d := Z.log2 x) in *.
  assert (Hd : 0 <= d < 64).
  { split; [apply Z.log2_nonneg|]. apply Z.log2_lt_pow2; [unfold valid_index in *; lia|apply Vx]. }
  assert (Px : 2 ^ d <= x < 2 * 2 ^ d).
  { pose proof (Z.log2_spec x ltac:(unfold valid_index in *; lia)) as A. fold d in A.
    replace (Z.succ d) with (d + 1) in A by lia. rewrite pow_S in A by lia. lia. }
  assert (Py : 2 ^ d <= y < 2 * 2 ^ d).
  { pose proof (Z.log2_spec y ltac:(unfold valid_index in *; lia)) as A. rewrite <- D in A.
    replace (Z.succ d) with (d + 1) in A by lia. rewrite pow_S in A by lia. lia. }
  assert (X0 : Z.lxor x y <> 0). { intros E. apply Z.lxor_eq in E. contradiction. }
  assert (Xn : 0 <= Z.lxor x y). { apply Z.lxor_nonneg. unfold valid_index in *. lia. }
  assert (Xd : Z.lxor x y < 2 ^ d).
  { apply Z.nle_gt. intros L.
    assert (T : 0 < Z.lxor x y) by lia.
    assert (L2 : d <= Z.log2 (Z.lxor x y)) by (apply Z.log2_le_pow2; lia).
    pose proof (Z.log2_lxor x y ltac:(unfold valid_index in *; lia) ltac:(unfold valid_index in *; lia)) as M.
    fold d in M. rewrite <- D in M. rewrite Z.max_id in M.
    assert (E : Z.log2 (Z.lxor x y) = d) by lia.
    pose proof (Z.bit_log2 (Z.lxor x y) T) as Bt. rewrite E, Z.lxor_spec in Bt.
    pose proof (Z.bit_log2 x ltac:(unfold valid_index in *; lia)) as B1. fold d in B1.
    pose proof (Z.bit_log2 y ltac:(unfold valid_index in *; lia)) as B2. rewrite <- D in B2.
    rewrite B1, B2 in Bt. discriminate. }
  assert (Ht : 0 <= t < d). { split; [apply Z.log2_nonneg|]. apply Z.log2_lt_pow2; lia. }
  split; [exact Ht|].
  unfold last_common_ancestor. rewrite (clz64_log x), (clz64_log y) by (unfold valid_index in *; lia). fold d. rewrite <- D.
  assert (P64 : 2 * (2 ^ d * 2 ^ (63 - d)) = B).
  { rewrite <- Z.pow_add_r by lia. replace (d + (63 - d)) with 63 by lia. reflexivity. }
  pose proof (pow_pos' (63 - d) ltac:(lia)) as P63. pose proof (pow_pos' d ltac:(lia)).
  assert (Wx : w64 (Z.shiftl x (63 - d)) = Z.shiftl x (63 - d)).
  { unfold w64. apply Z.mod_small. rewrite Z.shiftl_mul_pow2 by lia. nia. }
  assert (Wy : w64 (Z.shiftl y (63 - d)) = Z.shiftl y (63 - d)).
  { unfold w64. apply Z.mod_small. rewrite Z.shiftl_mul_pow2 by lia. nia. }
  rewrite Wx, Wy, <- Z.shiftl_lxor.
  rewrite clz64_log by (rewrite Z.shiftl_mul_pow2 by lia; nia).
  rewrite Z.log2_shiftl by lia. fold t.
  replace (64 - (63 - (t + (63 - d)))) with ((t + 1) + (63 - d)) by lia.
  rewrite Z.shiftr_shiftl_r by lia. replace (t + 1 + (63 - d) - (63 - d)) with (t + 1) by lia.
  apply Z.shiftr_div_pow2. lia.
Qed.
