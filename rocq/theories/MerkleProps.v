(** Properties C35-C38: Merkle trees. *)
Require Import ZArith Arith Lia Bool List Permutation Sorted.
From Verif Require Import Word U256Proofs KnuthModel BinaryModel BinaryProofs Arr MerkleModel MerkleSpec MerkleIndexProofs MerkleProofs MerkleTreeProofs.
Import ListNotations.
Open Scope Z_scope.

(** * C35: indices *)

(** The (depth, offset) constructor: total below depth 64, rejects offsets outside the layer,
    and [depth] and [offset] read back what was put in. *)
Theorem C35_constructor d k : 0 <= d < 64 -> 0 <= k ->
  (k < 2 ^ d -> exists x, from_depth_offset d k = Some (Ok x) /\ valid_index x /\ i_depth x = d /\ i_offset x = k) /\
  (2 ^ d <= k -> from_depth_offset d k = Some (Err IndexOutOfRange)).
Proof.
  intros Hd Hk. split; intros E.
  - exists (2 ^ d + k). rewrite from_depth_offset_ok, depth_node, offset_node by lia. split; [reflexivity|]. split; [apply node_valid; lia|auto].
  - unfold from_depth_offset. rewrite size_at_depth_ok by lia. cbn [bind]. rewrite from_size_offset_range by lia. reflexivity.
Qed.
Example C35_constructor_ex : from_depth_offset 3 5 = Some (Ok 13) /\ i_depth 13 = 3 /\ i_offset 13 = 5 /\ from_depth_offset 3 8 = Some (Err IndexOutOfRange).
Proof. vm_compute. auto. Qed.
Print Assumptions C35_constructor.

(** A size that is not a power of two, or too large, is refused. *)
Theorem C35_bad_size size k : 0 <= size -> 0 <= k ->
  ((forall d, size <> 2 ^ d) -> from_size_offset size k = Err NumLeavesNotPowerOfTwo) /\
  (forall d, size = 2 ^ d -> 64 <= d -> from_size_offset size k = Err TreeToLarge) /\
  (forall d, size = 2 ^ d -> 0 <= d < 64 -> from_size_offset size k = if k <? size then Ok (size + k) else Err IndexOutOfRange).
Proof.
  intros Hs Hk. split; [|split].
  - intros N. unfold from_size_offset. destruct (z_is_pow2 size) eqn:E; [|reflexivity].
    apply z_is_pow2_inv in E as (d & _ & E). destruct (N d E).
  - intros d -> Hd. unfold from_size_offset, max_size. rewrite z_is_pow2_pow by lia. cbn [negb].
    pose proof (pow_le 64 d ltac:(lia)). destruct (Z.leb_spec (2 ^ d) (2 ^ 63)); [change (2 ^ 64) with 18446744073709551616 in *; change (2 ^ 63) with 9223372036854775808 in *; lia|reflexivity].
  - intros d -> Hd. destruct (Z.ltb_spec k (2 ^ d)); [apply from_size_offset_ok|apply from_size_offset_range]; lia.
Qed.
Example C35_bad_size_ex : from_size_offset 6 1 = Err NumLeavesNotPowerOfTwo /\ from_size_offset 8 5 = Ok 13 /\ from_size_offset 0 0 = Err NumLeavesNotPowerOfTwo.
Proof. vm_compute. auto. Qed.
Print Assumptions C35_bad_size.

(** Every index is the index of its depth and offset, and as_index/from_index are inverse. *)
Theorem C35_bijective x : valid_index x ->
  0 <= i_depth x < 64 /\ 0 <= i_offset x < 2 ^ i_depth x /\
  from_depth_offset (i_depth x) (i_offset x) = Some (Ok x) /\
  (exists i, as_index x = Some i /\ i_from_index i = Some x).
Proof.
  intros V. destruct (node_inv x V) as (d & k & Hd & Hk & ->). rewrite depth_node, offset_node by lia.
  rewrite from_depth_offset_ok by lia. split; [lia|]. split; [lia|]. split; [reflexivity|].
  exists (2 ^ d + k - 1). rewrite as_index_ok by exact V. split; [reflexivity|].
  unfold i_from_index, add64, B. destruct V as [V1 V2]. change (2 ^ 64) with 18446744073709551616 in V2.
  destruct (Z.ltb_spec (2 ^ d + k - 1 + 1) 18446744073709551616); [f_equal; lia|lia].
Qed.
Example C35_bijective_ex : valid_index (2 ^ 64 - 1) /\ i_depth (2 ^ 64 - 1) = 63 /\ i_offset (2 ^ 64 - 1) = 2 ^ 63 - 1.
Proof. vm_compute. intuition congruence. Qed.
Print Assumptions C35_bijective.

(** Parent and children: one layer up halves the offset, one layer down doubles it. *)
Theorem C35_parent x : valid_index x ->
  (i_parent x = None <-> x = i_root) /\ (x = i_root <-> i_depth x = 0) /\ is_root x = (i_depth x =? 0) /\
  (x <> i_root -> exists p, i_parent x = Some p /\ valid_index p /\ i_depth p = i_depth x - 1 /\ i_offset p = i_offset x / 2 /\
    (if is_left x then left_child p else right_child p) = x /\ is_left x = (i_offset x mod 2 =? 0) /\ is_right x = (i_offset x mod 2 =? 1)).
Proof.
  intros V. destruct (node_inv x V) as (d & k & Hd & Hk & ->). rewrite depth_node by lia.
  assert (Z1 : 2 ^ d + k = i_root <-> d = 0).
  { unfold i_root. split; intros E.
    - destruct (Z.eq_dec d 0); [assumption|]. pose proof (pow_le 1 d ltac:(lia)). change (2 ^ 1) with 2 in *. lia.
    - subst d. change (2 ^ 0) with 1 in *. lia. }
  split; [|split; [exact Z1|split]].
  - unfold i_parent, is_root, i_root in *. destruct (Z.eqb_spec (2 ^ d + k) 1); split; intros; try congruence; try reflexivity.
  - unfold is_root. destruct (Z.eqb_spec (2 ^ d + k) 1) as [E|E], (Z.eqb_spec d 0) as [E'|E']; try reflexivity.
    + destruct E'. apply Z1. exact E.
    + destruct E. apply Z1. exact E'.
  - intros N. assert (Hd1 : 1 <= d) by (destruct (Z.eq_dec d 0); [destruct N; apply Z1; assumption|lia]).
    replace d with (d - 1 + 1) in * by lia. set (c := d - 1) in *. rewrite pow_S in Hk by lia.
    assert (Hk2 : 0 <= k / 2 < 2 ^ c) by (split; [apply Z.div_pos; lia|apply Z.div_lt_upper_bound; lia]).
    exists (2 ^ c + k / 2). rewrite parent_node by (rewrite ?pow_S by lia; lia). split; [reflexivity|].
    split; [apply node_valid; lia|]. rewrite depth_node, !offset_node by (rewrite ?pow_S by lia; lia). split; [lia|]. split; [reflexivity|].
    rewrite is_left_node by lia. rewrite left_child_node, right_child_node by lia.
    pose proof (Z.div_mod k 2 ltac:(lia)). pose proof (Z.mod_pos_bound k 2 ltac:(lia)).
    split; [destruct (Z.eqb_spec (k mod 2) 0); lia|]. split; [reflexivity|].
    unfold is_right. pose proof (pow_pos' c ltac:(lia)). rewrite pow_S by lia. destruct (Z.eqb_spec (2 * 2 ^ c + k) 1); [lia|]. cbn [negb andb].
    f_equal. replace (2 * 2 ^ c + k) with (k + 2 ^ c * 2) by lia. apply Z.mod_add. lia.
Qed.
Theorem C35_children x : valid_index x -> i_depth x < 63 ->
  valid_index (left_child x) /\ valid_index (right_child x) /\
  i_depth (left_child x) = i_depth x + 1 /\ i_offset (left_child x) = 2 * i_offset x /\
  i_depth (right_child x) = i_depth x + 1 /\ i_offset (right_child x) = 2 * i_offset x + 1 /\
  i_parent (left_child x) = Some x /\ i_parent (right_child x) = Some x /\
  is_left (left_child x) = true /\ is_right (right_child x) = true /\
  i_sibling (left_child x) = Some (right_child x) /\ i_sibling (right_child x) = Some (left_child x).
Proof.
  intros V Hx. destruct (node_inv x V) as (d & k & Hd & Hk & ->). rewrite depth_node in * by lia. rewrite offset_node by lia.
  rewrite left_child_node, right_child_node by lia. pose proof (pow_S d ltac:(lia)).
  assert (E0 : (2 * k) mod 2 = 0) by (rewrite Z.mul_comm; apply Z.mod_mul; lia).
  assert (E1 : (2 * k + 1) mod 2 = 1) by (rewrite Z.add_comm, Z.mul_comm, Z.mod_add by lia; reflexivity).
  rewrite !depth_node, !offset_node, !parent_node, !sibling_node, is_left_node, E0, E1 by lia.
  split; [apply node_valid; lia|]. split; [apply node_valid; lia|]. do 4 (split; [lia|]).
  replace (2 * k / 2) with k by (rewrite Z.mul_comm, Z.div_mul; lia).
  replace ((2 * k + 1) / 2) with k by (rewrite Z.add_comm, Z.mul_comm, Z.div_add by lia; reflexivity).
  do 3 (split; [reflexivity|]). split.
  - unfold is_right. pose proof (pow_pos' d). destruct (Z.eqb_spec (2 ^ (d + 1) + (2 * k + 1)) 1); [lia|]. cbn [negb andb].
    apply Z.eqb_eq. rewrite H. replace (2 * 2 ^ d + (2 * k + 1)) with (1 + (2 ^ d + k) * 2) by lia. rewrite Z.mod_add by lia. reflexivity.
  - cbn [Z.eqb]. split; f_equal; lia.
Qed.
(** Different nodes have disjoint children: a child determines its parent. *)
Theorem C35_children_partition x y : valid_index x -> valid_index y -> i_depth x < 63 -> i_depth y < 63 ->
  left_child x <> right_child y /\ (left_child x = left_child y -> x = y) /\ (right_child x = right_child y -> x = y).
Proof.
  intros Vx Vy Dx Dy. destruct (C35_children x Vx Dx) as (_ & _ & _ & Ox & _ & Ox' & Px & Px' & Lx & _).
  destruct (C35_children y Vy Dy) as (_ & _ & _ & Oy & _ & Oy' & Py & Py' & _ & Ry & _). split; [|split]; intros E.
  - rewrite E in Ox. lia.
  - rewrite E in Px. congruence.
  - rewrite E in Px'. congruence.
Qed.
Example C35_children_ex : left_child 6 = 12 /\ right_child 6 = 13 /\ i_parent 13 = Some 6 /\ i_sibling 13 = Some 12 /\ valid_index 6 /\ i_depth 6 < 63.
Proof. vm_compute. intuition congruence. Qed.
Print Assumptions C35_parent.
Print Assumptions C35_children.
Print Assumptions C35_children_partition.

(** Deviation: at depth 63 the children functions lose the top bit, without a panic. *)
Theorem C35_children_overflow k : 0 <= k < 2 ^ 63 -> left_child (2 ^ 63 + k) = 2 * k.
Proof.
  intros Hk. unfold left_child, w64, B. rewrite Z.shiftl_mul_pow2 by lia. change (2 ^ 1) with 2.
  change (2 ^ 63) with 9223372036854775808 in *. replace ((9223372036854775808 + k) * 2) with (2 * k + 1 * 18446744073709551616) by lia.
  rewrite Z.mod_add by lia. apply Z.mod_small. lia.
Qed.
Example C35_children_overflow_ex : left_child (2 ^ 63) = 0 /\ ~ valid_index (left_child (2 ^ 63)).
Proof. vm_compute. intuition congruence. Qed.
Print Assumptions C35_children_overflow.

(** Sibling: the other child of the same parent. *)
Theorem C35_sibling x : valid_index x -> x <> i_root ->
  exists s, i_sibling x = Some s /\ valid_index s /\ s <> x /\ i_sibling s = Some x /\ i_parent s = i_parent x /\ is_left s = negb (is_left x).
Proof.
  intros V N. destruct (node_inv x V) as (d & k & Hd & Hk & ->).
  assert (Hd1 : 1 <= d). { destruct (Z.eq_dec d 0); [|lia]. subst d. destruct N. unfold i_root. change (2 ^ 0) with 1 in *. lia. }
  replace d with (d - 1 + 1) in * by lia. set (c := d - 1) in *. pose proof (pow_S c ltac:(lia)).
  set (s := if k mod 2 =? 0 then k + 1 else k - 1).
  pose proof (Z.div_mod k 2 ltac:(lia)). pose proof (Z.mod_pos_bound k 2 ltac:(lia)).
  assert (Es : s / 2 = k / 2 /\ s mod 2 = 1 - k mod 2).
  { unfold s. destruct (Z.eqb_spec (k mod 2) 0) as [E|E].
    - rewrite E. split; [symmetry; apply (Z.div_unique (k + 1) 2 (k / 2) 1)|symmetry; apply (Z.mod_unique (k + 1) 2 (k / 2) 1)]; lia.
    - split; [symmetry; apply (Z.div_unique (k - 1) 2 (k / 2) 0)|symmetry; apply (Z.mod_unique (k - 1) 2 (k / 2) (1 - k mod 2))]; lia. }
  assert (Hs : 0 <= s < 2 ^ (c + 1)) by (unfold s; destruct (Z.eqb_spec (k mod 2) 0); lia).
  exists (2 ^ (c + 1) + s). rewrite !sibling_node by lia. fold s. split; [reflexivity|]. split; [apply node_valid; lia|].
  destruct Es as [Es1 Es2]. split; [unfold s; destruct (k mod 2 =? 0); lia|]. split.
  - f_equal. f_equal. rewrite Es2. unfold s. destruct (Z.eqb_spec (k mod 2) 0) as [E|E].
    + destruct (Z.eqb_spec (1 - k mod 2) 0); lia.
    + destruct (Z.eqb_spec (1 - k mod 2) 0); lia.
  - rewrite !parent_node by lia. rewrite !is_left_node by lia. rewrite Es1, Es2. split; [reflexivity|].
    destruct (Z.eqb_spec (k mod 2) 0), (Z.eqb_spec (1 - k mod 2) 0); try reflexivity; lia.
Qed.
Example C35_sibling_ex : i_sibling 13 = Some 12 /\ i_sibling 12 = Some 13 /\ valid_index 13.
Proof. vm_compute. intuition congruence. Qed.
Print Assumptions C35_sibling.

(** Neighbours within the layer. *)
Theorem C35_neighbours d k : 0 <= d < 64 -> 0 <= k < 2 ^ d -> 2 ^ d + k < 2 ^ 64 - 1 ->
  let x := 2 ^ d + k in
  is_left_most x = (k =? 0) /\ is_right_most x = Some (k =? 2 ^ d - 1) /\
  left_neighbor x = (if k =? 0 then None else Some (x - 1)) /\
  right_neighbor x = Some (if k =? 2 ^ d - 1 then None else Some (x + 1)).
Proof.
  intros Hd Hk Hx. cbn zeta. pose proof (pow_pos' d ltac:(lia)).
  assert (L : is_left_most (2 ^ d + k) = (k =? 0)).
  { unfold is_left_most. destruct (Z.eqb_spec k 0) as [->|N]; [rewrite Z.add_0_r; apply z_is_pow2_pow; lia|apply z_is_pow2_no; lia]. }
  assert (R : is_right_most (2 ^ d + k) = Some (k =? 2 ^ d - 1)).
  { unfold is_right_most, add64, B. change (2 ^ 64) with 18446744073709551616 in Hx.
    destruct (Z.ltb_spec (2 ^ d + k + 1) 18446744073709551616); [|lia]. cbn [bind]. f_equal.
    destruct (Z.eqb_spec k (2 ^ d - 1)) as [->|N].
    - replace (2 ^ d + (2 ^ d - 1) + 1) with (2 ^ (d + 1)) by (rewrite pow_S; lia). apply z_is_pow2_pow. lia.
    - replace (2 ^ d + k + 1) with (2 ^ d + (k + 1)) by lia. apply z_is_pow2_no; lia. }
  split; [exact L|]. split; [exact R|]. unfold left_neighbor, right_neighbor. rewrite L, R. split; reflexivity.
Qed.
(** Deviation: asking whether the very last index is right-most panics. *)
Theorem C35_last_index_panics : valid_index (2 ^ 64 - 1) /\ is_right_most (2 ^ 64 - 1) = None /\ right_neighbor (2 ^ 64 - 1) = None.
Proof. vm_compute. intuition congruence. Qed.
Example C35_neighbours_ex : left_neighbor 13 = Some 12 /\ right_neighbor 15 = Some None /\ left_neighbor 8 = None /\ right_neighbor 13 = Some (Some 14).
Proof. vm_compute. auto. Qed.
Print Assumptions C35_neighbours.
Print Assumptions C35_last_index_panics.

(** The path to the root has length depth: [n] steps up reach depth - n, and after depth
    steps the root, which has no parent. *)
Fixpoint up (n : nat) (x : Z) : option Z := match n with O => Some x | S n => let? p := i_parent x in up n p end.
Theorem C35_path x n : valid_index x -> Z.of_nat n <= i_depth x ->
  exists y, up n x = Some y /\ valid_index y /\ i_depth y = i_depth x - Z.of_nat n /\ i_offset y = i_offset x / 2 ^ Z.of_nat n.
Proof.
  revert x. induction n as [|n IH]; intros x V Hn.
  - exists x. split; [reflexivity|]. split; [exact V|]. change (2 ^ Z.of_nat 0) with 1. rewrite Z.div_1_r. split; [lia|reflexivity].
  - destruct (C35_parent x V) as (_ & R & _ & Px). destruct (Px ltac:(intros E; apply R in E; lia)) as (p & Ep & Vp & Dp & Op & _).
    destruct (IH p Vp ltac:(lia)) as (y & Ey & Vy & Dy & Oy). exists y. cbn [up]. rewrite Ep. cbn [bind].
    split; [exact Ey|]. split; [exact Vy|]. split; [lia|]. rewrite Oy, Op, Nat2Z.inj_succ, Z.pow_succ_r by lia.
    rewrite Z.div_div by lia. reflexivity.
Qed.
Theorem C35_path_length x : valid_index x ->
  up (Z.to_nat (i_depth x)) x = Some i_root /\ up (S (Z.to_nat (i_depth x))) x = None /\ (forall n, (n < Z.to_nat (i_depth x))%nat -> up n x <> Some i_root).
Proof.
  intros V. destruct (C35_bijective x V) as (Hd & _).
  assert (Up1 : forall n x, up (S n) x = bind (up n x) i_parent).
  { intros n. induction n as [|n IH]; intros z; [cbn; destruct (i_parent z); reflexivity|].
    change (up (S (S n)) z) with (let? p := i_parent z in up (S n) p). change (up (S n) z) with (let? p := i_parent z in up n p).
    destruct (i_parent z); cbn [bind]; [apply IH|reflexivity]. }
  destruct (C35_path x (Z.to_nat (i_depth x)) V ltac:(lia)) as (y & Ey & Vy & Dy & _).
  assert (y = i_root) by (apply (C35_parent y Vy); lia). subst y. split; [exact Ey|]. split.
  - rewrite Up1, Ey. reflexivity.
  - intros n Hn E. destruct (C35_path x n V ltac:(lia)) as (z & Ez & Vz & Dz & _). rewrite E in Ez. injection Ez as <-.
    change (i_depth i_root) with 0 in Dz. lia.
Qed.
Example C35_path_ex : up 3 13 = Some 1 /\ up 2 13 = Some 3 /\ up 4 13 = None /\ i_depth 13 = 3.
Proof. vm_compute. auto. Qed.
Print Assumptions C35_path.
Print Assumptions C35_path_length.

(** Last common ancestor of two different nodes of one layer: it is a common ancestor,
    and every common ancestor is an ancestor of it. [up n x] is the n-th ancestor. *)
Definition ancestor (a x : Z) : Prop := exists n, up n x = Some a.
Lemma up_div n : forall x y, valid_index x -> up n x = Some y -> y = x / 2 ^ Z.of_nat n /\ Z.of_nat n <= i_depth x /\ valid_index y.
Proof.
  induction n as [|n IH]; intros x y V E.
  - cbn in E. injection E as <-. rewrite Z.div_1_r. destruct (C35_bijective x V). split; [reflexivity|]. split; [lia|exact V].
  - cbn [up] in E. destruct (i_parent x) as [p|] eqn:Ep; [|discriminate]. cbn [bind] in E.
    assert (x <> i_root) by (intros ->; discriminate). destruct (C35_parent x V) as (_ & _ & _ & Px). destruct (Px H) as (p' & Ep' & Vp & Dp & _).
    assert (p' = p) by congruence. subst p'. destruct (IH p y Vp E) as (-> & Hn & Vy). rewrite Nat2Z.inj_succ, Z.pow_succ_r by lia.
    split; [|split; [lia|exact Vy]]. unfold i_parent in Ep. destruct (is_root x); [discriminate|]. injection Ep as <-.
    rewrite Z.shiftr_div_pow2 by lia. change (2 ^ 1) with 2. rewrite Z.div_div by lia. reflexivity.
Qed.
Lemma div_up n x : valid_index x -> Z.of_nat n <= i_depth x -> up n x = Some (x / 2 ^ Z.of_nat n).
Proof. intros V Hn. destruct (C35_path x n V Hn) as (y & E & _). destruct (up_div n x y V E) as (-> & _). exact E. Qed.
Lemma lxor_same_prefix x y t : 0 <= x -> 0 <= y -> t = Z.log2 (Z.lxor x y) -> x / 2 ^ (t + 1) = y / 2 ^ (t + 1).
Proof.
  intros Hx Hy ->. assert (P : 0 <= Z.lxor x y) by (apply Z.lxor_nonneg; lia). pose proof (Z.log2_nonneg (Z.lxor x y)).
  rewrite <- !Z.shiftr_div_pow2 by lia. apply Z.lxor_eq. rewrite <- Z.shiftr_lxor. apply Z.shiftr_eq_0; lia.
Qed.
Lemma lxor_diff_bit x y t : 0 <= x -> 0 <= y -> x <> y -> t = Z.log2 (Z.lxor x y) -> x / 2 ^ t <> y / 2 ^ t.
Proof.
  intros Hx Hy N ->. assert (P : 0 <= Z.lxor x y) by (apply Z.lxor_nonneg; lia). pose proof (Z.log2_nonneg (Z.lxor x y)).
  intros E. rewrite <- !Z.shiftr_div_pow2 in E by lia.
  assert (X : Z.shiftr (Z.lxor x y) (Z.log2 (Z.lxor x y)) = 0) by (rewrite Z.shiftr_lxor, E; apply Z.lxor_nilpotent).
  apply Z.shiftr_eq_0_iff in X. destruct X as [X|[X1 X2]]; [|lia]. apply Z.lxor_eq in X. contradiction.
Qed.
Theorem C35_last_common_ancestor x y : valid_index x -> valid_index y -> i_depth x = i_depth y -> x <> y ->
  let a := last_common_ancestor x y in
  ancestor a x /\ ancestor a y /\ (forall b, ancestor b x -> ancestor b y -> ancestor b a).
Proof.
  intros Vx Vy Ed N. cbn zeta. destruct (lca_val x y Vx Vy Ed N) as [Ht ->]. set (t := Z.log2 (Z.lxor x y)) in *.
  pose proof (lxor_same_prefix x y t ltac:(unfold valid_index in *; lia) ltac:(unfold valid_index in *; lia) eq_refl) as Eq.
  pose proof (lxor_diff_bit x y t ltac:(unfold valid_index in *; lia) ltac:(unfold valid_index in *; lia) N eq_refl) as Ne.
  assert (Ex : up (Z.to_nat (t + 1)) x = Some (x / 2 ^ (t + 1))) by (rewrite div_up by (try assumption; lia); rewrite Z2Nat.id by lia; reflexivity).
  split; [exists (Z.to_nat (t + 1)); exact Ex|].
  split. { exists (Z.to_nat (t + 1)). rewrite Eq, div_up by (try assumption; lia). rewrite Z2Nat.id by lia. reflexivity. }
  intros b [n En] [m Em]. destruct (C35_path x n Vx ltac:(apply (up_div n x b Vx En))) as (b1 & E1 & _ & D1 & _).
  destruct (C35_path y m Vy ltac:(apply (up_div m y b Vy Em))) as (b2 & E2 & _ & D2 & _).
  assert (b1 = b) by congruence. assert (b2 = b) by congruence. subst b1 b2. assert (m = n) by lia. subst m.
  destruct (up_div n x b Vx En) as (Bx & Hn & _). destruct (up_div n y b Vy Em) as (By & _ & _).
  destruct (Z_lt_ge_dec (Z.of_nat n) (t + 1)) as [Lt|Ge].
  { exfalso. apply Ne. replace t with (Z.of_nat n + (t - Z.of_nat n)) by lia. rewrite Z.pow_add_r by lia.
    rewrite <- !Z.div_div by lia. congruence. }
  exists (n - Z.to_nat (t + 1))%nat.
  destruct (up_div _ _ _ Vx Ex) as (_ & _ & Va). destruct (C35_path x (Z.to_nat (t + 1)) Vx ltac:(lia)) as (a' & Ea' & _ & Da & _).
  assert (a' = x / 2 ^ (t + 1)) by congruence. subst a'.
  rewrite div_up by (try assumption; lia). f_equal. rewrite Bx, Z.div_div by lia. f_equal.
  rewrite <- Z.pow_add_r by lia. f_equal. lia.
Qed.
Example C35_last_common_ancestor_ex : last_common_ancestor 12 15 = 3 /\ last_common_ancestor 8 15 = 1 /\ i_depth 12 = i_depth 15.
Proof. vm_compute. auto. Qed.
Print Assumptions C35_last_common_ancestor.
(** Deviation: for equal indices, and for indices of which one is an ancestor of the other,
    the result need not be an ancestor of either (it need not even be an index). *)
Theorem C35_last_common_ancestor_refuted :
  last_common_ancestor 2 2 = 2 ^ 63 /\ ~ ancestor (last_common_ancestor 2 2) 2 /\
  last_common_ancestor 1 5 = 2 /\ ~ ancestor (last_common_ancestor 1 5) 1 /\ last_common_ancestor 2 4 = 2 ^ 63.
Proof.
  split; [reflexivity|]. split.
  - intros [n E]. destruct n as [|[|n]]; vm_compute in E; discriminate.
  - split; [reflexivity|]. split; [|reflexivity]. intros [n E]. destruct n as [|n]; vm_compute in E; discriminate.
Qed.
Print Assumptions C35_last_common_ancestor_refuted.

(** [concat]: the node of the subtree below [x] that [y] is in the whole tree. *)
Theorem C35_concat x y : valid_index x -> valid_index y -> i_depth x + i_depth y < 64 ->
  let z := i_concat x y in
  valid_index z /\ i_depth z = i_depth x + i_depth y /\ i_offset z = i_offset x * 2 ^ i_depth y + i_offset y /\ ancestor x z.
Proof.
  intros Vx Vy Hd. destruct (node_inv x Vx) as (d & k & Hdx & Hk & ->). destruct (node_inv y Vy) as (e & j & He & Hj & ->).
  rewrite !depth_node in * by lia. rewrite !offset_node by lia. cbn zeta.
  assert (Ez : i_concat (2 ^ d + k) (2 ^ e + j) = 2 ^ (d + e) + (k * 2 ^ e + j)).
  { unfold i_concat. rewrite depth_node by lia. rewrite Z.shiftl_1_l.
    assert (Ej : Z.lxor (2 ^ e + j) (2 ^ e) = j).
    { rewrite <- lor_node by lia. apply Z.bits_inj. intros n. rewrite Z.lxor_spec, Z.lor_spec.
      destruct (Z.eq_dec n e) as [->|Nn].
      - rewrite Z.pow2_bits_true by lia. cbn. destruct (Z.testbit j e) eqn:T; [|reflexivity].
        exfalso. assert (j <> 0) by (intros ->; rewrite Z.testbit_0_l in T; discriminate). rewrite Z.bits_above_log2 in T; [discriminate|lia|apply Z.log2_lt_pow2; lia].
      - rewrite Z.pow2_bits_false by lia. cbn. rewrite Bool.xorb_false_r. reflexivity. }
    rewrite Ej. unfold w64, B. rewrite Z.shiftl_mul_pow2 by lia.
    assert (Hs : 0 <= (2 ^ d + k) * 2 ^ e < 18446744073709551616).
    { pose proof (pow_pos' e ltac:(lia)). pose proof (pow_pos' d ltac:(lia)). split; [nia|]. apply Z.lt_le_trans with (2 ^ (d + 1) * 2 ^ e); [rewrite pow_S by lia; nia|].
      rewrite <- Z.pow_add_r by lia. change 18446744073709551616 with (2 ^ 64). apply pow_le. lia. }
    rewrite Z.mod_small by exact Hs. rewrite (lor_disjoint _ _ e).
    - rewrite Z.pow_add_r by lia. ring.
    - lia.
    - apply Z.mod_mul. pose proof (pow_pos' e). lia.
    - lia. }
  assert (Hkj : 0 <= k * 2 ^ e + j < 2 ^ (d + e)). { rewrite Z.pow_add_r by lia. pose proof (pow_pos' e ltac:(lia)). pose proof (pow_pos' d ltac:(lia)). split; [nia|]. nia. }
  rewrite Ez. split; [apply node_valid; lia|]. rewrite depth_node, offset_node by lia. split; [reflexivity|]. split; [reflexivity|].
  exists (Z.to_nat e). rewrite div_up; [|apply node_valid; lia|rewrite depth_node; lia]. f_equal. rewrite Z2Nat.id by lia.
  rewrite Z.pow_add_r by lia. symmetry. apply (Z.div_unique _ _ _ j); [lia|ring].
Qed.
Example C35_concat_ex : i_concat 6 5 = 25 /\ i_concat 13 1 = 13.
Proof. vm_compute. auto. Qed.
Print Assumptions C35_concat.

(** Layer iteration: the first [n] calls of next yield the first [n] nodes of the layer in order;
    after 2^d calls it yields nothing more. *)
Fixpoint next_n (n : nat) (it : layer_iter) : option (list (option Z) * layer_iter) :=
  match n with
  | O => Some ([], it)
  | S n => let? (o, it) := li_next it in let? (os, it) := next_n n it in Some (o :: os, it)
  end.
Theorem C35_layer_iteration d n : 0 <= d < 64 ->
  exists it it', iter_layer d = Some it /\
    next_n n it = Some (map (fun i => if Z.of_nat i <? 2 ^ d then Some (2 ^ d + Z.of_nat i) else None) (seq 0 n), it').
Proof.
  intros Hd. unfold iter_layer. rewrite size_at_depth_ok by lia. cbn [bind]. exists (LI (2 ^ d) 0).
  pose proof (pow_pos' d ltac:(lia)).
  assert (G : forall n j a, j = Z.min (Z.of_nat a) (2 ^ d) -> exists it', next_n n (LI (2 ^ d) j) =
     Some (map (fun i => if Z.of_nat i <? 2 ^ d then Some (2 ^ d + Z.of_nat i) else None) (seq a n), it')).
  { clear n. induction n as [|n IH]; intros j a Ha; [eexists; reflexivity|]. cbn [next_n seq map]. unfold li_next. cbn [li_offset li_size].
    destruct (Z.ltb_spec j (2 ^ d)) as [Lt|Ge]; destruct (Z.ltb_spec (Z.of_nat a) (2 ^ d)); try lia.
    - rewrite from_size_offset_ok by lia. cbn [bind].
      destruct (IH (j + 1) (S a) ltac:(lia)) as (it' & ->). cbn [bind]. exists it'. replace j with (Z.of_nat a) by lia. reflexivity.
    - cbn [bind]. destruct (IH j (S a) ltac:(lia)) as (it' & ->). cbn [bind]. exists it'. reflexivity. }
  destruct (G n 0 0%nat ltac:(lia)) as (it' & E). exists it'. split; [reflexivity|exact E].
Qed.
Example C35_layer_iteration_ex : match iter_layer 2 with Some it => match next_n 5 it with Some (l, _) => l = [Some 4; Some 5; Some 6; Some 7; None] | None => False end | None => False end.
Proof. vm_compute. reflexivity. Qed.
Print Assumptions C35_layer_iteration.

(** The positions of a layer in the breadth-first order. *)
Theorem C35_layer_range d : 0 <= d < 64 -> layer_range d = Some (2 ^ d - 1, 2 ^ (d + 1) - 2).
Proof. apply (layer_range_ok (Leaf := unit) [] 0). lia. Qed.
Example C35_layer_range_ex : layer_range 2 = Some (3, 6).
Proof. reflexivity. Qed.
Print Assumptions C35_layer_range.

(** * C36: completeness *)
Section Hashing.
Context {H Leaf : Type} (heqb : H -> H -> bool) (node : H -> H -> H) (leaf_hash : Leaf -> H) (hdefault : H).
Context (sort_idx : list Z -> list Z) (sort_nodes : list (Z * H) -> list (Z * H)).
Local Notation from_leaves_skip_layers := (from_leaves_skip_layers node leaf_hash hdefault).
Local Notation open := (open node leaf_hash sort_idx).
Local Notation verify_log := (verify_log heqb node leaf_hash sort_nodes).
Local Notation verify := (verify heqb node leaf_hash sort_nodes).
Local Notation leaf_hashes := (MerkleSpec.leaf_hashes leaf_hash hdefault).

(** The commitment is the number of leaves and the root of the perfect tree over the leaf hashes,
    however many layers are kept in memory and in whatever order the parallel loops run. *)
Theorem C36_commitment orders leaves D skip :
  (D < 64)%nat -> Z.of_nat (length leaves) = 2 ^ Z.of_nat D -> 0 <= skip -> schedules orders D ->
  exists t, from_leaves_skip_layers orders leaves skip = Some (Ok t) /\
    t_commitment t = C (2 ^ Z.of_nat D) (merkle_root node D (leaf_hashes leaves) 0) /\ t_leaves t = leaves.
Proof.
  intros HD HL Hs Po. destruct (build_spec node leaf_hash hdefault leaves D HD HL orders skip Hs) as (nodes & m & E & _).
  { intros e He. apply Po. lia. }
  eexists. split; [exact E|]. cbn [t_commitment t_leaves]. split; [|reflexivity]. f_equal. unfold hash_at.
  change (Z.to_nat 0) with 0%nat. rewrite Nat.sub_0_r, Z.mul_0_l. reflexivity.
Qed.
(** Any node's hash, as computed from what is stored or from the leaves. *)
Theorem C36_node_hash orders leaves D skip t depth offset :
  (D < 64)%nat -> Z.of_nat (length leaves) = 2 ^ Z.of_nat D -> 0 <= skip -> schedules orders D ->
  from_leaves_skip_layers orders leaves skip = Some (Ok t) -> 0 <= depth <= Z.of_nat D -> 0 <= offset < 2 ^ depth ->
  exists x, from_depth_offset depth offset = Some (Ok x) /\
    node_hash node leaf_hash 64 t x = Some (hash_at node D (leaf_hashes leaves) depth offset).
Proof.
  intros HD HL Hs Po Et Hd Ho. destruct (build_spec node leaf_hash hdefault leaves D HD HL orders skip Hs) as (nodes & m & E & Hm & Fl).
  { intros e He. apply Po. lia. }
  rewrite Et in E. injection E as ->. exists (2 ^ depth + offset). split; [apply from_depth_offset_ok; lia|].
  change (2 ^ depth + offset) with (idx depth offset).
  apply (node_hash_spec node leaf_hash hdefault leaves D HD HL _ m); cbn [t_leaves t_nodes]; try reflexivity; try assumption; lia.
Qed.
(** Leaf numbers that are not a power of two are refused; no leaves give the default hash. *)
Theorem C36_bad_leaves orders leaves skip :
  (forall d, Z.of_nat (length leaves) <> 2 ^ d) -> leaves <> [] ->
  from_leaves_skip_layers orders leaves skip = Some (Err NumLeavesNotPowerOfTwo) /\
  from_leaves_skip_layers orders [] skip = Some (Ok (T (C 0 hdefault) [] [])).
Proof.
  intros N Ne. split; [|reflexivity]. unfold MerkleModel.from_leaves_skip_layers. destruct (Z.eqb_spec (Z.of_nat (length leaves)) 0) as [E|E].
  { destruct leaves; [contradiction|]. cbn in E. lia. }
  destruct (z_is_pow2 (Z.of_nat (length leaves))) eqn:Ep; [|reflexivity]. apply z_is_pow2_inv in Ep as (d & _ & Ep). destruct (N d Ep).
Qed.

Lemma strict_length K indices : strict K -> (forall k, In k K <-> In k indices) -> (length K <= length indices)%nat.
Proof.
  intros S E. apply NoDup_incl_length; [|intros k I; apply E; exact I]. clear E. unfold strict in S. induction S as [|x K S IH F]; constructor; [|exact IH].
  intros I. rewrite Forall_forall in F. specialize (F x I). lia.
Qed.

(** Opening any in-range indices, in any order and with repetitions, and presenting the true
    leaves at these indices, again in any order and with repetitions, is accepted. (The bound on
    the number of indices is that of the machine's address space.) *)
Theorem C36_completeness orders leaves D skip t indices leafs :
  (forall a b, heqb a b = true <-> a = b) -> sorts (fun x => x) sort_idx -> sorts fst sort_nodes ->
  (D < 64)%nat -> Z.of_nat (length leaves) = 2 ^ Z.of_nat D -> 0 <= skip -> schedules orders D ->
  from_leaves_skip_layers orders leaves skip = Some (Ok t) ->
  Forall (fun i => 0 <= i < 2 ^ Z.of_nat D) indices -> Z.of_nat (length indices) * 64 <= 2 ^ 64 ->
  (forall i, In i (map fst leafs) <-> In i indices) ->
  (forall i l, In (i, l) leafs -> nth_error leaves (Z.to_nat i) = Some l) ->
  exists p, open t indices = Some (Ok p) /\ p_commitment p = t_commitment t /\ verify p leafs = Some (Ok tt).
Proof.
  intros Hh Si Sn HD HL Hs Po Et Fi Hlen Same True_. destruct (build_spec node leaf_hash hdefault leaves D HD HL orders skip Hs) as (nodes & m & E & Hm & Fl).
  { intros e He. apply Po. lia. }
  rewrite Et in E. injection E as ->. set (f := leaf_hashes leaves) in *. set (h0 := hash_at node D f 0 0) in *.
  destruct (sort_indices_spec sort_idx Si D h0 indices HD Fi) as (K & Es & St & Fk & Sk).
  pose proof (strict_length K indices St Sk) as Lk.
  exists (P (C (2 ^ Z.of_nat D) h0) K (map (fun dk => hash_at node D f (fst dk) (snd dk)) (olayers D K))).
  split; [|split; [reflexivity|]].
  - rewrite (open_spec node leaf_hash hdefault sort_idx Si leaves D m _ indices K) by (first [assumption | reflexivity | lia]). reflexivity.
  - unfold MerkleModel.verify.
    assert (Fl2 : Forall (fun il : Z * Leaf => 0 <= fst il < 2 ^ Z.of_nat D) leafs).
    { apply Forall_forall. intros il I. rewrite Forall_forall in Fi. apply Fi, Same. apply in_map. exact I. }
    destruct (verify_spec heqb node leaf_hash Hh sort_nodes Sn D h0 K (map (fun dk => hash_at node D f (fst dk) (snd dk)) (olayers D K)) leafs HD Fl2) as [[Nd _]|[_ (L & Ev & SL & FL & IL)]].
    + exfalso. apply Nd. intros i l l' I1 I2. apply True_ in I1. apply True_ in I2. congruence.
    + rewrite Ev. cbn [bind]. f_equal.
      assert (EL : L = map (hon node D f (Z.of_nat D)) K).
      { assert (Ek : map fst L = K).
        { apply strict_ext; [assumption|assumption|]. intros k. rewrite Sk, <- Same. rewrite !in_map_iff. split.
          - intros ([k' h] & Ek & I). cbn in Ek. subst k'. apply IL in I as (l & I & _). exists (k, l). auto.
          - intros ([k' l] & Ek & I). cbn in Ek. subst k'. exists (k, leaf_hash l). split; [reflexivity|]. apply IL. eauto. }
        rewrite <- Ek, map_map. rewrite <- (map_id L) at 1. apply map_ext_in. intros [k h] I. unfold hon. cbn [fst]. f_equal.
        apply IL in I as (l & I & <-). rewrite Forall_forall in Fl2. pose proof (Fl2 _ I) as Hk. cbn [fst] in Hk. apply True_ in I.
        destruct (leaf_get node leaf_hash hdefault leaves D HD HL k Hk) as (l' & _ & El & E'). fold f in El. congruence. }
      rewrite EL. pose proof (vlayers_complete heqb node Hh D f HD D K [] (le_n D) St Fk) as Vc. rewrite app_nil_r in Vc. exact Vc.
Qed.
(** An index outside the tree is refused by [open] and by [proof_size]. *)
Theorem C36_open_out_of_range orders leaves D skip t indices i :
  (D < 64)%nat -> Z.of_nat (length leaves) = 2 ^ Z.of_nat D -> 0 <= skip -> schedules orders D ->
  from_leaves_skip_layers orders leaves skip = Some (Ok t) ->
  Forall (fun i => 0 <= i) indices -> In i indices -> 2 ^ Z.of_nat D <= i ->
  open t indices = Some (Err IndexOutOfRange) /\ proof_size sort_idx (t_commitment t) indices = Some (Err IndexOutOfRange).
Proof.
  intros HD HL Hs Po Et Fi I Hi. destruct (C36_commitment orders leaves D skip HD HL Hs Po) as (t' & Et' & Ec & _).
  rewrite Et in Et'. injection Et' as <-. unfold MerkleModel.open, proof_size. rewrite Ec. rewrite (sort_indices_err sort_idx D _ indices i) by assumption.
  split; reflexivity.
Qed.

(** * C37: binding *)

(** If verification against the root of the tree with leaf hashes [f] succeeds - whatever the proof's
    hashes and recorded indices are - then every presented leaf has the hash [f i] of its index,
    or verification hashed a pair that collides with the two children of a node of that tree. *)
Theorem C37_binding D f indices hashes leafs :
  (forall a b, heqb a b = true <-> a = b) -> sorts fst sort_nodes ->
  (D < 64)%nat -> Forall (fun il : Z * Leaf => 0 <= fst il) leafs ->
  let p := P (C (2 ^ Z.of_nat D) (merkle_root node D f 0)) indices hashes in
  verify p leafs = Some (Ok tt) ->
  (forall i l, In (i, l) leafs -> i < 2 ^ Z.of_nat D /\ leaf_hash l = f i) \/
  (exists log, verify_log p leafs = Some (Ok tt, log) /\
   exists pair depth offset, In pair log /\ 0 <= depth < Z.of_nat D /\ 0 <= offset < 2 ^ depth /\
     collision node pair (hash_at node D f (depth + 1) (2 * offset), hash_at node D f (depth + 1) (2 * offset + 1))).
Proof.
  intros Hh Sn HD Fn p Ev. unfold MerkleModel.verify in Ev.
  assert (Fl : Forall (fun il : Z * Leaf => 0 <= fst il < 2 ^ Z.of_nat D) leafs).
  { apply Forall_forall. intros [i l] I. rewrite Forall_forall in Fn. pose proof (Fn _ I) as Hi. cbn [fst] in *. split; [exact Hi|].
    destruct (Z_lt_ge_dec i (2 ^ Z.of_nat D)) as [|Ge]; [assumption|exfalso].
    unfold MerkleModel.verify_log in Ev. cbn [p_commitment c_size p] in Ev.
    destruct (collect (fun il => rbind (from_size_offset (2 ^ Z.of_nat D) (fst il)) (fun i => Ok (i, leaf_hash (snd il)))) leafs) eqn:Ec; [|cbn in Ev; discriminate].
    destruct (collect_inv _ _ _ Ec _ I) as (y & Ey & _). cbn [fst snd] in Ey. rewrite from_size_offset_range in Ey by lia. discriminate. }
  assert (Er : merkle_root node D f 0 = hash_at node D f 0 0) by (unfold hash_at; change (Z.to_nat 0) with 0%nat; rewrite Nat.sub_0_r, Z.mul_0_l; reflexivity).
  destruct (verify_spec heqb node leaf_hash Hh sort_nodes Sn D (merkle_root node D f 0) indices hashes leafs HD Fl) as [[_ E]|[_ (L & E & SL & FL & IL)]].
  - fold p in E. rewrite E in Ev. discriminate.
  - fold p in E. rewrite E in Ev. cbn [bind] in Ev. injection Ev as Ev. rewrite Er in *.
    destruct (vlayers_sound heqb node Hh D f HD D L hashes (le_n D) FL SL Ev) as [G|(e & He & pair & k & I & Hk & Cl)].
    + left. intros i l I. rewrite Forall_forall in Fl. pose proof (Fl _ I) as Hi. cbn [fst] in Hi. split; [lia|].
      assert (IL' : In (i, leaf_hash l) L) by (apply IL; eauto). rewrite Forall_forall in G. specialize (G _ IL'). unfold good in G. cbn [fst snd] in G.
      rewrite G. unfold hash_at. rewrite Nat2Z.id, Nat.sub_diag, Z.sub_diag, Z.mul_1_r. reflexivity.
    + right. eexists. split; [rewrite E; f_equal; apply injective_projections; [exact Ev|reflexivity]|].
      exists pair, e, k. auto.
Qed.
(** Verification never panics, for any commitment that can be made and any presented leaves. *)
Theorem C37_total size root c indices hashes leafs :
  (forall a b, heqb a b = true <-> a = b) -> sorts fst sort_nodes ->
  0 <= size < 2 ^ 64 -> from_size_hash size root = Ok c -> Forall (fun il : Z * Leaf => 0 <= fst il) leafs ->
  exists r, verify (P c indices hashes) leafs = Some r.
Proof.
  intros Hh Sn Hs Ec Fn. unfold from_size_hash in Ec. destruct (Z.eqb_spec size 0) as [Z0|Z0]; cbn [orb negb] in Ec.
  - injection Ec as <-. subst size. unfold MerkleModel.verify, MerkleModel.verify_log. cbn [p_commitment c_size].
    destruct leafs as [|[i l] leafs].
    + cbn [collect]. assert (En : sort_nodes [] = []). { destruct (Sn []) as [Pm _]. apply Permutation_nil in Pm. exact Pm. } rewrite En. eexists. reflexivity.
    + eexists. reflexivity.
  - destruct (z_is_pow2 size) eqn:Ep; [|discriminate]. cbn in Ec. injection Ec as <-. apply z_is_pow2_inv in Ep as (d & Hd & ->).
    assert (HD : d < 64) by (destruct (Z_lt_ge_dec d 64); [assumption|pose proof (pow_le 64 d ltac:(lia)); lia]).
    replace d with (Z.of_nat (Z.to_nat d)) in * by lia. set (D := Z.to_nat d) in *.
    destruct (Forall_Exists_dec (fun il : Z * Leaf => fst il < 2 ^ Z.of_nat D) (fun il => Z_lt_dec _ _) leafs) as [F|X].
    + assert (F2 : Forall (fun il : Z * Leaf => 0 <= fst il < 2 ^ Z.of_nat D) leafs).
      { rewrite Forall_forall in *. intros il I. split; [apply Fn|apply F]; exact I. }
      destruct (verify_spec heqb node leaf_hash Hh sort_nodes Sn D root indices hashes leafs ltac:(lia) F2) as [[_ E]|[_ (L & E & _)]];
        unfold MerkleModel.verify; rewrite E; cbn [bind]; eauto.
    + apply Exists_exists in X as ([i l] & I & Hi). cbn [fst] in Hi. exists (Err IndexOutOfRange).
      unfold MerkleModel.verify, MerkleModel.verify_log. cbn [p_commitment c_size].
      rewrite (collect_err _ (fun il => kidx (Z.of_nat D) (fst il, leaf_hash (snd il))) leafs IndexOutOfRange (i, l) I); [reflexivity| |].
      * intros [j m] J. cbn [fst snd]. destruct (Z_lt_ge_dec j (2 ^ Z.of_nat D)).
        -- left. rewrite Forall_forall in Fn. pose proof (Fn _ J) as Hj. cbn [fst] in Hj. rewrite from_size_offset_ok by lia. reflexivity.
        -- right. rewrite from_size_offset_range by lia. reflexivity.
      * cbn [fst]. rewrite from_size_offset_range by lia. reflexivity.
Qed.
(** Two presented leaves with one index and different hashes are refused. *)
Theorem C37_conflicting_leaves D root indices hashes leafs i l l' :
  (forall a b, heqb a b = true <-> a = b) -> sorts fst sort_nodes ->
  (D < 64)%nat -> Forall (fun il : Z * Leaf => 0 <= fst il < 2 ^ Z.of_nat D) leafs ->
  In (i, l) leafs -> In (i, l') leafs -> leaf_hash l <> leaf_hash l' ->
  verify (P (C (2 ^ Z.of_nat D) root) indices hashes) leafs = Some (Err DuplicateLeafMismatch).
Proof.
  intros Hh Sn HD F I1 I2 N.
  destruct (verify_spec heqb node leaf_hash Hh sort_nodes Sn D root indices hashes leafs HD F) as [[_ E]|[Dt _]].
  - unfold MerkleModel.verify. rewrite E. reflexivity.
  - destruct N. eapply Dt; eassumption.
Qed.
(** Deviation: presenting no leaves at all is accepted, for every commitment and every proof. *)
Theorem C37_empty_accepted c indices hashes : sorts fst sort_nodes ->
  verify (P c indices hashes) [] = Some (Ok tt).
Proof.
  intros Sn. unfold MerkleModel.verify, MerkleModel.verify_log. cbn [collect].
  assert (En : sort_nodes [] = []). { destruct (Sn []) as [Pm _]. apply Permutation_nil in Pm. exact Pm. }
  rewrite En. reflexivity.
Qed.

(** * C38: proof size *)
Theorem C38_proof_size orders leaves D skip t indices :
  sorts (fun x => x) sort_idx ->
  (D < 64)%nat -> Z.of_nat (length leaves) = 2 ^ Z.of_nat D -> 0 <= skip -> schedules orders D ->
  from_leaves_skip_layers orders leaves skip = Some (Ok t) ->
  Forall (fun i => 0 <= i < 2 ^ Z.of_nat D) indices -> Z.of_nat (length indices) * 64 <= 2 ^ 64 ->
  exists p, open t indices = Some (Ok p) /\
    proof_size sort_idx (t_commitment t) indices = Some (Ok (Z.of_nat (length (p_hashes p)))) /\
    (forall hs : list H, from_hashes sort_idx (t_commitment t) indices hs =
       Some (if (length hs =? length (p_hashes p))%nat then Ok (P (t_commitment t) indices hs) else Err NotEnoughHashes)).
Proof.
  intros Si HD HL Hs Po Et Fi Hlen. destruct (build_spec node leaf_hash hdefault leaves D HD HL orders skip Hs) as (nodes & m & E & Hm & Fl).
  { intros e He. apply Po. lia. }
  rewrite Et in E. injection E as ->. set (h0 := hash_at node D (leaf_hashes leaves) 0 0) in *.
  destruct (sort_indices_spec sort_idx Si D h0 indices HD Fi) as (K & Es & St & Fk & Sk).
  pose proof (strict_length K indices St Sk) as Lk.
  eexists. split; [apply (open_spec node leaf_hash hdefault sort_idx Si leaves D m _ indices K); first [assumption | reflexivity | lia]|].
  cbn [p_hashes t_commitment]. rewrite map_length. split.
  - apply (proof_size_spec sort_idx D h0 indices K); first [assumption | lia].
  - intros hs. apply (from_hashes_spec sort_idx D h0 indices K hs); first [assumption | lia].
Qed.
End Hashing.
Print Assumptions C36_commitment.
Print Assumptions C36_node_hash.
Print Assumptions C36_bad_leaves.
Print Assumptions C36_completeness.
Print Assumptions C36_open_out_of_range.
Print Assumptions C37_binding.
Print Assumptions C37_total.
Print Assumptions C37_conflicting_leaves.
Print Assumptions C37_empty_accepted.
Print Assumptions C38_proof_size.

(** A concrete instance of all hypotheses: hashes are terms, leaves are numbers. *)
Inductive term := TL (z : Z) | TN (a b : term).
Fixpoint term_eqb (a b : term) : bool :=
  match a, b with TL x, TL y => x =? y | TN a b, TN c d => term_eqb a c && term_eqb b d | _, _ => false end.
Lemma term_eqb_spec a b : term_eqb a b = true <-> a = b.
Proof.
  revert b. induction a as [z|a IHa a' IHa']; intros [y|b b']; cbn [term_eqb]; split; intros E; try discriminate.
  - apply Z.eqb_eq in E. congruence.
  - injection E as ->. apply Z.eqb_refl.
  - apply andb_prop in E as [E1 E2]. apply IHa in E1. apply IHa' in E2. congruence.
  - injection E as -> ->. apply andb_true_intro. split; [apply IHa|apply IHa']; reflexivity.
Qed.
Section Isort.
Context {A : Type} (key : A -> Z).
Fixpoint insert (x : A) (l : list A) : list A := match l with [] => [x] | y :: r => if key x <=? key y then x :: l else y :: insert x r end.
Definition isort (l : list A) : list A := fold_right insert [] l.
Lemma insert_perm x l : Permutation (x :: l) (insert x l).
Proof. induction l as [|y l IH]; cbn; [auto|]. destruct (key x <=? key y); [auto|]. rewrite perm_swap. constructor. exact IH. Qed.
Lemma insert_sorted x l : StronglySorted (fun a b => key a <= key b) l -> StronglySorted (fun a b => key a <= key b) (insert x l).
Proof.
  intros S. induction S as [|y l S IH F]; cbn [insert]; [repeat constructor|]. destruct (Z.leb_spec (key x) (key y)).
  - constructor; [constructor; assumption|]. constructor; [assumption|]. rewrite Forall_forall in *. intros z I. specialize (F z I). lia.
  - constructor; [exact IH|]. rewrite Forall_forall in *. intros z I. apply (Permutation_in _ (Permutation_sym (insert_perm x l))) in I.
    destruct I as [<-|I]; [lia|apply F; exact I].
Qed.
Lemma isort_sorts : sorts key isort.
Proof.
  intros l. induction l as [|x l [IH1 IH2]]; cbn [isort fold_right]; [split; constructor|]. fold (isort l). split.
  - rewrite <- insert_perm. constructor. exact IH1.
  - apply insert_sorted. exact IH2.
Qed.
End Isort.
Definition ex_orders (d : nat) : list nat := rev (seq 0 (Z.to_nat (2 ^ Z.of_nat d))).
Lemma ex_schedules D : schedules ex_orders D.
Proof. intros d _. unfold ex_orders. symmetry. apply Permutation_rev. Qed.
Definition ex_leaves : list Z := [10; 11; 12; 13; 14; 15; 16; 17].
Definition ex_tree skip := from_leaves_skip_layers TN TL (TL 0) ex_orders ex_leaves skip.
Definition ex_open := match ex_tree 1 with Some (Ok t) => open TN TL (isort (fun x => x)) t [5; 2; 5] | _ => None end.
Example C36_ex :
  Z.of_nat (length ex_leaves) = 2 ^ Z.of_nat 3 /\ schedules ex_orders 3 /\
  sorts (fun x => x) (isort (fun x => x)) /\ sorts fst (isort (@fst Z term)) /\
  match ex_tree 1, ex_tree 2, ex_tree 9 with
  | Some (Ok a), Some (Ok b), Some (Ok c) => t_commitment a = t_commitment b /\ t_commitment b = t_commitment c /\ length (t_nodes a) = 7%nat /\ t_nodes c = []
  | _, _, _ => False end /\
  match ex_open with
  | Some (Ok p) => verify term_eqb TN TL (isort fst) p [(5, 15); (2, 12)] = Some (Ok tt) /\
      p_hashes p = [TL 13; TL 14; TN (TL 10) (TL 11); TN (TL 16) (TL 17)] /\
      verify term_eqb TN TL (isort fst) p [(5, 15); (2, 99)] = Some (Err RootHashMismatch) /\
      verify term_eqb TN TL (isort fst) p [(2, 12); (5, 15); (2, 99)] = Some (Err DuplicateLeafMismatch)
  | _ => False end.
Proof. split; [reflexivity|]. split; [apply ex_schedules|]. split; [apply isort_sorts|]. split; [apply isort_sorts|]. vm_compute. intuition. Qed.
(** With a hash function that has collisions, the second case of [C37_binding] does occur. *)
Example C37_ex :
  merkle_root Z.add 1 (fun i => i + 1) 0 = 3 /\
  verify_log Z.eqb Z.add (fun x : Z => x) (isort fst) (P (C 2 3) [0] [3]) [(0, 0)] = Some (Ok tt, [(0, 3)]) /\
  collision Z.add (0, 3) (1, 2).
Proof. vm_compute. intuition congruence. Qed.
Example C38_ex : match ex_tree 1 with Some (Ok t) => proof_size (isort (fun x => x)) (t_commitment t) [5; 2; 5] = Some (Ok 4) | _ => False end.
Proof. vm_compute. reflexivity. Qed.
