(** Specification of Merkle trees, independent of the model's functions. *)
Require Import ZArith Lia List Permutation Sorted.
Open Scope Z_scope.

(** The values an [Index] can have. *)
Definition valid_index (x : Z) : Prop := 1 <= x < 2 ^ 64.

(** The root hash of the perfect tree of depth [d] over the leaf hashes
    [f k], [f (k+1)], ..., [f (k + 2^d - 1)]. *)
Fixpoint merkle_root {H} (node : H -> H -> H) (d : nat) (f : Z -> H) (k : Z) : H :=
  match d with
  | O => f k
  | S d => node (merkle_root node d f k) (merkle_root node d f (k + 2 ^ Z.of_nat d))
  end.
(** The hash of the node at (depth, offset) of the tree of depth [D] over [f]. *)
Definition hash_at {H} (node : H -> H -> H) (D : nat) (f : Z -> H) (depth offset : Z) : H :=
  merkle_root node (D - Z.to_nat depth) f (offset * 2 ^ (Z.of_nat D - depth)).

(** The leaf hashes of a list of leaves, by position. *)
Definition leaf_hashes {H Leaf} (leaf_hash : Leaf -> H) (hdefault : H) (leaves : list Leaf) (k : Z) : H :=
  nth (Z.to_nat k) (map leaf_hash leaves) hdefault.

(** The schedule of a parallel loop over the 2^depth nodes of each layer: every node once, in any order. *)
Definition schedules (orders : nat -> list nat) (D : nat) : Prop :=
  forall depth, (depth <= D)%nat -> Permutation (orders depth) (seq 0 (Z.to_nat (2 ^ Z.of_nat depth))).

(** What slice::sort_unstable(_by_key) guarantees. *)
Definition sorts {A} (key : A -> Z) (sort : list A -> list A) : Prop :=
  forall l, Permutation l (sort l) /\ StronglySorted (fun a b => key a <= key b) (sort l).

(** Two different pairs with one node hash. *)
Definition collision {H} (node : H -> H -> H) (p q : H * H) : Prop :=
  p <> q /\ node (fst p) (snd p) = node (fst q) (snd q).
