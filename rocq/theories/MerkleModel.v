(** The Merkle tree of crypto/merkle-tree/src.

    The hash type and the hash functions are parameters: [H] is the type of hashes,
    [node l r] is the hash of a [Node] (node.rs:7-14), [leaf_hash] is [Leaf::hash].
    [None] of an outer option is a panic of the debug profile. *)
Require Import ZArith Arith Lia Bool List.
From Verif Require Import Word KnuthModel BinaryModel Arr.
Import ListNotations.
Open Scope Z_scope.

(** result.rs:7-15 [Error] *)
Inductive merror := TreeToLarge | NumLeavesNotPowerOfTwo | IndexOutOfRange | IndicesUnsortedOrDuplicate
  | DuplicateLeafMismatch | NotEnoughHashes | RootHashMismatch.
(** result.rs:4 [Result] *)
Inductive res (A : Type) := Ok (a : A) | Err (e : merror).
Arguments Ok {A}. Arguments Err {A}.
(** the [?] operator *)
Definition rbind {A C} (r : res A) (k : A -> res C) : res C := match r with Ok a => k a | Err e => Err e end.

(** Rust: usize::is_power_of_two, usize::next_power_of_two (panics on overflow in debug) *)
Definition z_is_pow2 (n : Z) : bool := (0 <? n) && (2 ^ Z.log2 n =? n).
Definition next_power_of_two (n : Z) : option Z :=
  if n <=? 2 ^ 63 then Some (if n <=? 1 then 1 else 2 ^ Z.log2_up n) else None.

(** index.rs:43 [struct Index(usize)]: the number itself. *)
(** index.rs:46-48 [max_size] *)
Definition max_size : Z := 2 ^ 63.
(** index.rs:50-54 [size_at_depth]: a shift by 64 or more panics in debug. *)
Definition size_at_depth (depth : Z) : option Z := if depth <? 64 then Some (2 ^ depth) else None.
(** index.rs:56-59 [depth_for_size] *)
Definition depth_for_size (size : Z) : option Z := let? n := next_power_of_two size in Some (ctz64 n).
(** index.rs:61-63 [root] *)
Definition i_root : Z := 1.
(** index.rs:65-67 [from_index] *)
Definition i_from_index (index : Z) : option Z := add64 index 1.
(** index.rs:84-89 [from_size_offset] *)
Definition from_size_offset (size offset : Z) : res Z :=
  if negb (z_is_pow2 size) then Err NumLeavesNotPowerOfTwo
  else if negb (size <=? max_size) then Err TreeToLarge
  else if negb (offset <? size) then Err IndexOutOfRange
  else Ok (Z.lor size offset).
(** index.rs:91-93 [from_depth_offset] *)
Definition from_depth_offset (depth offset : Z) : option (res Z) :=
  let? s := size_at_depth depth in Some (from_size_offset s offset).
(** index.rs:95-97 [as_index] *)
Definition as_index (x : Z) : option Z := sub64 x 1.
(** index.rs:99-101 [depth], 103-105 [offset]; on Index(0), which no constructor
    returns, the subtraction would panic. *)
Definition i_depth (x : Z) : Z := 64 - clz64 x - 1.
Definition i_offset (x : Z) : Z := x - Z.shiftl 1 (i_depth x).
(** index.rs:107-125 *)
Definition is_root (x : Z) : bool := x =? 1.
Definition is_left (x : Z) : bool := x mod 2 =? 0.
Definition is_right (x : Z) : bool := negb (x =? 1) && (x mod 2 =? 1).
Definition is_left_most (x : Z) : bool := z_is_pow2 x.
Definition is_right_most (x : Z) : option bool := let? y := add64 x 1 in Some (z_is_pow2 y).
(** index.rs:127-141 [parent], [sibling] *)
Definition i_parent (x : Z) : option Z := if is_root x then None else Some (Z.shiftr x 1).
Definition i_sibling (x : Z) : option Z := if is_root x then None else Some (Z.lxor x 1).
(** index.rs:143-157 [left_neighbor], [right_neighbor] *)
Definition left_neighbor (x : Z) : option Z := if is_left_most x then None else Some (x - 1).
Definition right_neighbor (x : Z) : option (option Z) :=
  let? m := is_right_most x in Some (if m then None else Some (x + 1)).
(** index.rs:159-165 [left_child], [right_child]: [<<] drops the top bit silently. *)
Definition left_child (x : Z) : Z := w64 (Z.shiftl x 1).
Definition right_child (x : Z) : Z := Z.lor (w64 (Z.shiftl x 1)) 1.
(** index.rs:167-176 [last_common_ancestor] *)
Definition last_common_ancestor (x y : Z) : Z :=
  let a := w64 (Z.shiftl x (clz64 x)) in
  let b := w64 (Z.shiftl y (clz64 y)) in
  let prefix_length := clz64 (Z.lxor a b) in
  Z.shiftr a (64 - prefix_length).
(** index.rs:179-184 [concat]; [^] binds looser than [<<], [|] loosest. *)
Definition i_concat (x y : Z) : Z :=
  let other_depth := i_depth y in
  let other_path := Z.lxor y (Z.shiftl 1 other_depth) in
  Z.lor (w64 (Z.shiftl x other_depth)) other_path.
(** index.rs:69-74 [iter_layer], 194-212 [LayerIter::next]; [unwrap] of an error panics. *)
Record layer_iter := LI { li_size : Z; li_offset : Z }.
Definition iter_layer (depth : Z) : option layer_iter := let? s := size_at_depth depth in Some (LI s 0).
Definition li_next (it : layer_iter) : option (option Z * layer_iter) :=
  if li_offset it <? li_size it then
    match from_size_offset (li_size it) (li_offset it) with
    | Ok item => Some (Some item, LI (li_size it) (li_offset it + 1))
    | Err _ => None
    end
  else Some (None, it).
(** index.rs:76-81 [layer_range]: first and last position of a layer *)
Definition layer_range (depth : Z) : option (Z * Z) :=
  let? s := from_depth_offset depth 0 in
  let? sz := size_at_depth depth in
  let? e := from_depth_offset depth (sz - 1) in
  match s, e with
  | Ok s, Ok e => let? a := as_index s in let? b := as_index e in Some (a, b)
  | _, _ => None
  end.

(** Vec::dedup, dedup_by_key: of a run of equal keys the first element is kept. *)
Fixpoint dedup_by {A} (key : A -> Z) (l : list A) : list A :=
  match l with
  | [] => []
  | x :: r =>
      match r with
      | [] => [x]
      | _ => let d := dedup_by key r in
             match d with y :: d' => if key x =? key y then x :: d' else x :: d | [] => [x] end
      end
  end.
(** [iter().map(f).collect::<Result<Vec<_>>>()]: the first error is returned. *)
Fixpoint collect {A C} (f : A -> res C) (l : list A) : res (list C) :=
  match l with
  | [] => Ok []
  | x :: r => rbind (f x) (fun y => rbind (collect f r) (fun ys => Ok (y :: ys)))
  end.

Section Merkle.
Context {H Leaf : Type}.
(** Hash equality (Hash derives PartialEq), node.rs:7-14, Leaf::hash, Hash::default *)
Context (heqb : H -> H -> bool) (node : H -> H -> H) (leaf_hash : Leaf -> H) (hdefault : H).
(** slice::sort_unstable, slice::sort_unstable_by_key: the order of equal keys is unspecified,
    so the sorting functions are parameters, constrained in the theorems. *)
Context (sort_idx : list Z -> list Z) (sort_nodes : list (Z * H) -> list (Z * H)).

(** commitment.rs:14-17 [Commitment] *)
Record commitment := C { c_size : Z; c_hash : H }.
(** commitment.rs:20-29 [from_size_hash] *)
Definition from_size_hash (size : Z) (hash : H) : res commitment :=
  if negb ((size =? 0) || z_is_pow2 size) then Err NumLeavesNotPowerOfTwo else Ok (C size hash).
(** commitment.rs:41-49 [sort_indices] *)
Definition sort_indices (c : commitment) (indices : list Z) : res (list Z) :=
  rbind (collect (from_size_offset (c_size c)) indices) (fun l =>
  Ok (dedup_by (fun x => x) (sort_idx l))).
(** commitment.rs:58-63: the loop over neighbouring pairs; [-=] panics on underflow. *)
Fixpoint proof_size_loop (size : Z) (l : list Z) : option Z :=
  match l with
  | current :: ((next :: _) as r) =>
      let ancestor := last_common_ancestor current next in
      let? size := sub64 size (i_depth ancestor + 2) in
      proof_size_loop size r
  | _ => Some size
  end.
(** commitment.rs:52-65 [proof_size] *)
Definition proof_size (c : commitment) (indices : list Z) : option (res Z) :=
  match sort_indices c indices with
  | Err e => Some (Err e)
  | Ok l =>
      let depth := ctz64 (c_size c) in
      let? size := mul64 depth (Z.of_nat (length l)) in
      let? size := proof_size_loop size l in
      Some (Ok size)
  end.

(** proof.rs:17-21 [Proof] *)
Record proof := P { p_commitment : commitment; p_indices : list Z; p_hashes : list H }.
(** proof.rs:24-40 [from_hashes] *)
Definition from_hashes (c : commitment) (indices : list Z) (hashes : list H) : option (res proof) :=
  match sort_indices c indices with
  | Err e => Some (Err e)
  | Ok _ =>
      let? s := proof_size c indices in
      Some (rbind s (fun s =>
        if negb (Z.of_nat (length hashes) =? s) then Err NotEnoughHashes else Ok (P c indices hashes)))
  end.

(** proof.rs:60-66: neighbouring entries of one index carry one hash *)
Fixpoint windows_ok (l : list (Z * H)) : bool :=
  match l with
  | a :: ((b :: _) as r) => (negb (fst a =? fst b) || heqb (snd a) (snd b)) && windows_ok r
  | _ => true
  end.
(** proof.rs:75-106: the reconstruction loop. Besides the result it returns the pairs of which
    it computed the node hash, a ghost output that the code does not have. [fuel] bounds the
    number of iterations (exhaustion is excluded by the theorems). *)
Fixpoint verify_loop (fuel : nat) (root_hash : H) (nodes : list (Z * H)) (hashes : list H) (log : list (H * H))
  : option (res unit * list (H * H)) :=
  match nodes with
  | [] => Some (Ok tt, log)
  | (current, hash) :: nodes =>
      match fuel with
      | O => None
      | S fuel =>
          match i_parent current with
          | Some parent =>
              let combine l r nodes hashes := verify_loop fuel root_hash (nodes ++ [(parent, node l r)]) hashes (log ++ [(l, r)]) in
              let with_popped (k : H -> list H -> option (res unit * list (H * H))) :=
                match hashes with [] => Some (Err NotEnoughHashes, log) | h :: hs => k h hs end in
              if is_left current then
                match nodes with
                | (next, next_hash) :: nodes' =>
                    let? sibling := i_sibling current in
                    if sibling =? next then combine hash next_hash nodes' hashes
                    else with_popped (fun h hs => combine hash h nodes hs)
                | [] => with_popped (fun h hs => combine hash h nodes hs)
                end
              else with_popped (fun h hs => combine h hash nodes hs)
          | None =>
              if negb (heqb hash root_hash) then Some (Err RootHashMismatch, log)
              else verify_loop fuel root_hash nodes hashes log
          end
      end
  end.
(** proof.rs:46-107 [verify], with the ghost log *)
Definition verify_log (p : proof) (leafs : list (Z * Leaf)) : option (res unit * list (H * H)) :=
  match collect (fun il => rbind (from_size_offset (c_size (p_commitment p)) (fst il)) (fun i => Ok (i, leaf_hash (snd il)))) leafs with
  | Err e => Some (Err e, [])
  | Ok nodes =>
      let nodes := sort_nodes nodes in
      if negb (windows_ok nodes) then Some (Err DuplicateLeafMismatch, [])
      else
        let nodes := dedup_by fst nodes in
        verify_loop (64 * length nodes) (c_hash (p_commitment p)) nodes (p_hashes p) []
  end.
Definition verify (p : proof) (leafs : list (Z * Leaf)) : option (res unit) :=
  let? r := verify_log p leafs in Some (fst r).

(** tree.rs:24-36 [compute]; the recursion depth is at most 64. [leaves[i]] panics out of range. *)
Fixpoint compute (fuel : nat) (leaves : list Leaf) (index : Z) : option H :=
  let? leaf_depth := depth_for_size (Z.of_nat (length leaves)) in
  if negb (i_depth index <=? leaf_depth) then None
  else if i_depth index =? leaf_depth then
    let? l := get leaves (Z.to_nat (i_offset index)) in Some (leaf_hash l)
  else match fuel with
       | O => None
       | S fuel =>
           let? l := compute fuel leaves (left_child index) in
           let? r := compute fuel leaves (right_child index) in
           Some (node l r)
       end.

(** tree.rs:12-21 [for_each]: the jobs of the slice elements run in the order [order]; each owns
    its element and reads nothing that another writes. *)
Definition par_fill (order : list nat) (job : nat -> option H) (slice : list H) : option (list H) :=
  for_each order (fun s i => let? h := job i in set s i h) slice.
(** [&mut v[a..=b]]: apply [f] to the sub-slice *)
Definition on_range (v : list H) (a b : Z) (f : list H -> option (list H)) : option (list H) :=
  if (a <=? b + 1) && (b <? Z.of_nat (length v)) then
    let i := Z.to_nat a in let n := Z.to_nat (b + 1 - a) in
    let? s := f (firstn n (skipn i v)) in
    Some (firstn i v ++ s ++ skipn (i + n) v)
  else None.

(** tree.rs:106-114: the upper layers, [for depth in (0..depth).rev()]; split_at_mut panics when
    out of range. [orders d] is the schedule of the parallel loop of layer [d]. *)
Fixpoint upper_layers (orders : nat -> list nat) (depth : nat) (nodes : list H) : option (list H) :=
  match depth with
  | O => Some nodes
  | S d =>
      let? s := from_depth_offset (Z.of_nat d + 1) 0 in
      let? mid := match s with Ok i => as_index i | Err _ => None end in
      if Z.of_nat (length nodes) <? mid then None else
      let tree := firstn (Z.to_nat mid) nodes in
      let previous := skipn (Z.to_nat mid) nodes in
      let? (a, b) := layer_range (Z.of_nat d) in
      let? tree := on_range tree a b (par_fill (orders d) (fun i =>
        let? l := get previous (2 * i) in
        let? r := get previous (2 * i + 1) in
        Some (node l r))) in
      upper_layers orders d (tree ++ previous)
  end.

(** tree.rs:47-51 [Tree] *)
Record tree := T { t_commitment : commitment; t_nodes : list H; t_leaves : list Leaf }.
(** tree.rs:58-129 [from_leaves_skip_layers]; [unwrap] of an error panics. *)
Definition from_leaves_skip_layers (orders : nat -> list nat) (leaves : list Leaf) (skip_layers : Z) : option (res tree) :=
  let size := Z.of_nat (length leaves) in
  if size =? 0 then
    match from_size_hash size hdefault with Ok c => Some (Ok (T c [] leaves)) | Err _ => None end
  else if negb (z_is_pow2 size) then Some (Err NumLeavesNotPowerOfTwo)
  else if negb (size <=? max_size) then Some (Err TreeToLarge)
  else
    let? leaf_depth := depth_for_size size in
    let? nodes :=
      if skip_layers <=? leaf_depth then
        let depth := leaf_depth - skip_layers in
        let? sz := size_at_depth depth in
        let? e := from_depth_offset depth (sz - 1) in
        let? max_index := match e with Ok i => as_index i | Err _ => None end in
        let nodes := repeat hdefault (Z.to_nat (max_index + 1)) in
        let? (a, b) := layer_range depth in
        let? nodes := on_range nodes a b (par_fill (orders (Z.to_nat depth)) (fun i =>
          let? s := from_depth_offset depth (Z.of_nat i) in
          match s with Ok index => compute 64 leaves index | Err _ => None end)) in
        upper_layers orders (Z.to_nat depth) nodes
      else Some [] in
    let? root_hash := match nodes with [] => compute 64 leaves i_root | h :: _ => Some h end in
    match from_size_hash size root_hash with
    | Ok c => Some (Ok (T c nodes leaves))
    | Err _ => None
    end.
(** tree.rs:54-56 [from_leaves] *)
Definition from_leaves (orders : nat -> list nat) (leaves : list Leaf) : option (res tree) := from_leaves_skip_layers orders leaves 1.

(** tree.rs:147-162 [node_hash]; the recursion depth is at most 64. *)
Fixpoint node_hash (fuel : nat) (t : tree) (index : Z) : option H :=
  let? i := as_index index in
  if i <? Z.of_nat (length (t_nodes t)) then get (t_nodes t) (Z.to_nat i)
  else
    let? leaf_depth := depth_for_size (Z.of_nat (length (t_leaves t))) in
    if negb (i_depth index <=? leaf_depth) then None
    else if i_depth index =? leaf_depth then
      let? l := get (t_leaves t) (Z.to_nat (i_offset index)) in Some (leaf_hash l)
    else match fuel with
         | O => None
         | S fuel =>
             let? l := node_hash fuel t (left_child index) in
             let? r := node_hash fuel t (right_child index) in
             Some (node l r)
         end.

(** tree.rs:170-191: the loop of [open] *)
Fixpoint open_loop (fuel : nat) (t : tree) (indices : list Z) (hashes : list H) : option (list H) :=
  match indices with
  | [] => Some hashes
  | current :: indices =>
      match fuel with
      | O => None
      | S fuel =>
          match i_parent current with
          | Some parent =>
              let indices := indices ++ [parent] in
              let? sibling := i_sibling current in
              let push := let? h := node_hash 64 t sibling in open_loop fuel t indices (hashes ++ [h]) in
              match indices with
              | next :: rest => if next =? sibling then open_loop fuel t rest hashes else push
              | [] => push
              end
          | None => open_loop fuel t indices hashes
          end
      end
  end.
(** tree.rs:164-193 [open] *)
Definition open (t : tree) (indices : list Z) : option (res proof) :=
  match sort_indices (t_commitment t) indices with
  | Err e => Some (Err e)
  | Ok indices =>
      let proof_indices := map i_offset indices in
      let? hashes := open_loop (64 * length indices) t indices [] in
      from_hashes (t_commitment t) proof_indices hashes
  end.
End Merkle.
Arguments C {H}. Arguments c_size {H}. Arguments c_hash {H}.
Arguments P {H}. Arguments p_commitment {H}. Arguments p_indices {H}. Arguments p_hashes {H}.
Arguments T {H Leaf}. Arguments t_commitment {H Leaf}. Arguments t_nodes {H Leaf}. Arguments t_leaves {H Leaf}.
