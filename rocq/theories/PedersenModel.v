(** crypto/stark/examples/pedersen_merkle: component.rs, inputs.rs and the hash of pedersen_points.rs. The tables of points
    ([points], 506 of them, and [shift]) and of coefficients ([lx], [ly], [rx], [ry], 256 each, periodic_columns.rs) are
    arguments, as are the size of a layer ([n], 256 in the code) and the number of bits of a field element ([bits], 252).
    [None] is a panic. *)
Require Import ZArith Bool List.
From Verif Require Import Word KnuthModel FieldSig FieldAlgModel Arr FftModel StarkBase PolyModel TraceModel ExprModel ComponentModel CurveModel.
Import ListNotations.
Open Scope nat_scope.

Section Pedersen.
Context {F : Type} (o : ops F) (e : engine F).
(** component.rs:17-21 [get_slope] *)
Definition get_slope (p q : affine F) : option F :=
  match p, q with APoint x1 y1, APoint x2 y2 => f_div o (fsub o y1 y2) (fsub o x1 x2) | _, _ => None end.
(** component.rs:82 and 248 [row] *)
Definition row_at (omega : F) (i : Z) : rexpr F := e_sub EX (EConst (pow_usize o omega i)).
(** component.rs:84-87 [on_no_hash_rows], [on_hash_start_rows], [on_fe_end_rows], with the row as an argument, and [on_hash_loop_rows] *)
Definition on_layer_row (omega : F) (i : Z) (a : rexpr F) : rexpr F := e_div a (row_at omega i).
Definition on_hash_loop_rows (omega : F) (n : Z) (a : rexpr F) : rexpr F := e_div (EMul a (row_at omega (n - 1))) (e_sub (EExp EX n) (EConst (f1 o))).
(** component.rs:90-91; the integer 2 is the constant 1 + 1 *)
Definition bit_of (column : nat) : rexpr F := e_sub (ETrace column 0) (EMul (ETrace column 1) (EConst (fadd o (f1 o) (f1 o)))).
(** component.rs:93-138 *)
Definition layer_exprs (omega : F) (n bits : Z) (sx sy : F) (plx ply prx pry : rexpr F) : list (rexpr F) :=
  [ on_layer_row omega 0 (e_sub (ETrace 6 0) (EConst sx));
    on_layer_row omega 0 (e_sub (ETrace 7 0) (EConst sy));
    on_hash_loop_rows omega n (EMul (bit_of 0) (e_sub (bit_of 0) (EConst (f1 o))));
    on_hash_loop_rows omega n (e_sub (EMul (bit_of 0) (e_sub (ETrace 7 0) ply)) (EMul (ETrace 1 1) (e_sub (ETrace 6 0) plx)));
    on_hash_loop_rows omega n (e_sub (EMul (ETrace 1 1) (ETrace 1 1)) (EMul (bit_of 0) (EAdd (EAdd (ETrace 6 0) plx) (ETrace 2 1))));
    on_hash_loop_rows omega n (e_sub (EMul (bit_of 0) (EAdd (ETrace 7 0) (ETrace 3 1))) (EMul (ETrace 1 1) (e_sub (ETrace 6 0) (ETrace 2 1))));
    on_hash_loop_rows omega n (EMul (e_sub (EConst (f1 o)) (bit_of 0)) (e_sub (ETrace 6 0) (ETrace 2 1)));
    on_hash_loop_rows omega n (EMul (e_sub (EConst (f1 o)) (bit_of 0)) (e_sub (ETrace 7 0) (ETrace 3 1)));
    on_layer_row omega bits (ETrace 0 0);
    on_layer_row omega (n - 1) (ETrace 0 0);
    on_hash_loop_rows omega n (EMul (bit_of 4) (e_sub (bit_of 4) (EConst (f1 o))));
    on_hash_loop_rows omega n (e_sub (EMul (bit_of 4) (e_sub (ETrace 3 1) pry)) (EMul (ETrace 5 1) (e_sub (ETrace 2 1) prx)));
    on_hash_loop_rows omega n (e_sub (EMul (ETrace 5 1) (ETrace 5 1)) (EMul (bit_of 4) (EAdd (EAdd (ETrace 2 1) prx) (ETrace 6 1))));
    on_hash_loop_rows omega n (e_sub (EMul (bit_of 4) (EAdd (ETrace 3 1) (ETrace 7 1))) (EMul (ETrace 5 1) (e_sub (ETrace 2 1) (ETrace 6 1))));
    on_hash_loop_rows omega n (EMul (e_sub (EConst (f1 o)) (bit_of 4)) (e_sub (ETrace 2 1) (ETrace 6 1)));
    on_hash_loop_rows omega n (EMul (e_sub (EConst (f1 o)) (bit_of 4)) (e_sub (ETrace 3 1) (ETrace 7 1)));
    on_layer_row omega bits (ETrace 4 0);
    on_layer_row omega (n - 1) (ETrace 4 0) ].

Section Tables.
Variables (shift : affine F) (points : list (affine F)) (lx ly rx ry : list F) (n bits : nat).
(** component.rs:62-140 [constraints] *)
Definition layer_constraints : option (list (rexpr F)) :=
  match shift with
  | AZero => None
  | APoint sx sy =>
    let? plx := poly_new lx in let? ply := poly_new ly in let? prx := poly_new rx in let? pry := poly_new ry in
    let? r := eroot e n in let? omega := r in
    Some (layer_exprs omega (Z.of_nat n) (Z.of_nat bits) sx sy (EPoly plx EX) (EPoly ply EX) (EPoly prx EX) (EPoly pry EX))
  end.

(** The conversions between field elements and numbers: [U256::from] and [FieldElement::from]. The numbers are Z: their
    operations [bit(0)] and [>>= 1] are those of the model of U256 *)
Variables (to_uint : F -> Z) (from_uint : Z -> F).
Definition x_or_zero (p : affine F) : F := match p with AZero => f0 o | APoint x _ => x end.
Definition y_or_zero (p : affine F) : F := match p with AZero => f0 o | APoint _ y => y end.
(** component.rs:161-165 and 167-171: the slope and the point after one of the bits *)
Definition layer_add (bit : bool) (index : nat) (q : affine F) : option (F * affine F) :=
  if bit then
    let? p := nth_error points index in
    let? slope := get_slope q p in
    let? r := a_add o q p in
    Some (slope, r)
  else Some (f0 o, q).
(** component.rs:156-199, the loop; the state is left_source, right_source and right_point ([left_point] is set before it is
    read, but for row 0, where it is zero) *)
Definition layer_step (s : option ((Z * Z * affine F) * list (write F))) (i : nat) : option ((Z * Z * affine F) * list (write F)) :=
  let? ((ls, rs, q), ws) := s in
  let? ((ls, rs, q), (sl, lp, sr)) :=
    (if i =? 0 then Some ((ls, rs, q), (f0 o, AZero, f0 o)) else
       let? (sl, lp) := layer_add (Z.odd ls) i q in
       let? (sr, rp) := layer_add (Z.odd rs) (i + bits) lp in
       Some ((Z.div2 ls, Z.div2 rs, rp), (sl, lp, sr))) in
  Some ((ls, rs, q), ws ++ [ (0, i, from_uint ls); (1, i, sl); (2, i, x_or_zero lp); (3, i, y_or_zero lp);
                             (4, i, from_uint rs); (5, i, sr); (6, i, x_or_zero q); (7, i, y_or_zero q) ]).
(** component.rs:142-200 [trace] *)
Definition layer_trace (w : F * F * bool) : option (list (write F)) :=
  let '(leaf, sibling, direction) := w in
  let (lft, rgt) := if direction then (sibling, leaf) else (leaf, sibling) in
  let? (_, ws) := fold_left layer_step (seq 0 n) (Some ((to_uint lft, to_uint rgt, shift), [])) in
  Some ws.
(** component.rs:48-201 [MerkleTreeLayer] *)
Definition merkle_layer : component F unit (F * F * bool) :=
  Component 8 (Some n) (fun _ => tt) (fun _ => layer_constraints) (fun _ _ w => layer_trace w).

(** pedersen_points.rs:6-26 [merkle_hash] *)
Definition hash_add (first : nat) (s : option (jacobian F * Z)) (i : nat) : option (jacobian F * Z) :=
  let? (p, x) := s in
  let? p := (if Z.odd x then let? q := nth_error points (i + first) in Some (j_add_affine o p q) else Some p) in
  Some (p, Z.div2 x).
Definition merkle_hash (lft rgt : F) : option F :=
  let? (p, _) := fold_left (hash_add 1) (seq 0 (bits + 1)) (Some (j_from_affine o shift, to_uint lft)) in
  let? (p, _) := fold_left (hash_add (bits + 1)) (seq 0 (bits + 1)) (Some (p, to_uint rgt)) in
  match a_from_jacobian o p with AZero => None | APoint x _ => Some x end.

(** inputs.rs:7-19 [Claim], [Witness]: (leaf, root), the path of (direction, sibling); the path length of the claim is not used
    by the component. inputs.rs:21-34 [Witness::new] *)
Definition witness_root (leaf : F) (path : list (bool * F)) : option F :=
  fold_left (fun leaf (x : bool * F) => let? leaf := leaf in if fst x then merkle_hash (snd x) leaf else merkle_hash leaf (snd x)) path (Some leaf).
(** component.rs:282-295, the witnesses of the layers *)
Fixpoint layer_witnesses (leaf : F) (path : list (bool * F)) : option (list (F * F * bool)) :=
  match path with
  | [] => Some []
  | (direction, sibling) :: path =>
    let? next := (if direction then merkle_hash sibling leaf else merkle_hash leaf sibling) in
    let? l := layer_witnesses next path in
    Some ((leaf, sibling, direction) :: l)
  end.
(** component.rs:251-276: the constraints of the tree, given those of the layers. The insertions put the column constraints
    first, then the leaf, the root and the connection. *)
Definition tree_exprs (omega : F) (size depth : Z) (leaf root : F) (layers : list (rexpr F)) : list (rexpr F) :=
  map (fun i => ETrace i 0) (seq 0 8) ++
  [ on_layer_row omega 0 (EMul (e_sub (EConst leaf) (ETrace 0 0)) (e_sub (EConst leaf) (ETrace 4 0)));
    on_layer_row omega (Z.of_nat n - 1 + (depth - 1) * Z.of_nat n) (e_sub (EConst root) (ETrace 6 0));
    e_div (EMul (EMul (e_sub (ETrace 6 0) (ETrace 0 1)) (e_sub (ETrace 6 0) (ETrace 4 1))) (row_at omega (size - 1)))
          (e_sub (EExp EX depth) (EConst (pow_usize o omega (size - depth)))) ] ++ layers.
(** component.rs:216-298 [MerkleTree], 207-214 [new] *)
Definition merkle_tree (dbg : bool) (depth : nat) : option (component F (F * F) (list (bool * F) * F * F)) :=
  let? layers := k_vertical dbg merkle_layer depth in
  Some (Component (k_polynomials layers) (k_size layers)
    (fun w => match w with (path, leaf, root) => (leaf, root) end)
    (fun claim =>
       let? cs := k_constraints layers (repeat tt depth) in
       let? size := k_size layers in
       let? r := eroot e size in let? omega := r in
       Some (tree_exprs omega (Z.of_nat size) (Z.of_nat depth) (fst claim) (snd claim) cs))
    (fun np sz w => match w with (path, leaf, root) => let? ws := layer_witnesses leaf path in k_trace layers np sz ws end)).
End Tables.
End Pedersen.
