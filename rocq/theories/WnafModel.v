(** Windowed non-adjacent form scalar multiplication: algebra/elliptic-curve/src/wnaf.rs.

    [None] is a panic of the debug profile. A scalar is given by [to_uint()]. *)
Require Import ZArith Lia Bool List.
From Verif Require Import Word U256Model KnuthModel BinaryModel FieldSig FieldAlgModel Arr CurveModel.
Import ListNotations.
Open Scope Z_scope.

(** Casts and checked operations on i16. *)
Definition as_i16 (x : Z) : Z := (x + 2 ^ 15) mod 2 ^ 16 - 2 ^ 15.
Definition i16_ok (x : Z) : bool := (- 2 ^ 15 <=? x) && (x <? 2 ^ 15).
Definition shl1_i16 (s : Z) : option Z := if (0 <=? s) && (s <? 16) then Some (as_i16 (2 ^ s)) else None.
Definition sub_i16 (x y : Z) : option Z := if i16_ok (x - y) then Some (x - y) else None.

(** wnaf.rs:84-110, the [loop] of [non_adjacent_form]. The fuel is the number of iterations still
    allowed; each advances [i] by [window] and an index above 256 panics, so for a positive window
    258 iterations are never exceeded ([naf_loop_fuel]). *)
Fixpoint naf_loop (fuel : nat) (window mask half : Z) (scalar : u256) (i : Z) (snaf : list Z) : option (list Z) :=
  match fuel with
  | O => None
  | S fuel =>
      let shift := u_trailing_zeros scalar in
      if shift =? 256 then Some snaf
      else
        let '(scalar, i) := if shift =? 0 then (scalar, i) else (u_shr scalar shift, i + shift) in
        let n := as_i16 (Z.land (l0 scalar) mask) in
        let scalar := u_shr scalar window in
        let? r :=
          (if half <=? n
           then let? full := shl1_i16 window in let? n := sub_i16 n full in Some (n, u_add scalar ONE)
           else Some (n, scalar)) in
        let '(n, scalar) := r in
        let? snaf := set snaf (Z.to_nat i) n in
        naf_loop fuel window mask half scalar (i + window) snaf
  end.
(** wnaf.rs:78-112 [non_adjacent_form] *)
Definition non_adjacent_form (scalar : u256) (window : Z) : option (list Z) :=
  if window <? 64 then
    let mask := 2 ^ window - 1 in
    let? half := shl1_i16 (window - 1) in
    naf_loop 258 window mask half scalar 0 (repeat 0 257)
  else None.

Section Wnaf.
Context {F : Type} (o : ops F).

(** wnaf.rs:12-21 [window_table] on a table of [len] entries, [naf[i] = naf[i-1] + p2] *)
Fixpoint table_from {A} (add : A -> A -> option A) (p2 prev : A) (n : nat) : option (list A) :=
  match n with
  | O => Some []
  | S n => let? next := add prev p2 in let? rest := table_from add p2 next n in Some (next :: rest)
  end.
Definition window_table (p : affine F) (len : nat) : option (list (jacobian F)) :=
  match len with
  | O => None
  | S n => let first := j_from_affine o p in
      let? rest := table_from (fun a b => Some (j_add o a b)) (j_double o first) first n in Some (first :: rest)
  end.
(** wnaf.rs:23-31 [window_table_affine] *)
Definition window_table_affine (p : affine F) (len : nat) : option (list (affine F)) :=
  match len with
  | O => None
  | S n => let? p2 := a_double o p in let? rest := table_from (a_add o) p2 p n in Some (p :: rest)
  end.

(** wnaf.rs:34-69 [batch_convert]: the first loop yields [vals] and the product of all z, the second
    walks backwards. *)
Fixpoint bc_products (acc : F) (js : list (jacobian F)) : list F * F :=
  match js with
  | [] => ([], acc)
  | j :: r => let '(vals, last) := bc_products (fmul o acc (jz j)) r in (acc :: vals, last)
  end.
Fixpoint bc_back (acc : F) (l : list (jacobian F * F)) : list (affine F) :=
  match l with
  | [] => []
  | (j, val) :: r =>
      let zi := fmul o acc val in
      let zi2 := sqr o zi in
      let zi3 := fmul o zi zi2 in
      APoint (fmul o (jx j) zi2) (fmul o (jy j) zi3) :: bc_back (fmul o acc (jz j)) r
  end.
Definition batch_convert (js : list (jacobian F)) : option (list (affine F)) :=
  let '(vals, acc) := bc_products (f1 o) js in
  let? acc := inv_opt o acc in
  Some (rev (bc_back acc (rev (combine js vals)))).

(** wnaf.rs:132-140: add or subtract the table entry selected by the digit. *)
Definition digit_step {T} (add sub : jacobian F -> T -> jacobian F) (table : list T) (r : jacobian F) (d : Z) : option (jacobian F) :=
  if 0 <? d then let? t := get table (Z.to_nat (Z.shiftr d 1)) in Some (add r t)
  else if d <? 0 then let? t := get table (Z.to_nat (Z.shiftr (- d) 1)) in Some (sub r t)
  else Some r.
(** wnaf.rs:121-142 [mul] *)
Definition wnaf_mul (p : affine F) (scalar : u256) : option (jacobian F) :=
  let? table := window_table p 8 in
  let? snaf := non_adjacent_form scalar 5 in
  for_each (rev (seq 0 (length snaf))) (fun r i =>
    let r := j_double o r in
    let? d := get snaf i in
    digit_step (j_add o) (j_sub o) table r d) (j_zero o).
(** wnaf.rs:149-184 [double_mul]: line 174 tests the digit of [b] before subtracting an entry of
    the table of [a], at the index computed from the digit of [a]. A negative index computed from
    [-snaf_expansion_a[i] >> 1] cannot occur there: the digit of [a] is not positive. *)
Definition double_mul (point_a : affine F) (scalar_a : u256) (point_b : affine F) (scalar_b : u256) : option (jacobian F) :=
  let? table_a := window_table point_a 8 in
  let? table_b := window_table point_b 8 in
  let? snaf_a := non_adjacent_form scalar_a 5 in
  let? snaf_b := non_adjacent_form scalar_b 5 in
  for_each (rev (seq 0 (length snaf_a))) (fun r i =>
    let r := j_double o r in
    let? da := get snaf_a i in
    let? db := get snaf_b i in
    let? r :=
      (if 0 <? da then let? t := get table_a (Z.to_nat (Z.shiftr da 1)) in Some (j_add o r t)
       else if db <? 0 then let? t := get table_a (Z.to_nat (Z.shiftr (- da) 1)) in Some (j_sub o r t)
       else Some r) in
    digit_step (j_add o) (j_sub o) table_b r db) (j_zero o).
(** wnaf.rs:191-208 [base_mul] *)
Definition base_mul (naf_table : list (affine F)) (scalar : u256) : option (jacobian F) :=
  let? snaf := non_adjacent_form scalar 7 in
  for_each (rev (seq 0 (length snaf))) (fun r i =>
    let r := j_double o r in
    let? d := get snaf i in
    digit_step (j_add_affine o) (j_sub_affine o) naf_table r d) (j_zero o).
(** wnaf.rs:217-257 [double_base_mul] *)
Definition double_base_mul (naf_table_a : list (affine F)) (scalar_a : u256) (point_b : affine F) (scalar_b : u256) : option (jacobian F) :=
  let? table_b := window_table point_b 8 in
  let? table_b := batch_convert table_b in
  let? snaf_a := non_adjacent_form scalar_a 7 in
  let? snaf_b := non_adjacent_form scalar_b 5 in
  for_each (rev (seq 0 (length snaf_a))) (fun r i =>
    let r := j_double o r in
    let? da := get snaf_a i in
    let? db := get snaf_b i in
    let? r := digit_step (j_add_affine o) (j_sub_affine o) naf_table_a r da in
    digit_step (j_add_affine o) (j_sub_affine o) table_b r db) (j_zero o).
End Wnaf.
