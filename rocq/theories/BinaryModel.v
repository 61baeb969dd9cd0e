(** Bit operations, conversions and ring inversion of U256:
    algebra/u256/src/binary.rs, conversion.rs, division.rs. *)
Require Import ZArith Lia Bool List.
From Verif Require Import Word U256Model KnuthModel.
Import ListNotations.
Open Scope Z_scope.

(** u64 shifts by an amount in 0..63 (a larger amount would panic / mask; the
    code never uses one). *)
Definition shl64 (x s : Z) : Z := w64 (Z.shiftl x s).
Definition shr64 (x s : Z) : Z := Z.shiftr x s.

(** Rust standard library: u64::count_ones, u64::trailing_zeros
    (u64::leading_zeros is [clz64]). *)
Fixpoint popcount_pos (p : positive) : Z :=
  match p with xH => 1 | xO q => popcount_pos q | xI q => 1 + popcount_pos q end.
Definition popcount64 (x : Z) : Z := match x with Zpos p => popcount_pos p | _ => 0 end.
Fixpoint ctz_pos (p : positive) : Z := match p with xO q => 1 + ctz_pos q | _ => 0 end.
Definition ctz64 (x : Z) : Z := match x with Zpos p => ctz_pos p | _ => 64 end.

(** binary.rs:23-35 [bit] *)
Definition u_bit (x : u256) (i : Z) : bool :=
  if i <? 64 then Z.land (shr64 (l0 x) i) 1 =? 1
  else if i <? 128 then Z.land (shr64 (l1 x) (i - 64)) 1 =? 1
  else if i <? 192 then Z.land (shr64 (l2 x) (i - 128)) 1 =? 1
  else if i <? 256 then Z.land (shr64 (l3 x) (i - 192)) 1 =? 1
  else false.

(** binary.rs:38-51 [count_ones], [count_zeros] *)
Definition u_count_ones (x : u256) : Z :=
  popcount64 (l0 x) + popcount64 (l1 x) + popcount64 (l2 x) + popcount64 (l3 x).
Definition u_count_zeros (x : u256) : Z :=
  (64 - popcount64 (l0 x)) + (64 - popcount64 (l1 x)) + (64 - popcount64 (l2 x)) + (64 - popcount64 (l3 x)).

(** binary.rs:54-66 [leading_zeros] *)
Definition u_leading_zeros (x : u256) : Z :=
  if 0 <? l3 x then clz64 (l3 x)
  else if 0 <? l2 x then 64 + clz64 (l2 x)
  else if 0 <? l1 x then 128 + clz64 (l1 x)
  else if 0 <? l0 x then 192 + clz64 (l0 x)
  else 256.

(** binary.rs:69-81 [trailing_zeros] *)
Definition u_trailing_zeros (x : u256) : Z :=
  if 0 <? l0 x then ctz64 (l0 x)
  else if 0 <? l1 x then 64 + ctz64 (l1 x)
  else if 0 <? l2 x then 128 + ctz64 (l2 x)
  else if 0 <? l3 x then 192 + ctz64 (l3 x)
  else 256.

(** traits/binary.rs:36-38 [bits] *)
Definition u_bits (x : u256) : Z := 256 - u_leading_zeros x.
(** traits/binary.rs:41-43 [most_significant_bit]: (num_bits() - 1).checked_sub(leading_zeros()) *)
Definition u_most_significant_bit (x : u256) : option Z :=
  if u_leading_zeros x <=? 256 - 1 then Some (256 - 1 - u_leading_zeros x) else None.

(** binary.rs:95-102 [BitAnd<u64>] *)
Definition u_and_u64 (x : u256) (rhs : Z) : Z := Z.land (l0 x) rhs.
(** binary.rs:108-114 [Not]; !x on u64 is 2^64 - 1 - x *)
Definition u_not (x : u256) : u256 := mk (B - 1 - l0 x) (B - 1 - l1 x) (B - 1 - l2 x) (B - 1 - l3 x).
(** binary.rs:119-145 [BitAndAssign], [BitOrAssign], [BitXorAssign] *)
Definition map2 (f : Z -> Z -> Z) (x y : u256) : u256 :=
  mk (f (l0 x) (l0 y)) (f (l1 x) (l1 y)) (f (l2 x) (l2 y)) (f (l3 x) (l3 y)).
Definition u_and := map2 Z.land.
Definition u_or := map2 Z.lor.
Definition u_xor := map2 Z.lxor.

(** binary.rs:149-211 [ShlAssign<usize>] *)
Definition u_shl (x : u256) (rhs : Z) : u256 :=
  let c0 := l0 x in let c1 := l1 x in let c2 := l2 x in let c3 := l3 x in
  if rhs =? 0 then mk c0 c1 c2 c3
  else if rhs <? 64 then
    mk (shl64 c0 rhs)
       (Z.lor (shl64 c1 rhs) (shr64 c0 (64 - rhs)))
       (Z.lor (shl64 c2 rhs) (shr64 c1 (64 - rhs)))
       (Z.lor (shl64 c3 rhs) (shr64 c2 (64 - rhs)))
  else if rhs =? 64 then mk 0 c0 c1 c2
  else if rhs <? 128 then
    mk 0
       (shl64 c0 (rhs - 64))
       (Z.lor (shl64 c1 (rhs - 64)) (shr64 c0 (128 - rhs)))
       (Z.lor (shl64 c2 (rhs - 64)) (shr64 c1 (128 - rhs)))
  else if rhs =? 128 then mk 0 0 c0 c1
  else if rhs <? 192 then
    mk 0 0 (shl64 c0 (rhs - 128)) (Z.lor (shl64 c1 (rhs - 128)) (shr64 c0 (192 - rhs)))
  else if rhs =? 192 then mk 0 0 0 c0
  else if rhs <? 256 then mk 0 0 0 (shl64 c0 (rhs - 192))
  else mk 0 0 0 0.

(** binary.rs:226-287 [ShrAssign<usize>] *)
Definition u_shr (x : u256) (rhs : Z) : u256 :=
  let c0 := l0 x in let c1 := l1 x in let c2 := l2 x in let c3 := l3 x in
  if rhs =? 0 then mk c0 c1 c2 c3
  else if rhs <? 64 then
    mk (Z.lor (shr64 c0 rhs) (shl64 c1 (64 - rhs)))
       (Z.lor (shr64 c1 rhs) (shl64 c2 (64 - rhs)))
       (Z.lor (shr64 c2 rhs) (shl64 c3 (64 - rhs)))
       (shr64 c3 rhs)
  else if rhs =? 64 then mk c1 c2 c3 0
  else if rhs <? 128 then
    mk (Z.lor (shr64 c1 (rhs - 64)) (shl64 c2 (128 - rhs)))
       (Z.lor (shr64 c2 (rhs - 64)) (shl64 c3 (128 - rhs)))
       (shr64 c3 (rhs - 64)) 0
  else if rhs =? 128 then mk c2 c3 0 0
  else if rhs <? 192 then
    mk (Z.lor (shr64 c2 (rhs - 128)) (shl64 c3 (192 - rhs))) (shr64 c3 (rhs - 128)) 0 0
  else if rhs =? 192 then mk c3 0 0 0
  else if rhs <? 256 then mk (shr64 c3 (rhs - 192)) 0 0 0
  else mk 0 0 0 0.

(** conversion.rs:13-20 [from_bytes_be]; [u64_from_be] is u64::from_be_bytes.
    A [u8; 32] is a list of 32 integers in 0..255; indexing is [nth]. *)
Definition u64_from_be (l : list Z) : Z := fold_left (fun acc b => acc * 256 + b) l 0.
Definition from_bytes_be (n : list Z) : u256 :=
  mk (u64_from_be (firstn 8 (skipn 24 n)))
     (u64_from_be (firstn 8 (skipn 16 n)))
     (u64_from_be (firstn 8 (skipn 8 n)))
     (u64_from_be (firstn 8 n)).

(** conversion.rs:22-32 [to_bytes_be]: byte i is written for i = 31 down to 0. *)
Fixpoint to_bytes_loop (k : nat) (n : u256) (acc : list Z) : list Z :=
  match k with
  | O => acc
  | S k' => to_bytes_loop k' (u_shr n 8) (l0 n mod 256 :: acc)
  end.
Definition to_bytes_be (x : u256) : list Z := to_bytes_loop 32 x [].

(** conversion.rs:58-62 [From<bool>] *)
Definition from_bool (b : bool) : u256 := mk (if b then 1 else 0) 0 0 0.
(** conversion.rs:64-80 [From<u8 .. usize>]: [n as u64]; usize is 64 bits. *)
Definition from_uint (n : Z) : u256 := mk (w64 n) 0 0 0.
(** conversion.rs:82-88 [From<u128>] *)
Definition from_u128 (n : Z) : u256 := mk (w64 n) (w64 (Z.shiftr n 64)) 0 0.
(** conversion.rs:90-117 [From<i8 .. isize>]: [n as u64] sign-extends. *)
Definition from_int (n : Z) : u256 :=
  if 0 <=? n then mk (w64 n) 0 0 0 else mk (w64 n) (B - 1) (B - 1) (B - 1).
(** conversion.rs:119-136 [From<i128>]: >> on i128 is arithmetic. *)
Definition from_i128 (n : Z) : u256 :=
  if 0 <=? n then mk (w64 n) (w64 (Z.shiftr n 64)) 0 0
  else mk (w64 n) (w64 (Z.shiftr n 64)) (B - 1) (B - 1).
(** conversion.rs:138-160 [as_u8 .. as_usize]: truncation to [bits]. *)
Definition as_uint (bits : Z) (x : u256) : Z := l0 x mod 2 ^ bits.
(** [as_i8 .. as_isize]: truncation, then two's complement. *)
Definition to_signed (bits n : Z) : Z := if n <? 2 ^ (bits - 1) then n else n - 2 ^ bits.
Definition as_int (bits : Z) (x : u256) : Z := to_signed bits (l0 x mod 2 ^ bits).
(** conversion.rs:162-172 [as_u128], [as_i128] *)
Definition as_u128 (x : u256) : Z := Z.lor (l0 x) (w128 (Z.shiftl (l1 x) 64)).
Definition as_i128 (x : u256) : Z := to_signed 128 (Z.lor (l0 x) (w128 (Z.shiftl (l1 x) 64))).

(** division.rs:104-124 [Inv] modulo 2^256. Wrapping<u64>, Wrapping<u128>. *)
Definition newton64 (c r : Z) : Z := w64 (r * w64 (2 - w64 (c * r))).
Definition u_inv (x : u256) : option u256 :=
  if u_bit x 0 then
    let c := l0 x in
    let r := Z.lxor (w64 (3 * c)) 2 in
    let r := newton64 c r in
    let r := newton64 c r in
    let r := newton64 c r in
    let r := newton64 c r in
    let r := w128 (r * w128 (2 - w128 (as_u128 x * r))) in
    let r := from_u128 r in
    Some (u_mul r (u_sub (from_uint 2) (u_mul r x)))
  else None.
