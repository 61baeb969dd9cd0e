(** utils/macros-lib/src/lib.rs: the u256h! and field_element! literals. *)
Require Import ZArith Lia Bool List.
From Verif Require Import Word U256Model MontgomeryModel BinaryModel EncodingModel.
Import ListNotations.
Open Scope Z_scope.

(** lib.rs:80-99 [bytes_to_limbs]: [fill] is the loop over j for limb i; it takes bytes from the
    reversed list and reports whether the iterator ran out (the early return). *)
Fixpoint fill_limb (k : nat) (j : Z) (limb : Z) (iter : list Z) : Z * option (list Z) :=
  match k with
  | O => (limb, Some iter)
  | S k' => match iter with
            | [] => (limb, None)
            | byte :: rest => fill_limb k' (j + 1) (Z.lor limb (Z.shiftl byte (8 * j) mod B)) rest
            end
  end.
(** The loop over i, limbs least significant first; the remaining limbs stay zero after the return. *)
Fixpoint fill_limbs (n : nat) (iter : list Z) : list Z :=
  match n with
  | O => []
  | S n' => match fill_limb 8 0 0 iter with
            | (limb, Some rest) => limb :: fill_limbs n' rest
            | (limb, None) => limb :: repeat 0 n'
            end
  end.
Definition bytes_to_limbs (bytes : list Z) : option u256 :=
  if (32 <? length bytes)%nat then None
  else match fill_limbs 4 (rev bytes) with
       | [c0; c1; c2; c3] => Some (mk c0 c1 c2 c3)
       | _ => None
       end.

(** lib.rs:169-174 [sbb] of the macro crate: the borrow is a word of all ones *)
Definition macro_sbb (a b borrow : Z) : Z * Z :=
  let ret := (a - (b + Z.shiftr borrow 63)) mod 2 ^ 128 in (ret mod B, Z.shiftr ret 64).
(** lib.rs:166-187 final reduction: tuples compare lexicographically *)
Definition tuple_geb (a3 a2 a1 a0 : Z) (m : u256) : bool :=
  if a3 =? l3 m then if a2 =? l2 m then if a1 =? l1 m then l0 m <=? a0 else l1 m <? a1 else l2 m <? a2 else l3 m <? a3.
Definition final_macro (m : u256) (a0 a1 a2 a3 : Z) : option u256 :=
  if tuple_geb a3 a2 a1 a0 m then
    let '(a0, borrow) := macro_sbb a0 (l0 m) 0 in
    let '(a1, borrow) := macro_sbb a1 (l1 m) borrow in
    let '(a2, borrow) := macro_sbb a2 (l2 m) borrow in
    let '(a3, _) := macro_sbb a3 (l3 m) borrow in
    Some (mk a0 a1 a2 a3)
  else Some (mk a0 a1 a2 a3).
(** lib.rs:107-188 [montgomery_convert], with its constants as arguments; [None] is an overflow of
    one of the plain additions *)
Definition convert_with (x modulus : u256) (m64 : Z) (r2 : u256) : option u256 :=
  let k := wmul (wmul (l0 x) (l0 r2)) m64 in
  let '(a0, carry) := mac 0 (l0 x) (l0 r2) 0 in
  let '(a1, carry) := mac 0 (l0 x) (l1 r2) carry in
  let '(a2, carry) := mac 0 (l0 x) (l2 r2) carry in
  let '(a3, carry) := mac 0 (l0 x) (l3 r2) carry in
  let a4 := carry in
  let '(_, carry) := mac a0 k (l0 modulus) 0 in
  let '(a0, carry) := mac a1 k (l1 modulus) carry in
  let '(a1, carry) := mac a2 k (l2 modulus) carry in
  let '(a2, carry) := mac a3 k (l3 modulus) carry in
  let? a3 := add64 a4 carry in
  let k := wmul (wadd (wmul (l1 x) (l0 r2)) a0) m64 in
  let '(a0, carry) := mac a0 (l1 x) (l0 r2) 0 in
  let '(a1, carry) := mac a1 (l1 x) (l1 r2) carry in
  let '(a2, carry) := mac a2 (l1 x) (l2 r2) carry in
  let '(a3, carry) := mac a3 (l1 x) (l3 r2) carry in
  let a4 := carry in
  let '(_, carry) := mac a0 k (l0 modulus) 0 in
  let '(a0, carry) := mac a1 k (l1 modulus) carry in
  let '(a1, carry) := mac a2 k (l2 modulus) carry in
  let '(a2, carry) := mac a3 k (l3 modulus) carry in
  let? a3 := add64 a4 carry in
  let k := wmul (wadd (wmul (l2 x) (l0 r2)) a0) m64 in
  let '(a0, carry) := mac a0 (l2 x) (l0 r2) 0 in
  let '(a1, carry) := mac a1 (l2 x) (l1 r2) carry in
  let '(a2, carry) := mac a2 (l2 x) (l2 r2) carry in
  let '(a3, carry) := mac a3 (l2 x) (l3 r2) carry in
  let a4 := carry in
  let '(_, carry) := mac a0 k (l0 modulus) 0 in
  let '(a0, carry) := mac a1 k (l1 modulus) carry in
  let '(a1, carry) := mac a2 k (l2 modulus) carry in
  let '(a2, carry) := mac a3 k (l3 modulus) carry in
  let? a3 := add64 a4 carry in
  let k := wmul (wadd (wmul (l3 x) (l0 r2)) a0) m64 in
  let '(a0, carry) := mac a0 (l3 x) (l0 r2) 0 in
  let '(a1, carry) := mac a1 (l3 x) (l1 r2) carry in
  let '(a2, carry) := mac a2 (l3 x) (l2 r2) carry in
  let '(a3, carry) := mac a3 (l3 x) (l3 r2) carry in
  let a4 := carry in
  let '(_, carry) := mac a0 k (l0 modulus) 0 in
  let '(a0, carry) := mac a1 k (l1 modulus) carry in
  let '(a1, carry) := mac a2 k (l2 modulus) carry in
  let '(a2, carry) := mac a3 k (l3 modulus) carry in
  let? a3 := add64 a4 carry in
  final_macro modulus a0 a1 a2 a3.
(** The constants of lib.rs:108-115 *)
Definition macro_M64 : Z := 0xffffffffffffffff.
Definition macro_M : u256 := mk 1 0 0 576460752303423505.
Definition macro_R2 : u256 := mk 18446741271209837569 5151653887 18446744073700081664 576413109808302096.
Definition montgomery_convert (x : u256) : option u256 := convert_with x macro_M macro_M64 macro_R2.

(** lib.rs:203-219 [u256h] and 221-236 [field_element]: the limbs in the expanded code. The string is
    decoded by lib.rs:70-78 [parse_hex]. [None] is a compile error. *)
Definition u256h (s : list Z) : option u256 := let? bytes := hex_decode s in bytes_to_limbs bytes.
Definition field_element_literal (s : list Z) : option u256 :=
  let? bytes := hex_decode s in
  let? limbs := bytes_to_limbs bytes in
  montgomery_convert limbs.
