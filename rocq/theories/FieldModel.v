(** PrimeField: limb-level model of algebra/primefield/src/prime_field.rs and convert.rs.

    A [PrimeField<P>] value is its Montgomery representation, a [u256]. [None] is a
    panic of the debug profile: every access goes through [as_montgomery] /
    [from_montgomery], which debug_assert that the limbs are below the modulus. *)
Require Import ZArith NArith Lia Bool List.
From Verif Require Import Word U256Model MontgomeryModel BinaryModel FieldSig.
Import ListNotations.
Open Scope Z_scope.

(** prime_field.rs:36-67 [trait Parameters], together with the derived
    [MontgomeryParameters] of 72-80. *)
Record fparams : Set := FP { fmp : mparams; GENERATOR : u256; ORDER : u256 }.

Definition p_modulus (P : fparams) : u256 := MODULUS (fmp P).

(** prime_field.rs:107-111 [as_montgomery], 117-124 [from_montgomery] *)
Definition as_mont (P : fparams) (x : u256) : option u256 := if u_ltb x (p_modulus P) then Some x else None.
Definition of_mont (P : fparams) (x : u256) : option u256 := if u_ltb x (p_modulus P) then Some x else None.

(** prime_field.rs:102-105 [generator] *)
Definition pf_generator (P : fparams) : option u256 := of_mont P (GENERATOR P).
(** prime_field.rs:134-137 [to_uint] *)
Definition pf_to_uint (P : fparams) (x : u256) : option u256 :=
  if u_ltb x (p_modulus P) then let? x := as_mont P x in Some (from_montgomery (fmp P) x) else None.
(** prime_field.rs:142-145 [from_uint] *)
Definition pf_from_uint (P : fparams) (u : u256) : option u256 :=
  if u_ltb u (p_modulus P) then let? x := to_montgomery (fmp P) u in of_mont P x else None.
(** prime_field.rs:148-154 [from_uint_reduce] *)
Definition pf_from_uint_reduce (P : fparams) (u : u256) : option u256 :=
  let u := redc (fmp P) u ZERO in
  let? u := mul_redc (fmp P) u (R3 (fmp P)) in
  of_mont P u.

(** prime_field.rs:204-214 [Zero] *)
Definition pf_zero (P : fparams) : option u256 := of_mont P ZERO.
Definition pf_is_zero (P : fparams) (x : u256) : option bool := let? x := as_mont P x in Some (u_eqb x ZERO).
(** prime_field.rs:216-228 [One] *)
Definition pf_one (P : fparams) : option u256 := of_mont P (R1 (fmp P)).
Definition pf_is_one (P : fparams) (x : u256) : option bool := let? x := as_mont P x in Some (u_eqb x (R1 (fmp P))).
(** prime_field.rs:175-179 [PartialEq] *)
Definition pf_eq (P : fparams) (x y : u256) : option bool :=
  let? x := as_mont P x in let? y := as_mont P y in Some (u_eqb x y).

(** prime_field.rs:230-237 [AddInline] *)
Definition pf_add (P : fparams) (x y : u256) : option u256 :=
  let? x := as_mont P x in let? y := as_mont P y in
  let result := u_add x y in
  let result := reduce_1 result (p_modulus P) in
  of_mont P result.
(** prime_field.rs:239-251 [SubInline] *)
Definition pf_sub (P : fparams) (x y : u256) : option u256 :=
  let? lhs := as_mont P x in let? rhs := as_mont P y in
  let borrow := u_gtb rhs lhs in
  let result := u_sub lhs rhs in
  let result := if borrow then u_add result (p_modulus P) else result in
  of_mont P result.
(** prime_field.rs:253-262 [NegInline] *)
Definition pf_neg (P : fparams) (x : u256) : option u256 :=
  let? z := pf_is_zero P x in
  if z then pf_zero P
  else let? x := as_mont P x in of_mont P (u_sub (p_modulus P) x).
(** prime_field.rs:264-269 [SquareInline] *)
Definition pf_square (P : fparams) (x : u256) : option u256 :=
  let? x := as_mont P x in of_mont P (square_redc (fmp P) x).
(** prime_field.rs:271-279 [MulInline] *)
Definition pf_mul (P : fparams) (x y : u256) : option u256 :=
  let? x := as_mont P x in let? y := as_mont P y in
  let? r := mul_redc (fmp P) x y in of_mont P r.
(** prime_field.rs:157-166 [double], [triple] *)
Definition pf_double (P : fparams) (x : u256) : option u256 := pf_add P x x.
Definition pf_triple (P : fparams) (x : u256) : option u256 := let? d := pf_add P x x in pf_add P d x.
(** ops.rs:202-224 [Sum], [Product] *)
Fixpoint pf_fold (f : u256 -> u256 -> option u256) (acc : u256) (l : list u256) : option u256 :=
  match l with [] => Some acc | x :: l => let? acc := f acc x in pf_fold f acc l end.
Definition pf_sum (P : fparams) (l : list u256) : option u256 := let? z := pf_zero P in pf_fold (pf_add P) z l.
Definition pf_product (P : fparams) (l : list u256) : option u256 := let? z := pf_one P in pf_fold (pf_mul P) z l.

(** convert.rs:57-72 [From<Other>]: [as_sign_abs] negates a negative machine
    integer, which panics at the minimum of the signed type [bits]. *)
Definition pf_from_unsigned (P : fparams) (n : Z) : option u256 := pf_from_uint_reduce P (from_u128 n).
Definition pf_from_signed (P : fparams) (bits : Z) (n : Z) : option u256 :=
  if 0 <=? n then pf_from_uint_reduce P (from_i128 n)
  else if n =? - 2 ^ (bits - 1) then None
  else let? r := pf_from_uint_reduce P (from_i128 (- n)) in pf_neg P r.
(** The same in the release profile, where [-self] wraps: iN::MIN stays negative and
    is sign-extended by the conversion to U256. *)
Definition pf_from_signed_release (P : fparams) (bits : Z) (n : Z) : option u256 :=
  if 0 <=? n then pf_from_uint_reduce P (from_i128 n)
  else let? r := pf_from_uint_reduce P (from_i128 (if n =? - 2 ^ (bits - 1) then n else - n)) in pf_neg P r.

(** algebra/u256/src/u256_traits.rs:86-107 [ToPrimitive for U256] *)
Definition u_to_u128 (x : u256) : option Z :=
  if u_ltb x (mk 0 0 1 0) then Some (Z.lor (l0 x) (w128 (Z.shiftl (l1 x) 64))) else None.
Definition u_to_i128 (x : u256) : option Z :=
  let? v := u_to_u128 x in if v <? 2 ^ 127 then Some v else None.
(** convert.rs:79-81 [to_u128], 83-93 [to_i128], 95-101 [to_u64], [to_i64];
    the outer option is the panic, the inner one the returned [Option]. *)
Definition pf_to_u128 (P : fparams) (x : u256) : option (option Z) :=
  let? v := pf_to_uint P x in Some (u_to_u128 v).
Definition pf_to_i128 (P : fparams) (x : u256) : option (option Z) :=
  let? v := pf_to_uint P x in
  if u_ltb v (u_shr (p_modulus P) 1) then Some (u_to_i128 v)
  else Some (let? n := u_to_i128 (u_sub (p_modulus P) v) in if n =? - 2 ^ 127 then None else Some (- n)).
Definition pf_to_u64 (P : fparams) (x : u256) : option (option Z) :=
  let? r := pf_to_u128 P x in Some (let? v := r in if v <? 2 ^ 64 then Some v else None).
Definition pf_to_i64 (P : fparams) (x : u256) : option (option Z) :=
  let? r := pf_to_i128 P x in Some (let? v := r in if (- 2 ^ 63 <=? v) && (v <? 2 ^ 63) then Some v else None).

Arguments as_mont : simpl never. Arguments of_mont : simpl never.
