(** The field inverse and division of the code: algebra/u256/src/functions.rs,
    algebra/primefield/src/prime_field.rs and ops.rs. The outer option is a panic. *)
Require Import ZArith Bool List.
From Verif Require Import Word U256Model BinaryModel KnuthModel MontgomeryModel FieldModel LehmerModel.
Open Scope Z_scope.

(** functions.rs:44-48 [inv_redc]: inv_mod, then a Montgomery multiplication by R3 *)
Definition inv_redc (dbg : bool) (M : mparams) (x : u256) : option (option u256) :=
  let? r := u_inv_mod dbg (MODULUS M) x in
  match r with
  | None => Some None
  | Some ni => let? y := mul_redc M ni (R3 M) in Some (Some y)
  end.
(** prime_field.rs:281-290 [inv]; the range assertions of as_montgomery and from_montgomery
    (prime_field.rs:80-98) are debug assertions *)
Definition pf_inv (dbg : bool) (P : fparams) (x : u256) : option (option u256) :=
  let? x := if dbg then as_mont P x else Some x in
  let? r := inv_redc dbg (fmp P) x in
  match r with
  | None => Some None
  | Some y => let? y := if dbg then of_mont P y else Some y in Some (Some y)
  end.
(** ops.rs:140-200 [Div], [DivAssign]: [self * rhs.inv().expect("Division by zero")] *)
Definition pf_div (dbg : bool) (P : fparams) (x y : u256) : option u256 :=
  let? r := pf_inv dbg P y in
  match r with None => None | Some i => pf_mul P x i end.
