(** crypto/stark-verifier-ethereum/contracts: the field operations of primefield.sol and the last check of
    stark_verifier.sol. A uint256 is a [Z]; - wraps at 2^256. [None] is a revert. *)
Require Import ZArith Arith Lia Bool List.
From Verif Require Import Word KnuthModel Arr ContractModel FriSolModel.
Import ListNotations.
Open Scope Z_scope.

(** primefield.sol:7-8 *)
Definition MONTGOMERY_R : Z := 0x7fffffffffffdf0ffffffffffffffffffffffffffffffffffffffffffffffe1.
Definition MONTGOMERY_R_INV : Z := 0x40000000000001100000000000012100000000000000000000000000000000.
(** primefield.sol:12-14 *)
Definition from_montgomery (value : Z) : Z := y_mulmod value MONTGOMERY_R_INV MODULUS.
(** primefield.sol:28-30 *)
Definition to_montgomery (value : Z) : Z := y_mulmod value MONTGOMERY_R MODULUS.
(** primefield.sol:32-34 *)
Definition sol_fmul (a b : Z) : Z := y_mulmod a b MODULUS.
(** primefield.sol:36-38 *)
Definition fmul_mont (a b : Z) : Z := sol_fmul (sol_fmul a b) MONTGOMERY_R_INV.
(** primefield.sol:40-42 *)
Definition sol_fadd (a b : Z) : Z := y_addmod a b MODULUS.
(** primefield.sol:44-46 *)
Definition sol_fsub (a b : Z) : Z := y_addmod a (wrap (MODULUS - b)) MODULUS.
(** primefield.sol:48-74; the call of the precompiled contract is its result, [modexp] *)
Definition fpow (value exp : Z) : Z := modexp value exp MODULUS.
(** primefield.sol:76-79 *)
Definition inverse (value : Z) : Z := modexp value (MODULUS - 2) MODULUS.
(** primefield.sol:82-86 *)
Definition generator_power (log_order : Z) : option Z :=
  let order := wrap (2 ^ log_order) in
  if order =? 0 then None else
  let maybe_exact := (MODULUS - 1) / order in
  if wrap (maybe_exact * order) =? MODULUS - 1 then Some (modexp 3 maybe_exact MODULUS) else None.
(** primefield.sol:159-163, 192-199: the generator, the logarithm and the size, a uint64 *)
Definition init_eval (log_eval_domain_size : Z) : option (Z * Z * Z) :=
  let? g := generator_power log_eval_domain_size in Some (g, log_eval_domain_size, 2 ^ log_eval_domain_size mod 2 ^ 64).
(** primefield.sol:187-189; the event of trace_mod is left out *)
Definition lookup (eval_x : Z * Z * Z) (index : Z) : Z := fpow (fst (fst eval_x)) index.
(** primefield.sol:228, 249-258: the products of the first elements, and the product of all *)
Fixpoint products (carried : Z) (input : list Z) : list Z * Z :=
  match input with
  | [] => ([], carried)
  | a :: input => let carried := y_mulmod carried a MODULUS in let r := products carried input in (carried :: fst r, snd r)
  end.
(** primefield.sol:268-286: the loop down to position 1 *)
Fixpoint inverses (i : nat) (carried : Z) (input output : list Z) : list Z * Z :=
  match i with
  | O => (output, carried)
  | S i' =>
      let ith_inverse := y_mulmod carried (nth i' output 0) MODULUS in
      inverses i' (y_mulmod carried (nth i input 0) MODULUS) input (upd output i ith_inverse)
  end.
(** primefield.sol:207-290: the new contents of output_data, and of the word behind it if it is written. The two arrays do
    not overlap and output_data has the length of input_data. *)
Definition batch_invert (input : list Z) : list Z * option Z :=
  let r := products 1 input in
  let carried := modexp (snd r) (MODULUS - 2) MODULUS in
  let r := inverses (length input - 1) carried input (fst r) in
  match fst r with [] => ([], Some (snd r)) | _ => (upd (fst r) 0 (snd r), None) end.
(** stark_verifier.sol:189-206: the sum, and the requirement *)
Definition oods_sum (constraint_oods_values : list Z) (oods_point : Z) : Z :=
  fst (fold_left (fun s v => (sol_fadd (fst s) (fmul_mont v (snd s)), fmul_mont (snd s) oods_point)) constraint_oods_values (0, to_montgomery 1)).
Definition check_out_of_domain_sample_result (constraint_oods_values : list Z) (oods_point evaluated_oods_point : Z) : bool :=
  oods_sum constraint_oods_values oods_point =? evaluated_oods_point.
