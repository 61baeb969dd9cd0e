(** crypto/stark-verifier-ethereum/contracts/stark_verifier.sol: the verifier of the contract.

    A uint256, bytes32 or smaller integer is a [Z]. [None] is a revert. The constraint system, which is another contract, the
    hash of a leaf, the Merkle verifier (C70) and the checks of the FRI layers (C72) are parameters. Events are left out. *)
Require Import ZArith Arith Lia Bool List.
From Verif Require Import Word KnuthModel Arr CoinSolModel FriSolModel PrimeSolModel.
Import ListNotations.
Open Scope Z_scope.

(** proof_types.sol:12-45, without the public inputs and the FRI values and decommitments, which are passed on *)
Record sproof := SProof { trace_values : list Z; trace_commitment : Z; constraint_values : list Z; constraint_commitment : Z; trace_oods_values : list Z;
  constraint_oods_values : list Z; pow_nonce : Z; trace_decommitment : list Z; constraint_decommitment : list Z; fri_commitments : list Z; last_layer_coefficients : list Z }.
(** proof_types.sol:49-59 *)
Record sparameters := SParameters { number_of_columns : Z; log_trace_length : Z; number_of_constraints : Z; log_blowup : Z; constraint_degree : Z; pow_bits : Z;
  number_of_queries : Z; fri_layout : list Z }.

Section Verify.
Context (keccak : list Z -> list Z) (fuel : nat).
(** stark_verifier.sol:109-113: the loop over the FRI commitments; an index past the end reverts *)
Fixpoint fri_points (c : scoin) (layers : nat) (commitments : list Z) : option (list Z * scoin) :=
  match layers with
  | O => Some ([], c)
  | S layers =>
      match commitments with
      | [] => None
      | w :: commitments =>
          let? r := read_field_element keccak fuel (write_bytes32 keccak c w) in
          let? s := fri_points (snd r) layers commitments in
          Some (fst r :: fst s, snd s)
      end
  end.
(** stark_verifier.sol:76-120 [write_data_and_read_random]; the coin, changed in memory, is returned too. 2 * number_of_constraints
    is a uint64. *)
Definition write_data_and_read_random (p : sproof) (q : sparameters) (c : scoin) : option (list Z * Z * list Z * list Z * scoin) :=
  let c := write_bytes32 keccak c (trace_commitment p) in
  let? a := read_many_field_elements keccak fuel c (Z.to_nat ((2 * number_of_constraints q) mod 2 ^ 64)) in
  let c := write_bytes32 keccak (snd a) (constraint_commitment p) in
  let? z := read_field_element keccak fuel c in
  let c := write_many_field_elements keccak (snd z) (trace_oods_values p) in
  let c := write_many_field_elements keccak c (constraint_oods_values p) in
  let? b := read_many_field_elements keccak fuel c (length (trace_oods_values p) + length (constraint_oods_values p)) in
  let? e := fri_points (snd b) (length (fri_layout q)) (fri_commitments p) in
  Some (fst a, fst z, fst b, fst e, write_layer keccak (snd e) (last_layer_coefficients p)).

Context (merkle_leaf_hash : list Z -> Z).
(** [array[i] = x]: an index past the end reverts *)
Definition store (out : list Z) (i : nat) (x : Z) : option (list Z) := if (i <? length out)%nat then Some (upd out i x) else None.
Fixpoint stores (f : nat -> Z) (l : list nat) (out : list Z) : option (list Z) :=
  match l with [] => Some out | i :: l => let? out := store out i (f i) in stores f l out end.
(** stark_verifier.sol:165-187 [prepare_hashes_and_queries], with deep_copy, utils.sol:72-76: the contents of the two arrays
    afterwards. Division by 0 reverts. *)
Definition prepare_hashes_and_queries (data_groups : list Z) (data_group_size : nat) (queries : list Z) (eval_domain_size : Z) (output_hashes output_queries : list Z) : option (list Z * list Z) :=
  if Nat.eqb data_group_size 0 then None else
  let group i := map (fun j => nth (i * data_group_size + j) data_groups 0) (seq 0 data_group_size) in
  let? output_hashes := stores (fun i => merkle_leaf_hash (group i)) (seq 0 (length data_groups / data_group_size)) output_hashes in
  let? copied := stores (fun i => nth i queries 0) (seq 0 (length queries)) output_queries in
  let? output_queries := stores (fun i => wrap (nth i copied 0 + eval_domain_size)) (seq 0 (length queries)) copied in
  Some (output_hashes, output_queries).

(** The Merkle verifier: root, hashes, indices, decommitment; the answer, and what it leaves in the two arrays *)
Context (verify_merkle_proof : Z -> list Z -> list Z -> list Z -> option (bool * list Z * list Z)).
(** stark_verifier.sol:123-161 [check_commitments] *)
Definition check_commitments (p : sproof) (q : sparameters) (queries : list Z) (log_eval_domain_size : Z) : option unit :=
  let eval_domain_size := wrap (2 ^ log_eval_domain_size) in
  let? a := prepare_hashes_and_queries (trace_values p) (Z.to_nat (number_of_columns q)) queries eval_domain_size (repeat 0 (Z.to_nat (number_of_queries q))) (repeat 0 (length queries)) in
  let? r := verify_merkle_proof (trace_commitment p) (fst a) (snd a) (trace_decommitment p) in
  if fst (fst r) then
    let? b := prepare_hashes_and_queries (constraint_values p) (Z.to_nat (constraint_degree q)) queries eval_domain_size (snd (fst r)) (snd r) in
    let? s := verify_merkle_proof (constraint_commitment p) (fst b) (snd b) (constraint_decommitment p) in
    if fst (fst s) then Some tt else None
  else None.

(** The other contract: constraint_calculations; and the checks of the layers, fri_check *)
Context (constraint_calculations : sproof -> sparameters -> list Z -> Z -> list Z -> list Z -> option (list Z * Z)).
Context (fri_check : sproof -> sparameters -> list Z -> Z -> list Z -> list Z -> option unit).
(** stark_verifier.sol:21-73 [verify_proof], from the parameters and the coin of initalize_system. There is no return statement:
    the result is the default, false. *)
Definition verify_proof (p : sproof) (q : sparameters) (c : scoin) : option bool :=
  let? d := write_data_and_read_random p q c in
  let '(constraint_coefficients, oods_point, oods_coefficients, eval_points, c) := d in
  let w := check_proof_of_work keccak c (pow_nonce p) (pow_bits q) in
  if fst w then
    let log_size := (log_trace_length q + log_blowup q) mod 256 in
    let queries := fst (get_queries keccak (snd w) log_size (Z.to_nat (number_of_queries q))) in
    let? k := constraint_calculations p q queries oods_point constraint_coefficients oods_coefficients in
    let? _ := check_commitments p q queries log_size in
    let? _ := fri_check p q eval_points log_size queries (fst k) in
    if check_out_of_domain_sample_result (constraint_oods_values p) oods_point (snd k) then Some false else None
  else None.
End Verify.
