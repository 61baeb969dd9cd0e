(** crypto/stark-verifier-ethereum/contracts: the public coin (public_coin.sol), the proof of work (proof_of_work.sol),
    the choice of the queries (fri.sol) and the sorting of arrays (utils.sol).

    A uint256, bytes32, uint64 or bytes8 is a [Z]; [keccak] works on byte strings. A coin in memory is passed by reference: here
    the functions return it. Arithmetic wraps (Solidity 0.6). Gas is not modelled, [fuel] bounds the rejection loop. *)
Require Import ZArith Arith Lia Bool List.
From Verif Require Import Word Arr.
Import ListNotations.
Open Scope Z_scope.

(** abi.encodePacked of a value of [n] bytes: big endian *)
Definition pack (n : nat) (w : Z) : list Z := map (fun i => (w / 256 ^ Z.of_nat i) mod 256) (rev (seq 0 n)).
(** 32 bytes as a word *)
Definition word_of (bytes : list Z) : Z := fold_left (fun acc d => acc * 256 + d) bytes 0.
(** public_coin.sol:7-10 *)
Record scoin := SCoin { sc_digest : Z; sc_counter : Z }.
(** primefield.sol:5-6 *)
Definition MODULUS : Z := 0x0800000000000011000000000000000000000000000000000000000000000001.
Definition MODULUS_MASK : Z := 0x0fffffffffffffffffffffffffffffffffffffffffffffffffffffffffffffff.

Section Contract.
Context (keccak : list Z -> list Z).
(** public_coin.sol:91-97 *)
Definition publicCoinHasher (data : list Z) : Z := word_of (keccak data).
Definition publicCoinHash (preimage_a preimage_b : Z) : Z := publicCoinHasher (pack 32 preimage_a ++ pack 32 preimage_b).
(** public_coin.sol:83-89 *)
Definition init_coin (starting_data : list Z) : scoin := SCoin (publicCoinHasher starting_data) 0.
(** public_coin.sol:14-18 *)
Definition write_bytes32 (c : scoin) (w : Z) : scoin := SCoin (publicCoinHash (sc_digest c) w) 0.
(** public_coin.sol:21-25 *)
Definition write_many_bytes32 (c : scoin) (l : list Z) : scoin := fold_left write_bytes32 l c.
(** public_coin.sol:27-32 *)
Definition write_many_field_elements (c : scoin) (l : list Z) : scoin := fold_left write_bytes32 l c.
(** public_coin.sol:35-39 *)
Definition write_bytes8 (c : scoin) (w : Z) : scoin := SCoin (publicCoinHasher (pack 32 (sc_digest c) ++ pack 8 w)) 0.
(** public_coin.sol:42-47; encodePacked of an array is its elements, 32 bytes each *)
Definition write_layer (c : scoin) (l : list Z) : scoin := SCoin (publicCoinHasher (pack 32 (sc_digest c) ++ concat (map (pack 32) l))) 0.
(** public_coin.sol:51-55; the counter is a uint64 *)
Definition read_bytes32 (c : scoin) : Z * scoin := (publicCoinHash (sc_digest c) (sc_counter c), SCoin (sc_digest c) ((sc_counter c + 1) mod 2 ^ 64)).
(** public_coin.sol:57-65 *)
Fixpoint read_field_element (fuel : nat) (c : scoin) : option (Z * scoin) :=
  match fuel with
  | O => None
  | S fuel =>
      let r := read_bytes32 c in
      let result := Z.land (fst r) MODULUS_MASK in
      if MODULUS <=? result then read_field_element fuel (snd r) else Some (result, snd r)
  end.
(** public_coin.sol:67-73 *)
Fixpoint read_many_field_elements (fuel : nat) (c : scoin) (how_many : nat) : option (list Z * scoin) :=
  match how_many with
  | O => Some ([], c)
  | S n => match read_field_element fuel c with
           | None => None
           | Some (x, c) => match read_many_field_elements fuel c n with Some (l, c) => Some (x :: l, c) | None => None end
           end
  end.
(** public_coin.sol:76-81: the array that is filled is not returned; the value of a function without a return statement
    is the empty array *)
Definition read_many_bytes32 (c : scoin) (how_many : nat) : list Z * scoin := ([], Nat.iter how_many (fun c => snd (read_bytes32 c)) c).

(** proof_of_work.sol:11-21; [pow_bits] is a uint8 *)
Definition check_proof_of_work (c : scoin) (pow_nonce pow_bits : Z) : bool * scoin :=
  let seed := keccak ([0x01; 0x23; 0x45; 0x67; 0x89; 0xab; 0xcd; 0xed] ++ pack 32 (sc_digest c) ++ pack 1 pow_bits) in
  let response := word_of (keccak (seed ++ pack 8 pow_nonce)) in
  let c := write_bytes8 c pow_nonce in
  let treshold := Z.shiftr (2 ^ 256 - 1) pow_bits in
  (response <=? treshold, c).

(** utils.sol:78-87 [sort]: the inner loop *)
Fixpoint sink (data : list Z) (j : nat) : list Z :=
  match j with
  | O => data
  | S j' => if nth j data 0 <? nth j' data 0 then sink (upd (upd data j (nth j' data 0)) j' (nth j data 0)) j' else data
  end.
Definition sort_array (data : list Z) : list Z := fold_left sink (seq 0 (length data)) data.

(** fri.sol:67-75: the inner loop, at [4 * i + j]; bytes8 are the first bytes of a word *)
Definition pick (bit_mask : Z) (num_queries i : nat) (st : list Z * Z) (j : nat) : list Z * Z :=
  if (4 * i + j <? num_queries)%nat
  then (upd (fst st) (4 * i + j) (Z.land (Z.shiftr (snd st) 192) bit_mask), Z.shiftl (snd st) 64 mod 2 ^ 256)
  else st.
(** fri.sol:55-79 [get_queries] *)
Definition get_queries (c : scoin) (max_bit_length : Z) (num_queries : nat) : list Z * scoin :=
  let bit_mask := 2 ^ max_bit_length - 1 in
  let r := fold_left (fun (st : list Z * scoin) i =>
             let random := read_bytes32 (snd st) in
             (fst (fold_left (pick bit_mask num_queries i) (seq 0 4) (fst st, fst random)), snd random))
           (seq 0 (S (num_queries / 4))) (repeat 0 num_queries, c) in
  (sort_array (fst r), snd r).
End Contract.
