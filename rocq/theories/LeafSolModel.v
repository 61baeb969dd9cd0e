(** crypto/stark-verifier-ethereum/contracts/merkle.sol: the hashes of leaves and of inner nodes in the contract.

    A word is a [Z], [keccak] works on byte strings. The memory that keccak256 reads is given as the words it holds, 32 bytes each;
    an array is shorter than 2^251, so that its length in bytes does not wrap. *)
Require Import ZArith List.
From Verif Require Import CoinSolModel.
Import ListNotations.
Open Scope Z_scope.

(** merkle.sol:7 *)
Definition HASH_MASK : Z := 0xFFFFFFFFFFFFFFFFFFFFFFFFFFFFFFFFFFFFFFFF000000000000000000000000.

Section Contract.
Context (keccak : list Z -> list Z).
(** merkle.sol:88-102 [merkle_leaf_hash] *)
Definition merkle_leaf_hash (leaf : list Z) : Z :=
  match leaf with
  | [x] => x
  | _ => Z.land (word_of (keccak (concat (map (pack 32) leaf)))) HASH_MASK
  end.
(** merkle.sol:80, the words at 0x00 and 0x20 *)
Definition merkle_node_hash (left right : Z) : Z := Z.land (word_of (keccak (pack 32 left ++ pack 32 right))) HASH_MASK.
End Contract.
