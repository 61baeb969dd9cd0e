(** crypto/stark-verifier-ethereum/contracts/merkle.sol: verification of Merkle proofs in the contract.

    A slot of an array is a position, not a byte offset (offsets are 32 times as large). The two scratch words start
    with any values; what follows the decommitment in memory can be any words, which are here the rest of [dec].
    [node] is the masked hash of two words, the same as in crypto/merkle-tree/src/node.rs. Overflow of memory
    addresses, gas and [trace] are not modelled; [None] is a revert. *)
Require Import ZArith Arith Lia Bool List.
From Verif Require Import Word.
Import ListNotations.
Open Scope Z_scope.

Section Contract.
Context {H : Type} (heqb : H -> H -> bool) (node : H -> H -> H).
(** The arrays, the pointers of the ring buffer, the scratch words at 0x00 and 0x20 and the next decommitment *)
Record ring := Ring { r_indices : nat -> Z; r_leaves : nat -> H; r_read : nat; r_write : nat; r_left : H; r_right : H; r_next : nat }.
Definition upd {A} (f : nat -> A) (i : nat) (v : A) : nat -> A := fun j => if Nat.eqb j i then v else f j.
(** merkle.sol:44-83; [None] if the loop runs more than [fuel] times (out of gas). *)
Fixpoint sol_loop (fuel : nat) (len : nat) (root : H) (dec : nat -> H) (s : ring) : option bool :=
  match fuel with
  | O => None
  | S fuel =>
      let index := r_indices s (r_read s) in
      let leaf := r_leaves s (r_read s) in
      let odd := Z.land index 1 =? 1 in
      let left_word := if odd then r_left s else leaf in
      let right_word := if odd then leaf else r_right s in
      let read := Nat.modulo (r_read s + 1) len in
      if index =? 1 then Some (heqb right_word root) else
      let merge := Z.lor index 1 =? r_indices s read in
      let left_word' := if merge then left_word else if odd then dec (r_next s) else left_word in
      let right_word' := if merge then r_leaves s read else if odd then right_word else dec (r_next s) in
      let next := if merge then r_next s else S (r_next s) in
      let read' := if merge then Nat.modulo (read + 1) len else read in
      sol_loop fuel len root dec
        (Ring (upd (r_indices s) (r_write s) (Z.shiftr index 1)) (upd (r_leaves s) (r_write s) (node left_word' right_word'))
              read' (Nat.modulo (r_write s + 1) len) left_word' right_word' next)
  end.
(** merkle.sol:13-86 [verify_merkle_proof]. The indices are words; positions beyond the arrays are not read. *)
Definition verify_merkle_proof (fuel : nat) (scratch0 scratch1 root : H) (leaves : list H) (indices : list Z) (dec : nat -> H) : option bool :=
  if Nat.eqb (length leaves) (length indices) && negb (Nat.eqb (length leaves) 0) then
    sol_loop fuel (length indices) root dec (Ring (fun i => nth i indices 0) (fun i => nth i leaves root) 0 0 scratch0 scratch1 0)
  else None.
End Contract.
