(** crypto/hash/src: hashable.rs, masked_keccak.rs, hash.rs.

    A [Hash] is a list of 32 bytes. Keccak-256 (the tiny-keccak crate) is a parameter: a function
    from the concatenation of the bytes passed to [update] to 32 bytes. *)
Require Import ZArith Lia Bool List.
From Verif Require Import Word U256Model BinaryModel FieldModel FieldInstance.
Import ListNotations.
Open Scope Z_scope.

(** hash.rs:5 [Hash] *)
Definition hash := list Z.

Section Hash.
Context (keccak : list Z -> list Z).

(** masked_keccak.rs:7 [MASK_LENGTH] *)
Definition MASK_LENGTH : nat := 20.
(** masked_keccak.rs:10-16 [new], [update]: the state is the bytes absorbed so far *)
Definition mk_new : list Z := [].
Definition mk_update (st input : list Z) : list Z := st ++ input.
(** masked_keccak.rs:19-26 [hash]: the loop clears the bytes from MASK_LENGTH on *)
Definition mk_hash (st : list Z) : hash :=
  let result := keccak st in
  firstn MASK_LENGTH result ++ map (fun _ => 0) (skipn MASK_LENGTH result).

(** hashable.rs:15-22 [Hash]: identity; 24-30 [U256]: its bytes *)
Definition hash_hash (h : hash) : hash := h.
Definition hash_u256 (x : u256) : hash := to_bytes_be x.
(** hashable.rs:32-37 [FieldElement]: the Montgomery representation. The debug assertion of
    as_montgomery holds of every value of type [fe]. *)
Definition hash_felt (x : Felt) : hash := hash_u256 (raw x).
(** hashable.rs:45-59 [&[T]], 61-65 [Vec<T>] *)
Definition hash_slice {T} (hash_elem : T -> hash) (l : list T) : hash :=
  match l with
  | [x] => hash_elem x
  | _ => mk_hash (fold_left (fun st v => mk_update st (hash_elem v)) l mk_new)
  end.
End Hash.
