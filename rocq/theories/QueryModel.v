(** crypto/stark/src/prover.rs and verifier.rs: deriving the query indices from the public coin.

    [sort] is slice::sort_unstable, constrained in the theorems. *)
Require Import ZArith Lia Bool List.
From Verif Require Import Word U256Model BinaryModel KnuthModel ChannelModel.
Import ListNotations.
Open Scope Z_scope.

Section Queries.
Context (dbg : bool) (keccak : list Z -> list Z) (sort : list Z -> list Z).
(** prover.rs:535 and verifier.rs:432-437 [2.pow(bits) - 1] on 64 bits: both operations wrap in release *)
Definition query_mask (bits : Z) : option Z := if bits <? 64 then Some (2 ^ bits - 1) else if dbg then None else Some (B - 1).
(** prover.rs:481 [64 - eval_domain_size.leading_zeros() - 1]: a u32 subtraction that fails for 0 *)
Definition p_query_bits (eval_domain_size : Z) : option Z := if clz64 eval_domain_size <=? 63 then Some (64 - clz64 eval_domain_size - 1) else if dbg then None else Some (2 ^ 32 - 1).
(** verifier.rs:242 [eval_domain_size.trailing_zeros()] *)
Definition v_query_bits (eval_domain_size : Z) : Z := ctz64 eval_domain_size.
(** prover.rs:534-539: one pass of the loop *)
Definition p_chunk (bits : Z) (val : u256) : option (list Z) :=
  let? mask := query_mask bits in
  Some [Z.land (as_uint 64 (u_shr val (256 - 64))) mask; Z.land (as_uint 64 (u_shr val (256 - 128))) mask;
        Z.land (as_uint 64 (u_shr val (256 - 192))) mask; Z.land (as_uint 64 val) mask].
(** verifier.rs:430-438: one pass of the loop *)
Definition v_chunk (bits : Z) (val : u256) : option (list Z) :=
  let? mask := query_mask bits in
  Some [Z.land (l0 (u_shr val (256 - 64))) mask; Z.land (l0 (u_shr val (256 - 128))) mask;
        Z.land (l0 (u_shr val (256 - 192))) mask; Z.land (l0 val) mask].
(** prover.rs:533-540 and verifier.rs:429-439: [while query_indices.len() < num]; [fuel] bounds the passes *)
Fixpoint indices_loop (chunk : u256 -> option (list Z)) (fuel num : nat) (query_indices : list Z) (c : coin) : option (list Z * coin) :=
  if (length query_indices <? num)%nat then
    match fuel with
    | O => None
    | S fuel =>
        match draw_u256 dbg keccak c with
        | None => None
        | Some (val, c) => let? l := chunk val in indices_loop chunk fuel num (query_indices ++ l) c
        end
    end
  else Some (query_indices, c).
Definition get_indices (chunk : u256 -> option (list Z)) (num : nat) (c : coin) : option (list Z * coin) :=
  match indices_loop chunk num num [] c with
  | None => None
  | Some (l, c) => Some (sort (firstn num l), c)
  end.
(** prover.rs:531-544 *)
Definition p_get_indices (num : nat) (bits : Z) (c : coin) : option (list Z * coin) := get_indices (p_chunk bits) num c.
(** verifier.rs:426-441 *)
Definition v_get_indices (num : nat) (bits : Z) (c : coin) : option (list Z * coin) := get_indices (v_chunk bits) num c.
End Queries.
