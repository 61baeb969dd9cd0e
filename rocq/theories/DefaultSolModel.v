(** crypto/stark-verifier-ethereum/contracts/default_cs.sol: the default FRI layout of the contract.

    A uint8 or uint256 is a [Z]; arrays are lists, an access outside reverts ([None]). *)
Require Import ZArith List.
From Verif Require Import Word Arr.
Import ListNotations.
Open Scope Z_scope.

(** default_cs.sol:196 *)
Definition LOG2_TARGET : Z := 8.
(** default_cs.sol:198-217 [default_fri_layout] *)
Definition sol_fri_layout (log_trace_len : Z) : option (list Z) :=
  let num_reductions := if LOG2_TARGET <? log_trace_len then (log_trace_len - LOG2_TARGET) mod 2 ^ 8 else log_trace_len in
  let? result :=
    (if negb (num_reductions mod 3 =? 0) then
       let result := repeat 0 (Z.to_nat (1 + num_reductions / 3)) in
       set result (length result - 1) ((num_reductions mod 3) mod 2 ^ 8)
     else Some (repeat 0 (Z.to_nat (num_reductions / 3)))) in
  for_each (seq 0 (Z.to_nat (num_reductions / 3))) (fun result i => set result i 3) result.
