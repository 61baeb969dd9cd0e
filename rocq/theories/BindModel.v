(** crypto/stark/src/component/mod.rs: [Component::prove] and [Component::verify]. [None] is a panic. The parameters are
    those of StarkModel. *)
Require Import ZArith Bool List.
From Verif Require Import Word U256Model KnuthModel FieldSig FieldAlgModel Arr FftModel StarkBase PolyModel TraceModel ExprModel HashModel MerkleModel ChannelModel PowModel StarkModel ComponentModel.
Import ListNotations.
Open Scope nat_scope.

Section Bind.
Context {F : Type} (o : ops F) (e : engine F) (keccak : list Z -> list Z).
Context (enc : F -> u256) (dec : u256 -> option F).
Context (sort_idx : list Z -> list Z) (sort_nodes : list (Z * hash) -> list (Z * hash)) (search : list Z -> Z -> option nat).
Context (fuel : nat).
(** component/mod.rs:89-96 and 101-106: the constraint system. The channel seed is [Vec::new()], see below. *)
Definition k_system {C W} (c : component F C W) (claim : C) : option (constraints (F := F)) :=
  let? size := k_size c in
  let? expressions := k_constraints c claim in
  let? r := from_expressions e size (k_polynomials c) expressions in
  r.
(** component/mod.rs:100-108 [verify] *)
Definition k_verify {C W} (c : component F C W) (claim : C) (proof : list Z) : option (result verror unit) :=
  let? s := k_system c claim in
  stark_verify o e keccak enc dec sort_idx sort_nodes search fuel s [] [] proof.
Context (kseed : F -> nat -> F) (ktrace : F -> nat -> Z -> F) (solve : challenge_ -> option Z) (orders : list (list F) -> nat -> list nat).
(** component/mod.rs:88-98 [prove] *)
Definition k_prove {C W} (c : component F C W) (w : W) : option (result perror (list Z)) :=
  let? t := trace_table o c w in
  let? s := k_system c (k_claim c w) in
  stark_prove o e keccak enc dec sort_idx sort_nodes search fuel kseed ktrace solve orders s [] [] t.
End Bind.
