(** The provided methods of crypto/stark/src/traits.rs and the channel seeds of the claims in crypto/stark/examples.
    [None] is a panic. The parameters are those of StarkModel. *)
Require Import ZArith Bool List.
From Verif Require Import Word U256Model BinaryModel KnuthModel FieldSig FieldAlgModel Arr FftModel StarkBase PolyModel TraceModel ExprModel HashModel MerkleModel ChannelModel PowModel StarkModel ClaimModel.
Import ListNotations.
Open Scope nat_scope.

Section Seeds.
Context {F : Type} (enc : F -> u256).
(** [x.as_montgomery().to_bytes_be()] *)
Definition element_bytes (x : F) : list Z := to_bytes_be (enc x).
(** The claims of the examples: constant.rs:9, claim_polynomial.rs:10, small_fib.rs:10-13, large_fib.rs:9-12, mimc_cubic.rs:32-35,
    mimc_quadratic.rs:33-36, mimc_hash.rs:143-147, mimc_tree.rs:143-147, vdf.rs:12-17, pedersen_merkle/inputs.rs:7-11. *)
Inductive example_claim : Type :=
  | Constant (value : F)
  | ClaimPolynomial (value : F)
  | SmallFib (index : Z) (value : F)
  | LargeFib (index : Z) (value : F)
  | MimcCubic (before after : F)
  | MimcQuadratic (before after : F)
  | MimcHash (before_x before_y after : F)
  | MimcTree (element root start_left : F)
  | Vdf (c0_start c1_start c0_end c1_end : F)
  | PedersenMerkle (path_length : Z) (leaf root : F).
(** constant.rs:18; claim_polynomial.rs:18, 46; small_fib.rs:25-26; large_fib.rs:23-24; mimc_cubic.rs:42-43; mimc_quadratic.rs:43-44;
    mimc_hash.rs:154-156; mimc_tree.rs:154-155; vdf.rs:24-27; pedersen_merkle/inputs.rs:46-54 (used in starkware_example.rs:41) *)
Definition claim_seed (c : example_claim) : list Z :=
  match c with
  | Constant value => element_bytes value
  | ClaimPolynomial value => element_bytes value
  | SmallFib index value => u64_to_be index ++ element_bytes value
  | LargeFib index value => u64_to_be index ++ element_bytes value
  | MimcCubic before after => element_bytes before ++ element_bytes after
  | MimcQuadratic before after => element_bytes before ++ element_bytes after
  | MimcHash before_x before_y after => element_bytes before_x ++ element_bytes before_y ++ element_bytes after
  | MimcTree element root _ => element_bytes element ++ element_bytes root
  | Vdf c0_start c1_start c0_end c1_end => element_bytes c0_start ++ element_bytes c1_start ++ element_bytes c0_end ++ element_bytes c1_end
  | PedersenMerkle path_length leaf root => u64_to_be path_length ++ element_bytes root ++ element_bytes leaf
  end.
End Seeds.

Section Traits.
Context {F : Type} (o : ops F) (e : engine F) (keccak : list Z -> list Z).
Context (enc : F -> u256) (dec : u256 -> option F).
Context (sort_idx : list Z -> list Z) (sort_nodes : list (Z * hash) -> list (Z * hash)) (search : list Z -> Z -> option nat).
Context (fuel : nat).
(** traits.rs:11-14 [Verifiable::verify]; [constraints] and [seed] are the parts of what [self.constraints()] returns *)
Definition verifiable_verify (constraints : option (constraints (F := F))) (seed : list Z) (proof : list Z) : option (result verror unit) :=
  let? c := constraints in
  stark_verify o e keccak enc dec sort_idx sort_nodes search fuel c [] seed proof.
Context (kseed : F -> nat -> F) (ktrace : F -> nat -> Z -> F) (solve : challenge_ -> option Z) (orders : list (list F) -> nat -> list nat).
(** traits.rs:21-25 [Provable::prove]; [trace] is [self.trace(witness)] *)
Definition provable_prove (constraints : option (constraints (F := F))) (seed : list Z) (trace : option (table F)) : option (result perror (list Z)) :=
  let? c := constraints in
  let? t := trace in
  stark_prove o e keccak enc dec sort_idx sort_nodes search fuel kseed ktrace solve orders c [] seed t.
(** traits.rs:27-31 [Provable::check]; the inner None is Ok(()) *)
Definition provable_check (constraints : option (constraints (F := F))) (trace : option (table F)) : option (option (nat * nat)) :=
  let? c := constraints in
  let? t := trace in
  check_constraints o e (c_exprs c) t.
(** traits.rs:33-41 [Provable::check_specified]; true is Ok(()) *)
Definition provable_check_specified (constraints : option (constraints (F := F))) (trace : option (table F)) (row which_constraint : nat) : option bool :=
  let? c := constraints in
  let? t := trace in
  check_specific_constraint o e (c_exprs c) t row which_constraint.
End Traits.
