(** What the theorem that the prover returns a proof assumes of the random draws, of the solver and of the
    coefficients. *)
Require Import ZArith List.
From Verif Require Import Word U256Model HashModel ChannelModel ChannelSpec MerkleSpec FieldSig FftSpec StarkBase PolyModel TraceModel ExprModel PowModel StarkModel StarkSpec.
Import ListNotations.
Open Scope nat_scope.

Section Total.
Context {F : Type} (o : ops F) (e : engine F) (w : nat -> F) (keccak : list Z -> list Z) (enc : F -> u256) (dec : u256 -> option F) (fuel : nat).
(** From a channel that has absorbed something, whatever it was, [n] field elements can be drawn: the loop that draws
    again when a number is too large ends. *)
Definition draws (n : nat) : Prop := forall d, is_hash d -> exists l c, draw_elems e keccak dec fuel n (Coin d 0) = Some (l, c).
(** So many are drawn at once: two for every constraint, then one for every cell the constraints refer to and for
    every constraint polynomial. *)
Definition enough (a : nat) (claims : list (list F)) (c : constraints (F := F)) (n : nat) : Prop :=
  1 <= n /\ 2 * length (c_exprs c) <= n /\ forall c' args, substitute o claims c = Some c' -> c_trace_arguments c' = Some args -> length args + 2 ^ a <= n.
(** The proof of work has a solution the solver finds, whatever the seed. *)
Definition solvable (solve : challenge_ -> option Z) (bits : Z) : Prop := (0 <= bits < 256)%Z /\ forall s, is_hash s -> exists n, solve (Challenge s bits) = Some n.
(** The root of the Merkle tree over the rows of the values of the trace polynomials on the evaluation domain, a
    coset of 2^(k+b) points in bit reversed order. *)
Definition evaluations (k b : nat) (tp : list (list F)) : list (list F) :=
  map (fun i => map (fun p => peval o p (fmul o (egen e) (fpw o (w (k + b)) (rev_bits (k + b) i)))) tp) (seq 0 (2 ^ (k + b))).
Definition trace_root (k b : nat) (tp : list (list F)) : hash :=
  merkle_root (node_of keccak) (k + b) (leaf_hashes (leaf_of keccak enc) hash_default (evaluations k b tp)) 0.
(** The coefficients drawn after the seed and the root of the trace are good ones (StarkSpec). *)
Definition lucky (kseed : F -> nat -> F) (ktrace : F -> nat -> Z -> F) (k b a : nat) (t : table F) (claims : list (list F)) (c : constraints (F := F)) (seed : list Z) : Prop :=
  forall tp cs coin, interpolate o e t = Some tp ->
  draw_elems e keccak dec fuel (2 * length (c_exprs c)) (Coin (keccak (keccak seed ++ trace_root k b tp)) 0) = Some (cs, coin) ->
  good_with o e w kseed ktrace k a t claims c cs.
End Total.
