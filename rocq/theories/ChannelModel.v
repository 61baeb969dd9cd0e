(** crypto/stark/src/channel.rs: the public coin and the two ends of the proof channel.

    Keccak-256 is a parameter [keccak] on byte strings. [dbg] is the build profile: with debug
    assertions, from_montgomery / as_montgomery check the range and the counter increment panics on
    overflow. [None] is a panic (or, for drawing a field element, running out of the loop fuel). A
    field element is its Montgomery representation, a [u256]. *)
Require Import ZArith Lia Bool List.
From Verif Require Import Word U256Model BinaryModel KnuthModel FieldModel FieldInstance.
Import ListNotations.
Open Scope Z_scope.

(** u64::to_be_bytes *)
Definition u64_to_be (x : Z) : list Z := map (fun i => (x / 256 ^ i) mod 256) [7; 6; 5; 4; 3; 2; 1; 0].

(** channel.rs:29-32 [PublicCoin] *)
Record coin : Set := Coin { digest : list Z; counter : Z }.
(** channel.rs:36-39 [ProverChannel], 43-47 [VerifierChannel] *)
Record prover : Set := Prover { pcoin : coin; pproof : list Z }.
Record verifier : Set := Verifier { vcoin : coin; vproof : list Z; proof_index : nat }.

Section Channel.
Context (dbg : bool) (keccak : list Z -> list Z).

(** channel.rs:50-57 [seed] *)
Definition coin_seed (c : coin) (seed : list Z) : coin := Coin (keccak seed) 0.
(** #[derive(Default)] *)
Definition coin_default : coin := Coin (repeat 0 32) 0.
(** [self.counter += 1] *)
Definition incr (k : Z) : option Z := if k + 1 <? B then Some (k + 1) else if dbg then None else Some 0.
(** channel.rs:204-215 [write] *)
Definition coin_write (c : coin) (data : list Z) : coin := Coin (keccak (digest c ++ data)) 0.
(** channel.rs:173-184 [get_random] of bytes *)
Definition draw_bytes (c : coin) : option (list Z * coin) :=
  let result := keccak (digest c ++ repeat 0 24 ++ u64_to_be (counter c)) in
  let? k := incr (counter c) in
  Some (result, Coin (digest c) k).
(** channel.rs:167-171 [get_random] of U256 *)
Definition draw_u256 (c : coin) : option (u256 * coin) :=
  match draw_bytes c with Some (b, c) => Some (from_bytes_be b, c) | None => None end.
(** The range assertion of from_montgomery and as_montgomery *)
Definition in_range (x : u256) : option u256 :=
  if dbg then if u_ltb x (p_modulus proth_field) then Some x else None else Some x.
(** channel.rs:155-156 [MASK] *)
Definition DRAW_MASK : u256 := mk 0xffffffffffffffff 0xffffffffffffffff 0xffffffffffffffff 0x0fffffffffffffff.
(** channel.rs:153-165 [get_random] of FieldElement; [fuel] bounds the rejection loop *)
Fixpoint draw_felt (fuel : nat) (c : coin) : option (u256 * coin) :=
  match fuel with
  | O => None
  | S fuel' =>
      match draw_u256 c with
      | None => None
      | Some (number, c) =>
          let seed := u_and number DRAW_MASK in
          if u_ltb seed (p_modulus proth_field) then let? x := in_range seed in Some (x, c)
          else draw_felt fuel' c
      end
  end.
(** channel.rs:126-132 [get_random] of ChallengeSeed: the digest itself *)
Definition draw_seed (c : coin) : option (list Z * coin) :=
  let? k := incr (counter c) in Some (digest c, Coin (digest c) k).

(** ** Prover *)
(** #[derive(Default)] and channel.rs:69-73 [initialize] *)
Definition prover_new (seed : list Z) : prover := Prover (coin_seed coin_default seed) [].
(** channel.rs:221-226 [write] of bytes *)
Definition p_write (p : prover) (data : list Z) : prover := Prover (coin_write (pcoin p) data) (pproof p ++ data).
(** channel.rs:228-238 [write] of Hash and Commitment *)
Definition p_hash (p : prover) (h : list Z) : prover := p_write p h.
(** channel.rs:240-246 [write] of a Merkle proof *)
Definition p_hashes (p : prover) (l : list (list Z)) : prover := fold_left p_hash l p.
(** channel.rs:277-281 [write] of U256 and 269-275 of Vec<U256> *)
Definition p_u256 (p : prover) (x : u256) : prover := p_write p (to_bytes_be x).
Definition p_u256s (p : prover) (l : list u256) : prover := fold_left p_u256 l p.
(** channel.rs:261-265 [write] of FieldElement *)
Definition p_felt (p : prover) (x : u256) : option prover := let? x := in_range x in Some (p_write p (to_bytes_be x)).
(** channel.rs:249-259 [write] of a slice of FieldElement *)
Fixpoint container (l : list u256) : option (list Z) :=
  match l with
  | [] => Some []
  | x :: l => let? x := in_range x in let? rest := container l in Some (to_bytes_be x ++ rest)
  end.
Definition p_layer (p : prover) (l : list u256) : option prover := let? c := container l in Some (p_write p c).
(** channel.rs:134-138 [write] of a proof of work response *)
Definition p_nonce (p : prover) (nonce : Z) : prover := p_write p (u64_to_be nonce).

(** ** Verifier *)
(** channel.rs:76-86 [new], [initialize] *)
Definition verifier_new (proof seed : list Z) : verifier := Verifier (coin_seed coin_default seed) proof 0.
(** channel.rs:88-90 [at_end] *)
Definition at_end (v : verifier) : bool := (proof_index v =? length (vproof v))%nat.
(** [&self.proof[from..to]] with from = proof_index and to = from + n: panics past the end *)
Definition v_take (v : verifier) (n : nat) : option (list Z) :=
  if (length (vproof v) <? proof_index v + n)%nat then None else Some (firstn n (skipn (proof_index v) (vproof v))).
(** channel.rs:114-123 [read_32_bytes] *)
Definition read_32_bytes (v : verifier) : option (list Z * verifier) :=
  let? holder := v_take v 32 in
  Some (holder, Verifier (coin_write (vcoin v) holder) (vproof v) (proof_index v + 32)).
(** channel.rs:283-304 [replay] of Hash, U256, FieldElement *)
Definition replay_hash (v : verifier) : option (list Z * verifier) := read_32_bytes v.
Definition replay_u256 (v : verifier) : option (u256 * verifier) :=
  match read_32_bytes v with Some (b, v) => Some (from_bytes_be b, v) | None => None end.
Definition replay_felt (v : verifier) : option (u256 * verifier) :=
  match replay_u256 v with Some (x, v) => let? x := in_range x in Some (x, v) | None => None end.
(** channel.rs:140-150 [replay] of a proof of work response *)
Definition replay_nonce (v : verifier) : option (Z * verifier) :=
  let? holder := v_take v 8 in
  Some (u64_from_be holder, Verifier (coin_write (vcoin v) holder) (vproof v) (proof_index v + 8)).
(** channel.rs:19-24 [replay_many] *)
Fixpoint replay_many {T} (replay : verifier -> option (T * verifier)) (count : nat) (v : verifier) : option (list T * verifier) :=
  match count with
  | O => Some ([], v)
  | S n => match replay v with
           | None => None
           | Some (x, v) => match replay_many replay n v with Some (l, v) => Some (x :: l, v) | None => None end
           end
  end.
(** chunks_exact(32) *)
Fixpoint chunks_32 (n : nat) (l : list Z) : list (list Z) :=
  match n with O => [] | S n => if (length l <? 32)%nat then [] else firstn 32 l :: chunks_32 n (skipn 32 l) end.
(** channel.rs:99-112 [replay_fri_layer] *)
Fixpoint felts_of (l : list (list Z)) : option (list u256) :=
  match l with
  | [] => Some []
  | b :: l => let? x := in_range (from_bytes_be b) in let? rest := felts_of l in Some (x :: rest)
  end.
Definition replay_fri_layer (v : verifier) (size : nat) : option (list u256 * verifier) :=
  let? contents := v_take v (32 * size) in
  let? l := felts_of (chunks_32 size contents) in
  Some (l, Verifier (coin_write (vcoin v) contents) (vproof v) (proof_index v + 32 * size)).
(** channel.rs:92-94 [get_coefficients] (prover.rs:707-709 is the same on the prover's channel) *)
Fixpoint get_coefficients (fuel : nat) (c : coin) (n : nat) : option (list u256 * coin) :=
  match n with
  | O => Some ([], c)
  | S n => match draw_felt fuel c with
           | None => None
           | Some (x, c) => match get_coefficients fuel c n with Some (l, c) => Some (x :: l, c) | None => None end
           end
  end.
End Channel.
