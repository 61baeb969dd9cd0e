(** crypto/stark/src/proof_of_work.rs *)
Require Import ZArith Lia Bool List.
From Verif Require Import Word U256Model BinaryModel ChannelModel Arr.
Import ListNotations.
Open Scope Z_scope.

Section Pow.
Context (keccak : list Z -> list Z).

(** proof_of_work.rs:16-21 [Challenge] *)
Record challenge_ : Set := Challenge { seed_ : list Z; difficulty : Z }.
(** proof_of_work.rs:34-42 [with_difficulty]: the prefix is hex "0123456789abcded"; u8::try_from
    panics above 255 *)
Definition with_difficulty (seed : list Z) (d : Z) : option challenge_ :=
  if (0 <=? d) && (d <? 256)
  then Some (Challenge (keccak ([0x01; 0x23; 0x45; 0x67; 0x89; 0xab; 0xcd; 0xed] ++ seed ++ [d])) d)
  else None.
(** proof_of_work.rs:46-57 [verify] *)
Definition pow_verify (c : challenge_) (nonce : Z) : bool :=
  let work := u_leading_zeros (from_bytes_be (keccak (seed_ c ++ u64_to_be nonce))) in
  difficulty c <=? work.

(** u64::max_value() *)
Definition U64_MAX : Z := B - 1.

(** proof_of_work.rs:62-74 [solve] without std: the first nonce of 0, 1, 2, ... that verifies. The
    range panics when asked for u64::MAX, because it first computes the successor; [None] is that
    panic, or running out of fuel. *)
Fixpoint solve_from (fuel : nat) (c : challenge_) (nonce : Z) : option Z :=
  match fuel with
  | O => None
  | S fuel' => if nonce <? U64_MAX then if pow_verify c nonce then Some nonce else solve_from fuel' c (nonce + 1) else None
  end.
Definition solve_single (fuel : nat) (c : challenge_) : option Z := solve_from fuel c 0.

(** ** The parallel solver, proof_of_work.rs:76-100 and 116-125

    All accesses to the shared minimum are Relaxed. An atomic location has a single modification
    order; a relaxed load returns any value that is not older than the last one the thread has
    seen, a successful compare-exchange reads the latest value. [hist] is the modification order,
    oldest first; a thread carries the position it has seen and where it is in its loop. *)
Inductive pc : Set :=
| Verify (n : Z)              (* 87: about to verify nonce n *)
| FetchLoad (n : Z)           (* 117: first load of fetch_min *)
| FetchLoop (n prev : Z)      (* 118-123: the loop, with the value read *)
| Check (n : Z)               (* 90: about to compare with the shared minimum *)
| Done
| Panicked.                   (* the range overflowed *)
Record thread : Set := Thread { view : nat; at_ : pc }.
Record state : Set := State { hist : list Z; threads : list thread }.

(** What thread at [t] can do when there are [count] threads and the history is [h]: the new
    history and the new thread. *)
Inductive thread_step (c : challenge_) (count : Z) (h : list Z) : thread -> list Z -> thread -> Prop :=
| S_hit v n : pow_verify c n = true -> thread_step c count h (Thread v (Verify n)) h (Thread v (FetchLoad n))
| S_miss v n : pow_verify c n = false -> thread_step c count h (Thread v (Verify n)) h (Thread v (Check n))
| S_load v n j x : (v <= j)%nat -> nth_error h j = Some x -> thread_step c count h (Thread v (FetchLoad n)) h (Thread j (FetchLoop n x))
| S_keep v n prev : prev <= n -> thread_step c count h (Thread v (FetchLoop n prev)) h (Thread v (Check n))
| S_swap v n prev : n < prev -> nth_error h (length h - 1) = Some prev ->
    thread_step c count h (Thread v (FetchLoop n prev)) (h ++ [n]) (Thread (length h) (Check n))
| S_fail v n prev j x : n < prev -> (v <= j)%nat -> nth_error h j = Some x ->
    thread_step c count h (Thread v (FetchLoop n prev)) h (Thread j (FetchLoop n x))
| S_stop v n j x : (v <= j)%nat -> nth_error h j = Some x -> x <= n -> thread_step c count h (Thread v (Check n)) h (Thread j Done)
| S_next v n j x : (v <= j)%nat -> nth_error h j = Some x -> n < x -> n + count < U64_MAX ->
    thread_step c count h (Thread v (Check n)) h (Thread j (Verify (n + count)))
| S_over v n j x : (v <= j)%nat -> nth_error h j = Some x -> n < x -> U64_MAX <= n + count ->
    thread_step c count h (Thread v (Check n)) h (Thread j Panicked).
(** One step of one of the threads. *)
Inductive pow_step (c : challenge_) : state -> state -> Prop :=
| Step h ts i t h' t' : nth_error ts i = Some t -> thread_step c (Z.of_nat (length ts)) h t h' t' ->
    pow_step c (State h ts) (State h' (upd ts i t')).
(** 84-86: the shared minimum starts at u64::MAX, thread [offset] at nonce [offset]. *)
Definition pow_init (count : nat) : state := State [U64_MAX] (map (fun i => Thread 0 (Verify (Z.of_nat i))) (seq 0 count)).
Inductive pow_reach (c : challenge_) (s0 : state) : state -> Prop :=
| R_refl : pow_reach c s0 s0
| R_step s s' : pow_reach c s0 s -> pow_step c s s' -> pow_reach c s0 s'.
Definition all_done (s : state) : Prop := Forall (fun t => at_ t = Done) (threads s).
(** 96-98: the value left when all threads have joined *)
Definition pow_result (s : state) : Z := last (hist s) U64_MAX.
End Pow.
