(** C41: proof of work. *)
Require Import ZArith Lia Bool List.
From Verif Require Import Word U256Model U256Spec U256Proofs BinaryModel BinaryProofs EncodingSpec EncodingProofs Arr ChannelModel ChannelSpec ChannelProps PowModel.
Import ListNotations.
Open Scope Z_scope.

(** [nonce] is a solution: the hash of the seed and the nonce, read as a 256-bit number, starts with
    [difficulty] zero bits. *)
Definition solution (keccak : list Z -> list Z) (c : challenge_) (nonce : Z) : Prop :=
  num 256 (keccak (seed_ c ++ u64_to_be nonce)) < 2 ^ (256 - difficulty c).
Definition least_solution (keccak : list Z -> list Z) (c : challenge_) (n : Z) : Prop :=
  solution keccak c n /\ 0 <= n < 2 ^ 64 /\ forall m, 0 <= m < 2 ^ 64 -> solution keccak c m -> n <= m.

Theorem C41_verify : forall keccak c n, (forall x, is_hash (keccak x)) -> 0 <= difficulty c <= 256 ->
  (pow_verify keccak c n = true <-> solution keccak c n).
Proof.
  intros keccak c n K D. unfold pow_verify, solution. destruct (K (seed_ c ++ u64_to_be n)) as [L F]. destruct (from_bytes_be_spec _ L F) as [W1 V1].
  rewrite (u_leading_zeros_spec _ W1), V1. set (x := num 256 _) in *. assert (H : 0 <= x < W) by (rewrite <- V1; apply val_range, W1). clearbody x. rewrite Z.leb_le.
  destruct (Z.eqb_spec x 0) as [->|N].
  - split; [intros _|lia]. apply Z.pow_pos_nonneg; lia.
  - assert (P : 0 < x) by lia. split; intros G.
    + apply Z.log2_lt_pow2; lia.
    + destruct (Z.eq_dec (difficulty c) 256) as [E|E]; [rewrite E in G; change (2 ^ (256 - 256)) with 1 in G; lia|]. apply Z.log2_lt_pow2 in G; lia.
Qed.
Print Assumptions C41_verify.
Theorem C41_with_difficulty : forall keccak seed d, 0 <= d ->
  (d < 256 -> exists c, with_difficulty keccak seed d = Some c /\ difficulty c = d) /\ (256 <= d -> with_difficulty keccak seed d = None).
Proof.
  intros keccak seed d H. unfold with_difficulty. split; intros H1.
  - destruct (Z.leb_spec 0 d), (Z.ltb_spec d 256); try lia. eexists. split; reflexivity.
  - destruct (Z.leb_spec 0 d), (Z.ltb_spec d 256); try lia. reflexivity.
Qed.
Print Assumptions C41_with_difficulty.
(** A challenge is bound to the seed and the difficulty it was made from: two different pairs give
    different challenges, or two different byte strings with the same hash. *)
Theorem C41_challenge_binds : forall keccak s s' d d' c c', length s = length s' ->
  with_difficulty keccak s d = Some c -> with_difficulty keccak s' d' = Some c' -> seed_ c = seed_ c' ->
  (s = s' /\ d = d') \/ exists x y, x <> y /\ keccak x = keccak y.
Proof.
  intros keccak s s' d d' c c' HL. unfold with_difficulty.
  destruct ((0 <=? d) && (d <? 256)); [|discriminate]. destruct ((0 <=? d') && (d' <? 256)); [|discriminate].
  set (pre := [0x01; 0x23; 0x45; 0x67; 0x89; 0xab; 0xcd; 0xed]). intros E1 E2. injection E1 as <-. injection E2 as <-. cbn [seed_]. intros E.
  destruct (list_eq_dec Z.eq_dec (pre ++ s ++ [d]) (pre ++ s' ++ [d'])) as [Q|Q]; [left|right; eexists; eexists; split; [exact Q|exact E]].
  apply app_inv_head in Q. apply app_inj_tail in Q. exact Q.
Qed.
Print Assumptions C41_challenge_binds.

(** The single-threaded solver returns the least solution, and finds every solution below u64::MAX. *)
Theorem C41_single : forall keccak c, (forall x, is_hash (keccak x)) -> 0 <= difficulty c <= 256 ->
  (forall fuel n, solve_single keccak fuel c = Some n -> least_solution keccak c n) /\
  (forall n, least_solution keccak c n -> n < 2 ^ 64 - 1 -> solve_single keccak (S (Z.to_nat n)) c = Some n).
Proof.
  intros keccak c K D. change (2 ^ 64) with B. split.
  - intros fuel n. unfold solve_single.
    assert (G : forall k, 0 <= k -> (forall m, 0 <= m < k -> ~ solution keccak c m) -> solve_from keccak fuel c k = Some n -> least_solution keccak c n).
    { induction fuel as [|fuel IH]; intros k Hk Hm; cbn [solve_from]; [discriminate|]. unfold U64_MAX. destruct (Z.ltb_spec k (B - 1)); [|discriminate].
      destruct (pow_verify keccak c k) eqn:E.
      - intros [= <-]. split; [apply C41_verify; assumption|]. change (2 ^ 64) with B. split; [lia|]. intros m H1 H2. destruct (Z.le_gt_cases k m) as [|L]; [assumption|]. exfalso. apply (Hm m); [lia|assumption].
      - apply IH; [lia|]. intros m H1 H2. destruct (Z.eq_dec m k) as [->|]; [|apply (Hm m); [lia|assumption]]. apply C41_verify in H2; [congruence|assumption|assumption]. }
    apply G; [lia|]. intros m H. lia.
  - intros n (S & R & M) N. unfold solve_single. change (2 ^ 64) with B in R, M.
    assert (G : forall j k, 0 <= k -> k + Z.of_nat j = n -> solve_from keccak (Datatypes.S j) c k = Some n).
    { induction j as [|j IH]; intros k Hk E.
      - assert (k = n) by lia. subst k. cbn [solve_from]. unfold U64_MAX. destruct (Z.ltb_spec n (B - 1)); [|lia]. rewrite (proj2 (C41_verify keccak c n K D) S). reflexivity.
      - remember (Datatypes.S j) as j1. cbn [solve_from]. unfold U64_MAX. destruct (Z.ltb_spec k (B - 1)); [|lia]. destruct (pow_verify keccak c k) eqn:V.
        + apply C41_verify in V; [|assumption|assumption]. specialize (M k ltac:(lia) V). lia.
        + subst j1. apply IH; lia. }
    apply G; lia.
Qed.
Print Assumptions C41_single.

(** ** The parallel solver *)
Section Inv.
Context (keccak : list Z -> list Z) (c : challenge_) (count : nat).
Let V n := pow_verify keccak c n = true.
Fixpoint decreasing (l : list Z) : Prop := match l with x :: (y :: _) as t => y < x /\ decreasing t | _ => True end.
Record hist_ok (h : list Z) : Prop := {
  ho_head : exists t, h = U64_MAX :: t /\ Forall (fun n => V n /\ 0 <= n < U64_MAX) t;
  ho_dec : decreasing h
}.
Definition low (h : list Z) : Z := last h U64_MAX.
(** Every solution of class [i] below [n] is at least the minimum. *)
Definition covered (h : list Z) (i : nat) (n : Z) : Prop := forall m, V m -> 0 <= m < n -> m mod Z.of_nat count = Z.of_nat i -> low h <= m.
Definition nonce_ok (i : nat) (n : Z) : Prop := 0 <= n < U64_MAX /\ n mod Z.of_nat count = Z.of_nat i.
Definition thread_ok (h : list Z) (i : nat) (t : thread) : Prop :=
  match at_ t with
  | Verify n => nonce_ok i n /\ covered h i n
  | FetchLoad n => nonce_ok i n /\ covered h i n /\ V n
  | FetchLoop n prev => nonce_ok i n /\ covered h i n /\ V n /\ In prev h
  | Check n => nonce_ok i n /\ covered h i (n + 1)
  | Done => (forall m, V m -> 0 <= m -> m mod Z.of_nat count = Z.of_nat i -> low h <= m) /\ low h < U64_MAX
  | Panicked => True
  end.
Definition inv (s : state) : Prop := hist_ok (hist s) /\ length (threads s) = count /\ forall i t, nth_error (threads s) i = Some t -> thread_ok (hist s) i t.

Lemma dec_last h d : forall x, decreasing h -> In x h -> last h d <= x.
Proof.
  induction h as [|a h IH]; [intros x _ []|]. destruct h as [|b h]; [intros x _ [->|[]]; cbn; lia|]. intros x [H1 H2] [->|Hx].
  - change (last (b :: h) d <= x). specialize (IH b H2 (or_introl eq_refl)). lia.
  - change (last (b :: h) d <= x). apply IH; assumption.
Qed.
Lemma dec_snoc h d n : decreasing h -> h <> [] -> n < last h d -> decreasing (h ++ [n]).
Proof.
  induction h as [|a h IH]; [congruence|]. intros D _ L. destruct h as [|b h]; [cbn in *; lia|]. destruct D as [D1 D2]. cbn [app]. split; [exact D1|]. apply IH; [exact D2|discriminate|exact L].
Qed.
Lemma last_snoc (h : list Z) d n : last (h ++ [n]) d = n.
Proof. induction h as [|a h IH]; [reflexivity|]. cbn [app]. destruct h; [reflexivity|]. exact IH. Qed.
Lemma nth_last (h : list Z) d x : nth_error h (length h - 1) = Some x -> last h d = x.
Proof.
  intros E. destruct h as [|a h] using rev_ind; [discriminate E|]. rewrite app_length in E. cbn [length] in E. replace (length h + 1 - 1)%nat with (length h) in E by lia.
  rewrite nth_error_app2, Nat.sub_diag in E by lia. cbn in E. injection E as <-. apply last_snoc.
Qed.
Lemma covered_mono h h' i n : low h' <= low h -> covered h i n -> covered h' i n.
Proof. intros L H m H1 H2 H3. specialize (H m H1 H2 H3). lia. Qed.
Lemma thread_ok_mono h h' i t : low h' <= low h -> (forall x, In x h -> In x h') -> thread_ok h i t -> thread_ok h' i t.
Proof.
  intros L I. unfold thread_ok. destruct (at_ t) as [n|n|n prev|n| |].
  - intros [H1 H2]. split; [exact H1|]. exact (covered_mono _ _ _ _ L H2).
  - intros (H1 & H2 & H3). split; [exact H1|]. split; [exact (covered_mono _ _ _ _ L H2)|exact H3].
  - intros (H1 & H2 & H3 & H4). split; [exact H1|]. split; [exact (covered_mono _ _ _ _ L H2)|]. split; [exact H3|apply I, H4].
  - intros (H1 & H2). split; [exact H1|exact (covered_mono _ _ _ _ L H2)].
  - intros [H1 H2]. split; [|lia]. intros m A1 A2 A3. specialize (H1 m A1 A2 A3). lia.
  - auto.
Qed.
Lemma covered_next h i n : covered h i n -> (V n -> low h <= n) -> covered h i (n + 1).
Proof. intros H Hn m H1 H2 H3. destruct (Z.eq_dec m n) as [->|]; [apply Hn, H1|apply H; [exact H1|lia|exact H3]]. Qed.
Lemma class_gap i n m : (0 < count)%nat -> n mod Z.of_nat count = Z.of_nat i -> m mod Z.of_nat count = Z.of_nat i -> n < m -> n + Z.of_nat count <= m.
Proof.
  intros C Hn Hm L. pose proof (Z.div_mod n (Z.of_nat count) ltac:(lia)) as D1. pose proof (Z.div_mod m (Z.of_nat count) ltac:(lia)) as D2. rewrite Hn in D1. rewrite Hm in D2.
  assert (n / Z.of_nat count < m / Z.of_nat count) by nia. nia.
Qed.
Lemma inv_step s s' : (0 < count)%nat -> inv s -> pow_step keccak c s s' -> inv s'.
Proof.
  intros C0 (HO & L & HT) ST. destruct ST as [h ts i t h' t' Hi TS]. cbn [hist threads] in *. rewrite L in TS.
  pose proof (HT i t Hi) as Ti. pose proof (ho_dec _ HO) as Dc. destruct (ho_head _ HO) as (tl & Eh & Ftl).
  assert (InH : forall j x, nth_error h j = Some x -> low h <= x) by (intros j x E; apply dec_last; [exact Dc|exact (nth_error_In _ _ E)]).
  assert (FIN : hist_ok h' /\ low h' <= low h /\ (forall x, In x h -> In x h') /\ thread_ok h' i t').
  { destruct TS as [v n E|v n E|v n j x Hv E|v n prev E|v n prev E E'|v n prev j x E Hv E'|v n j x Hv E E'|v n j x Hv E E' Ho|v n j x Hv E E' Ho]; unfold thread_ok in *; cbn [at_] in *.
    - split; [exact HO|]. split; [lia|]. split; [auto|]. destruct Ti. auto.
    - split; [exact HO|]. split; [lia|]. split; [auto|]. destruct Ti as [T1 T2]. split; [exact T1|]. apply covered_next; [exact T2|]. unfold V. congruence.
    - split; [exact HO|]. split; [lia|]. split; [auto|]. destruct Ti as (T1 & T2 & T3). split; [exact T1|]. split; [exact T2|]. split; [exact T3|]. exact (nth_error_In _ _ E).
    - split; [exact HO|]. split; [lia|]. split; [auto|]. destruct Ti as (T1 & T2 & T3 & T4). split; [exact T1|]. apply covered_next; [exact T2|]. intros _. pose proof (dec_last h U64_MAX prev Dc T4). unfold low. lia.
    - destruct Ti as (T1 & T2 & T3 & T4). pose proof (nth_last h U64_MAX prev E') as LL. assert (Lo : low (h ++ [n]) = n) by apply last_snoc. split; [|split; [|split]].
      + split.
        * exists (tl ++ [n]). rewrite Eh. split; [reflexivity|]. apply Forall_app. split; [exact Ftl|]. constructor; [|constructor]. split; [exact T3|apply T1].
        * apply dec_snoc with (d := U64_MAX); [exact Dc|rewrite Eh; discriminate|lia].
      + rewrite Lo. unfold low. lia.
      + intros x Hx. apply in_or_app. left. exact Hx.
      + split; [exact T1|]. apply covered_next; [|lia]. apply (covered_mono h); [rewrite Lo; unfold low; lia|exact T2].
    - split; [exact HO|]. split; [lia|]. split; [auto|]. destruct Ti as (T1 & T2 & T3 & T4). split; [exact T1|]. split; [exact T2|]. split; [exact T3|]. exact (nth_error_In _ _ E').
    - split; [exact HO|]. split; [lia|]. split; [auto|]. destruct Ti as (T1 & T2). specialize (InH j x E). destruct T1 as [T0 T1]. split; [|lia]. intros m H1 H2 H3. destruct (Z.lt_ge_cases m (n + 1)); [apply T2; [exact H1|lia|exact H3]|lia].
    - split; [exact HO|]. split; [lia|]. split; [auto|]. destruct Ti as ([T0 T1] & T2). split.
      + split; [lia|]. rewrite <- T1. rewrite <- (Z.mul_1_l (Z.of_nat count)) at 1. apply Z_mod_plus_full.
      + intros m H1 H2 H3. destruct (Z.lt_ge_cases m (n + 1)); [apply T2; [exact H1|lia|exact H3]|]. pose proof (class_gap i n m C0 T1 H3 ltac:(lia)). lia.
    - split; [exact HO|]. split; [lia|]. split; [auto|]. exact I. }
  destruct FIN as (F1 & F2 & F3 & F4). split; [exact F1|]. cbn [hist threads]. split; [rewrite upd_length; exact L|]. intros k t0 E.
  destruct (Nat.eq_dec k i) as [->|N].
  - assert (Hl : (i < length ts)%nat) by (apply nth_error_Some; congruence).
    assert (E' : nth_error (upd ts i t') i = Some t') by (rewrite nth_error_nth' with (d := t') by (rewrite upd_length; exact Hl); rewrite nth_upd by exact Hl; rewrite Nat.eqb_refl; reflexivity).
    rewrite E' in E. injection E as <-. exact F4.
  - assert (E' : nth_error ts k = Some t0).
    { revert E. clear - N. revert k i N. induction ts as [|a ts IH]; intros [|k] [|i] N; cbn; try congruence. apply IH. congruence. }
    exact (thread_ok_mono h h' k t0 F2 F3 (HT k t0 E')).
Qed.
Lemma inv_init : (0 < count)%nat -> Z.of_nat count < U64_MAX -> inv (pow_init count).
Proof.
  intros C0 C1. split; [|split].
  - split; [exists []; split; [reflexivity|constructor]|exact I].
  - cbn [threads pow_init]. rewrite map_length, seq_length. reflexivity.
  - intros i t E. cbn [threads pow_init] in E. rewrite nth_error_map in E. destruct (nth_error (seq 0 count) i) as [k|] eqn:Es; [|discriminate E]. injection E as <-.
    assert (Hi : (i < count)%nat) by (rewrite <- (seq_length count 0); apply nth_error_Some; congruence).
    rewrite nth_error_nth' with (d := O) in Es by (rewrite seq_length; exact Hi). injection Es as Es. rewrite seq_nth in Es by exact Hi. cbn in Es. subst k.
    unfold thread_ok. cbn [at_]. split; [split; [lia|]|].
    + apply Z.mod_small. lia.
    + intros m H1 H2 H3. exfalso. pose proof (Z.mod_small m (Z.of_nat count) ltac:(lia)). lia.
Qed.
Lemma inv_reach s : (0 < count)%nat -> Z.of_nat count < U64_MAX -> pow_reach keccak c (pow_init count) s -> inv s.
Proof. intros C0 C1 R. induction R as [|s s' R IH S]; [apply inv_init; assumption|]. exact (inv_step s s' C0 IH S). Qed.
End Inv.

(** For every number of threads and every interleaving of their accesses under relaxed memory: if
    all threads finish, the result is the least solution. *)
Theorem C41_parallel : forall keccak c count s, (forall x, is_hash (keccak x)) -> 0 <= difficulty c <= 256 -> (0 < count)%nat -> Z.of_nat count < 2 ^ 64 - 1 ->
  pow_reach keccak c (pow_init count) s -> all_done s -> least_solution keccak c (pow_result s).
Proof.
  intros keccak c count s K D C0 C1 R A. destruct (inv_reach keccak c count s C0 C1 R) as (HO & L & HT).
  assert (T : forall i, (i < count)%nat -> (forall m, pow_verify keccak c m = true -> 0 <= m -> m mod Z.of_nat count = Z.of_nat i -> low (hist s) <= m) /\ low (hist s) < U64_MAX).
  { intros i Hi. destruct (nth_error (threads s) i) as [t|] eqn:E; [|apply nth_error_None in E; lia]. pose proof (HT i t E) as X. unfold thread_ok in X.
    unfold all_done in A. rewrite Forall_forall in A. rewrite (A t (nth_error_In _ _ E)) in X. exact X. }
  change (pow_result s) with (low (hist s)). destruct (T O C0) as [_ Lt].
  assert (Vl : pow_verify keccak c (low (hist s)) = true /\ 0 <= low (hist s)).
  { destruct (ho_head _ _ _ HO) as (tl & Eh & F). unfold low in *. rewrite Eh in *. destruct tl as [|a tl]; [cbn in Lt; lia|].
    assert (In (last (U64_MAX :: a :: tl) U64_MAX) (a :: tl)). { clear. change (last (U64_MAX :: a :: tl) U64_MAX) with (last (a :: tl) U64_MAX). revert a. induction tl as [|b tl IH]; intros a; [left; reflexivity|]. right. exact (IH b). }
    rewrite Forall_forall in F. destruct (F _ H) as [F1 F2]. split; [exact F1|apply F2]. }
  destruct Vl as [V1 V2]. split; [apply C41_verify; assumption|]. unfold U64_MAX in *. change (2 ^ 64) with B in *. split; [lia|]. intros m Hm Sm. apply C41_verify in Sm; [|assumption|assumption].
  pose proof (Z.mod_pos_bound m (Z.of_nat count) ltac:(lia)) as Mb. destruct (T (Z.to_nat (m mod Z.of_nat count)) ltac:(lia)) as [Tm _]. apply Tm; [exact Sm|lia|lia].
Qed.
Print Assumptions C41_parallel.
Lemma nth_upd_cases {A} (l : list A) i x k y : nth_error (upd l i x) k = Some y -> y = x \/ nth_error l k = Some y.
Proof. revert i k. induction l as [|a l IH]; intros [|i] [|k]; cbn; try (intros E; right; exact E); [intros [= <-]; left; reflexivity|]. apply IH. Qed.
Lemma view_reach keccak c count s : (0 < count)%nat -> pow_reach keccak c (pow_init count) s -> forall i t, nth_error (threads s) i = Some t -> (view t < length (hist s))%nat.
Proof.
  intros C0 R. induction R as [|s s' R IH ST].
  - intros i t E. apply nth_error_In in E. cbn [threads pow_init] in E. apply in_map_iff in E. destruct E as (k & <- & _). cbn. lia.
  - destruct ST as [h ts i t h' t' Hi TS]. cbn [hist threads] in *. specialize (IH i t Hi) as Vi. intros k t0 E. apply nth_upd_cases in E.
    assert (G : (length h <= length h')%nat /\ (view t' < length h')%nat).
    { assert (N : forall j x, nth_error h j = Some x -> (j < length h)%nat) by (intros j x E'; apply nth_error_Some; congruence).
      destruct TS; cbn [view] in *; try rewrite app_length; cbn [length]; split; try lia; eapply N; eassumption. }
    destruct E as [->|E]; [apply G|]. specialize (IH k t0 E). lia.
Qed.
(** No thread is ever stuck before it is done. *)
Theorem C41_no_deadlock : forall keccak c count s i t, (0 < count)%nat -> Z.of_nat count < 2 ^ 64 - 1 -> pow_reach keccak c (pow_init count) s ->
  nth_error (threads s) i = Some t -> at_ t <> Done -> at_ t <> Panicked -> exists h' t', thread_step keccak c (Z.of_nat (length (threads s))) (hist s) t h' t'.
Proof.
  intros keccak c count s i [v p] C0 C1 R E N1 N2. pose proof (view_reach keccak c count s C0 R i _ E) as Hv. cbn [at_ view] in *. set (h := hist s) in *.
  destruct (nth_error h v) as [x|] eqn:Ex; [|apply nth_error_None in Ex; lia].
  destruct p as [n|n|n prev|n| |]; try congruence.
  - destruct (pow_verify keccak c n) eqn:V; eexists _, _; [apply S_hit|apply S_miss]; exact V.
  - eexists _, _. eapply S_load; [apply le_n|exact Ex].
  - destruct (Z.le_gt_cases prev n); eexists _, _; [apply S_keep; assumption|eapply S_fail; [lia|apply le_n|exact Ex]].
  - destruct (Z.le_gt_cases x n); [eexists _, _; eapply S_stop; [apply le_n|exact Ex|assumption]|].
    destruct (Z.lt_ge_cases (n + Z.of_nat (length (threads s))) U64_MAX); eexists _, _; [eapply S_next|eapply S_over]; try exact Ex; try apply le_n; assumption.
Qed.
Print Assumptions C41_no_deadlock.

(** Executing one thread at a time, always reading the latest value. *)
Definition sc (keccak : list Z -> list Z) (c : challenge_) (s : state) (i : nat) : option state :=
  let h := hist s in let cur := last h U64_MAX in let j := (length h - 1)%nat in let count := Z.of_nat (length (threads s)) in
  match nth_error (threads s) i with
  | None => None
  | Some t =>
      let go h' t' := Some (State h' (upd (threads s) i t')) in
      match at_ t with
      | Verify n => if pow_verify keccak c n then go h (Thread (view t) (FetchLoad n)) else go h (Thread (view t) (Check n))
      | FetchLoad n => if (view t <=? j)%nat then go h (Thread j (FetchLoop n cur)) else None
      | FetchLoop n prev => if prev <=? n then go h (Thread (view t) (Check n)) else if prev =? cur then go (h ++ [n]) (Thread (length h) (Check n)) else if (view t <=? j)%nat then go h (Thread j (FetchLoop n cur)) else None
      | Check n => if (view t <=? j)%nat then if cur <=? n then go h (Thread j Done) else if n + count <? U64_MAX then go h (Thread j (Verify (n + count))) else None else None
      | _ => None
      end
  end.
Fixpoint schedule (keccak : list Z -> list Z) (c : challenge_) (s : state) (l : list nat) : option state :=
  match l with [] => Some s | i :: l => match sc keccak c s i with Some s => schedule keccak c s l | None => None end end.
Lemma sc_step keccak c s i s' : hist s <> [] -> sc keccak c s i = Some s' -> pow_step keccak c s s' /\ hist s' <> [].
Proof.
  intros N. unfold sc. destruct s as [h ts]. cbn [hist threads] in *. destruct (nth_error ts i) as [[v p]|] eqn:E; [|discriminate]. cbn [at_ view].
  assert (La : nth_error h (length h - 1) = Some (last h U64_MAX)).
  { destruct h as [|a h] using rev_ind; [congruence|]. rewrite app_length. cbn [length]. replace (length h + 1 - 1)%nat with (length h) by lia. rewrite nth_error_app2, Nat.sub_diag by lia. cbn. rewrite last_snoc. reflexivity. }
  assert (G : forall h' t' , thread_step keccak c (Z.of_nat (length ts)) h (Thread v p) h' t' -> h' <> [] -> Some (State h' (upd ts i t')) = Some s' -> pow_step keccak c (State h ts) s' /\ hist s' <> []).
  { intros h' t' T N' [= <-]. split; [eapply Step; eassumption|exact N']. }
  destruct p as [n|n|n prev|n| |]; try discriminate.
  - destruct (pow_verify keccak c n) eqn:V; apply G; [apply S_hit; exact V|exact N|apply S_miss; exact V|exact N].
  - destruct (Nat.leb_spec v (length h - 1)); [|discriminate]. apply G; [|exact N]. eapply S_load; [eassumption|exact La].
  - destruct (Z.leb_spec prev n); [apply G; [apply S_keep; assumption|exact N]|]. destruct (Z.eqb_spec prev (last h U64_MAX)) as [Ep|].
    + apply G; [apply S_swap with (prev := prev); [assumption|rewrite Ep; exact La]|destruct h; discriminate].
    + destruct (Nat.leb_spec v (length h - 1)); [|discriminate]. apply G; [|exact N]. eapply S_fail; [assumption|eassumption|exact La].
  - destruct (Nat.leb_spec v (length h - 1)); [|discriminate]. destruct (Z.leb_spec (last h U64_MAX) n); [apply G; [|exact N]; eapply S_stop; [eassumption|exact La|assumption]|].
    destruct (Z.ltb_spec (n + Z.of_nat (length ts)) U64_MAX); [|discriminate]. apply G; [|exact N]. eapply S_next; [eassumption|exact La|assumption|assumption].
Qed.
Lemma schedule_reach keccak c s0 l : forall s s', hist s <> [] -> pow_reach keccak c s0 s -> schedule keccak c s l = Some s' -> pow_reach keccak c s0 s'.
Proof.
  induction l as [|i l IH]; intros s s' N R; cbn [schedule]; [intros [= <-]; exact R|]. destruct (sc keccak c s i) as [s1|] eqn:E; [|discriminate]. destruct (sc_step keccak c s i s1 N E) as [S N']. apply IH; [exact N'|]. eapply R_step; eassumption.
Qed.
(** A toy hash for which 5, 6 and multiples of 7 are solutions at difficulty 8, and two threads. *)
Definition toy_pow (x : list Z) : list Z := let n := last x 0 in (if (n =? 6) || (n =? 5) || (n mod 7 =? 0) && (0 <? n) then 0 else 255) :: repeat 0 31.
Example C41_ex : (forall x, is_hash (toy_pow x)) /\
  exists s, pow_reach toy_pow (Challenge [1] 8) (pow_init 2) s /\ all_done s /\ pow_result s = 5 /\ hist s = [U64_MAX; 6; 5].
Proof.
  split.
  - intros x. split; [unfold toy_pow; destruct (_ || _); reflexivity|]. unfold toy_pow. destruct (_ || _); constructor; try (unfold digit; lia); apply Forall_forall; intros y Hy; apply repeat_spec in Hy; subst y; unfold digit; lia.
  - destruct (schedule toy_pow (Challenge [1] 8) (pow_init 2) (repeat 0%nat 10 ++ repeat 1%nat 8)) as [s|] eqn:E.
    + exists s. split; [eapply schedule_reach; [|apply R_refl|exact E]; discriminate|]. revert E. vm_compute. intros E. injection E as <-. vm_compute. repeat constructor.
    + exfalso. revert E. vm_compute. discriminate.
Qed.
