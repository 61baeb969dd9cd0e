(** Property C71: the challenges of the Ethereum contract are those of the library. *)
Require Import ZArith Arith Lia Bool List Permutation Sorted.
From Verif Require Import Word U256Model U256Spec U256Proofs BinaryModel BinaryProofs EncodingSpec EncodingProofs KnuthModel MerkleSpec Arr ChannelModel ChannelSpec ChannelProps PowModel PowProps QueryModel QueryProps CoinSolModel CoinSolProofs.
Import ListNotations.
Open Scope Z_scope.

(** ** The transcript in the contract *)
(** What the contract does with its coin for an act of the prover: the words it gets, and the coin. *)
Definition sol_say (keccak : list Z -> list Z) (s : scoin) (m : message) : scoin :=
  match m with
  | Hash_ h => write_bytes32 keccak s (num 256 h)
  | Number x | Felt_ x => write_bytes32 keccak s (val x)
  | Nonce n => write_bytes8 keccak s n
  | Hashes l => write_many_bytes32 keccak s (map (num 256) l)
  | Numbers l => write_many_field_elements keccak s (map val l)
  | Layer l => write_layer keccak s (map val l)
  end.
Definition sol_do (keccak : list Z -> list Z) (fuel : nat) (s : scoin) (a : p_act) : option (list Z * scoin) :=
  match a with
  | Say m => Some ([], sol_say keccak s m)
  | PDraw DBytes | PDraw DNumber => let r := read_bytes32 keccak s in Some ([fst r], snd r)
  | PDraw DFelt => match read_field_element keccak fuel s with Some (x, s) => Some ([x], s) | None => None end
  | PDraw (DCoefficients n) => read_many_field_elements keccak fuel s n
  | PDraw DSeed => None
  end.
Fixpoint sol_run (keccak : list Z -> list Z) (fuel : nat) (s : scoin) (l : list p_act) : option (list (list Z) * scoin) :=
  match l with
  | [] => Some ([], s)
  | a :: l => match sol_do keccak fuel s a with None => None | Some (w, s) => match sol_run keccak fuel s l with Some (ws, s) => Some (w :: ws, s) | None => None end end
  end.
(** The words of an event: what was drawn, as numbers. *)
Definition drawn (e : event) : list Z :=
  match e with
  | Said _ => []
  | DrewBytes b | DrewSeed b => [num 256 b]
  | DrewNumber x | DrewFelt x => [val x]
  | DrewCoefficients l => map val l
  end.
Local Opaque to_bytes_be from_bytes_be u64_to_be pack num.

(** Whatever is said and drawn, in whatever order, from whatever seed: the contract draws the same words as the prover (and, by C39, the
    library's verifier), and ends with the same digest and counter. (The seed of the proof of work is not drawn from the coin by the
    contract: see C71_proof_of_work.) *)
Theorem C71_transcript : forall dbg keccak fuel seed acts events p, (forall y, is_hash (keccak y)) -> Forall act_typed acts -> ~ In (PDraw DSeed) acts ->
  p_run dbg keccak fuel (prover_new keccak seed) acts = Some (events, p) ->
  exists s, sol_run keccak fuel (init_coin keccak seed) acts = Some (map drawn events, s) /\
    sc_digest s = num 256 (digest (pcoin p)) /\ sc_counter s = counter (pcoin p).
Proof.
  intros dbg keccak fuel seed acts events p HK F Ns R.
  assert (G : forall acts q s es p, Forall act_typed acts -> ~ In (PDraw DSeed) acts -> represents (pcoin q) s -> p_run dbg keccak fuel q acts = Some (es, p) -> exists s', sol_run keccak fuel s acts = Some (map drawn es, s') /\ represents (pcoin p) s').
  { clear - HK. induction acts as [|a acts IH]; intros q s es p F Ns Rq R; cbn [p_run sol_run] in *; [injection R as <- <-; exists s; split; [reflexivity|exact Rq]|].
    inversion F as [|? ? Ta F']; subst. destruct (p_do dbg keccak fuel q a) as [[e q1]|] eqn:Ed; [|discriminate R]. destruct (p_run dbg keccak fuel q1 acts) as [[es1 p1]|] eqn:Er; [|discriminate R]. injection R as <- <-.
    assert (S1 : exists s1, sol_do keccak fuel s a = Some (drawn e, s1) /\ represents (pcoin q1) s1).
    { destruct a as [m|d]; cbn [p_do sol_do] in *.
      - destruct (p_say dbg keccak q m) as [q'|] eqn:Es; [|discriminate Ed]. cbn [bind] in Ed. injection Ed as <- <-. cbn [drawn]. eexists. split; [reflexivity|]. apply say_writes in Es. subst q'.
        assert (Pc : forall l q, pcoin (fold_left (p_write keccak) l q) = fold_left (coin_write keccak) l (pcoin q)) by (induction l as [|x l IHl]; intros q0; [reflexivity|]; cbn [fold_left]; rewrite IHl; reflexivity). rewrite Pc.
        destruct m as [h|x|x|n|l|l|l]; cbn [writes sol_say act_typed typed fold_left] in *.
        + apply (rep_write32 keccak HK); assumption.
        + rewrite <- (bytes_num x Ta). apply (rep_write32 keccak HK); [exact Rq|apply bytes_hash; exact Ta].
        + rewrite <- (bytes_num x Ta). apply (rep_write32 keccak HK); [exact Rq|apply bytes_hash; exact Ta].
        + apply (rep_write8 keccak HK); assumption.
        + apply (rep_write_many keccak HK); assumption.
        + replace (map val l) with (map (num 256) (map to_bytes_be l)) by (rewrite map_map; apply map_ext_in; intros x Hx; rewrite Forall_forall in Ta; apply bytes_num, Ta, Hx).
          apply (rep_write_many keccak HK); [exact Rq|]. apply Forall_map. eapply Forall_impl; [|exact Ta]. intros x Hx. apply bytes_hash. exact Hx.
        + apply (rep_layer keccak HK); assumption.
      - destruct (c_draw dbg keccak fuel (pcoin q) d) as [[e' c']|] eqn:Ec; [|discriminate Ed]. injection Ed as <- <-. cbn [pcoin]. destruct d as [| | | |n]; cbn [c_draw] in Ec.
        + destruct (draw_bytes dbg keccak (pcoin q)) as [[b c1]|] eqn:Eb; [|discriminate Ec]. injection Ec as <- <-. destruct (rep_read dbg keccak HK _ s b c1 Rq Eb) as (_ & E & R1). eexists. split; [cbn [drawn]; rewrite <- E; reflexivity|exact R1].
        + unfold draw_u256 in Ec. destruct (draw_bytes dbg keccak (pcoin q)) as [[b c1]|] eqn:Eb; [|discriminate Ec]. injection Ec as <- <-. destruct (rep_read dbg keccak HK _ s b c1 Rq Eb) as ([L Fb] & E & R1). eexists. split; [cbn [drawn]; rewrite (proj2 (from_bytes_be_spec b L Fb)), <- E; reflexivity|exact R1].
        + destruct (draw_felt dbg keccak fuel (pcoin q)) as [[x c1]|] eqn:Eb; [|discriminate Ec]. injection Ec as <- <-. destruct (rep_felt dbg keccak HK fuel _ s x c1 Rq Eb) as (s1 & -> & R1). exists s1. split; [reflexivity|exact R1].
        + exfalso. apply Ns. left. reflexivity.
        + destruct (get_coefficients dbg keccak fuel (pcoin q) n) as [[l c1]|] eqn:Eb; [|discriminate Ec]. injection Ec as <- <-. destruct (rep_coefficients dbg keccak HK fuel n _ s l c1 Rq Eb) as (s1 & -> & R1). exists s1. split; [reflexivity|exact R1]. }
    destruct S1 as (s1 & -> & R1). destruct (IH q1 s1 es1 p1 F') as (s2 & -> & R2); [intros I; apply Ns; right; exact I|exact R1|exact Er|]. exists s2. split; [reflexivity|exact R2]. }
  destruct (G acts (prover_new keccak seed) (init_coin keccak seed) events p F Ns) as (s & E & (_ & E1 & E2 & _)); [apply (rep_new keccak HK)|exact R|]. exists s. split; [exact E|]. split; assumption.
Qed.
(** The proof of work: from the same digest, the contract accepts a nonce exactly when the library does, and both coins
    have the same digest and counter after it. *)
Theorem C71_proof_of_work : forall dbg keccak c s nonce bits pow_seed c1 challenge, (forall y, is_hash (keccak y)) ->
  is_hash (digest c) -> sc_digest s = num 256 (digest c) -> 0 <= nonce < 2 ^ 64 -> 0 <= bits < 256 ->
  draw_seed dbg c = Some (pow_seed, c1) -> with_difficulty keccak pow_seed bits = Some challenge ->
  let c2 := coin_write keccak c1 (u64_to_be nonce) in
  fst (check_proof_of_work keccak s nonce bits) = pow_verify keccak challenge nonce /\
  sc_digest (snd (check_proof_of_work keccak s nonce bits)) = num 256 (digest c2) /\ sc_counter (snd (check_proof_of_work keccak s nonce bits)) = counter c2.
Proof.
  intros dbg keccak c s nonce bits pow_seed c1 ch HK [Ld Fd] Es Hn Hb Ds Wd c2. unfold draw_seed in Ds. destruct (incr dbg (counter c)) as [k|]; [|discriminate Ds]. cbn [bind] in Ds. injection Ds as <- <-.
  unfold with_difficulty in Wd. destruct ((0 <=? bits) && (bits <? 256)); [|discriminate Wd]. injection Wd as <-.
  unfold check_proof_of_work, write_bytes8. cbn [fst snd sc_digest sc_counter]. rewrite Es, (pack_num 32 _ Ld Fd), (pack_8 nonce Hn), (pack_1 bits Hb). split; [|split; reflexivity].
  set (ch := Challenge _ _). assert (A : pow_verify keccak ch nonce = true <-> solution keccak ch nonce) by (apply C41_verify; [exact HK|cbn; lia]).
  unfold solution in A. cbn [seed_ difficulty ch] in A. change (word_of ?l) with (num 256 l).
  rewrite Z.shiftr_div_pow2 by lia.
  assert (T : (2 ^ 256 - 1) / 2 ^ bits = 2 ^ (256 - bits) - 1).
  { symmetry. assert (0 < 2 ^ bits) by (apply Z.pow_pos_nonneg; lia). apply (Z.div_unique_pos _ _ _ (2 ^ bits - 1)); [lia|]. rewrite Z.mul_sub_distr_l, <- Z.pow_add_r by lia. replace (bits + (256 - bits)) with 256 by lia. lia. }
  rewrite T. apply eq_true_iff_eq. rewrite A, Z.leb_le. cbn [app]. lia.
Qed.
(** The queries: from the same coin the contract chooses the queries of the library's verifier, in the same order. *)
Theorem C71_queries : forall dbg keccak sort d k bits n, (forall y, is_hash (keccak y)) -> sorts (fun x => x) sort -> is_hash d ->
  0 <= bits < 64 -> 0 <= k -> k + Z.of_nat (n / 4) + 1 < 2 ^ 64 ->
  exists l c, v_get_indices dbg keccak sort n bits (Coin d k) = Some (l, c) /\ fst (get_queries keccak (SCoin (num 256 d) k) bits n) = l.
Proof.
  intros dbg keccak sort d k bits n HK Ss Hd Hb Hk Hn.
  assert (H4 : k + Z.of_nat ((n + 3) / 4) < 2 ^ 64). { assert ((n + 3) / 4 <= n / 4 + 1)%nat; [|lia]. replace (n / 4 + 1)%nat with ((n + 1 * 4) / 4)%nat by (rewrite Nat.div_add by lia; reflexivity). apply Nat.div_le_mono; lia. }
  destruct (C45_indices dbg keccak sort sort (2 ^ bits) d k n bits HK Ss Ss Hb eq_refl Hk H4) as (_ & _ & l & _ & E & _ & S & _ & P). exists l. eexists. split; [exact E|].
  rewrite (get_queries_spec keccak HK d k bits Hb Hk n Hd Hn). cbn [fst]. destruct (sort_array_spec (map (query_index keccak d k bits) (seq 0 n))) as [P2 S2].
  apply sorted_unique; [exact S2|exact S|]. rewrite <- P2. symmetry. exact P.
Qed.
(** The contract draws once more than the library when the number of queries is a multiple of four, so the counters differ afterwards.
    (Neither draws again after the queries.) *)
Theorem C71_queries_counter_deviation : forall dbg keccak sort d k bits m, (forall y, is_hash (keccak y)) -> sorts (fun x => x) sort -> is_hash d ->
  0 <= bits < 64 -> 0 <= k -> k + Z.of_nat m + 1 < 2 ^ 64 ->
  exists l, v_get_indices dbg keccak sort (4 * m) bits (Coin d k) = Some (l, Coin d (k + Z.of_nat m)) /\
    get_queries keccak (SCoin (num 256 d) k) bits (4 * m) = (l, SCoin (num 256 d) (k + Z.of_nat m + 1)).
Proof.
  intros dbg keccak sort d k bits m HK Ss Hd Hb Hk Hm.
  assert (E4 : (4 * m / 4 = m)%nat) by (rewrite Nat.mul_comm; apply Nat.div_mul; lia). assert (E43 : ((4 * m + 3) / 4 = m)%nat) by (rewrite Nat.mul_comm, Nat.div_add_l by lia; cbn; lia).
  destruct (C71_queries dbg keccak sort d k bits (4 * m) HK Ss Hd Hb Hk ltac:(lia)) as (l & c & E & Eq).
  destruct (C45_indices dbg keccak sort sort (2 ^ bits) d k (4 * m) bits HK Ss Ss Hb eq_refl Hk ltac:(lia)) as (_ & _ & l' & _ & E' & _). rewrite E' in E. injection E as <- _. rewrite E43 in E'.
  exists l'. split; [exact E'|]. rewrite (get_queries_spec keccak HK d k bits Hb Hk (4 * m) Hd ltac:(lia)) in *. rewrite E4. cbn [fst] in Eq. rewrite Eq. reflexivity.
Qed.
(** Sorting in the contract: for every array, the same elements in order. *)
Theorem C71_sort : forall data, Permutation data (sort_array data) /\ StronglySorted Z.le (sort_array data).
Proof. exact sort_array_spec. Qed.
(** Reading several words at once gives none of them: the coin moves on as in the library, but the array that is filled is not
    returned. *)
Theorem C71_read_many_refuted : forall dbg keccak n d k, (forall y, is_hash (keccak y)) -> is_hash d -> 0 <= k -> k + Z.of_nat n < 2 ^ 64 ->
  exists l, draws dbg keccak n (Coin d k) = Some (l, Coin d (k + Z.of_nat n)) /\ length l = n /\
    read_many_bytes32 keccak (SCoin (num 256 d) k) n = ([], SCoin (num 256 d) (k + Z.of_nat n)).
Proof.
  intros dbg keccak n d k HK Hd Hk Hn. destruct (C40_counter dbg keccak d k n Hk Hn) as [E _]. eexists. split; [exact E|]. split; [rewrite map_length, seq_length; reflexivity|].
  unfold read_many_bytes32. f_equal. clear E. induction n as [|n IH]; [rewrite Z.add_0_r; reflexivity|]. cbn [Nat.iter]. cbn [nat_rect].
  unfold Nat.iter in IH |- *. cbn [nat_rect]. rewrite IH by lia. unfold read_bytes32. cbn [snd sc_digest sc_counter]. rewrite Z.mod_small by lia. f_equal. lia.
Qed.

Example C71_ex :
  let acts := [Say (Hash_ (repeat 7 32)); PDraw DBytes; PDraw DFelt; Say (Felt_ (mk 5 0 0 0)); PDraw (DCoefficients 2); Say (Nonce 123456789); Say (Hashes [repeat 1 32; repeat 2 32]); Say (Numbers [mk 1 2 3 4]); Say (Layer [mk 9 0 0 0; mk 8 0 0 0]); PDraw DNumber] in
  Forall act_typed acts /\ ~ In (PDraw DSeed) acts /\ (exists r, p_run true toy 3 (prover_new toy [1; 2]) acts = Some r) /\ (forall y, is_hash (toy y)) /\
  option_map fst (sol_run toy 3 (init_coin toy [1; 2]) acts) = Some [[]; [64]; [64]; []; [64; 64]; []; []; []; []; [64]].
Proof.
  intros acts. pose proof C39_ex as (F & _ & K). split; [|split; [|split; [|split; [exact K|vm_compute; reflexivity]]]].
  - unfold acts_ex in F. rewrite Forall_forall in *. intros a Ha. apply F. cbn in Ha |- *. tauto.
  - cbn. intuition discriminate.
  - eexists. vm_compute. reflexivity.
Qed.
Example C71_pow_ex : let s := init_coin toy [1; 2] in fst (check_proof_of_work toy s 5 250) = true /\ fst (check_proof_of_work toy s 5 251) = false /\ fst (get_queries toy s 5 6) = [0; 0; 0; 0; 0; 0] /\ sort_array [5; 3; 9; 1; 3] = [1; 3; 3; 5; 9].
Proof. vm_compute. intuition. Qed.

Print Assumptions C71_transcript.
Print Assumptions C71_proof_of_work.
Print Assumptions C71_queries.
Print Assumptions C71_queries_counter_deviation.
Print Assumptions C71_sort.
Print Assumptions C71_read_many_refuted.
