(** Property C74: the verifier of the Ethereum contract, stark_verifier.sol. *)
Require Import ZArith Arith Lia Bool List.
From Verif Require Import Word U256Model U256Spec EncodingSpec KnuthModel MerkleSpec Arr ChannelModel ChannelSpec ChannelProps CoinSolModel CoinSolProps FriSolModel PrimeSolModel VerifySolModel VerifySolProofs.
Import ListNotations.
Open Scope Z_scope.

(** ** The challenges *)
(** What the library's prover says and draws up to the proof of work, for [n] constraints: the commitment of the trace, the
    constraint coefficients, the commitment of the constraints, the out of domain point, the values there, the coefficients
    for them, for each FRI layer its commitment and its point, and the last layer. *)
Definition conversation (n : nat) (trace constraint_ : list Z) (tvs cvs : list u256) (roots : list (list Z)) (last : list u256) : list p_act :=
  [Say (Hash_ trace); PDraw (DCoefficients (2 * n)); Say (Hash_ constraint_); PDraw DFelt] ++ map (fun x => Say (Felt_ x)) (tvs ++ cvs) ++
  [PDraw (DCoefficients (length tvs + length cvs))] ++ flat_map (fun r => [Say (Hash_ r); PDraw DFelt]) roots ++ [Say (Layer last)].
(** A proof of the contract with these data *)
Definition carries (p : sproof) (trace constraint_ : list Z) (tvs cvs : list u256) (roots : list (list Z)) (last : list u256) : Prop :=
  trace_commitment p = num 256 trace /\ constraint_commitment p = num 256 constraint_ /\ trace_oods_values p = map val tvs /\ constraint_oods_values p = map val cvs /\
  fri_commitments p = map (num 256) roots /\ last_layer_coefficients p = map val last.

(** The contract draws the challenges of the library, in the same order, and ends with the same coin. *)
Theorem C74_challenges : forall dbg keccak fuel seed n trace constraint_ tvs cvs roots last events pr p q, (forall y, is_hash (keccak y)) ->
  is_hash trace -> is_hash constraint_ -> Forall wf tvs -> Forall wf cvs -> Forall is_hash roots -> Forall wf last -> 2 * Z.of_nat n < 2 ^ 64 ->
  carries p trace constraint_ tvs cvs roots last -> number_of_constraints q = Z.of_nat n -> length (fri_layout q) = length roots ->
  p_run dbg keccak fuel (prover_new keccak seed) (conversation n trace constraint_ tvs cvs roots last) = Some (events, pr) ->
  exists coefficients point oods_coefficients eval_points s,
    write_data_and_read_random keccak fuel p q (init_coin keccak seed) = Some (coefficients, point, oods_coefficients, eval_points, s) /\
    concat (map drawn events) = coefficients ++ [point] ++ oods_coefficients ++ eval_points /\
    length coefficients = (2 * n)%nat /\ length oods_coefficients = (length tvs + length cvs)%nat /\ length eval_points = length roots /\
    sc_digest s = num 256 (digest (pcoin pr)) /\ sc_counter s = counter (pcoin pr).
Proof.
  intros dbg keccak fuel seed n trace cons tvs cvs roots last events pr p q HK Ht Hc Ftv Fcv Fr Fl Hn (C1 & C2 & C3 & C4 & C5 & C6) Nc Lf R.
  assert (Ty : Forall act_typed (conversation n trace cons tvs cvs roots last)).
  { unfold conversation. apply Forall_app; split; [repeat (apply Forall_cons; [first [assumption|exact I]|]); apply Forall_nil|]. apply Forall_app; split; [apply Forall_map, Forall_app; split; assumption|].
    apply Forall_app; split; [apply Forall_cons; [exact I|apply Forall_nil]|]. apply Forall_app; split; [|apply Forall_cons; [assumption|apply Forall_nil]].
    clear - Fr. induction Fr as [|r l Hr Fl IH]; [apply Forall_nil|]. cbn [flat_map app]. apply Forall_cons; [exact Hr|]. apply Forall_cons; [exact I|exact IH]. }
  assert (Ns : ~ In (PDraw DSeed) (conversation n trace cons tvs cvs roots last)).
  { unfold conversation. intros I. repeat (apply in_app_or in I; destruct I as [I|I]).
    - cbn [In] in I. intuition discriminate.
    - apply in_map_iff in I as (x & E & _). discriminate E.
    - cbn [In] in I. intuition discriminate.
    - apply in_flat_map in I as (x & _ & I). cbn [In] in I. intuition discriminate.
    - cbn [In] in I. intuition discriminate. }
  destruct (C71_transcript dbg keccak fuel seed _ events pr HK Ty Ns R) as (s & Rs & Ds & Cs).
  generalize dependent (map drawn events). intros ws Rs. unfold conversation in Rs. cbn [app sol_run sol_do sol_say] in Rs.
  unfold write_data_and_read_random. rewrite C1, C2, C3, C4, C5, C6, Nc, Lf. rewrite Z.mod_small by lia. replace (Z.to_nat (2 * Z.of_nat n)) with (2 * n)%nat by lia.
  destruct (read_many_field_elements keccak fuel _ (2 * n)) as [[cs s1]|] eqn:E1; [|discriminate Rs]. cbn [bind fst snd].
  destruct (read_field_element keccak fuel _) as [[z s2]|] eqn:E2; [|discriminate Rs]. cbn [bind fst snd].
  destruct (sol_run keccak fuel s2 _) as [[ws2 s3]|] eqn:E3; [|discriminate Rs]. injection Rs as <- <-.
  apply sol_run_app in E3 as (w1 & t1 & w2 & F1 & F2 & ->). apply run_felts in F1 as [G1 ->]. cbn [app sol_run sol_do] in F2.
  assert (W : write_many_field_elements keccak s2 (map val (tvs ++ cvs)) = write_many_field_elements keccak (write_many_field_elements keccak s2 (map val tvs)) (map val cvs)) by (unfold write_many_field_elements; rewrite map_app; apply fold_left_app).
  rewrite W in F2. rewrite !map_length. destruct (read_many_field_elements keccak fuel _ (length tvs + length cvs)) as [[ocs s4]|] eqn:E4; [|discriminate F2]. cbn [bind fst snd].
  destruct (sol_run keccak fuel s4 _) as [[ws5 s5]|] eqn:E5; [|discriminate F2]. injection F2 as <- <-.
  apply sol_run_app in E5 as (w3 & t3 & w4 & F3 & F4 & ->). apply run_fri in F3 as [G3 L3]. rewrite G3. cbn [bind fst snd sol_run sol_do sol_say] in *. injection F4 as <- <-.
  exists cs, z, ocs, (concat w3). eexists. split; [reflexivity|]. split.
  - cbn [concat app]. rewrite !concat_app. cbn [concat]. rewrite G1. cbn [app]. rewrite concat_app. cbn [concat app]. rewrite app_nil_r. reflexivity.
  - split; [exact (read_many_length _ _ _ _ _ _ E1)|]. split; [exact (read_many_length _ _ _ _ _ _ E4)|]. split; [exact L3|]. split; assumption.
Qed.
Print Assumptions C74_challenges.

(** With fewer commitments than layers there are no challenges: the contract reverts. *)
Theorem C74_missing_commitments : forall keccak fuel p q c, (length (fri_commitments p) < length (fri_layout q))%nat -> write_data_and_read_random keccak fuel p q c = None.
Proof.
  intros keccak fuel p q c Hl. assert (N : forall n l c, (length l < n)%nat -> fri_points keccak fuel c n l = None).
  { induction n as [|n IH]; intros l c0 H; [lia|]. destruct l as [|w l]; [reflexivity|]. cbn [fri_points]. destruct (read_field_element keccak fuel _) as [r|]; [|reflexivity]. cbn [bind]. rewrite IH by (cbn in H; lia). reflexivity. }
  unfold write_data_and_read_random. destruct (read_many_field_elements keccak fuel _ _) as [a|]; [|reflexivity]. cbn [bind]. destruct (read_field_element keccak fuel _) as [z|]; [|reflexivity]. cbn [bind].
  destruct (read_many_field_elements keccak fuel _ _) as [b|]; [|reflexivity]. cbn [bind]. rewrite N by exact Hl. reflexivity.
Qed.
Print Assumptions C74_missing_commitments.

(** ** The leaves *)
(** With one group of values for each query, the contract hashes the groups and moves the queries to the leaves of the tree. *)
Theorem C74_leaves : forall leaf_hash size groups queries domain hashes positions, (0 < size)%nat -> (forall g, In g groups -> length g = size) ->
  length groups = length hashes -> length positions = length queries -> 0 <= domain -> (forall x, In x queries -> 0 <= x /\ x + domain < 2 ^ 256) ->
  prepare_hashes_and_queries leaf_hash (concat groups) size queries domain hashes positions = Some (map leaf_hash groups, map (fun x => x + domain) queries).
Proof.
  intros H size groups queries domain hashes positions Hs Hg Lh Lp Hd Hq. rewrite <- (app_nil_r (concat groups)). rewrite prepare_spec by (try assumption; cbn; lia). rewrite Lh, Nat.leb_refl, skipn_all, app_nil_r. f_equal. f_equal.
  apply map_ext_in. intros x Hx. destruct (Hq x Hx). unfold wrap. apply Z.mod_small. lia.
Qed.
Print Assumptions C74_leaves.
(** With one group of each kind for each query, the commitments are accepted exactly if the Merkle verifier accepts the hashes of
    the groups at the leaves, for both roots. The Merkle verifier may change the contents of its arrays, not their lengths. *)
Theorem C74_commitments : forall leaf_hash merkle p q tgroups cgroups queries log,
  (forall root h i d b h' i', merkle root h i d = Some (b, h', i') -> length h' = length h /\ length i' = length i) ->
  0 < number_of_columns q -> 0 < constraint_degree q -> (forall g, In g tgroups -> Z.of_nat (length g) = number_of_columns q) -> (forall g, In g cgroups -> Z.of_nat (length g) = constraint_degree q) ->
  trace_values p = concat tgroups -> constraint_values p = concat cgroups -> length tgroups = length queries -> length cgroups = length queries -> number_of_queries q = Z.of_nat (length queries) ->
  0 <= log < 255 -> (forall x, In x queries -> 0 <= x < 2 ^ log) ->
  check_commitments leaf_hash merkle p q queries log = Some tt <->
  (exists h i, merkle (trace_commitment p) (map leaf_hash tgroups) (map (fun x => x + 2 ^ log) queries) (trace_decommitment p) = Some (true, h, i)) /\
  (exists h i, merkle (constraint_commitment p) (map leaf_hash cgroups) (map (fun x => x + 2 ^ log) queries) (constraint_decommitment p) = Some (true, h, i)).
Proof.
  intros H merkle p q tg cg queries log Len Nc Nd Gt Gc Ev Ec Lt Lc Nq Hlog Hx. unfold check_commitments, wrap. assert (P0 : 0 < 2 ^ log) by (apply Z.pow_pos_nonneg; lia). assert (B : 2 ^ log + 2 ^ log <= 2 ^ 255) by (replace (2 ^ log + 2 ^ log) with (2 ^ (log + 1)) by (rewrite Z.pow_add_r by lia; lia); apply Z.pow_le_mono_r; lia).
  assert (B2 : 2 ^ 255 < 2 ^ 256) by reflexivity. rewrite (Z.mod_small (2 ^ log)) by lia. rewrite Nq, Nat2Z.id, Ev, Ec.
  rewrite (C74_leaves H (Z.to_nat (number_of_columns q)) tg queries (2 ^ log)); [|lia|intros g Ig; specialize (Gt g Ig); lia|rewrite repeat_length; exact Lt|apply repeat_length|lia|intros x Ix; specialize (Hx x Ix); lia].
  cbn [bind fst snd]. destruct (merkle (trace_commitment p) _ _ _) as [[[b h] i]|] eqn:E1; cbn [bind fst snd]; [|split; [discriminate|intros [(h & i & E) _]; discriminate E]].
  destruct b; [|split; [discriminate|intros [(h' & i' & E) _]; discriminate E]]. destruct (Len _ _ _ _ _ _ _ E1) as [L1 L2]. rewrite map_length in L1, L2.
  rewrite (C74_leaves H (Z.to_nat (constraint_degree q)) cg queries (2 ^ log)); [|lia|intros g Ig; specialize (Gc g Ig); lia|lia|lia|lia|intros x Ix; specialize (Hx x Ix); lia].
  cbn [bind fst snd]. destruct (merkle (constraint_commitment p) _ _ _) as [[[b h2] i2]|]; cbn [bind fst snd]; [|split; [discriminate|intros [_ (h' & i' & E)]; discriminate E]].
  destruct b; [split; [intros _; split; eauto|reflexivity]|split; [discriminate|intros [_ (h' & i' & E)]; discriminate E]].
Qed.
Print Assumptions C74_commitments.
(** In general: groups that are not complete are dropped, too many groups revert, and with too few groups the hashes that are
    missing are what the array held before. *)
Theorem C74_leftover_refuted : forall leaf_hash size groups rest queries domain hashes positions, (0 < size)%nat -> (forall g, In g groups -> length g = size) -> (length rest < size)%nat ->
  length positions = length queries ->
  prepare_hashes_and_queries leaf_hash (concat groups ++ rest) size queries domain hashes positions =
  if (length groups <=? length hashes)%nat then Some (map leaf_hash groups ++ skipn (length groups) hashes, map (fun x => (x + domain) mod 2 ^ 256) queries) else None.
Proof. intros. apply prepare_spec; assumption. Qed.
Print Assumptions C74_leftover_refuted.
(** So no constraint values at all are needed: then the constraint commitment is checked against what the check of the trace
    left in the array. [h] and [i] are these leftovers, from a check of the trace that succeeds. *)
Theorem C74_no_values_refuted : forall leaf_hash merkle p q queries log h i h2 i2, (0 < Z.to_nat (constraint_degree q))%nat -> length i = length queries ->
  (exists a, prepare_hashes_and_queries leaf_hash (trace_values p) (Z.to_nat (number_of_columns q)) queries ((2 ^ log) mod 2 ^ 256) (repeat 0 (Z.to_nat (number_of_queries q))) (repeat 0 (length queries)) = Some a /\
     merkle (trace_commitment p) (fst a) (snd a) (trace_decommitment p) = Some (true, h, i)) ->
  constraint_values p = [] -> merkle (constraint_commitment p) h (map (fun x => (x + (2 ^ log) mod 2 ^ 256) mod 2 ^ 256) queries) (constraint_decommitment p) = Some (true, h2, i2) ->
  check_commitments leaf_hash merkle p q queries log = Some tt.
Proof.
  intros H merkle p q queries log h i h2 i2 Hs Li (a & Ea & Em) Ev Ec. unfold check_commitments, wrap. rewrite Ea. cbn [bind]. rewrite Em. cbn [bind fst snd]. rewrite Ev.
  pose proof (prepare_spec H (Z.to_nat (constraint_degree q)) [] [] queries ((2 ^ log) mod 2 ^ 256) h i Hs) as P. cbn [concat app length map skipn] in P. unfold wrap in P. rewrite P; [|intros g []|exact Hs|exact Li]. cbn [Nat.leb bind fst snd]. rewrite Ec. reflexivity.
Qed.
Print Assumptions C74_no_values_refuted.

(** ** The answer *)
(** The contract never answers true: a proof is accepted by not reverting. *)
Theorem C74_answer_refuted : forall keccak fuel leaf_hash merkle calculations fri p q c, verify_proof keccak fuel leaf_hash merkle calculations fri p q c <> Some true.
Proof.
  intros. unfold verify_proof. destruct (write_data_and_read_random keccak fuel p q c) as [[[[[a b] d] e] s]|]; [|discriminate]. cbn [bind]. destruct (fst (check_proof_of_work keccak s (pow_nonce p) (pow_bits q))); [|discriminate].
  destruct (calculations _ _ _ _ _ _) as [k|]; [|discriminate]. cbn [bind]. destruct (check_commitments _ _ _ _ _ _); [|discriminate]. cbn [bind]. destruct (fri _ _ _ _ _ _); [|discriminate]. cbn [bind]. destruct (check_out_of_domain_sample_result _ _ _); discriminate.
Qed.
Print Assumptions C74_answer_refuted.
(** It does not revert exactly if every check passes, each with the challenges drawn before it. *)
Theorem C74_accepts : forall keccak fuel leaf_hash merkle calculations fri p q c, verify_proof keccak fuel leaf_hash merkle calculations fri p q c <> None <->
  exists coefficients point oods_coefficients eval_points s top value,
    write_data_and_read_random keccak fuel p q c = Some (coefficients, point, oods_coefficients, eval_points, s) /\
    let log := (log_trace_length q + log_blowup q) mod 256 in
    let pow := check_proof_of_work keccak s (pow_nonce p) (pow_bits q) in
    let queries := fst (get_queries keccak (snd pow) log (Z.to_nat (number_of_queries q))) in
    fst pow = true /\ calculations p q queries point coefficients oods_coefficients = Some (top, value) /\ check_commitments leaf_hash merkle p q queries log = Some tt /\
    fri p q eval_points log queries top = Some tt /\ check_out_of_domain_sample_result (constraint_oods_values p) point value = true.
Proof.
  intros keccak fuel H merkle calculations fri p q c. unfold verify_proof. split.
  - intros N. destruct (write_data_and_read_random keccak fuel p q c) as [[[[[a b] d] e] s]|]; [|contradiction]. cbn [bind] in N. destruct (fst (check_proof_of_work keccak s (pow_nonce p) (pow_bits q))) eqn:Ep; [|contradiction].
    destruct (calculations _ _ _ _ _ _) as [[top value]|] eqn:Ek; [|contradiction]. cbn [bind fst snd] in N. destruct (check_commitments _ _ _ _ _ _) as [[]|] eqn:Ec; [|contradiction]. cbn [bind] in N. destruct (fri _ _ _ _ _ _) as [[]|] eqn:Ef; [|contradiction]. cbn [bind] in N.
    destruct (check_out_of_domain_sample_result _ _ _) eqn:Eo; [|contradiction]. exists a, b, d, e, s, top, value. cbn zeta. auto 8.
  - intros (a & b & d & e & s & top & value & -> & Ep & Ek & Ec & Ef & Eo). cbn [bind]. rewrite Ep, Ek. cbn [bind fst snd]. rewrite Ec. cbn [bind]. rewrite Ef. cbn [bind]. rewrite Eo. discriminate.
Qed.
Print Assumptions C74_accepts.

(** ** Cases *)
(** A hash for the examples *)
Definition toy (l : list Z) : list Z := repeat 0 30 ++ [fold_left Z.add l 0 mod 199; 7].
Definition ex_proof : sproof := SProof [1; 2; 3; 4] 5 [6; 7] 8 [9] [10; 11] 12 [] [] [13; 14] [15].
Definition ex_parameters : sparameters := SParameters 2 3 1 1 1 0 2 [2; 1].
Example C74_ex : option_map (fun r => fst r) (write_data_and_read_random toy 3 ex_proof ex_parameters (init_coin toy [1; 2])) <> None /\
  (exists r, p_run true toy 3 (prover_new toy [1; 2]) (conversation 1 (toy [1]) (toy [2]) [mk 9 0 0 0] [mk 10 0 0 0; mk 11 0 0 0] [toy [3]; toy [4]] [mk 15 0 0 0]) = Some r) /\
  prepare_hashes_and_queries (fold_right Z.add 0) [1; 2; 3; 4] 2 [5; 6] 8 [0; 0] [0; 0] = Some ([3; 7], [13; 14]) /\
  prepare_hashes_and_queries (fold_right Z.add 0) [1; 2; 3] 2 [5; 6] 8 [20; 21] [0; 0] = Some ([3; 21], [13; 14]) /\
  prepare_hashes_and_queries (fold_right Z.add 0) [1; 2; 3; 4; 5; 6] 2 [5; 6] 8 [0; 0] [0; 0] = None /\
  check_commitments (fold_right Z.add 0) (fun root l i _ => Some (root =? fold_right Z.add 0 l, l, i)) (SProof [1; 2; 3; 4] 10 [] 10 [] [] 0 [] [] [] []) ex_parameters [5; 6] 3 = Some tt /\
  check_commitments (fold_right Z.add 0) (fun root l i _ => Some (root =? fold_right Z.add 0 l, map (fun _ => 0) l, i)) (SProof [1; 2; 3; 4] 10 [6; 7] 13 [] [] 0 [] [] [] []) ex_parameters [5; 6] 3 = Some tt /\
  verify_proof toy 3 (fold_right Z.add 0) (fun _ l i _ => Some (true, l, i)) (fun _ _ _ point _ _ => Some ([], oods_sum [10; 11] point)) (fun _ _ _ _ _ _ => Some tt) ex_proof ex_parameters (init_coin toy [1; 2]) = Some false.
Proof. split; [vm_compute; discriminate|]. split; [eexists; vm_compute; reflexivity|]. vm_compute. repeat split. Qed.
