(** Property C70: the Merkle verifier of the Ethereum contract and the Merkle verifier of the Rust library. *)
Require Import ZArith Arith Lia Bool List Permutation Sorted.
From Verif Require Import Word KnuthModel BinaryModel Arr MerkleModel MerkleSpec MerkleProofs MerkleTreeProofs MerkleProps MerkleSolModel MerkleSolProofs.
Import ListNotations.
Open Scope Z_scope.

(** The claims of a caller of the contract: leaves of a tree of [2^D] leaves, sorted by position, no position twice. *)
Definition claims {Leaf} (D : nat) (leafs : list (Z * Leaf)) : Prop :=
  (D < 64)%nat /\ StronglySorted (fun a b => fst a < fst b) leafs /\ Forall (fun il => 0 <= fst il < 2 ^ Z.of_nat D) leafs.
Section C70.
Context {H Leaf : Type} (heqb : H -> H -> bool) (node : H -> H -> H) (leaf_hash : Leaf -> H) (hdefault : H) (sort_idx : list Z -> list Z) (sort_nodes : list (Z * H) -> list (Z * H)).
Notation verify := (verify heqb node leaf_hash sort_nodes).
Notation verify_log := (verify_log heqb node leaf_hash sort_nodes).
(** What the contract is called with for these claims: the leaf hashes, and the positions as [2^D + position]. *)
Definition contract (fuel : nat) (scratch0 scratch1 root : H) (D : nat) (leafs : list (Z * Leaf)) (decommitment : nat -> H) : option bool :=
  verify_merkle_proof heqb node fuel scratch0 scratch1 root (map (fun il => leaf_hash (snd il)) leafs) (map (fun il => 2 ^ Z.of_nat D + fst il) leafs) decommitment.

Lemma claims_loop D root pi hashes leafs fuel : (forall a b, heqb a b = true <-> a = b) -> sorts fst sort_nodes -> claims D leafs -> (length leafs * (D + 1) <= fuel)%nat ->
  verify_log (P (C (2 ^ Z.of_nat D) root) pi hashes) leafs = verify_loop heqb node fuel root (map (kidx (Z.of_nat D)) (map (fun il => (fst il, leaf_hash (snd il))) leafs)) hashes []
  /\ in_layer (Z.of_nat D) (map fst (map (fun il => (fst il, leaf_hash (snd il))) leafs)) /\ strict (map fst (map (fun il => (fst il, leaf_hash (snd il))) leafs)).
Proof.
  intros Hh Sn (HD & S & F) Hf. set (L0 := map (fun il => (fst il, leaf_hash (snd il))) leafs).
  assert (SL0 : strict (map fst L0)). { unfold L0. rewrite map_map. cbn [fst]. clear - S. induction S as [|a q S IH F]; [constructor|]. cbn [map]. constructor; [exact IH|]. apply Forall_map. exact F. }
  assert (FL0 : in_layer (Z.of_nat D) (map fst L0)). { unfold L0, in_layer. rewrite map_map. cbn [fst]. apply Forall_map. exact F. }
  split; [|split; [exact FL0|exact SL0]].
  rewrite (verify_layers heqb node D HD root D L0 hashes []) by (first [assumption | unfold L0; rewrite map_length; exact Hf]).
  destruct (verify_spec heqb node leaf_hash Hh sort_nodes Sn D root pi hashes leafs HD F) as [[Nd _]|[_ (L & E & SL & FL & IL)]].
  - exfalso. apply Nd. intros i l l' I1 I2. f_equal. clear - S I1 I2. induction S as [|a q S IH Fa]; [destruct I1|]. rewrite Forall_forall in Fa. destruct I1 as [->|I1], I2 as [I2|I2].
    + congruence. + specialize (Fa _ I2). cbn in Fa. lia. + subst a. specialize (Fa _ I1). cbn in Fa. lia. + apply IH; assumption.
  - rewrite E. assert (L = L0) as ->.
    { apply strict_same; [exact SL|exact SL0|]. intros k h. rewrite IL. unfold L0. rewrite in_map_iff. split; [intros (l & I & <-); exists (k, l); auto|intros ([k' l] & E1 & I); injection E1 as <- <-; exists l; auto]. }
    cbn [app]. rewrite <- surjective_pairing. reflexivity.
Qed.
Lemma contract_outcome D root pi hashes leafs dec s0 s1 fuel r : (forall a b, heqb a b = true <-> a = b) -> sorts fst sort_nodes -> claims D leafs -> (2 <= length leafs)%nat -> (length leafs * (D + 1) <= fuel)%nat ->
  (forall k x, nth_error hashes k = Some x -> dec k = x) -> verify (P (C (2 ^ Z.of_nat D) root) pi hashes) leafs = Some r -> outcome r (contract fuel s0 s1 root D leafs dec).
Proof.
  intros Hh Sn Cl H2 Hf Hd V. destruct (claims_loop D root pi hashes leafs fuel Hh Sn Cl Hf) as (E & FL & SL). unfold MerkleModel.verify in V. rewrite E in V.
  destruct (verify_loop _ _ _ _ _ _ _) as [[r' log']|] eqn:El; [|discriminate V]. injection V as <-.
  pose proof (start heqb node D (map (fun il => (fst il, leaf_hash (snd il))) leafs) root hashes dec s0 s1 fuel r' log') as St. rewrite map_length in St. specialize (St H2 FL SL Hd El). rewrite !map_map in St. exact St.
Qed.

(** For two or more claims, and enough gas, the contract decides as the library does: it returns [true] when the library accepts the
    proof, [false] when the library finds another root. It finds the hashes of the proof at the start of the decommitment;
    whatever follows them in memory, and whatever the scratch space holds before the call, makes no difference. *)
Theorem C70_agrees D root pi hashes leafs dec scratch0 scratch1 fuel :
  (forall a b, heqb a b = true <-> a = b) -> sorts fst sort_nodes -> claims D leafs -> (2 <= length leafs)%nat -> (length leafs * (D + 1) <= fuel)%nat ->
  (forall k x, nth_error hashes k = Some x -> dec k = x) ->
  let p := P (C (2 ^ Z.of_nat D) root) pi hashes in
  (verify p leafs = Some (Ok tt) -> contract fuel scratch0 scratch1 root D leafs dec = Some true) /\
  (verify p leafs = Some (Err RootHashMismatch) -> contract fuel scratch0 scratch1 root D leafs dec = Some false) /\
  (verify p leafs = Some (Ok tt) \/ verify p leafs = Some (Err RootHashMismatch) \/ verify p leafs = Some (Err NotEnoughHashes)).
Proof.
  intros Hh Sn Cl H2 Hf Hd p. pose proof (fun r => contract_outcome D root pi hashes leafs dec scratch0 scratch1 fuel r Hh Sn Cl H2 Hf Hd) as O. fold p in O.
  split; [intros E; exact (O _ E)|]. split; [intros E; exact (O _ E)|].
  assert (T : exists r, verify p leafs = Some r).
  { destruct (claims_loop D root pi hashes leafs fuel Hh Sn Cl Hf) as (E & FL & SL). fold p in E. unfold MerkleModel.verify. rewrite E. destruct Cl as (HD & _).
    rewrite (verify_layers heqb node D HD root D _ hashes []) by (first [assumption | rewrite map_length; exact Hf]). cbn [bind]. eauto. }
  destruct T as [r E]. specialize (O r E). destruct r as [[]|[]]; cbn [outcome] in O; try contradiction; auto.
Qed.
(** For two or more claims the contract comes to an end on every decommitment, and what it returns is the verdict of the library
    on the hashes in memory. *)
Theorem C70_decides D root pi leafs dec scratch0 scratch1 fuel K :
  (forall a b, heqb a b = true <-> a = b) -> sorts fst sort_nodes -> claims D leafs -> (2 <= length leafs)%nat -> (length leafs * (D + 1) <= fuel)%nat -> (length leafs * (D + 1) <= K)%nat ->
  let p := P (C (2 ^ Z.of_nat D) root) pi (map dec (seq 0 K)) in
  exists b, contract fuel scratch0 scratch1 root D leafs dec = Some b /\ (b = true <-> verify p leafs = Some (Ok tt)).
Proof.
  intros Hh Sn Cl H2 Hf HK p.
  assert (Hd : forall k x, nth_error (map dec (seq 0 K)) k = Some x -> dec k = x).
  { intros k x E. rewrite nth_error_map in E. destruct (nth_error (seq 0 K) k) as [j|] eqn:Ej; [|discriminate E]. injection E as <-. assert (k < K)%nat by (rewrite <- (seq_length K 0); apply nth_error_Some; congruence).
    apply (nth_error_nth _ _ 0%nat) in Ej. rewrite seq_nth in Ej by lia. rewrite Nat.add_0_l in Ej. subst j. reflexivity. }
  destruct (C70_agrees D root pi (map dec (seq 0 K)) leafs dec scratch0 scratch1 fuel Hh Sn Cl H2 Hf Hd) as (A1 & A2 & [E|[E|E]]); fold p in A1, A2, E.
  - exists true. split; [exact (A1 E)|]. tauto.
  - exists false. split; [exact (A2 E)|]. rewrite E. split; discriminate.
  - exfalso. destruct (claims_loop D root pi (map dec (seq 0 K)) leafs (length leafs * (D + 1)) Hh Sn Cl (le_n _)) as (E' & _). fold p in E'. unfold MerkleModel.verify in E. rewrite E' in E.
    destruct (verify_loop _ _ _ _ _ _ _) as [[r' log']|] eqn:El; [|discriminate E]. injection E as ->. revert El. apply enough_hashes. rewrite map_length, seq_length. exact HK.
Qed.
(** If the contract returns [true] for two or more claims against the root of the tree with leaf hashes [f] - whatever the decommitment,
    the gas and the scratch space - then each claimed leaf has the hash of its position, or the check of the same claims and hashes in the
    library hashes a pair that collides with the two children of a node of that tree. *)
Theorem C70_binding D f leafs dec scratch0 scratch1 fuel :
  (forall a b, heqb a b = true <-> a = b) -> sorts fst sort_nodes -> claims D leafs -> (2 <= length leafs)%nat ->
  contract fuel scratch0 scratch1 (merkle_root node D f 0) D leafs dec = Some true ->
  (forall i l, In (i, l) leafs -> leaf_hash l = f i) \/
  (exists log, verify_log (P (C (2 ^ Z.of_nat D) (merkle_root node D f 0)) [] (map dec (seq 0 (length leafs * (D + 1))))) leafs = Some (Ok tt, log) /\
   exists pair depth offset, In pair log /\ 0 <= depth < Z.of_nat D /\ 0 <= offset < 2 ^ depth /\
     collision node pair (hash_at node D f (depth + 1) (2 * offset), hash_at node D f (depth + 1) (2 * offset + 1))).
Proof.
  intros Hh Sn Cl H2 E. set (N := (length leafs * (D + 1))%nat).
  assert (E2 : contract (fuel + N) scratch0 scratch1 (merkle_root node D f 0) D leafs dec = Some true).
  { unfold contract, verify_merkle_proof in *. destruct (_ && _); [|discriminate E]. apply sol_loop_mono. exact E. }
  destruct (C70_decides D (merkle_root node D f 0) [] leafs dec scratch0 scratch1 (fuel + N) N Hh Sn Cl H2 ltac:(lia) ltac:(lia)) as (b & Eb & Ib).
  rewrite E2 in Eb. injection Eb as <-. apply proj1 in Ib. specialize (Ib eq_refl). destruct Cl as (HD & _ & F).
  assert (Fn : Forall (fun il : Z * Leaf => 0 <= fst il) leafs) by (eapply Forall_impl; [|exact F]; cbn; lia).
  destruct (C37_binding heqb node leaf_hash sort_nodes D f [] _ leafs Hh Sn HD Fn Ib) as [G|G].
  - left. intros i l I. apply (G i l I).
  - right. exact G.
Qed.
(** An opening made by the library for two or more positions is accepted by the contract, when the true leaves are claimed. *)
Theorem C70_completeness orders leaves D skip t indices leafs dec scratch0 scratch1 fuel :
  (forall a b, heqb a b = true <-> a = b) -> sorts (fun x => x) sort_idx -> sorts fst sort_nodes ->
  Z.of_nat (length leaves) = 2 ^ Z.of_nat D -> 0 <= skip -> schedules orders D ->
  from_leaves_skip_layers node leaf_hash hdefault orders leaves skip = Some (Ok t) ->
  Forall (fun i => 0 <= i < 2 ^ Z.of_nat D) indices -> Z.of_nat (length indices) * 64 <= 2 ^ 64 ->
  claims D leafs -> (2 <= length leafs)%nat -> (forall i, In i (map fst leafs) <-> In i indices) ->
  (forall i l, In (i, l) leafs -> nth_error leaves (Z.to_nat i) = Some l) -> (length leafs * (D + 1) <= fuel)%nat ->
  exists p, open node leaf_hash sort_idx t indices = Some (Ok p) /\
    ((forall k x, nth_error (p_hashes p) k = Some x -> dec k = x) -> contract fuel scratch0 scratch1 (c_hash (t_commitment t)) D leafs dec = Some true).
Proof.
  intros Hh Si Sn HL Hs Po Et Fi Hlen Cl H2 Same Tr Hf. pose proof Cl as (HD & _).
  destruct (C36_completeness heqb node leaf_hash hdefault sort_idx sort_nodes orders leaves D skip t indices leafs Hh Si Sn HD HL Hs Po Et Fi Hlen Same Tr) as (p & Eo & Ec & Ev).
  exists p. split; [exact Eo|]. intros Hd. destruct p as [c pi hs]. cbn [p_hashes p_commitment] in *. subst c.
  destruct (C36_commitment node leaf_hash hdefault orders leaves D skip HD HL Hs Po) as (t' & Et' & Ec' & _).
  assert (t' = t) by congruence. subst t'. rewrite Ec' in Ev |- *. cbn [c_hash].
  exact (proj1 (C70_agrees D _ pi hs leafs dec scratch0 scratch1 fuel Hh Sn Cl H2 Hf Hd) Ev).
Qed.
(** No claims, or numbers of leaves and of positions that differ: the call is reverted. *)
Theorem C70_reverts fuel scratch0 scratch1 root (leaves : list H) (indices : list Z) dec :
  leaves = [] \/ length leaves <> length indices -> verify_merkle_proof heqb node fuel scratch0 scratch1 root leaves indices dec = None.
Proof.
  intros [->|N]; unfold verify_merkle_proof; [destruct indices; reflexivity|]. apply Nat.eqb_neq in N. rewrite N. reflexivity.
Qed.
End C70.

(** A concrete case: eight leaves, positions 2 and 5 opened; hashes are terms. *)
Definition ex_dec (hs : list term) (k : nat) : term := nth k hs (TL 77).
Example C70_ex :
  claims 3 [(2, 12); (5, 15)] /\ sorts fst (isort (@fst Z term)) /\
 match ex_tree 1 with
  | Some (Ok t) => match open TN TL (isort (fun x => x)) t [5; 2] with
    | Some (Ok p) =>
        verify term_eqb TN TL (isort fst) p [(2, 12); (5, 15)] = Some (Ok tt) /\
       contract term_eqb TN TL 8 (TL 1) (TL 2) (c_hash (t_commitment t)) 3 [(2, 12); (5, 15)] (ex_dec (p_hashes p)) = Some true /\
       contract term_eqb TN TL 8 (TL 1) (TL 2) (c_hash (t_commitment t)) 3 [(2, 12); (5, 16)] (ex_dec (p_hashes p)) = Some false /\
       contract term_eqb TN TL 8 (TL 1) (TL 2) (c_hash (t_commitment t)) 3 [(2, 12); (5, 15)] (ex_dec (rev (p_hashes p))) = Some false
    | _ => False end
  | _ => False end.
Proof. split; [split; [lia|split; repeat constructor; cbn; lia]|]. split; [apply isort_sorts|]. vm_compute. intuition. Qed.
(** With a single claim the ring has one slot, so an odd node finds itself in the slot behind it and is taken for its own sibling:
    the opening of one position (here 5 of 8), which the library makes and accepts, is rejected by the contract,
    whatever the scratch space and the rest of the memory hold. *)
Theorem C70_single_refuted :
  exists t p, ex_tree 1 = Some (Ok t) /\ open TN TL (isort (fun x => x)) t [5] = Some (Ok p) /\ verify term_eqb TN TL (isort fst) p [(5, 15)] = Some (Ok tt) /\ claims 3 [(5, 15)] /\
 forall scratch0 scratch1 dec fuel, (forall k x, nth_error (p_hashes p) k = Some x -> dec k = x) ->
    contract term_eqb TN TL (4 + fuel) scratch0 scratch1 (c_hash (t_commitment t)) 3 [(5, 15)] dec = Some false.
Proof.
  eexists. eexists. split; [vm_compute; reflexivity|]. split; [vm_compute; reflexivity|]. split; [vm_compute; reflexivity|]. split; [split; [lia|split; repeat constructor; cbn; lia]|].
  intros s0 s1 dec fuel Hd. pose proof (Hd 0%nat _ eq_refl) as E0. cbv in E0. cbv -[andb term_eqb]. rewrite E0. cbn [term_eqb]. rewrite !andb_false_r. reflexivity.
Qed.

Print Assumptions C70_agrees.
Print Assumptions C70_decides.
Print Assumptions C70_binding.
Print Assumptions C70_completeness.
Print Assumptions C70_reverts.
Print Assumptions C70_single_refuted.
