(** The verifier on a proof written by the prover: Merkle decommitments. *)
Require Import ZArith Lia Bool List Sorted Permutation.
From Verif Require Import Word U256Model U256Spec BinaryModel BinaryProps EncodingProofs KnuthModel FieldSig FieldAlgModel Arr StarkBase PolyModel TraceModel ExprModel
  HashModel MerkleModel MerkleSpec MerkleProofs MerkleTreeProofs MerkleProps ChannelModel ChannelSpec ChannelProps OodsModel OodsProofs StarkModel StarkSpec StarkProofs.
Import ListNotations.
Open Scope nat_scope.

Lemma hash_eqb_spec a b : hash_eqb a b = true <-> a = b.
Proof.
  revert b. induction a as [|x a IH]; intros [|y b]; cbn [hash_eqb]; try (split; [discriminate|discriminate]); [split; reflexivity|].
  rewrite andb_true_iff, Z.eqb_eq, IH. split; [intros [-> ->]; reflexivity|intros [= -> ->]; auto].
Qed.

Section Opening.
Context {F : Type} (o : ops F) (e : engine F) (keccak : list Z -> list Z) (enc : F -> u256) (dec : u256 -> option F).
Context (sort_idx : list Z -> list Z) (sort_nodes : list (Z * hash) -> list (Z * hash)) (orders : list (list F) -> nat -> list nat).
Context (Hcodec : codec enc dec) (Hk : forall y, is_hash (keccak y)) (Si : sorts (fun x => x) sort_idx) (Sn : sorts fst sort_nodes).
Local Notation build := (fun leaves => from_leaves (node_of keccak) (leaf_of keccak enc) hash_default (orders leaves) leaves).
Local Opaque to_bytes_be from_bytes_be.

Lemma mk_32 st : length (mk_hash keccak st) = 32.
Proof. unfold mk_hash. rewrite app_length, map_length, firstn_length, skipn_length. destruct (Hk st) as [-> _]. reflexivity. Qed.
Lemma leaf_32 l : length (leaf_of keccak enc l) = 32.
Proof. unfold leaf_of, hash_slice. destruct l as [|x [|y l]]; [apply mk_32|apply (enc_bytes enc dec Hcodec x)|apply mk_32]. Qed.
Lemma leaves_32 leaves k : length (leaf_hashes (leaf_of keccak enc) hash_default leaves k) = 32.
Proof.
  unfold leaf_hashes. generalize (Z.to_nat k). intros n. destruct (Nat.lt_ge_cases n (length (map (leaf_of keccak enc) leaves))) as [H|H].
  - pose proof (nth_In _ hash_default H) as I. apply in_map_iff in I as (l & <- & _). apply leaf_32.
  - rewrite nth_overflow by exact H. reflexivity.
Qed.
Lemma root_32 d leaves k : length (merkle_root (node_of keccak) d (leaf_hashes (leaf_of keccak enc) hash_default leaves) k) = 32.
Proof. destruct d; [apply leaves_32|apply mk_32]. Qed.

(** A committed list of 2^D leaves *)
Definition committed (D : nat) (leaves : list (list F)) (t : MerkleModel.tree (H := hash) (Leaf := list F)) : Prop :=
  D < 64 /\ length leaves = 2 ^ D /\ schedules (orders leaves) D /\ build leaves = Some (Ok t) /\ t_leaves t = leaves /\ length (c_hash (t_commitment t)) = 32 /\
  from_size_hash (2 ^ Z.of_nat D) (c_hash (t_commitment t)) = Ok (t_commitment t).
Lemma z_is_pow2_pow D : z_is_pow2 (2 ^ Z.of_nat D) = true.
Proof. unfold z_is_pow2. rewrite Z.log2_pow2 by lia. rewrite Z.eqb_refl, andb_true_r. apply Z.ltb_lt, Z.pow_pos_nonneg; lia. Qed.
Lemma commit_good D leaves p t p' : D < 64 -> length leaves = 2 ^ D -> schedules (orders leaves) D -> commit keccak enc orders leaves p = Some (Good (t, p')) -> p' = p /\ committed D leaves t.
Proof.
  intros HD HL Ho H. unfold commit in H. apply bind_good in H as (r & q & H1 & H2). apply lift_good in H1 as [H1 ->]. apply merkle_good in H2 as [-> ->]. split; [reflexivity|].
  destruct (C36_commitment (node_of keccak) (leaf_of keccak enc) hash_default (orders leaves) leaves D 1%Z HD) as (t' & Et & Ec & El); [rewrite HL, Nat2Z.inj_pow; reflexivity|lia|exact Ho|].
  unfold from_leaves in H1. rewrite H1 in Et. assert (X : t = t') by congruence. subst t'. unfold committed. rewrite Ec. cbn [c_hash]. do 5 (split; [assumption|]). split; [apply root_32|].
  unfold from_size_hash. rewrite z_is_pow2_pow, orb_true_r. reflexivity.
Qed.

(** The Merkle proof the prover writes is read and accepted, with the leaves at the opened positions. *)
Lemma decommit_follows s p p' D leaves t indices : committed D leaves t ->
  Forall (fun i => 0 <= i < 2 ^ Z.of_nat D)%Z indices -> (Z.of_nat (length indices) * 64 <= 2 ^ 64)%Z ->
  write_decommitment keccak enc sort_idx t indices p = Some (Good (tt, p')) ->
  exists mp, follows s s p p' (decommit keccak sort_idx (t_commitment t) indices) mp /\
  forall leafs err v, (forall i, In i (map fst leafs) <-> In i indices) -> (forall i l, In (i, l) leafs -> nth_error leaves (Z.to_nat i) = Some l) ->
    check_leaves keccak enc sort_nodes mp leafs err v = Some (Good (tt, v)).
Proof.
  intros (HD & HL & Ho & Eb & El & L32 & Es) Fi Hlen H. assert (HLZ : Z.of_nat (length leaves) = (2 ^ Z.of_nat D)%Z) by (rewrite HL, Nat2Z.inj_pow; reflexivity).
  unfold write_decommitment in H. apply bind_good in H as (r & q & H1 & H). apply lift_good in H1 as [H1 ->]. apply bind_good in H as (pr & q1 & H2 & H). apply merkle_good in H2 as [-> ->]. apply chan_good in H.
  destruct (C38_proof_size (node_of keccak) (leaf_of keccak enc) hash_default sort_idx (orders leaves) leaves D 1%Z t indices Si HD HLZ ltac:(lia) Ho Eb Fi Hlen) as (pr' & Eo & Ep & Ef).
  rewrite H1 in Eo. assert (X : pr = pr') by congruence. subst pr'.
  assert (H32 : Forall (fun h => length h = 32) (MerkleModel.p_hashes pr)).
  { destruct (build_spec (node_of keccak) (leaf_of keccak enc) hash_default leaves D HD HLZ (orders leaves) 1%Z ltac:(lia)) as (nodes & m & E & Hm & Fl); [intros e0 He; apply Ho; lia|].
    unfold from_leaves in Eb. rewrite Eb in E. assert (X : t = T (C (2 ^ Z.of_nat D) (hash_at (node_of keccak) D (leaf_hashes (leaf_of keccak enc) hash_default leaves) 0 0)) nodes leaves) by congruence.
    destruct (sort_indices_spec sort_idx Si D (hash_at (node_of keccak) D (leaf_hashes (leaf_of keccak enc) hash_default leaves) 0 0) indices HD Fi) as (K & Ek & St & Fk & Sk).
    pose proof (strict_length K indices St Sk) as Lk.
    pose proof (open_spec (node_of keccak) (leaf_of keccak enc) hash_default sort_idx Si leaves D m t indices K HD HLZ ltac:(lia)) as Op. rewrite X in Op. cbn [t_leaves t_nodes t_commitment] in Op. specialize (Op eq_refl (proj1 Hm) Fl eq_refl Ek St Fk). rewrite <- X in Op.
    rewrite H1 in Op. assert (Y : MerkleModel.p_hashes pr = map (fun dk => hash_at (node_of keccak) D (leaf_hashes (leaf_of keccak enc) hash_default leaves) (fst dk) (snd dk)) (olayers D K)) by (injection Op as ->; reflexivity).
    rewrite Y. apply Forall_forall. intros h Hh. apply in_map_iff in Hh as (dk & <- & _). apply root_32. }
  exists (MerkleModel.P (t_commitment t) indices (MerkleModel.p_hashes pr)). split.
  - unfold decommit. eapply follows_bind; [apply follows_lift, Ep|]. eapply follows_bind; [apply follows_merkle; reflexivity|]. cbn beta. rewrite Nat2Z.id.
    eapply follows_bind; [apply replay_hashes_follows; [exact H32|exact H]|]. eapply follows_bind; [apply follows_lift, Ef|]. rewrite Nat.eqb_refl. apply follows_merkle. reflexivity.
  - intros leafs err v Same True_.
    destruct (C36_completeness hash_eqb (node_of keccak) (leaf_of keccak enc) hash_default sort_idx sort_nodes (orders leaves) leaves D 1%Z t indices leafs hash_eqb_spec Si Sn HD HLZ ltac:(lia) Ho Eb Fi Hlen Same True_) as (pr' & Eo' & Ec & Ev).
    rewrite H1 in Eo'. assert (X : pr = pr') by congruence. subst pr'. unfold check_leaves, act_bind, lift.
    assert (Y : MerkleModel.verify hash_eqb (node_of keccak) (leaf_of keccak enc) sort_nodes (MerkleModel.P (t_commitment t) indices (MerkleModel.p_hashes pr)) leafs = Some (Ok tt)).
    { rewrite <- Ev. unfold MerkleModel.verify, verify_log. cbn [MerkleModel.p_commitment MerkleModel.p_hashes]. rewrite Ec. reflexivity. }
    rewrite Y. reflexivity.
Qed.
(** The leaves at the queried positions *)
Lemma leaves_follow s p p' D leaves t indices n : committed D leaves t -> (forall l, In l leaves -> length l = n) ->
  write_leaves keccak enc t indices p = Some (Good (tt, p')) ->
  follows s false p p' (act_map (fun index => do l <- chan (replay_layer e keccak dec n); ret (index, l)) indices) (map (fun i => (i, nth (Z.to_nat i) leaves [])) indices).
Proof.
  intros (HD & HL & Ho & Eb & El & L32 & Es) Hn H. unfold write_leaves in H. rewrite El in H. revert H. apply follows_map_weak. intros i q q' _ H.
  apply bind_good in H as (l & q1 & H1 & H2). apply lift_good in H1 as [H1 ->]. apply chan_good in H2. rewrite (nth_error_nth leaves _ [] H1).
  eapply follows_bind; [apply (replay_leaf_follows e keccak enc dec Hcodec q l n q' (Hn l (nth_error_In _ _ H1)) H2)|]. apply follows_ret.
Qed.
End Opening.
