(** C76: the contract hashes leaves and nodes of Merkle trees as the library. *)
Require Import ZArith Lia Bool List.
From Verif Require Import Word U256Model U256Spec U256Proofs BinaryModel EncodingSpec EncodingProofs FieldModel FieldInstance HashModel HashProps CoinSolModel CoinSolProofs PrimeSolProps LeafSolModel FieldSig FieldAlgModel FftModel FftSpec StarkInstance FriModel FriSolProps FriLoopModel FriLoopProps FriScaleProps.
Import ListNotations.
Open Scope Z_scope.

Lemma num_repeat_0 n : num 256 (repeat 0 n) = 0.
Proof. induction n as [|n IH]; [reflexivity|]. change (repeat 0 (S n)) with ([0] ++ repeat 0 n). rewrite num_app, IH. reflexivity. Qed.
Lemma raw_wf (u : Felt) : wf (raw u).
Proof. exact (proj1 (proj2 (fe_rep proth_good u))). Qed.
(** The mask keeps the first 20 bytes and clears the other 12. *)
Lemma mask_spec l : bytes 32 l -> Z.land (num 256 l) HASH_MASK = num 256 (firstn 20 l ++ repeat 0 12).
Proof.
  intros [Ln F]. rewrite <- (firstn_skipn 20 l) in F. apply Forall_app in F. destruct F as [Fa Fb].
  assert (La : length (firstn 20 l) = 20%nat) by (rewrite firstn_length; lia). assert (Lb : length (skipn 20 l) = 12%nat) by (rewrite skipn_length; lia).
  rewrite <- (firstn_skipn 20 l) at 1. rewrite !num_app, Lb, repeat_length, num_repeat_0, Z.add_0_r.
  pose proof (num_range 256 (firstn 20 l) ltac:(lia) Fa) as Ra. pose proof (num_range 256 (skipn 20 l) ltac:(lia) Fb) as Rb. rewrite La in Ra. rewrite Lb in Rb.
  set (a := num 256 (firstn 20 l)) in *. set (b := num 256 (skipn 20 l)) in *. clearbody a b. clear -Ra Rb.
  change (256 ^ Z.of_nat 20) with (2 ^ 160) in Ra. change (256 ^ Z.of_nat 12) with (2 ^ 96) in *.
  change HASH_MASK with (Z.shiftl (Z.ones 160) 96). apply Z.bits_inj'. intros i Hi. rewrite Z.land_spec, Z.shiftl_spec by lia.
  rewrite <- (Z.shiftl_mul_pow2 a 96) by lia. rewrite (Z.shiftl_spec a) by lia. destruct (Z.ltb_spec i 96) as [S|G].
  - rewrite (Z.testbit_neg_r _ (i - 96)) by lia. rewrite (Z.testbit_neg_r a (i - 96)) by lia. apply andb_false_r.
  - assert (E : Z.testbit (Z.shiftl a 96 + b) i = Z.testbit a (i - 96)).
    { replace i with ((i - 96) + 96) at 1 by lia. rewrite <- Z.shiftr_spec by lia. f_equal. rewrite Z.shiftr_div_pow2, Z.shiftl_mul_pow2 by lia. rewrite Z.div_add_l by lia. rewrite (Z.div_small b) by lia. lia. }
    rewrite E. destruct (Z.ltb_spec (i - 96) 160) as [S|G2]; [rewrite Z.ones_spec_low by lia; apply andb_true_r|].
    rewrite <- (Z.mod_small a (2 ^ 160)) by lia. rewrite Z.mod_pow2_bits_high by lia. reflexivity.
Qed.

(** A leaf of field elements, given to the contract by their limbs: the word that it computes is the library's hash. *)
Theorem C76_leaf : forall keccak (l : list Felt), (forall x, bytes 32 (keccak x)) ->
  merkle_leaf_hash keccak (map limbs l) = num 256 (hash_slice keccak hash_felt l).
Proof.
  intros keccak l K. rewrite C51_slice by (intros x; exact (proj1 (K x))).
  assert (E : map (pack 32) (map limbs l) = map hash_felt l) by (rewrite map_map; apply map_ext; intros u; unfold limbs, hash_felt, hash_u256; apply pack_u256; apply raw_wf).
  assert (G : Z.land (word_of (keccak (concat (map (pack 32) (map limbs l))))) HASH_MASK = num 256 (masked keccak (concat (map hash_felt l)))) by (rewrite E; apply mask_spec, K).
  destruct l as [|x [|y l]]; [exact G| |exact G]. cbn [map merkle_leaf_hash]. symmetry. apply to_bytes_be_spec. apply raw_wf.
Qed.
Print Assumptions C76_leaf.
(** The same for leaves of numbers. *)
Theorem C76_leaf_numbers : forall keccak (l : list u256), (forall x, bytes 32 (keccak x)) -> Forall wf l ->
  merkle_leaf_hash keccak (map val l) = num 256 (hash_slice keccak hash_u256 l).
Proof.
  intros keccak l K W. rewrite C51_slice by (intros x; exact (proj1 (K x))).
  assert (E : map (pack 32) (map val l) = map hash_u256 l) by (rewrite map_map; apply map_ext_in; intros u Iu; unfold hash_u256; apply pack_u256; exact (proj1 (Forall_forall _ _) W u Iu)).
  assert (G : Z.land (word_of (keccak (concat (map (pack 32) (map val l))))) HASH_MASK = num 256 (masked keccak (concat (map hash_u256 l)))) by (rewrite E; apply mask_spec, K).
  destruct l as [|x [|y l]]; [exact G| |exact G]. cbn [map merkle_leaf_hash]. symmetry. apply to_bytes_be_spec. inversion W; assumption.
Qed.
Print Assumptions C76_leaf_numbers.
(** An inner node (node.rs:7-14): two hashes are absorbed by the masked Keccak. *)
Theorem C76_node : forall keccak (l r : hash), (forall x, bytes 32 (keccak x)) -> bytes 32 l -> bytes 32 r ->
  merkle_node_hash keccak (num 256 l) (num 256 r) = num 256 (mk_hash keccak (mk_update (mk_update mk_new l) r)).
Proof.
  intros keccak l r K [Ll Fl] [Lr Fr]. unfold merkle_node_hash. rewrite !pack_num by assumption. change (mk_update (mk_update mk_new l) r) with (l ++ r).
  pose proof (mask_spec (keccak (l ++ r)) (K _)) as M. unfold mk_hash, MASK_LENGTH. rewrite map_const, skipn_length, (proj1 (K (l ++ r))). exact M.
Qed.
Print Assumptions C76_node.
(** Equal words of the contract mean equal hashes of the library, and the other way round. *)
Theorem C76_same_hashes : forall keccak (l k : list Felt), (forall x, bytes 32 (keccak x)) ->
  merkle_leaf_hash keccak (map limbs l) = merkle_leaf_hash keccak (map limbs k) <-> hash_slice keccak hash_felt l = hash_slice keccak hash_felt k.
Proof.
  intros keccak l k K. rewrite !C76_leaf by exact K. split; [|intros ->; reflexivity]. intros E.
  assert (B : forall m, bytes 32 (hash_slice keccak hash_felt m)) by (intros [|x [|y m]]; [apply C51_masked, K|exact (proj2 (C51_field_element x))|apply C51_masked, K]).
  destruct (B l) as [L1 F1], (B k) as [L2 F2]. apply (num_inj 256); auto; [lia|congruence].
Qed.
Print Assumptions C76_same_hashes.

(** The FRI layers with this hash: what the Merkle verifier of the contract gets are the library's hashes of the cosets. *)
Theorem C76_fri_layers : forall dbg n v qs layers completions openings n' v' qs' coefficients keccak verify, (forall x, bytes 32 (keccak x)) -> (n <= 40)%nat -> layers <> [] -> increasing qs -> (forall q, In q qs -> (q < 2 ^ n)%nat) ->
  (exists d, length coefficients = 2 ^ d)%nat ->
  folded dbg n (map (fun i => fpw felt_ops (fe_w proth_good n) i) (seq 0 (2 ^ n))) n v qs layers completions openings n' v' qs' ->
  fold_and_check_fri_layers (merkle_leaf_hash keccak) verify (Z.of_nat n) (map (fun x => Z.of_nat (fst x)) layers) (map (map limbs) completions) (map (fun x => limbs (snd x)) layers) (map limbs coefficients) (map (fun q => (Z.of_nat q, limbs (v q))) qs) = Some tt <->
  (forall j x, nth_error openings j = Some x -> verify j (map (fun coset => num 256 (hash_slice keccak hash_felt coset)) (o_cosets x)) (map (fun k => Z.of_nat k + 2 ^ Z.of_nat (o_log x)) (o_numbers x)) = Some true) /\
  forall q, In q qs' -> last_check felt_ops dbg (2 ^ n') (fe_w proth_good n') coefficients q (v' q) = Some true.
Proof.
  intros dbg n v qs layers completions openings n' v' qs' coefficients keccak verify K Hn Nl Sq Hq Hd F. rewrite (C75_proof_words dbg n v qs layers completions openings n' v' qs' coefficients _ verify Hn Nl Sq Hq Hd F). unfold opened_limbs.
  assert (E : forall cosets, map (fun coset => merkle_leaf_hash keccak (map limbs coset)) cosets = map (fun coset => num 256 (hash_slice keccak hash_felt coset)) cosets) by (intros c; apply map_ext; intros l; apply C76_leaf, K).
  split; intros [O A]; (split; [|exact A]); intros j x Ej; specialize (O j x Ej); rewrite E in *; exact O.
Qed.
Print Assumptions C76_fri_layers.

(** A keccak of 32 bytes that depends on its input *)
Example C76_ex : exists keccak, (forall x, bytes 32 (keccak x)) /\ merkle_leaf_hash keccak [1; 2] = num 256 (repeat 64 20 ++ repeat 0 12) /\ merkle_leaf_hash keccak [] = 0 /\ merkle_leaf_hash keccak [7] = 7.
Proof.
  exists (fun x => repeat (Z.of_nat (length x) mod 256) 32). split; [|vm_compute; auto].
  intros x. split; [apply repeat_length|]. apply Forall_forall. intros d I. apply repeat_spec in I. subst d. unfold digit. apply Z.mod_pos_bound. lia.
Qed.
