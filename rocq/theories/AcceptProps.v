(** C58: what an accepted proof shows. *)
Require Import ZArith Lia Bool List Sorted Permutation.
From Verif Require Import Word U256Model EncodingSpec KnuthModel FieldSig FieldModel FieldInstance FieldProps Arr FftSpec FftModel StarkBase StarkInstance PolyModel TraceModel ExprModel ExprSpec
  HashModel MerkleModel MerkleSpec MerkleProofs MerkleProps ChannelModel ChannelSpec QueryModel FriModel OodsModel StarkModel StarkSpec StarkOpen StarkProps AcceptSpec AcceptProofs AcceptMain.
Import ListNotations.
Open Scope nat_scope.

(** If [verify] returns Ok, the proof is laid out as the protocol says, every challenge is the hash of everything
    said before it, the proof of work holds, the claimed values satisfy the combined constraint at the sampled point,
    and at the queried positions there are authenticated rows and a chain of authenticated cosets that fold, from the
    quotient to the polynomial of the last layer, whose degree is bounded. *)
Theorem C58_acceptance : forall F (o : ops F), lawful o -> forall e M w, sound o e M w ->
  forall keccak enc dec sort_idx sort_nodes search fuel, (forall y, is_hash (keccak y)) -> sorts (fun x => x) sort_idx -> sorts fst sort_nodes -> searches search ->
  forall seed proof k b (c : constraints (F := F)) claims,
  c_nrows c = 2 ^ k -> c_blowup c = (2 ^ Z.of_nat b)%Z -> k + b <= M -> list_sum (c_fri c) <= k -> (0 <= c_queries c < 2 ^ 64)%Z ->
  (forall ex, In ex (c_exprs c) -> usizes ex /\ forall i j, refers ex i j -> (- 2 ^ 63 < j < 2 ^ 63)%Z) ->
  (forall D, c_degree o true c = Some D -> (D <= 2 ^ 63)%Z) -> (forall cs, length cs = 2 * length (c_exprs c) -> combine o true c cs <> None) ->
  Forall (digit 256) proof ->
  stark_verify o e keccak enc dec sort_idx sort_nodes search fuel c claims seed proof = Some (Good tt) ->
  exists args ks ev, accepted o (egen e) w keccak enc dec k b c claims seed proof args ks ev.
Proof. intros F o L e M w SD keccak enc dec sort_idx sort_nodes search fuel Hk Si Sn Sr seed proof k b c claims. exact (acceptance o L e M w SD keccak enc dec sort_idx sort_nodes search fuel Hk Si Sn Sr seed proof k b c claims). Qed.
Print Assumptions C58_acceptance.

(** A path from [l] to the root of the tree over [leaves] ends at the leaf that is there: [l] has its hash, or one of
    the pairs hashed on the path and a pair of the tree are a collision of the node hash. *)
Theorem C58_binding : forall F keccak enc D (leaves : list (list F)) i l l' path, D < 64 -> length leaves = 2 ^ D -> nth_error leaves (Z.to_nat i) = Some l' -> (0 <= i)%Z -> length path = D ->
  let f := leaf_hashes (leaf_of keccak enc) hash_default leaves in
  climb (node_of keccak) i (leaf_of keccak enc l) path = merkle_root (node_of keccak) D f 0 ->
  leaf_of keccak enc l = leaf_of keccak enc l' \/
  exists p depth offset, In p (climbed (node_of keccak) i (leaf_of keccak enc l) path) /\ (0 <= depth < Z.of_nat D)%Z /\ (0 <= offset < 2 ^ depth)%Z /\
    MerkleSpec.collision (node_of keccak) p (hash_at (node_of keccak) D f (depth + 1) (2 * offset), hash_at (node_of keccak) D f (depth + 1) (2 * offset + 1)).
Proof.
  intros F keccak enc D leaves i l l' path HD Ll En Hi Lp f E. assert (Er : merkle_root (node_of keccak) D f 0 = hash_at (node_of keccak) D f 0 0) by (unfold hash_at; change (Z.to_nat 0) with 0; rewrite Nat.sub_0_r, Z.mul_0_l; reflexivity). rewrite Er in E.
  assert (Hn : Z.to_nat i < 2 ^ D) by (rewrite <- Ll; apply nth_error_Some; congruence). assert (Hr : (0 <= i < 2 ^ Z.of_nat D)%Z) by (change 2%Z with (Z.of_nat 2); rewrite <- Nat2Z.inj_pow; lia).
  destruct (climb_binding (node_of keccak) (list_eq_dec Z.eq_dec) D f HD path i (leaf_of keccak enc l) ltac:(lia) ltac:(rewrite Lp; exact Hr) E) as [H|H]; rewrite Lp in H; [left|right; exact H].
  rewrite H. unfold hash_at. rewrite Nat2Z.id, Nat.sub_diag. cbn [merkle_root]. rewrite Z.sub_diag, Z.mul_1_r. unfold f, leaf_hashes. rewrite (nth_error_nth _ _ hash_default (map_nth_error (leaf_of keccak enc) _ _ En)). reflexivity.
Qed.
Print Assumptions C58_binding.

(** ** Example: the proof of C57 *)
Lemma toy_combines cs : length cs = 2 * length (c_exprs toy_c) -> combine tiny_ops true toy_c cs <> None.
Proof.
  intros Hl. destruct cs as [|lo [|hi [|x cs]]]; cbn [toy_c c_exprs length Nat.mul Nat.add] in Hl; try discriminate Hl. unfold combine. cbn [toy_c c_exprs length Nat.mul Nat.add Nat.eqb].
  assert (T : target_degree tiny_ops true toy_c = Some 7%Z) by (vm_compute; reflexivity). rewrite T. cbn [bind tuples List.combine map option_all]. unfold combine_term.
  assert (A : adjustment_degree tiny_ops true (c_nrows toy_c) 7 toy_squares = Some 4%Z) by (vm_compute; reflexivity). rewrite A. discriminate.
Qed.
Example C58_ex : exists proof args ks ev, length proof = 808 /\
  accepted tiny_ops (egen tiny_engine) (fe_w tiny_good) toy_hash (@raw tiny_field) toy_dec 2 1 toy_c [] [1; 2; 3]%Z proof args ks ev.
Proof.
  destruct C57_ex as (_ & proof & Lp & Bp & _ & V & _). destruct toy_environment as [Hk _ Si Sn Sr _ _].
  assert (H : exists args ks ev, accepted tiny_ops (egen tiny_engine) (fe_w tiny_good) toy_hash (@raw tiny_field) toy_dec 2 1 toy_c [] [1; 2; 3]%Z proof args ks ev).
  { apply (C58_acceptance _ tiny_ops tiny_lawful tiny_engine 5 (fe_w tiny_good) tiny_sound toy_hash (@raw tiny_field) toy_dec (isort (fun x => x)) (isort fst) toy_search 64 Hk Si Sn Sr [1; 2; 3]%Z proof 2 1 toy_c []); try exact V.
    - reflexivity.
    - reflexivity.
    - lia.
    - cbn. lia.
    - cbn [toy_c c_queries]. lia.
    - intros ex [<-|[]]. split; [apply toy_usizes|]. intros i j H. unfold toy_squares, toy_numerator, e_sub in H. cbn [refers] in H. intuition lia.
    - intros D. assert (T : c_degree tiny_ops true toy_c = Some 2%Z) by (vm_compute; reflexivity). rewrite T. intros [= <-]. lia.
    - apply toy_combines.
    - exact Bp. }
  destruct H as (args & ks & ev & H). exists proof, args, ks, ev. split; [exact Lp|exact H].
Qed.
