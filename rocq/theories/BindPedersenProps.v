(** C65: the proofs of the Pedersen Merkle tree of the examples do not bind its claim. *)
Require Import Ring Field ZArith NArith Lia Bool List.
From Verif Require Import Word U256Model KnuthModel FieldSig FieldInstance FieldAlgModel FieldAlgProofs Arr FftModel FftSpec PermuteProofs FftProofs StarkBase StarkInstance PolyModel PolyProps TraceModel TraceProps ExprModel ExprSpec ExprProofs ExprProps CheckProps
  ClaimModel ClaimSpec ClaimProofs ClaimProps ExampleProofs ExampleProps HashModel MerkleModel ChannelModel PowModel QueryModel FriModel OodsModel OodsProofs StarkModel StarkProofs StarkProps ComponentModel CurveModel CurveSpec PedersenModel PedersenSpec PedersenProofs PedersenProps BindModel BindSpec BindProps.
Import ListNotations.
Open Scope nat_scope.

Section System.
Context {F : Type} (o : ops F) (L : lawful o) (e : engine F) (M : nat) (w : nat -> F) (SD : sound o e M w).
Definition leaf_expr (g leaf : F) : rexpr F := on_layer_row o g 0 (EMul (e_sub (EConst leaf) (ETrace 0 0)) (e_sub (EConst leaf) (ETrace 4 0))).
Definition root_expr (g : F) (i : Z) (root : F) : rexpr F := on_layer_row o g i (e_sub (EConst root) (ETrace 6 0)).
Lemma tree_system dbg sx sy points lx ly rx ry k m bits to_uint from_uint : k + m <= M -> length lx = 2 ^ k -> length ly = 2 ^ k -> length rx = 2 ^ k -> length ry = 2 ^ k ->
  exists c g i post, merkle_tree o e (APoint sx sy) points lx ly rx ry (2 ^ k) bits to_uint from_uint dbg (2 ^ m) = Some c /\ Forall usizes post /\ Forall2 alike post post /\
  forall leaf root, k_system e c (leaf, root) = Some (Constraints (2 ^ (k + m)) 8 (map (fun i => ETrace i 0) (seq 0 8) ++ leaf_expr g leaf :: root_expr g i root :: post) 16 0 45 (default_fri_layout (Z.of_nat (2 ^ (k + m))))).
Proof using SD.
  intros HK L1 L2 L3 L4. destruct (poly_ok lx k L1) as [E1 N1]. destruct (poly_ok ly k L2) as [E2 N2]. destruct (poly_ok rx k L3) as [E3 N3]. destruct (poly_ok ry k L4) as [E4 N4]. pose proof (pow2_pos k) as Pk. pose proof (pow2_pos m) as Pm. pose proof (pow2_pos (k + m)) as PK.
  set (D := EExp (@EX F) (2 ^ Z.of_nat m)). set (n := Z.of_nat (2 ^ (k + m))). set (depth := Z.of_nat (2 ^ m)). set (g := w (k + m)).
  set (post := e_div (EMul (EMul (e_sub (ETrace 6 0) (ETrace 0 1)) (e_sub (ETrace 6 0) (ETrace 4 1))) (row_at o g (n - 1))) (e_sub (EExp EX depth) (EConst (pow_usize o g (n - depth)))) ::
    map (spotted o w k m D) (layer_conds o (2 ^ Z.of_nat k) (Z.of_nat bits) sx sy (EPoly lx D) (EPoly ly D) (EPoly rx D) (EPoly ry D))).
  eexists _, g, (Z.of_nat (2 ^ k) - 1 + (depth - 1) * Z.of_nat (2 ^ k))%Z, post. split; [unfold merkle_tree, k_vertical; rewrite is_pow2; reflexivity|].
  assert (Bm : (0 <= 2 ^ Z.of_nat m < 2 ^ 64)%Z /\ (0 <= depth < 2 ^ 64)%Z /\ (0 <= 2 ^ Z.of_nat k < 2 ^ 64)%Z).
  { pose proof (s_max _ _ _ _ SD). unfold depth. rewrite (pow_ZN m). pose proof (Z.pow_lt_mono_r 2 (Z.of_nat m) 64 ltac:(lia) ltac:(lia) ltac:(lia)). pose proof (Z.pow_lt_mono_r 2 (Z.of_nat k) 64 ltac:(lia) ltac:(lia) ltac:(lia)). lia. }
  destruct Bm as (B1 & B2 & B3). split; [|split].
  - unfold post. clearbody depth n g. repeat (apply Forall_cons; [cbn [usizes e_div e_sub row_at]; unfold spotted, bit_of, D; cbn; tauto|]). constructor.
  - unfold post. clearbody depth n g. clear. cbn [map layer_conds bit_conds app]. repeat (apply Forall2_cons; [cbn; tauto|]). constructor.
  - intros leaf root. unfold k_system. cbn [k_polynomials k_size k_constraints merkle_layer bind fst snd]. destruct (2 ^ m) as [|m'] eqn:Em in |- * at 1; [lia|]. cbn [repeat]. unfold layer_constraints. rewrite E1, E2, E3, E4. cbn [bind]. rewrite (s_root _ _ _ _ SD k ltac:(lia)). cbn [bind]. rewrite (pow_ZN k), power_spotted. cbn [bind]. rewrite <- Nat.pow_add_r, (s_root _ _ _ _ SD (k + m) HK). cbn [bind].
    unfold from_expressions. rewrite (s_root _ _ _ _ SD (k + m) HK). cbn [bind]. unfold tree_exprs. rewrite (pow_ZN k). reflexivity.
Qed.

Add Field BPfield : (law_field o L).
Lemma leaf_value z T g leaf v : value o z T (leaf_expr g leaf) v -> exists x y d, forall leaf' v', value o z T (leaf_expr g leaf') v' <-> v' = fmul o (fmul o (fsub o leaf' x) (fsub o leaf' y)) d.
Proof using L.
  unfold leaf_expr, on_layer_row, e_div, e_sub, row_at. intros V. inversion V as [| | | | | |? ? u d V1 V2| |]; subst. clear V. inversion V1 as [| | | | | |? ? u1 u2 V3 V4| |]; subst. clear V1. inversion V3 as [| | | |? ? u3 u4 V5 V6| | | |]; subst. inversion V4 as [| | | |? ? u5 u6 V7 V8| | | |]; subst. inversion V6 as [| | | | |? x V9| | |]; subst. inversion V8 as [| | | | |? y V10| | |]; subst.
  clear V3 V4 V5 V7. exists x, y, d. intros leaf' v'.
  assert (V : value o z T (EMul (EMul (EAdd (EConst leaf') (ENeg (ETrace 0 0))) (EAdd (EConst leaf') (ENeg (ETrace 4 0)))) (EInv (EAdd EX (ENeg (EConst (pow_usize o g 0)))))) (fmul o (fmul o (fadd o leaf' (fneg o x)) (fadd o leaf' (fneg o y))) d))
    by (repeat first [apply v_mul|apply v_add|apply v_const|assumption]).
  split; [intros V'; rewrite (value_fun o _ _ _ _ _ V' V); ring|]. intros ->. replace (fmul o (fmul o (fsub o leaf' x) (fsub o leaf' y)) d) with (fmul o (fmul o (fadd o leaf' (fneg o x)) (fadd o leaf' (fneg o y))) d) by ring. exact V.
Qed.
Lemma root_value z T g i root v : value o z T (root_expr g i root) v -> exists x d, forall root' v', value o z T (root_expr g i root') v' <-> v' = fmul o (fsub o root' x) d.
Proof using L.
  unfold root_expr, on_layer_row, e_div, e_sub, row_at. intros V. inversion V as [| | | | | |? ? u d V1 V2| |]; subst. clear V. inversion V1 as [| | | |? ? u3 u4 V5 V6| | | |]; subst. inversion V6 as [| | | | |? x V9| | |]; subst.
  clear V1 V5. exists x, d. intros root' v'.
  assert (V : value o z T (EMul (EAdd (EConst root') (ENeg (ETrace 6 0))) (EInv (EAdd EX (ENeg (EConst (pow_usize o g i)))))) (fmul o (fadd o root' (fneg o x)) d))
    by (repeat first [apply v_mul|apply v_add|apply v_const|assumption]).
  split; [intros V'; rewrite (value_fun o _ _ _ _ _ V' V); ring|]. intros ->. replace (fmul o (fsub o root' x) d) with (fmul o (fadd o root' (fneg o x)) d) by ring. exact V.
Qed.
Lemma weighted_app ws vs : forall ws' vs', length ws' = length vs' -> weighted o (ws' ++ ws) (vs' ++ vs) = fadd o (weighted o ws' vs') (weighted o ws vs).
Proof using L. induction ws' as [|x ws' IH]; intros [|v vs'] H; try discriminate H; cbn [app weighted]; [ring|]. rewrite IH by (cbn in H; lia). ring. Qed.
Lemma balance A B k1 k2 d1 d2 l l' r r' : fadd o A (fadd o (fmul o k1 (fmul o l' d1)) (fadd o (fmul o k2 (fmul o r' d2)) B)) = fadd o A (fadd o (fmul o k1 (fmul o l d1)) (fadd o (fmul o k2 (fmul o r d2)) B)) <->
  fadd o (fmul o (fmul o k1 d1) (fsub o l' l)) (fmul o (fmul o k2 d2) (fsub o r' r)) = f0 o.
Proof using L.
  split; intros E.
  - match type of E with ?a = ?b => transitivity (fsub o a b); [ring|rewrite E; ring] end.
  - match goal with |- ?a = ?b => transitivity (fadd o (fsub o a b) b); [ring|]; transitivity (fadd o (f0 o) b); [|ring]; f_equal; rewrite <- E; ring end.
Qed.
Lemma minus x r r' : fsub o (fsub o r' x) (fsub o r x) = fsub o r' r. Proof using L. ring. Qed.
Lemma flat K a r r' : fadd o (fmul o K (fsub o a a)) (fmul o (f0 o) (fsub o r' r)) = f0 o. Proof using L. ring. Qed.
Lemma solve_root K1 K2 d r : K2 <> f0 o -> exists r', fadd o (fmul o K1 d) (fmul o K2 (fsub o r' r)) = f0 o.
Proof using L. intros N. exists (fsub o r (fmul o (fmul o K1 d) (finv o K2))). field. exact N. Qed.
End System.
Lemma f2_length {A B} (R : A -> B -> Prop) l l' : Forall2 R l l' -> length l = length l'. Proof. intros H. induction H; cbn; lia. Qed.

(** The claims for which an accepted proof of the tree is accepted are the solutions of one equation in the leaf and the root. *)
Theorem C65_pedersen_claims : forall F (o : ops F), lawful o -> forall e M w, sound o e M w -> forall keccak enc dec sort_idx sort_nodes search fuel dbg sx sy points lx ly rx ry k m bits to_uint from_uint,
  k + m <= M -> length lx = 2 ^ k -> length ly = 2 ^ k -> length rx = 2 ^ k -> length ry = 2 ^ k ->
  exists c, merkle_tree o e (APoint sx sy) points lx ly rx ry (2 ^ k) bits to_uint from_uint dbg (2 ^ m) = Some c /\
  let accepts claim proof := k_verify o e keccak enc dec sort_idx sort_nodes search fuel c claim proof = Some (Good tt) in
  forall leaf root proof, accepts (leaf, root) proof ->
  exists K1 K2 x y, forall leaf' root', accepts (leaf', root') proof <->
    fadd o (fmul o K1 (fsub o (fmul o (fsub o leaf' x) (fsub o leaf' y)) (fmul o (fsub o leaf x) (fsub o leaf y)))) (fmul o K2 (fsub o root' root)) = f0 o.
Proof.
  intros F o L e M w SD keccak enc dec sort_idx sort_nodes search fuel dbg sx sy points lx ly rx ry k m bits to_uint from_uint HK L1 L2 L3 L4.
  destruct (tree_system o e M w SD dbg sx sy points lx ly rx ry k m bits to_uint from_uint HK L1 L2 L3 L4) as (c & g & i & post & Ec & Up & Ap & Sys). exists c. split; [exact Ec|]. intros accepts leaf root proof A. unfold accepts, k_verify in *. rewrite Sys in A. cbn [bind] in A.
  set (pre := map (fun i => ETrace (F := F) i 0) (seq 0 8)) in *. assert (U : forall ex, In ex (pre ++ leaf_expr o g leaf :: root_expr o g i root :: post) -> usizes ex).
  { intros ex H. apply in_app_or in H as [H|[<-|[<-|H]]]; [apply in_map_iff in H as (j & <- & _); exact I|cbn; tauto|cbn; tauto|]. rewrite Forall_forall in Up. apply Up, H. }
  destruct (C65_same_proof F o L e keccak enc dec sort_idx sort_nodes search fuel (Constraints (2 ^ (k + m)) 8 (pre ++ leaf_expr o g leaf :: root_expr o g i root :: post) 16 0 45 (default_fri_layout (Z.of_nat (2 ^ (k + m))))) [] proof U A) as (z & T & ws & vs & Lw & V & H). cbn [c_exprs] in *.
  apply Forall2_app_inv_l in V as (vpre & vs0 & Vpre & V & ->). inversion V as [|? vl ? vs1 Vl V1]; subst. inversion V1 as [|? vr ? vpost Vr Vpost]; subst. clear V V1.
  destruct (leaf_value o L z T g leaf vl Vl) as (x & y & d1 & Hl). destruct (root_value o L z T g i root vr Vr) as (x0 & d2 & Hr).
  assert (Lp : length vpre = 8) by (clear - Vpre; apply f2_length in Vpre; rewrite <- Vpre; reflexivity).
  assert (Ew : exists wpre k1 k2 wpost, ws = wpre ++ k1 :: k2 :: wpost /\ length wpre = length vpre).
  { unfold pre in Lw. rewrite app_length, map_length, seq_length in Lw. cbn [length] in Lw. exists (firstn 8 ws). pose proof (firstn_skipn 8 ws) as Es. pose proof (firstn_length 8 ws) as Ef. pose proof (skipn_length 8 ws) as Ek. destruct (skipn 8 ws) as [|k1 [|k2 wpost]]; cbn [length] in Ek; try lia. exists k1, k2, wpost. split; [symmetry; exact Es|lia]. }
  destruct Ew as (wpre & k1 & k2 & wpost & -> & Lwp). exists (fmul o k1 d1), (fmul o k2 d2), x, y. intros leaf' root'. rewrite Sys. cbn [bind]. rewrite H.
  2: { repeat split. cbn [c_exprs]. apply Forall2_app; [repeat constructor|]. constructor; [cbn; tauto|]. constructor; [cbn; tauto|exact Ap]. }
  cbn [c_exprs]. rewrite (weighted_app o L) by assumption. cbn [weighted]. rewrite (proj1 (Hl leaf vl) Vl), (proj1 (Hr root vr) Vr). split.
  - intros (vs' & V' & E). apply Forall2_app_inv_l in V' as (vpre' & vs0 & Vpre' & V' & ->). inversion V' as [|? vl' ? vs1 Vl' V1]; subst. inversion V1 as [|? vr' ? vpost' Vr' Vpost']; subst. clear V' V1.
    assert (Fun : forall l (a b : list F), Forall2 (value o z T) l a -> Forall2 (value o z T) l b -> a = b). { induction l as [|ex l IH]; intros a b Ha Hb; inversion Ha; inversion Hb; subst; [reflexivity|]. f_equal; [eapply (value_fun o); eassumption|apply IH; assumption]. }
    rewrite (Fun _ _ _ Vpre' Vpre), (Fun _ _ _ Vpost' Vpost) in E. rewrite (weighted_app o L) in E by assumption. cbn [weighted] in E. rewrite (proj1 (Hl leaf' vl') Vl'), (proj1 (Hr root' vr') Vr') in E.
    apply (balance o L) in E. rewrite (minus o L) in E. exact E.
  - intros E. eexists (vpre ++ _ :: _ :: vpost). split; [apply Forall2_app; [exact Vpre|]; constructor; [apply Hl; reflexivity|]; constructor; [apply Hr; reflexivity|exact Vpost]|]. rewrite (weighted_app o L) by assumption. cbn [weighted]. apply (balance o L). rewrite (minus o L). exact E.
Qed.
Print Assumptions C65_pedersen_claims.

(** So no accepted proof is a proof of its claim: it is accepted for every leaf, each with a root to it, or for every root. *)
Theorem C65_pedersen_refuted : forall F (o : ops F), lawful o -> forall e M w, sound o e M w -> forall keccak enc dec sort_idx sort_nodes search fuel dbg sx sy points lx ly rx ry k m bits to_uint from_uint,
  k + m <= M -> length lx = 2 ^ k -> length ly = 2 ^ k -> length rx = 2 ^ k -> length ry = 2 ^ k ->
  exists c, merkle_tree o e (APoint sx sy) points lx ly rx ry (2 ^ k) bits to_uint from_uint dbg (2 ^ m) = Some c /\
  let accepts claim proof := k_verify o e keccak enc dec sort_idx sort_nodes search fuel c claim proof = Some (Good tt) in
  (forall leaf root proof, accepts (leaf, root) proof -> (forall leaf', exists root', accepts (leaf', root') proof) \/ (forall root', accepts (leaf, root') proof)) /\
  (forall kseed ktrace solve orders witness proof, k_prove o e keccak enc dec sort_idx sort_nodes search fuel kseed ktrace solve orders c witness = Some (Good proof) ->
   accepts (k_claim c witness) proof /\ exists claim', claim' <> k_claim c witness /\ accepts claim' proof).
Proof.
  intros F o L e M w SD keccak enc dec sort_idx sort_nodes search fuel dbg sx sy points lx ly rx ry k m bits to_uint from_uint HK L1 L2 L3 L4.
  destruct (C65_pedersen_claims F o L e M w SD keccak enc dec sort_idx sort_nodes search fuel dbg sx sy points lx ly rx ry k m bits to_uint from_uint HK L1 L2 L3 L4) as (c & Ec & H). exists c. split; [exact Ec|]. cbv zeta in H |- *.
  assert (Any : forall leaf root proof, k_verify o e keccak enc dec sort_idx sort_nodes search fuel c (leaf, root) proof = Some (Good tt) ->
    (forall leaf', exists root', k_verify o e keccak enc dec sort_idx sort_nodes search fuel c (leaf', root') proof = Some (Good tt)) \/ (forall root', k_verify o e keccak enc dec sort_idx sort_nodes search fuel c (leaf, root') proof = Some (Good tt))).
  { intros leaf root proof A. destruct (H leaf root proof A) as (K1 & K2 & x & y & Iff). destruct (feq_dec o L K2 (f0 o)) as [->|N].
    - right. intros root'. apply Iff. apply (flat o L).
    - left. intros leaf'. destruct (solve_root o L K1 K2 (fsub o (fmul o (fsub o leaf' x) (fsub o leaf' y)) (fmul o (fsub o leaf x) (fsub o leaf y))) root N) as (root' & E). exists root'. apply Iff, E. }
  split; [exact Any|]. intros kseed ktrace solve orders witness proof P. assert (A : k_verify o e keccak enc dec sort_idx sort_nodes search fuel c (k_claim c witness) proof = Some (Good tt)).
  { unfold k_prove in P. unfold k_verify. destruct (trace_table o c witness) as [t|]; [|discriminate P]. cbn [bind] in P. destruct (k_system e c (k_claim c witness)) as [s|]; [|discriminate P]. cbn [bind] in P |- *. eapply C57_returned_verifies, P. }
  split; [exact A|]. destruct (k_claim c witness) as [leaf root]. assert (D : forall x : F, exists x', x' <> x). { intros x. destruct (feq_dec o L x (f0 o)) as [->|N]; [exists (f1 o); apply (f_1_neq_0 o L)|exists (f0 o); congruence]. }
  destruct (Any leaf root proof A) as [B|B].
  - destruct (D leaf) as (leaf' & Nl). destruct (B leaf') as (root' & E). exists (leaf', root'). split; [congruence|exact E].
  - destruct (D root) as (root' & Nr). exists (leaf, root'). split; [congruence|apply B].
Qed.
Print Assumptions C65_pedersen_refuted.
