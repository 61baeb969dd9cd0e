(** C66: the proofs of the claims in the examples are bound to the claim. *)
Require Import Ring Field ZArith NArith Lia Bool List.
From Verif Require Import Word U256Model BinaryModel KnuthModel FieldSig FieldModel FieldInstance FieldAlgModel FieldAlgProofs EncodingModel EncodingProofs Arr FftModel FftSpec PermuteProofs FftProofs StarkBase StarkInstance PolyModel PolyProps TraceModel TraceProps ExprModel ExprSpec ExprProofs ExprProps CheckProps
  ClaimModel ClaimSpec ClaimProofs ClaimProps ExampleProofs ExampleProps HashModel MerkleModel MerkleSpec MerkleProofs MerkleProps ChannelModel ChannelSpec ChannelProps PowModel QueryModel FriModel OodsModel OodsProofs StarkModel StarkSpec StarkProofs StarkProps EncodingSpec AcceptSpec AcceptProps BindSpec BindProps SeedModel SeedSpec.
Import ListNotations.
Open Scope nat_scope.

Section Injective.
Context {F : Type} (enc : F -> u256) (dec : u256 -> option F) (HC : codec enc dec).
Lemma element_length x : length (element_bytes enc x) = 32.
Proof using HC. destruct (HC x) as (W & _). apply (proj1 (to_bytes_be_spec _ W)). Qed.
Lemma element_inj x y : element_bytes enc x = element_bytes enc y -> x = y.
Proof using HC.
  intros E. destruct (HC x) as (Wx & _ & Dx). destruct (HC y) as (Wy & _ & Dy). unfold element_bytes in E. apply (f_equal from_bytes_be) in E. rewrite !from_to_bytes in E by assumption. rewrite E in Dx. congruence.
Qed.
Lemma app_inj {A} (a b c d : list A) : length a = length b -> a ++ c = b ++ d -> a = b /\ c = d.
Proof using. revert b. induction a as [|x a IH]; intros [|y b] H E; try discriminate H; [split; [reflexivity|exact E]|]. cbn [app] in E. injection E as -> E. destruct (IH b ltac:(cbn in H; lia) E) as [-> ->]. split; reflexivity. Qed.
Lemma elements_inj x y a b : element_bytes enc x ++ a = element_bytes enc y ++ b -> x = y /\ a = b.
Proof using HC. intros E. apply app_inj in E as [E1 E2]; [|rewrite !element_length; reflexivity]. split; [apply element_inj, E1|exact E2]. Qed.
Lemma index_inj n m a b : (0 <= n < 2 ^ 64)%Z -> (0 <= m < 2 ^ 64)%Z -> u64_to_be n ++ a = u64_to_be m ++ b -> n = m /\ a = b.
Proof using. intros Hn Hm E. apply app_inj in E as [E1 E2]; [|reflexivity]. split; [|exact E2]. apply (f_equal u64_from_be) in E1. rewrite !nonce_round in E1 by assumption. exact E1. Qed.
End Injective.

(** The channel seed of a claim determines the claim, but for [start_left] of mimc_tree.rs. *)
Theorem C66_seed : forall F (enc : F -> u256) dec, codec enc dec -> forall c c', in_usize c -> in_usize c' -> same_example c c' ->
  claim_seed enc c = claim_seed enc c' -> equal_but_start c c'.
Proof.
  intros F enc dec HC c c' U U' S E. destruct c, c'; cbn [same_example in_usize claim_seed] in *; try contradiction;
    repeat match goal with
    | H : u64_to_be _ ++ _ = u64_to_be _ ++ _ |- _ => apply index_inj in H; [destruct H as [-> H]|assumption|assumption]
    | H : element_bytes _ _ ++ _ = element_bytes _ _ ++ _ |- _ => apply (elements_inj enc dec HC) in H; destruct H as [-> H]
    | H : element_bytes _ _ = element_bytes _ _ |- _ => apply (element_inj enc dec HC) in H; subst
    end; try (left; reflexivity). right. do 4 eexists. split; reflexivity.
Qed.
Print Assumptions C66_seed.

(** So provers and verifiers of different claims start from different states, or the hash function has a collision. *)
Theorem C66_start : forall F (enc : F -> u256) dec, codec enc dec -> forall keccak c c' proof proof', in_usize c -> in_usize c' -> same_example c c' ->
  (prover_new keccak (claim_seed enc c) = prover_new keccak (claim_seed enc c') \/ verifier_new keccak proof (claim_seed enc c) = verifier_new keccak proof' (claim_seed enc c')) ->
  equal_but_start c c' \/ exists x y, x <> y /\ keccak x = keccak y.
Proof.
  intros F enc dec HC keccak c c' proof proof' U U' S E. assert (K : keccak (claim_seed enc c) = keccak (claim_seed enc c')) by (destruct E as [E|E]; [apply (f_equal (fun p => digest (pcoin p))) in E|apply (f_equal (fun v => digest (vcoin v))) in E]; exact E).
  destruct (list_eq_dec Z.eq_dec (claim_seed enc c) (claim_seed enc c')) as [Es|N]; [left; eapply C66_seed; eassumption|right; eauto].
Qed.
Print Assumptions C66_start.

(** The challenges an accepted proof has been checked with are those of a digest of the claim and of the root of the trace,
    which is not the digest of another claim of the example, unless the hash function has a collision. *)
Theorem C66_challenges : forall F (o : ops F), lawful o -> forall e M w, sound o e M w -> forall keccak enc dec sort_idx sort_nodes search fuel,
  (forall y, is_hash (keccak y)) -> codec enc dec -> sorts (fun x => x) sort_idx -> sorts fst sort_nodes -> searches search ->
  forall k b s c proof, well_formed o M k b s -> in_usize c -> Forall (digit 256) proof ->
  verifiable_verify o e keccak enc dec sort_idx sort_nodes search fuel (Some s) (claim_seed enc c) proof = Some (Good tt) ->
  exists args ks ev, accepted o (egen e) w keccak enc dec k b s [] (claim_seed enc c) proof args ks ev /\ firstn 32 proof = trace_root ev /\
  drawn keccak dec (keccak (keccak (claim_seed enc c) ++ firstn 32 proof)) 0 (alphas ev) /\
  forall c', in_usize c' -> same_example c c' -> keccak (keccak (claim_seed enc c) ++ firstn 32 proof) = keccak (keccak (claim_seed enc c') ++ firstn 32 proof) ->
    equal_but_start c c' \/ exists x y, x <> y /\ keccak x = keccak y.
Proof.
  intros F o L e M w SD keccak enc dec sort_idx sort_nodes search fuel Hk HC Si Sn Sr k b s c proof W U D V.
  destruct (C58_acceptance F o L e M w SD keccak enc dec sort_idx sort_nodes search fuel Hk Si Sn Sr (claim_seed enc c) proof k b s [] (wf_rows _ _ _ _ _ W) (wf_blowup _ _ _ _ _ W) (wf_domain _ _ _ _ _ W) (wf_layers _ _ _ _ _ W) (wf_queries _ _ _ _ _ W) (wf_exprs _ _ _ _ _ W) (wf_degree _ _ _ _ _ W) (wf_combine _ _ _ _ _ W) D V) as (args & ks & ev & A).
  assert (R : firstn 32 proof = trace_root ev).
  { rewrite (a_bytes _ _ _ _ _ _ _ _ _ _ _ _ _ _ _ A). unfold after_nonce, after_last, after_layers, after_values, after_constraints, after_trace. cbn [app concat]. rewrite <- !app_assoc. rewrite <- (proj1 (a_roots _ _ _ _ _ _ _ _ _ _ _ _ _ _ _ A)) at 1. rewrite firstn_app, firstn_all, Nat.sub_diag. apply app_nil_r. }
  exists args, ks, ev. split; [exact A|]. split; [exact R|]. rewrite R. split; [apply (a_alphas _ _ _ _ _ _ _ _ _ _ _ _ _ _ _ A)|]. intros c' U' S E.
  destruct (list_eq_dec Z.eq_dec (keccak (claim_seed enc c)) (keccak (claim_seed enc c'))) as [E'|Ne].
  - destruct (list_eq_dec Z.eq_dec (claim_seed enc c) (claim_seed enc c')) as [Es|Ne]; [left; eapply C66_seed; eassumption|right; eauto].
  - right. eexists. eexists. split; [|exact E]. intros Es. apply app_inv_tail in Es. contradiction.
Qed.
Print Assumptions C66_challenges.

(** The seed does not say which example it is for, nor does it contain [start_left]. *)
Theorem C66_seed_deviation : forall F (enc : F -> u256) a b s s',
  claim_seed enc (MimcTree a b s) = claim_seed enc (MimcTree a b s') /\ claim_seed enc (MimcTree a b s) = claim_seed enc (MimcCubic a b) /\ claim_seed enc (MimcCubic a b) = claim_seed enc (MimcQuadratic a b) /\
  claim_seed enc (Constant a) = claim_seed enc (ClaimPolynomial a) /\ forall n, claim_seed enc (SmallFib n a) = claim_seed enc (LargeFib n a).
Proof. intros. repeat split. Qed.
Print Assumptions C66_seed_deviation.

(** Verifiable::verify accepts what Provable::prove returns. *)
Theorem C66_returned : forall F (o : ops F) e keccak enc dec sort_idx sort_nodes search fuel kseed ktrace solve orders constraints seed trace proof,
  provable_prove o e keccak enc dec sort_idx sort_nodes search fuel kseed ktrace solve orders constraints seed trace = Some (Good proof) ->
  verifiable_verify o e keccak enc dec sort_idx sort_nodes search fuel constraints seed proof = Some (Good tt).
Proof.
  intros F o e keccak enc dec sort_idx sort_nodes search fuel kseed ktrace solve orders [c|] seed [t|] proof H; try discriminate H. eapply C57_returned_verifies, H.
Qed.
Print Assumptions C66_returned.

(** ** claim_polynomial.rs: the constraints of the claim itself have the claim polynomial in them *)
Theorem C66_abstract_refuted : forall F (o : ops F) e keccak enc dec sort_idx sort_nodes search fuel value proof c,
  system e 2 1 (claim_poly_exprs o) = Some c -> verifiable_verify o e keccak enc dec sort_idx sort_nodes search fuel (Some c) (claim_seed enc (ClaimPolynomial value)) proof <> Some (Good tt) /\
  forall kseed ktrace solve orders trace, provable_prove o e keccak enc dec sort_idx sort_nodes search fuel kseed ktrace solve orders (Some c) (claim_seed enc (ClaimPolynomial value)) trace <> Some (Good proof).
Proof.
  intros F o e keccak enc dec sort_idx sort_nodes search fuel value proof c Ec.
  assert (V : verifiable_verify o e keccak enc dec sort_idx sort_nodes search fuel (Some c) (claim_seed enc (ClaimPolynomial value)) proof <> Some (Good tt)); [|split; [exact V|intros kseed ktrace solve orders trace P; apply V; eapply C66_returned, P]]. intros V. unfold system, from_expressions in Ec. destruct (eroot e 2) as [[g|]|]; try discriminate Ec. cbn [bind] in Ec. injection Ec as <-.
  unfold verifiable_verify in V. cbn [bind] in V. unfold stark_verify in V. destruct (verify_channel _ _ _ _ _ _ _ _ _ _ _ _) as [[r|]|] eqn:E; try discriminate V. clear V.
  unfold verify_channel in E. cbn [substitute] in E. cbv zeta in E. peel E; match goal with E1 : lift (c_trace_arguments _) _ = _ |- _ => discriminate E1 end.
Qed.
Print Assumptions C66_abstract_refuted.

(** ** mimc_tree.rs *)
Section Tree.
Context {F : Type} (o : ops F) (L : lawful o).
Add Field Ff : (law_field o L).
Definition switched (f : F -> rexpr F) (A D : rexpr F) (s : F) : rexpr F := EMul (EMul (f s) A) D.
Lemma switch_value z T (f : F -> rexpr F) (h : F -> F) A D s v : (forall s v, value o z T (f s) v <-> v = h s) -> value o z T (switched f A D s) v -> exists d, forall s' v', value o z T (switched f A D s') v' <-> v' = fmul o (h s') d.
Proof using L.
  intros Hf V. unfold switched in *. inversion V as [| | | | | |? ? u d V1 V2| |]; subst. inversion V1 as [| | | | | |? ? u1 a V3 V4| |]; subst. exists (fmul o a d). intros s' v'.
  assert (V' : value o z T (EMul (EMul (f s') A) D) (fmul o (fmul o (h s') a) d)) by (apply v_mul; [apply v_mul; [apply Hf; reflexivity|exact V4]|exact V2]).
  split; [intros V5; rewrite (value_fun o _ _ _ _ _ V5 V'); ring|]. intros ->. replace (fmul o (h s') (fmul o a d)) with (fmul o (fmul o (h s') a) d) by ring. exact V'.
Qed.
Lemma const_value z T s v : value o z T (EConst s) v <-> v = s.
Proof using. split; [intros V; inversion V; reflexivity|intros ->; constructor]. Qed.
Lemma sub_one_value z T s v : value o z T (e_sub (EConst s) (EConst (f1 o))) v <-> v = fadd o s (fneg o (f1 o)).
Proof using. unfold e_sub. split; [intros V; inversion V as [| | | |? ? a b V1 V2| | | |]; subst; inversion V1; subst; inversion V2 as [| | | | |? c V3| | |]; subst; inversion V3; subst; reflexivity|intros ->; repeat constructor]. Qed.
Lemma tip a1 a2 a3 a4 a5 a6 v1 v2 v5 v6 s s' d1 d2 :
  let total s := weighted o [a1; a2; a3; a4; a5; a6] [v1; v2; fmul o s d1; fmul o (fadd o s (fneg o (f1 o))) d2; v5; v6] in
  total s' = total s <-> fmul o (fadd o (fmul o a3 d1) (fmul o a4 d2)) (fsub o s' s) = f0 o.
Proof using L.
  cbn [weighted]. split; intros E.
  - match type of E with ?a = ?b => transitivity (fsub o a b); [ring|rewrite E; ring] end.
  - match goal with |- ?a = ?b => transitivity (fadd o (fsub o a b) b); [ring|]; transitivity (fadd o (f0 o) b); [|ring]; f_equal; rewrite <- E; ring end.
Qed.
Lemma minus_self K s : fmul o K (fsub o s s) = f0 o. Proof using L. ring. Qed.
Lemma minus_zero s s' : fsub o s' s = f0 o -> s' = s. Proof using L. intros E. transitivity (fadd o (fsub o s' s) s); [ring|rewrite E; ring]. Qed.
End Tree.

Lemma quot_range a b : (0 <= a < 2 ^ 64)%Z -> (0 <= b)%Z -> (0 <= a / b < 2 ^ 64)%Z.
Proof. intros Ha Hb. destruct (Z.eq_dec b 0) as [->|N]; [rewrite Zdiv_0_r; lia|]. split; [apply Z.div_pos; lia|]. pose proof (Z.div_le_upper_bound a b a ltac:(lia) ltac:(nia)). lia. Qed.

(** The values of [start_left] an accepted proof is accepted for: one or all. *)
Theorem C66_tree_start : forall F (o : ops F), lawful o -> forall e keccak enc dec sort_idx sort_nodes search fuel n l q three coef element root proof,
  (1 <= n < 2 ^ 64)%Z -> (1 <= l < 2 ^ 63)%Z ->
  let accepts s := verifiable_verify o e keccak enc dec sort_idx sort_nodes search fuel (mimc_tree_constraints o e n l q three coef element root s) (claim_seed enc (MimcTree element root s)) proof = Some (Good tt) in
  (forall s, accepts s -> exists K, forall s', accepts s' <-> fmul o K (fsub o s' s) = f0 o) /\
  (forall s, accepts s -> (forall s', accepts s' <-> s' = s) \/ forall s', accepts s').
Proof.
  intros F o L e keccak enc dec sort_idx sort_nodes search fuel n l q three coef element root proof Hn Hl accepts.
  assert (A : forall s, accepts s -> exists K, forall s', accepts s' <-> fmul o K (fsub o s' s) = f0 o).
  { intros s As. unfold accepts, mimc_tree_constraints, root_unwrap in *. destruct (eroot e (Z.to_nat n)) as [[g|]|] eqn:Er; try discriminate As. cbn [bind] in *. destruct (periodic o e n coef) as [kc|] eqn:Ep; [|discriminate As]. cbn [bind] in *.
    unfold system, from_expressions in *. rewrite Er in *. cbn [bind] in *. unfold verifiable_verify in *. cbn [bind claim_seed] in *.
    assert (Hk : exists p x, kc = EPoly p (EExp EX x) /\ p <> [] /\ (0 <= x < 2 ^ 64)%Z).
    { unfold periodic in Ep. destruct (e_ifft o e coef) as [v|]; [|discriminate Ep]. cbn [bind] in Ep. destruct (permute (edbg e) v) as [v'|]; [|discriminate Ep]. cbn [bind] in Ep. destruct (poly_new v') as [p|] eqn:En; [|discriminate Ep]. cbn [bind] in Ep. injection Ep as <-. do 2 eexists. split; [reflexivity|].
      split; [intros ->; unfold poly_new in En; destruct (is_power_of_two (length v')) eqn:Ew; [|discriminate En]; injection En as ->; discriminate Ew|]. apply quot_range; lia. }
    destruct Hk as (p & x & -> & Np & Hx). pose proof (quot_range n l ltac:(lia) ltac:(lia)) as Q1. pose proof (quot_range n (2 * l) ltac:(lia) ltac:(lia)) as Q2.
    assert (U : forall ex, In ex (mimc_tree_exprs o g q three n l (EPoly p (EExp EX x)) element root s) -> usizes ex).
    { unfold mimc_tree_exprs, on_loop_rows, on_loop_start_rows, on_row, e_div, e_sub. intros ex H. cbn [In] in H. repeat (destruct H as [<-|H]; [cbn [usizes]; intuition lia|]). destruct H. }
    destruct (C65_same_proof F o L e keccak enc dec sort_idx sort_nodes search fuel (Constraints (Z.to_nat n) 2 (mimc_tree_exprs o g q three n l (EPoly p (EExp EX x)) element root s) 16 0 45 (default_fri_layout (Z.of_nat (Z.to_nat n)))) _ proof U As) as (z & T & ws & vs & Lw & V & H). cbn [c_exprs mimc_tree_exprs length] in Lw, V.
    inversion V as [|? v1 ? r1 V1 R1]; subst. inversion R1 as [|? v2 ? r2 V2 R2]; subst. inversion R2 as [|? v3 ? r3 V3 R3]; subst. inversion R3 as [|? v4 ? r4 V4 R4]; subst. inversion R4 as [|? v5 ? r5 V5 R5]; subst. inversion R5 as [|? v6 ? r6 V6 R6]; subst. inversion R6; subst. clear R1 R2 R3 R4 R5 R6 V.
    destruct ws as [|a1 [|a2 [|a3 [|a4 [|a5 [|a6 [|a7 ws]]]]]]]; try discriminate Lw.
    destruct (switch_value o L z T (fun s => EConst s) (fun s => s) _ _ s v3 (const_value o z T) V3) as (d1 & H3).
    destruct (switch_value o L z T (fun s => e_sub (EConst s) (EConst (f1 o))) (fun s => fadd o s (fneg o (f1 o))) _ _ s v4 (sub_one_value o z T) V4) as (d2 & H4).
    exists (fadd o (fmul o a3 d1) (fmul o a4 d2)). intros s'. rewrite <- (tip o L a1 a2 a3 a4 a5 a6 v1 v2 v5 v6 s s' d1 d2). rewrite H.
    2: { unfold alike_systems. cbn [c_nrows c_ncolumns c_blowup c_pow_bits c_queries c_fri c_exprs]. repeat (split; [reflexivity|]). unfold mimc_tree_exprs, on_loop_rows, on_loop_start_rows, on_row, e_div, e_sub. repeat (constructor; [cbn; tauto|]). constructor. }
    cbv zeta. cbn [c_exprs mimc_tree_exprs]. apply H3 in V3. apply H4 in V4. subst v3 v4. split.
    - intros (vs' & V' & E). inversion V' as [|? u1 ? r1 U1 R1]; subst. inversion R1 as [|? u2 ? r2 U2 R2]; subst. inversion R2 as [|? u3 ? r3 U3 R3]; subst. inversion R3 as [|? u4 ? r4 U4 R4]; subst. inversion R4 as [|? u5 ? r5 U5 R5]; subst. inversion R5 as [|? u6 ? r6 U6 R6]; subst. inversion R6; subst. clear R1 R2 R3 R4 R5 R6 V'.
      apply H3 in U3. apply H4 in U4. subst u3 u4. rewrite (value_fun o _ _ _ _ _ U1 V1), (value_fun o _ _ _ _ _ U2 V2), (value_fun o _ _ _ _ _ U5 V5), (value_fun o _ _ _ _ _ U6 V6) in E. exact E.
    - intros E. eexists. split; [|exact E]. constructor; [exact V1|]. constructor; [exact V2|]. constructor; [apply H3; reflexivity|]. constructor; [apply H4; reflexivity|]. constructor; [exact V5|]. constructor; [exact V6|]. constructor. }
  split; [exact A|]. intros s As. destruct (A s As) as (K & H). destruct (feq_dec o L K (f0 o)) as [->|N]; [right; intros s'; apply H, (fmul_0_iff o L); left; reflexivity|left]. intros s'. rewrite H. split; [|intros ->; apply (minus_self o L)].
  intros E. apply (fmul_0_iff o L) in E as [E|E]; [contradiction|]. apply (minus_zero o L), E.
Qed.
Print Assumptions C66_tree_start.

(** Non-vacuity: the field modulo 97 with the representation of the crate; two claims that differ in the order of their values. *)
Example C66_ex : codec (@raw tiny_field) toy_dec /\ claim_seed (@raw tiny_field) (MimcHash (tiny 1) (tiny 2) (tiny 3)) <> claim_seed (@raw tiny_field) (MimcHash (tiny 2) (tiny 1) (tiny 3)) /\
  length (claim_seed (@raw tiny_field) (PedersenMerkle 4 (tiny 1) (tiny 2))) = 72 /\
  system tiny_engine 2 1 (claim_poly_exprs tiny_ops) <> None /\ mimc_tree_constraints tiny_ops tiny_engine 2 1 (tiny 7) (tiny 3) [tiny 10] (tiny 4) (tiny 4) (tiny 1) <> None.
Proof.
  split; [destruct toy_environment; assumption|]. split; [|split; [|split]].
  - intros E. destruct (C66_seed _ _ toy_dec (env_codec _ _ _ _ _ _ _ _ toy_environment) (MimcHash (tiny 1) (tiny 2) (tiny 3)) (MimcHash (tiny 2) (tiny 1) (tiny 3)) I I I E) as [H|(a & b & s & s' & H & _)]; [|discriminate H].
    apply (f_equal (fun c => match c with MimcHash x _ _ => fe_val x | _ => 0%Z end)) in H. vm_compute in H. discriminate H.
  - vm_compute. reflexivity.
  - intros H. apply (f_equal (fun s => match s with Some _ => true | None => false end)) in H. vm_compute in H. discriminate H.
  - intros H. apply (f_equal (fun s => match s with Some _ => true | None => false end)) in H. vm_compute in H. discriminate H.
Qed.
(** The system of C57_ex with the seed of the claim Constant(4). *)
Definition good_bytes (r : option (StarkModel.result perror (list Z))) : bool := match r with Some (Good p) => forallb (fun x => (0 <=? x)%Z && (x <? 256)%Z) p | _ => false end.
Lemma good_bytes_inv r : good_bytes r = true -> exists p, r = Some (Good p) /\ Forall (digit 256) p.
Proof. destruct r as [[p|]|]; try discriminate. cbn [good_bytes]. intros H. exists p. split; [reflexivity|]. rewrite forallb_forall in H. apply Forall_forall. intros x Hx. specialize (H x Hx). apply andb_prop in H as [H1 H2]. apply Z.leb_le in H1. apply Z.ltb_lt in H2. split; assumption. Qed.
Example C66_challenges_ex : well_formed tiny_ops 5 2 1 toy_c /\ exists proof, Forall (digit 256) proof /\
  provable_prove tiny_ops tiny_engine toy_hash (@raw tiny_field) toy_dec (isort (fun x => x)) (isort fst) toy_search 64 toy_seed toy_cells toy_solve toy_orders (Some toy_c) (claim_seed (@raw tiny_field) (Constant (tiny 4))) (Some toy_table) = Some (Good proof) /\
  verifiable_verify tiny_ops tiny_engine toy_hash (@raw tiny_field) toy_dec (isort (fun x => x)) (isort fst) toy_search 64 (Some toy_c) (claim_seed (@raw tiny_field) (Constant (tiny 4))) proof = Some (Good tt).
Proof.
  split.
  - constructor; [reflexivity|reflexivity|lia|cbn; lia|cbn [toy_c c_queries]; lia| | |apply toy_combines].
    + intros ex [<-|[]]. split; [apply toy_usizes|]. intros i j H. unfold toy_squares, toy_numerator, e_sub in H. cbn [refers] in H. intuition lia.
    + intros D. assert (T : c_degree tiny_ops true toy_c = Some 2%Z) by (vm_compute; reflexivity). rewrite T. intros [= <-]. lia.
  - assert (G : good_bytes (provable_prove tiny_ops tiny_engine toy_hash (@raw tiny_field) toy_dec (isort (fun x => x)) (isort fst) toy_search 64 toy_seed toy_cells toy_solve toy_orders (Some toy_c) (claim_seed (@raw tiny_field) (Constant (tiny 4))) (Some toy_table)) = true) by (vm_compute; reflexivity).
    destruct (good_bytes_inv _ G) as (p & E & D). exists p. split; [exact D|]. split; [exact E|]. eapply C66_returned, E.
Qed.
