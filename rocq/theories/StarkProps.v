(** The whole protocol: prover.rs [prove] and verifier.rs [verify]. *)
Require Import ZArith Lia Bool List Sorted Permutation.
From Verif Require Import Word U256Model U256Spec U256Proofs BinaryModel KnuthModel FieldSig FieldModel FieldInstance FieldAlgModel Arr FftModel StarkBase StarkInstance PolyModel TraceModel TraceProps ExprModel ExprSpec ExprProps CheckProps
  HashModel MerkleModel MerkleSpec MerkleProofs ChannelModel ChannelSpec ChannelProps PowModel PowProps QueryModel FriModel OodsModel OodsProofs OodsProps OodsSatProps DagModel DagSpec DagProps
  StarkModel StarkSpec StarkProofs StarkMain StarkRead MerkleProps.
Import ListNotations.
Open Scope nat_scope.

(** A verifier that accepts has read the proof to its end: after any other bytes it stops with the error ProofTooLong,
    and without any of its last bytes it panics. This is so for every proof it accepts, whoever made it. *)
Theorem C55_trailing : forall F (o : ops F) e keccak enc dec sort_idx sort_nodes search fuel c claims seed proof extra,
  stark_verify o e keccak enc dec sort_idx sort_nodes search fuel c claims seed proof = Some (Good tt) -> extra <> [] ->
  stark_verify o e keccak enc dec sort_idx sort_nodes search fuel c claims seed (proof ++ extra) = Some (Bad ProofTooLong).
Proof.
  intros F o e keccak enc dec sort_idx sort_nodes search fuel c claims seed proof extra H N. unfold stark_verify, verifier_new in *.
  destruct (verify_channel o e keccak enc dec sort_idx sort_nodes search fuel c claims (Verifier (coin_seed keccak coin_default seed) proof 0)) as [[[[] v']|err]|] eqn:E; try discriminate H.
  destruct (verify_reads_all o e keccak enc dec sort_idx sort_nodes search fuel c claims _ [] proof v' E) as [H1 _]. specialize (H1 extra N). cbn [app length] in H1. rewrite H1. reflexivity.
Qed.
Print Assumptions C55_trailing.
Theorem C55_truncated : forall F (o : ops F) e keccak enc dec sort_idx sort_nodes search fuel c claims seed proof cut,
  stark_verify o e keccak enc dec sort_idx sort_nodes search fuel c claims seed (proof ++ cut) = Some (Good tt) -> cut <> [] ->
  stark_verify o e keccak enc dec sort_idx sort_nodes search fuel c claims seed proof = None.
Proof.
  intros F o e keccak enc dec sort_idx sort_nodes search fuel c claims seed proof cut H N. unfold stark_verify, verifier_new in *.
  destruct (verify_channel o e keccak enc dec sort_idx sort_nodes search fuel c claims (Verifier (coin_seed keccak coin_default seed) (proof ++ cut) 0)) as [[[[] v']|err]|] eqn:E; try discriminate H.
  destruct (verify_reads_all o e keccak enc dec sort_idx sort_nodes search fuel c claims _ [] (proof ++ cut) v' E) as [_ H1]. specialize (H1 proof cut eq_refl N). cbn [app length] in H1. rewrite H1. reflexivity.
Qed.
Print Assumptions C55_truncated.

(** Whatever the table, true or not, and whatever the claim polynomials: a proof that [prove] returns is one that
    [verify] accepts (so that everything in C58 holds of it). *)
Theorem C57_returned_verifies : forall F (o : ops F) e keccak enc dec sort_idx sort_nodes search fuel kseed ktrace solve orders c claims seed t proof,
  stark_prove o e keccak enc dec sort_idx sort_nodes search fuel kseed ktrace solve orders c claims seed t = Some (Good proof) ->
  stark_verify o e keccak enc dec sort_idx sort_nodes search fuel c claims seed proof = Some (Good tt).
Proof.
  intros F o e keccak enc dec sort_idx sort_nodes search fuel kseed ktrace solve orders c claims seed t proof. unfold stark_prove.
  destruct (transcript _ _ _ _ _ _ _ _ _ _ _ _ _ _ _ _) as [[[p g]|err]|]; try discriminate.
  destruct (stark_verify _ _ _ _ _ _ _ _ _ _ _ _ p) as [[[]|err]|] eqn:V; try discriminate. intros H. assert (p = proof) by congruence. subst p. exact V.
Qed.
Print Assumptions C57_returned_verifies.

(** Completeness. The proof that the prover writes for a table that satisfies the constraints, with the claim
    polynomials put in, is accepted by the verifier, and so it is what [prove] returns: for every field, every engine,
    all parameters, every table, all claim polynomials, every order of the parallel loops and in both build profiles,
    provided the coefficients [cs] and the sample point [z] that were drawn do not fall on the exceptions in
    StarkSpec. *)
Theorem C57_completeness_claims : forall F (o : ops F), lawful o -> forall e M w, sound o e M w ->
  forall keccak enc dec sort_idx sort_nodes search solve orders, environment keccak enc dec sort_idx sort_nodes search solve orders ->
  forall fuel kseed ktrace k b a t claims c seed proof cs z, proves_with o e M w k b a t claims c ->
  transcript o e keccak enc dec sort_idx search fuel kseed ktrace solve orders c claims seed t = Some (Good (proof, (cs, z))) ->
  good_with o e w kseed ktrace k a t claims c cs -> good_sample o e w k b a z ->
  stark_verify o e keccak enc dec sort_idx sort_nodes search fuel c claims seed proof = Some (Good tt) /\
  stark_prove o e keccak enc dec sort_idx sort_nodes search fuel kseed ktrace solve orders c claims seed t = Some (Good proof).
Proof.
  intros F o L e M w SD keccak enc dec sort_idx sort_nodes search solve orders [Hk Hcodec Si Sn Sr Hs Ho] fuel kseed ktrace k b a t claims c seed proof cs z HP HT HC HZ.
  assert (V : stark_verify o e keccak enc dec sort_idx sort_nodes search fuel c claims seed proof = Some (Good tt)).
  { unfold transcript in HT. destruct (prove_channel o e keccak enc dec sort_idx search fuel kseed ktrace solve orders c claims t (prover_new keccak seed)) as [[[[cs' z'] pf]|err]|] eqn:E; try discriminate HT. injection HT as <- -> ->.
    destruct (honest o L e M w SD keccak enc dec fuel sort_idx sort_nodes search kseed ktrace solve orders Hcodec Hk Si Sn Sr Hs Ho k b a t claims c _ _ cs z HP E HC HZ) as (data & Ed & H & _).
    cbn [prover_new pproof app] in Ed. unfold stark_verify, verifier_new. destruct (H (Verifier (coin_seed keccak coin_default seed) (pproof pf) 0)) as (v' & Ev).
    - unfold sync, prover_new. cbn [vcoin pcoin vproof pproof proof_index app length]. rewrite Ed. auto.
    - rewrite Ev. reflexivity. }
  split; [exact V|]. unfold stark_prove. rewrite HT, V. reflexivity.
Qed.
Print Assumptions C57_completeness_claims.
(** Without claim polynomials the conditions are simpler. *)
Theorem C57_no_claims : forall F (o : ops F), lawful o -> forall e M w, sound o e M w -> forall k b a t c, proves o e M w k b a t c ->
  proves_with o e M w k b a t [] c /\ forall kseed ktrace cs, good_coefficients o e w kseed ktrace k a t c cs <-> good_with o e w kseed ktrace k a t [] c cs.
Proof. intros F o L e M w SD k b a t c HP. split; [apply (proves_none o L e M w SD), HP|]. intros kseed ktrace cs. apply (good_none o L e M w SD kseed ktrace k b a t c cs HP). Qed.
Print Assumptions C57_no_claims.
Theorem C57_completeness : forall F (o : ops F), lawful o -> forall e M w, sound o e M w ->
  forall keccak enc dec sort_idx sort_nodes search solve orders, environment keccak enc dec sort_idx sort_nodes search solve orders ->
  forall fuel kseed ktrace k b a t c seed proof cs z, proves o e M w k b a t c ->
  transcript o e keccak enc dec sort_idx search fuel kseed ktrace solve orders c [] seed t = Some (Good (proof, (cs, z))) ->
  good_coefficients o e w kseed ktrace k a t c cs -> good_sample o e w k b a z ->
  stark_verify o e keccak enc dec sort_idx sort_nodes search fuel c [] seed proof = Some (Good tt) /\
  stark_prove o e keccak enc dec sort_idx sort_nodes search fuel kseed ktrace solve orders c [] seed t = Some (Good proof).
Proof.
  intros F o L e M w SD keccak enc dec sort_idx sort_nodes search solve orders HE fuel kseed ktrace k b a t c seed proof cs z HP HT HC HZ. destruct (C57_no_claims F o L e M w SD k b a t c HP) as [HW HG].
  apply (C57_completeness_claims F o L e M w SD keccak enc dec sort_idx sort_nodes search solve orders HE fuel kseed ktrace k b a t [] c seed proof cs z HW HT (proj1 (HG kseed ktrace cs) HC) HZ).
Qed.
Print Assumptions C57_completeness.

(** Non-vacuity: the table 3, 9, 81, 62 modulo 97 with the constraint that the square of every cell but the last is the
    next one, blowup 2, two queries, two FRI layers; the hash function is a toy. The prover writes 808 bytes. *)
Definition toy_hash (l : list Z) : list Z :=
  let s := fold_left (fun a b => (a * 31 + b + 12345) mod 65521)%Z l 7%Z in
  map (fun i => (((s + 17 * Z.of_nat i) * (s + 31 * Z.of_nat i + 5) mod 10007) / 3 mod 256)%Z) (seq 0 32).
Definition toy_dec (x : u256) : option (fe tiny_field) :=
  match bool_dec (canon tiny_field x) true with left H => Some (exist _ x H) | right _ => Some (tiny (val x)) end.
Fixpoint toy_search (l : list Z) (n : Z) : option nat := match l with [] => None | x :: l => if (x =? n)%Z then Some 0 else option_map S (toy_search l n) end.
Definition toy_solve := solve_single toy_hash 1000.
Definition toy_orders (_ : list (list (fe tiny_field))) : nat -> list nat := ex_orders.
Lemma toy_environment : environment toy_hash (@raw tiny_field) toy_dec (isort (fun x => x)) (isort fst) toy_search toy_solve toy_orders.
Proof.
  constructor.
  - intros x. split; [unfold toy_hash; rewrite map_length, seq_length; reflexivity|]. apply Forall_forall. intros y Hy. apply in_map_iff in Hy as (i & <- & _). apply Z.mod_pos_bound. lia.
  - intros x. pose proof (proj1 (canon_iff tiny_good (raw x)) (proj2_sig x)) as [H1 H2]. split; [exact H1|]. split; [eapply Z.lt_trans; [apply H2|vm_compute; reflexivity]|].
    unfold toy_dec. destruct (bool_dec (canon tiny_field (raw x)) true) as [H|H]; [|exfalso; apply H, (proj2_sig x)]. apply (f_equal Some). apply fe_eq. reflexivity.
  - apply isort_sorts.
  - apply isort_sorts.
  - intros l n _. induction l as [|x l IH]; cbn [toy_search]; [intros []|]. destruct (Z.eqb_spec x n) as [->|N]; [reflexivity|]. destruct (toy_search l n) as [i|]; cbn [option_map nth_error]; [exact IH|]. intros [H|H]; [exact (N H)|exact (IH H)].
  - intros c nonce. unfold toy_solve, solve_single. assert (G : forall fuel n, (0 <= n)%Z -> solve_from toy_hash fuel c n = Some nonce -> (0 <= nonce < 2 ^ 64)%Z /\ pow_verify toy_hash c nonce = true).
    { induction fuel as [|fuel IH]; intros n Hn; cbn [solve_from]; [discriminate|]. destruct (Z.ltb_spec n U64_MAX) as [Hl|]; [|discriminate]. destruct (pow_verify toy_hash c n) eqn:V; [intros [= <-]; split; [|exact V]; unfold U64_MAX in Hl; change (2 ^ 64)%Z with B; lia|apply IH; lia]. }
    apply G. lia.
  - intros leaves D. apply ex_schedules.
Qed.
Definition toy_numerator : rexpr (fe tiny_field) := EMul (e_sub (ETrace 0 1) (EExp (ETrace 0 0) 2)) (e_sub EX (EConst (fpw tiny_ops (fe_w tiny_good 2) 3))).
Definition toy_squares : rexpr (fe tiny_field) := EMul toy_numerator (EInv (e_sub (EExp EX 4) (EConst (f1 tiny_ops)))).
Definition toy_c := Constraints 4 1 [toy_squares] 2 1 2 [1; 1].
Definition toy_table : table (fe tiny_field) := Table 4 1 (map tiny [3; 9; 81; 62]%Z).
Definition toy_seed (_ : fe tiny_field) (_ : nat) : fe tiny_field := tiny 11.
Definition toy_cells (_ : fe tiny_field) (_ : nat) (j : Z) : fe tiny_field := if (j =? 0)%Z then tiny 51 else tiny 31.
Notation toy_transcript := (transcript tiny_ops tiny_engine toy_hash (@raw tiny_field) toy_dec (isort (fun x => x)) toy_search 64 toy_seed toy_cells toy_solve toy_orders toy_c [] [1; 2; 3]%Z toy_table).
Definition toy_combined lo hi : rexpr (fe tiny_field) := EMul (EAdd (EConst lo) (EMul (EConst hi) (EExp EX 4))) toy_squares.
Definition toy_parts : list (rexpr (fe tiny_field)) :=
  EConst (f0 tiny_ops) :: EConst (f1 tiny_ops) :: EX :: toy_combined (tiny 95) (tiny 6) :: EAdd (EConst (tiny 95)) (EMul (EConst (tiny 6)) (EExp EX 4)) :: EConst (tiny 95) :: EMul (EConst (tiny 6)) (EExp EX 4) :: EConst (tiny 6) :: EExp EX 4 ::
  toy_squares :: toy_numerator :: e_sub (ETrace 0 1) (EExp (ETrace 0 0) 2) :: ETrace 0 1 :: ENeg (EExp (ETrace 0 0) 2) :: EExp (ETrace 0 0) 2 :: ETrace 0 0 ::
  e_sub EX (EConst (fpw tiny_ops (fe_w tiny_good 2) 3)) :: ENeg (EConst (fpw tiny_ops (fe_w tiny_good 2) 3)) :: EConst (fpw tiny_ops (fe_w tiny_good 2) 3) ::
  EInv (e_sub (EExp EX 4) (EConst (f1 tiny_ops))) :: e_sub (EExp EX 4) (EConst (f1 tiny_ops)) :: ENeg (EConst (f1 tiny_ops)) :: nil.
Lemma toy_usizes : usizes toy_squares.
Proof. unfold toy_squares, toy_numerator, e_sub. cbn [usizes]. intuition lia. Qed.
Lemma toy_proves : proves tiny_ops tiny_engine 5 (fe_w tiny_good) 2 1 1 toy_table toy_c.
Proof.
  constructor.
  - lia.
  - split; [reflexivity|]. split; [reflexivity|]. cbn. lia.
  - split; reflexivity.
  - split; [reflexivity|lia].
  - exists 2%Z. split; [vm_compute; reflexivity|]. split; [cbn; lia|]. intros [|a'] H; [cbn in H; lia|lia].
  - intros ex [<-|[]]. split; [apply toy_usizes|]. assert (R : forall i j, refers toy_squares i j -> i = 0 /\ (0 <= j <= 1)%Z) by (intros i j H; unfold toy_squares, toy_numerator, e_sub in H; cbn [refers] in H; intuition lia).
    split; [intros i j H; destruct (R i j H) as [-> Hj]; cbn [toy_table t_cols t_rows]; lia|]. split; [intros i j H; destruct (R i j H); lia|].
    intros tp _. exists (seq 0 4). apply (proj1 (C54_selects _ tiny_ops tiny_lawful tiny_engine 5 (fe_w tiny_good) tiny_sound 2 tp toy_squares (EConst (f1 tiny_ops)) (f1 tiny_ops) 0 ltac:(lia) ltac:(repeat constructor) (or_introl eq_refl)) 2); [lia|cbn; lia|reflexivity|reflexivity].
  - vm_compute; reflexivity.
  - split; [discriminate|]. split; [repeat constructor|cbn; lia].
  - cbn [toy_c c_queries]. lia.
  - intros H. apply (f_equal fe_val) in H. revert H. vm_compute. discriminate.
Qed.
Lemma toy_coefficients : good_coefficients tiny_ops tiny_engine (fe_w tiny_good) toy_seed toy_cells 2 1 toy_table toy_c [tiny 95; tiny 6].
Proof.
  exists (toy_combined (tiny 95) (tiny 6)). split.
  - unfold combine. cbn [toy_c c_exprs length Nat.mul Nat.add Nat.eqb].
    assert (T : target_degree tiny_ops true toy_c = Some 7%Z) by (vm_compute; reflexivity). rewrite T. cbn [bind tuples List.combine map option_all]. unfold combine_term.
    assert (A : adjustment_degree tiny_ops true (c_nrows toy_c) 7 toy_squares = Some 4%Z) by (vm_compute; reflexivity). rewrite A. reflexivity.
  - assert (U : usizes (toy_combined (tiny 95) (tiny 6))) by (unfold toy_combined; cbn [usizes]; pose proof toy_usizes; intuition lia).
    cbv zeta. change (toy_seed (egen tiny_engine) (2 ^ (2 + 1))) with (tiny 11). split.
    + apply (random_some tiny_ops tiny_lawful); [exact U|]. vm_compute; reflexivity.
    + intros tp ct _ _. apply (distinct_ok tiny_ops tiny_lawful fe_val toy_parts); [exact U| |].
      * unfold toy_parts, toy_combined, toy_squares, toy_numerator, e_sub. cbn [subexpressions app]. intros x H. repeat (destruct H as [<-|H]; [cbn [In]; repeat ((left; match goal with |- ?y = ?y => exact (eq_refl y) end) || right)|]). destruct H.
      * vm_compute. repeat constructor; cbn [In]; intuition discriminate.
Qed.
Lemma toy_sample_check (z h : fe tiny_field) (w2 w3 : fe tiny_field) :
  forallb (fun r => negb (fe_val z =? fe_val (fpw tiny_ops w2 r))%Z) (seq 0 4) = true ->
  forallb (fun i => let x := fe_val (fmul tiny_ops h (fpw tiny_ops w3 i)) in negb (x =? fe_val (fpw tiny_ops z 2))%Z && forallb (fun r => negb (x =? fe_val (fmul tiny_ops (fpw tiny_ops w2 r) z))%Z) (seq 0 4)) (seq 0 8) = true ->
  (forall r, r < 4 -> z <> fpw tiny_ops w2 r) /\
  forall i, i < 8 -> let x := fmul tiny_ops h (fpw tiny_ops w3 i) in x <> fpw tiny_ops z 2 /\ forall r, r < 4 -> x <> fmul tiny_ops (fpw tiny_ops w2 r) z.
Proof.
  intros H1 H2. rewrite forallb_forall in H1, H2. split.
  - intros r Hr E. specialize (H1 r ltac:(apply in_seq; lia)). rewrite E, Z.eqb_refl in H1. discriminate H1.
  - intros i Hi. cbv zeta. specialize (H2 i ltac:(apply in_seq; lia)). cbv zeta in H2. apply andb_prop in H2 as [H2 H3]. rewrite forallb_forall in H3. split.
    + intros E. rewrite E, Z.eqb_refl in H2. discriminate H2.
    + intros r Hr E. specialize (H3 r ltac:(apply in_seq; lia)). rewrite E, Z.eqb_refl in H3. discriminate H3.
Qed.
Lemma toy_roots : fe_w tiny_good 2 = tiny 22 /\ fe_w tiny_good 3 = tiny 64 /\ egen tiny_engine = tiny 5.
Proof. split; [|split]; apply (fe_val_inj tiny_good); vm_compute; reflexivity. Qed.
Lemma toy_sample : good_sample tiny_ops tiny_engine (fe_w tiny_good) 2 1 1 (tiny 16).
Proof.
  assert (G : forall h w2 w3 z, (forall w, w 2 = w2 -> w 3 = w3 -> h = egen tiny_engine -> ((forall r, r < 4 -> z <> fpw tiny_ops w2 r) /\
    forall i, i < 8 -> let x := fmul tiny_ops h (fpw tiny_ops w3 i) in x <> fpw tiny_ops z 2 /\ forall r, r < 4 -> x <> fmul tiny_ops (fpw tiny_ops w2 r) z) -> good_sample tiny_ops tiny_engine w 2 1 1 z)) by (intros h w2 w3 z w <- <- ->; exact (fun H => H)).
  destruct toy_roots as (R2 & R3 & R). apply (G (tiny 5) (tiny 22) (tiny 64) (tiny 16) (fe_w tiny_good) R2 R3 (eq_sym R)). apply (toy_sample_check (tiny 16) (tiny 5) (tiny 22) (tiny 64)); vm_compute; reflexivity.
Qed.
Definition toy_summary (r : option (StarkModel.result perror (list Z * (list (fe tiny_field) * fe tiny_field)))) := match r with Some (Good (p, (cs, z))) => if forallb (fun x => (0 <=? x)%Z && (x <? 256)%Z) p then Some (length p, map fe_val cs, fe_val z) else None | _ => None end.
Lemma toy_summary_inv r n c1 c2 z : toy_summary r = Some (n, [fe_val c1; fe_val c2], fe_val z) -> exists proof, length proof = n /\ Forall (fun x => 0 <= x < 256)%Z proof /\ r = Some (Good (proof, ([c1; c2], z))).
Proof.
  unfold toy_summary. destruct r as [[[p [cs z']]|err]|]; try discriminate. destruct (forallb _ p) eqn:Hb; [|discriminate]. rewrite forallb_forall in Hb. intros S. assert (S1 : length p = n /\ map fe_val cs = [fe_val c1; fe_val c2] /\ fe_val z' = fe_val z) by (split; [|split]; congruence). destruct S1 as (S1 & S2 & S3).
  apply (fe_val_inj tiny_good) in S3. destruct cs as [|c1' [|c2' [|c3 cs]]]; try discriminate S2. cbn [map] in S2. assert (S4 : fe_val c1' = fe_val c1 /\ fe_val c2' = fe_val c2) by (split; congruence). destruct S4 as [S4 S5]. apply (fe_val_inj tiny_good) in S4, S5. subst. exists p. split; [reflexivity|]. split; [|reflexivity]. apply Forall_forall. intros x Hx. specialize (Hb x Hx). apply andb_prop in Hb as [H1 H2]. apply Z.leb_le in H1. apply Z.ltb_lt in H2. lia.
Qed.
Example C57_ex : toy_summary toy_transcript = Some (808, [95; 6]%Z, 16%Z) /\
  exists proof, length proof = 808 /\ Forall (fun x => 0 <= x < 256)%Z proof /\ toy_transcript = Some (Good (proof, ([tiny 95; tiny 6], tiny 16))) /\
  stark_verify tiny_ops tiny_engine toy_hash (@raw tiny_field) toy_dec (isort (fun x => x)) (isort fst) toy_search 64 toy_c [] [1; 2; 3]%Z proof = Some (Good tt) /\
  stark_verify tiny_ops tiny_engine toy_hash (@raw tiny_field) toy_dec (isort (fun x => x)) (isort fst) toy_search 64 toy_c [] [1; 2; 3]%Z (proof ++ [0%Z]) = Some (Bad ProofTooLong).
Proof.
  assert (S : toy_summary toy_transcript = Some (808, [95; 6]%Z, 16%Z)) by (vm_compute; reflexivity). split; [exact S|].
  assert (C : fe_val (tiny 95) = 95%Z /\ fe_val (tiny 6) = 6%Z /\ fe_val (tiny 16) = 16%Z) by (vm_compute; split; [|split]; reflexivity). destruct C as (C1 & C2 & C3).
  rewrite <- C1, <- C2, <- C3 in S. destruct (toy_summary_inv _ _ _ _ _ S) as (p & Lp & Bp & E). exists p. split; [exact Lp|]. split; [exact Bp|]. split; [exact E|].
  destruct (C57_completeness _ tiny_ops tiny_lawful tiny_engine 5 (fe_w tiny_good) tiny_sound _ _ _ _ _ _ _ _ toy_environment
    64 toy_seed toy_cells 2 1 1 toy_table toy_c [1; 2; 3]%Z p [tiny 95; tiny 6] (tiny 16) toy_proves E toy_coefficients toy_sample) as [V _].
  split; [exact V|]. eapply C55_trailing; [exact V|discriminate].
Qed.
