(** The prover returns a proof and the verifier accepts it: prover.rs [prove], verifier.rs [verify]. *)
Require Import ZArith Lia Bool List Sorted Permutation.
From Verif Require Import Word U256Model U256Spec U256Proofs BinaryModel BinaryProofs EncodingSpec EncodingProofs KnuthModel FieldSig FieldModel FieldInstance FieldAlgModel Arr FftModel StarkBase StarkInstance PolyModel TraceModel TraceProps ExprModel ExprSpec ExprProps CheckProps
  HashModel MerkleModel MerkleSpec MerkleProofs ChannelModel ChannelSpec ChannelProps PowModel PowProps QueryModel FriModel OodsModel OodsProofs OodsProps OodsSatProps DagModel DagSpec DagProps
  StarkModel StarkSpec StarkProofs StarkMain StarkRead MerkleProps StarkProps StarkTotalSpec StarkTotal.
Import ListNotations.
Open Scope nat_scope.

(** For a table that satisfies the constraints, with the claim polynomials put in, the prover neither panics nor returns an error before it checks its own
    proof: it writes a proof. If moreover the sample point it drew is not one of the exceptions, the verifier accepts
    the proof and [prove] returns it. It is assumed that the loop that draws field elements ends, that the proof of
    work can be solved, and that the coefficients drawn after the seed and the root of the trace are no exceptions. *)
Theorem C57_prover_total : forall F (o : ops F), lawful o -> forall e M w, sound o e M w ->
  forall keccak enc dec sort_idx sort_nodes search solve orders, environment keccak enc dec sort_idx sort_nodes search solve orders ->
  forall fuel kseed ktrace k b a t claims c n seed, proves_with o e M w k b a t claims c ->
  enough o a claims c n -> draws e keccak dec fuel n -> solvable solve (c_pow_bits c) -> lucky o e w keccak enc dec fuel kseed ktrace k b a t claims c seed ->
  exists proof cs z, transcript o e keccak enc dec sort_idx search fuel kseed ktrace solve orders c claims seed t = Some (Good (proof, (cs, z))) /\
  (good_sample o e w k b a z ->
   stark_prove o e keccak enc dec sort_idx sort_nodes search fuel kseed ktrace solve orders c claims seed t = Some (Good proof) /\
   stark_verify o e keccak enc dec sort_idx sort_nodes search fuel c claims seed proof = Some (Good tt)).
Proof.
  intros F o L e M w SD keccak enc dec sort_idx sort_nodes search solve orders HE fuel kseed ktrace k b a t claims c n seed HP He Hd Hv Hl. pose proof HE as [Hk Hcodec Si Sn Sr Hs Ho].
  destruct (prover_total o L e M w SD keccak enc dec fuel sort_idx search kseed ktrace solve orders Hcodec Hk Si Hs Ho k b a t claims c n seed HP He Hd Hv Hl) as (proof & cs & z & E & GC).
  exists proof, cs, z. split; [exact E|]. intros GS. destruct (C57_completeness_claims F o L e M w SD keccak enc dec sort_idx sort_nodes search solve orders HE fuel kseed ktrace k b a t claims c seed proof cs z HP E GC GS) as [V P]. split; assumption.
Qed.
Print Assumptions C57_prover_total.

(** Non-vacuity: the squares of C57_ex with a hash function whose first byte is zero. Every number drawn is then below
    the modulus and every nonce solves a challenge of difficulty 1. *)
Definition toy_hash0 (l : list Z) : list Z := 0%Z :: tl (toy_hash l).
Definition toy_solve0 := solve_single toy_hash0 1000.
Lemma toy_is_hash0 x : is_hash (toy_hash0 x).
Proof.
  destruct (env_hash _ _ _ _ _ _ _ _ toy_environment x) as [H1 H2]. unfold toy_hash0. destruct (toy_hash x) as [|y l]; [discriminate H1|]. cbn [tl]. split; [exact H1|]. constructor; [unfold digit; lia|]. inversion H2; assumption.
Qed.
Lemma toy_small x : wf (from_bytes_be (toy_hash0 x)) /\ (val (from_bytes_be (toy_hash0 x)) < 2 ^ 248)%Z.
Proof.
  destruct (toy_is_hash0 x) as [H1 H2]. destruct (from_bytes_be_spec (toy_hash0 x)) as [W V]; [exact H1|exact H2|]. split; [exact W|]. rewrite V.
  unfold toy_hash0 in *. set (l := tl (toy_hash x)) in *. clearbody l. rewrite num_cons. inversion H2 as [|? ? _ H3]; subst. pose proof (num_range 256 l ltac:(lia) H3) as R. cbn [length] in H1. injection H1 as H1. rewrite H1 in R. change (256 ^ Z.of_nat 31)%Z with (2 ^ 248)%Z in R. lia.
Qed.
Lemma toy_environment0 : environment toy_hash0 (@raw tiny_field) toy_dec (isort (fun x => x)) (isort fst) toy_search toy_solve0 toy_orders.
Proof.
  destruct toy_environment as [_ E2 E3 E4 E5 _ E7]. constructor; try assumption; [exact toy_is_hash0|].
  intros c nonce. unfold toy_solve0, solve_single. assert (G : forall fuel n, (0 <= n)%Z -> solve_from toy_hash0 fuel c n = Some nonce -> (0 <= nonce < 2 ^ 64)%Z /\ pow_verify toy_hash0 c nonce = true); [|apply G; lia].
  induction fuel as [|fuel IH]; intros n Hn; cbn [solve_from]; [discriminate|]. destruct (Z.ltb_spec n U64_MAX) as [Hl|]; [|discriminate]. destruct (pow_verify toy_hash0 c n) eqn:V; [intros [= <-]; split; [|exact V]; unfold U64_MAX in Hl; change (2 ^ 64)%Z with B; lia|apply IH; lia].
Qed.
Lemma toy_draws n : (Z.of_nat n < 2 ^ 64)%Z -> draws tiny_engine toy_hash0 toy_dec 64 n.
Proof.
  intros Hn d _. assert (G : forall n k, (0 <= k)%Z -> (k + Z.of_nat n < 2 ^ 64)%Z -> exists l c, get_coefficients (edbg tiny_engine) toy_hash0 64 (Coin d k) n = Some (l, c)).
  { induction n0 as [|m IH]; intros k Hk Hlt; [exists [], (Coin d k); reflexivity|]. cbn [get_coefficients].
    assert (D : draw_felt (edbg tiny_engine) toy_hash0 64 (Coin d k) = Some (u_and (from_bytes_be (toy_hash0 (d ++ repeat 0%Z 24 ++ u64_to_be k))) DRAW_MASK, Coin d (k + 1))).
    { cbn [draw_felt]. unfold draw_u256, draw_bytes, incr. cbn [counter digest]. change B with (2 ^ 64)%Z. destruct (Z.ltb_spec (k + 1) (2 ^ 64)) as [_|X]; [|lia]. cbn [bind].
      destruct (toy_small (d ++ repeat 0%Z 24 ++ u64_to_be k)) as [W S]. set (x := from_bytes_be _) in *. clearbody x. destruct (mask_val x W) as [W' V']. unfold in_range.
      assert (Lt : u_ltb (u_and x DRAW_MASK) (p_modulus proth_field) = true). { rewrite u_ltb_spec; [|exact W'|apply proth_good]. apply Z.ltb_lt. rewrite V'. pose proof (Z.mod_le (val x) (2 ^ 252) (proj1 (val_range x W)) ltac:(lia)). eapply Z.le_lt_trans; [exact H|]. eapply Z.lt_trans; [exact S|]. vm_compute. reflexivity. }
      rewrite Lt. destruct (edbg tiny_engine); reflexivity. }
    rewrite D. destruct (IH (k + 1)%Z ltac:(lia) ltac:(lia)) as (l & c & E). rewrite E. eexists _, _. reflexivity. }
  destruct (G n 0%Z ltac:(lia) ltac:(lia)) as (l & c & E). unfold draw_elems. rewrite E. assert (A : exists y, decode_all toy_dec l = Some y); [|destruct A as (y & ->); exists y, c; reflexivity].
  unfold decode_all. clear. induction l as [|x l IH]; [exists []; reflexivity|]. destruct IH as (y & Ey). cbn [map option_all]. unfold toy_dec at 1. destruct (bool_dec _ _); cbn [bind]; rewrite Ey; eexists; reflexivity.
Qed.
Lemma toy_solvable : solvable toy_solve0 1.
Proof.
  split; [lia|]. intros s _. exists 0%Z. unfold toy_solve0, solve_single. change 1000 with (S 999). generalize 999. intros m. cbn [solve_from]. change (0 <? U64_MAX)%Z with true. cbn beta iota.
  assert (V : pow_verify toy_hash0 (Challenge s 1) 0 = true); [|rewrite V; reflexivity]. unfold pow_verify. cbn [seed_ difficulty]. destruct (toy_small (s ++ u64_to_be 0)) as [W S]. set (x := from_bytes_be _) in *. clearbody x. apply Z.leb_le. rewrite (u_leading_zeros_spec x W).
  destruct (Z.eqb_spec (val x) 0) as [E|E]; [lia|]. pose proof (val_range x W) as R. assert (Z.log2 (val x) < 248)%Z by (apply Z.log2_lt_pow2; lia). lia.
Qed.

Definition toy_parts0 lo hi : list (rexpr (fe tiny_field)) :=
  EConst (f0 tiny_ops) :: EConst (f1 tiny_ops) :: EX :: toy_combined lo hi :: EAdd (EConst lo) (EMul (EConst hi) (EExp EX 4)) :: EConst lo :: EMul (EConst hi) (EExp EX 4) :: EConst hi :: EExp EX 4 ::
  toy_squares :: toy_numerator :: e_sub (ETrace 0 1) (EExp (ETrace 0 0) 2) :: ETrace 0 1 :: ENeg (EExp (ETrace 0 0) 2) :: EExp (ETrace 0 0) 2 :: ETrace 0 0 ::
  e_sub EX (EConst (fpw tiny_ops (fe_w tiny_good 2) 3)) :: ENeg (EConst (fpw tiny_ops (fe_w tiny_good 2) 3)) :: EConst (fpw tiny_ops (fe_w tiny_good 2) 3) ::
  EInv (e_sub (EExp EX 4) (EConst (f1 tiny_ops))) :: e_sub (EExp EX 4) (EConst (f1 tiny_ops)) :: ENeg (EConst (f1 tiny_ops)) :: nil.
Definition toy_seed0 (_ : fe tiny_field) (_ : nat) : fe tiny_field := tiny 23.
Definition toy_cells0 (_ : fe tiny_field) (_ : nat) (j : Z) : fe tiny_field := if (j =? 0)%Z then tiny 51 else tiny 44.
Lemma toy_good0 : good_coefficients tiny_ops tiny_engine (fe_w tiny_good) toy_seed0 toy_cells0 2 1 toy_table toy_c [tiny 14; tiny 31].
Proof.
  exists (toy_combined (tiny 14) (tiny 31)). split.
  - unfold combine. cbn [toy_c c_exprs length Nat.mul Nat.add Nat.eqb].
    assert (T : target_degree tiny_ops true toy_c = Some 7%Z) by (vm_compute; reflexivity). rewrite T. cbn [bind tuples List.combine map option_all]. unfold combine_term.
    assert (A : adjustment_degree tiny_ops true (c_nrows toy_c) 7 toy_squares = Some 4%Z) by (vm_compute; reflexivity). rewrite A. reflexivity.
  - assert (U : usizes (toy_combined (tiny 14) (tiny 31))) by (unfold toy_combined; cbn [usizes]; pose proof toy_usizes; intuition lia).
    cbv zeta. change (toy_seed0 (egen tiny_engine) (2 ^ (2 + 1))) with (tiny 23). split.
    + apply (random_some tiny_ops tiny_lawful); [exact U|]. vm_compute; reflexivity.
    + intros tp ct _ _. apply (distinct_ok tiny_ops tiny_lawful fe_val (toy_parts0 (tiny 14) (tiny 31))); [exact U| |].
      * unfold toy_parts0, toy_combined, toy_squares, toy_numerator, e_sub. cbn [subexpressions app]. intros x H. repeat (destruct H as [<-|H]; [cbn [In]; repeat ((left; match goal with |- ?y = ?y => exact (eq_refl y) end) || right)|]). destruct H.
      * vm_compute. repeat constructor; cbn [In]; intuition discriminate.
Qed.
Definition toy_values (x : option (list (fe tiny_field) * coin)) : option (list Z) := match x with Some (cs, _) => Some (map fe_val cs) | None => None end.
Lemma toy_values_inv x cs coin (a b : fe tiny_field) : toy_values x = Some [fe_val a; fe_val b] -> x = Some (cs, coin) -> cs = [a; b].
Proof.
  intros H ->. cbn [toy_values] in H. destruct cs as [|c1 [|c2 [|c3 cs]]]; try discriminate H. cbn [map] in H. assert (X : fe_val c1 = fe_val a /\ fe_val c2 = fe_val b) by (split; congruence). destruct X as [X Y]. apply (fe_val_inj tiny_good) in X, Y. subst. reflexivity.
Qed.
Notation toy_drawn0 tp :=
  (draw_elems tiny_engine toy_hash0 toy_dec 64 (2 * length (c_exprs toy_c)) (Coin (toy_hash0 (toy_hash0 [2; 2; 3]%Z ++ trace_root tiny_ops tiny_engine (fe_w tiny_good) toy_hash0 (@raw tiny_field) 2 1 tp)) 0)).
Definition after {A C} (x : option A) (f : A -> option C) : option C := match x with Some y => f y | None => None end.
Lemma after_inv {A C} (x : option A) (f : A -> option C) r y : after x f = Some r -> x = Some y -> f y = Some r.
Proof. intros H ->. exact H. Qed.
Lemma toy_lucky0 : lucky tiny_ops tiny_engine (fe_w tiny_good) toy_hash0 (@raw tiny_field) toy_dec 64 toy_seed0 toy_cells0 2 1 1 toy_table [] toy_c [2; 2; 3]%Z.
Proof.
  assert (D : after (interpolate tiny_ops tiny_engine toy_table) (fun tp => toy_values (toy_drawn0 tp)) = Some [fe_val (tiny 14); fe_val (tiny 31)]) by (vm_compute; reflexivity).
  intros tp cs coin E1 E2. apply (after_inv _ _ _ tp D) in E1. cbv beta in E1. clear D. revert E1 E2. generalize (toy_drawn0 tp). intros x E1 E2. rewrite (toy_values_inv x cs coin (tiny 14) (tiny 31) E1 E2). apply (good_none tiny_ops tiny_lawful tiny_engine 5 (fe_w tiny_good) tiny_sound toy_seed0 toy_cells0 2 1 1 toy_table toy_c [tiny 14; tiny 31] toy_proves), toy_good0.
Qed.
Lemma toy_enough0 : enough tiny_ops 1 [] toy_c 4.
Proof. split; [lia|]. split; [cbn; lia|]. intros c' args Ec H. assert (c' = toy_c) by (cbn [substitute] in Ec; congruence). subst c'. assert (E : c_trace_arguments toy_c = Some [(0, 0%Z); (0, 1%Z)]) by reflexivity. rewrite E in H. assert (length args = 2) by (injection H as <-; reflexivity). cbn; lia. Qed.
Example C57_total_ex : exists proof cs z,
  transcript tiny_ops tiny_engine toy_hash0 (@raw tiny_field) toy_dec (isort (fun x => x)) toy_search 64 toy_seed0 toy_cells0 toy_solve0 toy_orders toy_c [] [2; 2; 3]%Z toy_table = Some (Good (proof, (cs, z))) /\
  stark_prove tiny_ops tiny_engine toy_hash0 (@raw tiny_field) toy_dec (isort (fun x => x)) (isort fst) toy_search 64 toy_seed0 toy_cells0 toy_solve0 toy_orders toy_c [] [2; 2; 3]%Z toy_table = Some (Good proof) /\
  stark_verify tiny_ops tiny_engine toy_hash0 (@raw tiny_field) toy_dec (isort (fun x => x)) (isort fst) toy_search 64 toy_c [] [2; 2; 3]%Z proof = Some (Good tt).
Proof.
  destruct (C57_prover_total _ tiny_ops tiny_lawful tiny_engine 5 (fe_w tiny_good) tiny_sound _ _ _ _ _ _ _ _ toy_environment0 64 toy_seed0 toy_cells0 2 1 1 toy_table [] toy_c 4 [2; 2; 3]%Z (proves_none tiny_ops tiny_lawful tiny_engine 5 (fe_w tiny_good) tiny_sound 2 1 1 toy_table toy_c toy_proves) toy_enough0 (toy_draws 4 ltac:(lia)) toy_solvable toy_lucky0) as (proof & cs & z & E & H).
  exists proof, cs, z. split; [exact E|]. apply H. clear H.
  assert (S : toy_summary (transcript tiny_ops tiny_engine toy_hash0 (@raw tiny_field) toy_dec (isort (fun x => x)) toy_search 64 toy_seed0 toy_cells0 toy_solve0 toy_orders toy_c [] [2; 2; 3]%Z toy_table) = Some (936, [14; 31]%Z, 26%Z)) by (vm_compute; reflexivity).
  rewrite E in S. unfold toy_summary in S. destruct (forallb _ proof); [|discriminate S]. assert (Z26 : fe_val z = fe_val (tiny 26)) by (transitivity 26%Z; [congruence|vm_compute; reflexivity]). apply (fe_val_inj tiny_good) in Z26. subst z. clear.
  assert (G : forall h w2 w3 z, (forall w, w 2 = w2 -> w 3 = w3 -> h = egen tiny_engine -> ((forall r, r < 4 -> z <> fpw tiny_ops w2 r) /\
    forall i, i < 8 -> let x := fmul tiny_ops h (fpw tiny_ops w3 i) in x <> fpw tiny_ops z 2 /\ forall r, r < 4 -> x <> fmul tiny_ops (fpw tiny_ops w2 r) z) -> good_sample tiny_ops tiny_engine w 2 1 1 z)) by (intros h w2 w3 z w <- <- ->; exact (fun H => H)).
  destruct toy_roots as (R2 & R3 & R). apply (G (tiny 5) (tiny 22) (tiny 64) (tiny 26) (fe_w tiny_good) R2 R3 (eq_sym R)). apply (toy_sample_check (tiny 26) (tiny 5) (tiny 22) (tiny 64)); vm_compute; reflexivity.
Qed.

(** Non-vacuity with a claim polynomial: every cell but the last is mapped to the next one by a polynomial of degree at
    most two, which is part of the claim. The claim polynomial is 3 X, of degree one; the table is 3, 9, 27, 81. *)
Definition cl_numerator (y : rexpr (fe tiny_field)) : rexpr (fe tiny_field) := EMul (e_sub (ETrace 0 1) y) (e_sub EX (EConst (fpw tiny_ops (fe_w tiny_good 2) 3))).
Definition cl_next (y : rexpr (fe tiny_field)) : rexpr (fe tiny_field) := EMul (cl_numerator y) (EInv (e_sub (EExp EX 4) (EConst (f1 tiny_ops)))).
Definition cl_claim : rexpr (fe tiny_field) := EClaim 0 2 (ETrace 0 0).
Definition cl_c := Constraints 4 1 [cl_next cl_claim] 2 1 2 [1; 1].
Definition cl_p := map tiny [0; 3]%Z.
Definition cl_poly : rexpr (fe tiny_field) := EPoly cl_p (ETrace 0 0).
Definition cl_c' := Constraints 4 1 [cl_next cl_poly] 2 1 2 [1; 1].
Definition cl_table : table (fe tiny_field) := Table 4 1 (map tiny [3; 9; 27; 81]%Z).
Definition cl_combined lo hi y : rexpr (fe tiny_field) := EMul (EAdd (EConst lo) (EMul (EConst hi) (EExp EX 4))) (cl_next y).
Definition cl_parts lo hi y : list (rexpr (fe tiny_field)) :=
  EConst (f0 tiny_ops) :: EConst (f1 tiny_ops) :: EX :: cl_combined lo hi y :: EAdd (EConst lo) (EMul (EConst hi) (EExp EX 4)) :: EConst lo :: EMul (EConst hi) (EExp EX 4) :: EConst hi :: EExp EX 4 ::
  cl_next y :: cl_numerator y :: e_sub (ETrace 0 1) y :: ETrace 0 1 :: ENeg y :: y :: ETrace 0 0 ::
  e_sub EX (EConst (fpw tiny_ops (fe_w tiny_good 2) 3)) :: ENeg (EConst (fpw tiny_ops (fe_w tiny_good 2) 3)) :: EConst (fpw tiny_ops (fe_w tiny_good 2) 3) ::
  EInv (e_sub (EExp EX 4) (EConst (f1 tiny_ops))) :: e_sub (EExp EX 4) (EConst (f1 tiny_ops)) :: ENeg (EConst (f1 tiny_ops)) :: nil.
Definition cl_seed (_ : fe tiny_field) (_ : nat) : fe tiny_field := tiny 11.
Definition cl_cells (_ : fe tiny_field) (_ : nat) (j : Z) : fe tiny_field := if (j =? 0)%Z then tiny 51 else tiny 17.
Lemma cl_degree : poly_degree tiny_ops cl_p = Some 1. Proof. vm_compute. reflexivity. Qed.
Lemma cl_sub : substitute_claim tiny_ops [cl_p] cl_claim = Some cl_poly.
Proof. unfold substitute_claim, cl_claim. cbn [map_expr bind nth_error]. rewrite cl_degree. reflexivity. Qed.
Lemma cl_sub_next : substitute_claim tiny_ops [cl_p] (cl_next cl_claim) = Some (cl_next cl_poly).
Proof. pose proof cl_sub as H. revert H. unfold substitute_claim, cl_next, cl_numerator, e_sub. intros H. cbn [map_expr bind]. rewrite H. reflexivity. Qed.
Lemma cl_system : substitute tiny_ops [cl_p] cl_c = Some cl_c'.
Proof. unfold substitute. cbn [cl_c c_exprs map option_all]. rewrite cl_sub_next. reflexivity. Qed.
Lemma cl_usizes : usizes (cl_next cl_claim) /\ usizes (cl_next cl_poly).
Proof. unfold cl_next, cl_numerator, cl_claim, cl_poly, e_sub. cbn [usizes]. split; [intuition lia|]. assert (cl_p <> []) by discriminate. intuition lia. Qed.
Lemma cl_proves : proves_with tiny_ops tiny_engine 5 (fe_w tiny_good) 2 1 1 cl_table [cl_p] cl_c.
Proof.
  constructor.
  - lia.
  - split; [reflexivity|]. split; [reflexivity|]. cbn. lia.
  - split; reflexivity.
  - split; [reflexivity|lia].
  - exists 2%Z. split; [vm_compute; reflexivity|]. split; [cbn; lia|]. intros [|a'] H; [cbn in H; lia|lia].
  - intros ex [<-|[]]. split; [apply cl_usizes|]. repeat constructor.
  - exists cl_c'. split; [exact cl_system|]. split; [vm_compute; reflexivity|]. intros ex [<-|[]].
    assert (R : forall i j, refers (cl_next cl_poly) i j -> i = 0 /\ (0 <= j <= 1)%Z) by (intros i j H; unfold cl_next, cl_numerator, cl_poly, e_sub in H; cbn [refers] in H; intuition lia).
    split; [intros i j H; destruct (R i j H) as [-> Hj]; cbn [cl_table t_cols t_rows]; lia|]. split; [intros i j H; destruct (R i j H); lia|].
    intros tp _. exists (seq 0 4). apply (proj1 (C54_selects _ tiny_ops tiny_lawful tiny_engine 5 (fe_w tiny_good) tiny_sound 2 tp (cl_next cl_poly) (EConst (f1 tiny_ops)) (f1 tiny_ops) 0 ltac:(lia) ltac:(repeat constructor) (or_introl eq_refl)) 2); [lia|cbn; lia|reflexivity|reflexivity].
  - split; [discriminate|]. split; [repeat constructor|cbn; lia].
  - cbn [cl_c c_queries]. lia.
  - intros H. apply (f_equal fe_val) in H. revert H. vm_compute. discriminate.
Qed.
Lemma cl_good : good_with tiny_ops tiny_engine (fe_w tiny_good) cl_seed cl_cells 2 1 cl_table [cl_p] cl_c [tiny 16; tiny 44].
Proof.
  exists (cl_combined (tiny 16) (tiny 44) cl_claim), (cl_combined (tiny 16) (tiny 44) cl_poly). split.
  - unfold combine. cbn [cl_c c_exprs length Nat.mul Nat.add Nat.eqb].
    assert (T : target_degree tiny_ops true cl_c = Some 7%Z) by (vm_compute; reflexivity). rewrite T. cbn [bind tuples List.combine map option_all]. unfold combine_term.
    assert (A : adjustment_degree tiny_ops true (c_nrows cl_c) 7 (cl_next cl_claim) = Some 4%Z) by (vm_compute; reflexivity). rewrite A. reflexivity.
  - split.
    { pose proof cl_sub_next as H. revert H. unfold cl_combined, substitute_claim. generalize (cl_next cl_claim), (cl_next cl_poly). intros x y H. cbn [map_expr bind]. rewrite H. reflexivity. }
    assert (U : usizes (cl_combined (tiny 16) (tiny 44) cl_poly)) by (unfold cl_combined; cbn [usizes]; pose proof (proj2 cl_usizes); intuition lia).
    cbv zeta. change (cl_seed (egen tiny_engine) (2 ^ (2 + 1))) with (tiny 11). split.
    + apply (random_some tiny_ops tiny_lawful); [exact U|]. vm_compute; reflexivity.
    + intros tp ct _ _. apply (distinct_ok tiny_ops tiny_lawful fe_val (cl_parts (tiny 16) (tiny 44) cl_poly)); [exact U| |].
      * unfold cl_parts, cl_combined, cl_next, cl_numerator, cl_poly, e_sub. cbn [subexpressions app]. intros x H. repeat (destruct H as [<-|H]; [cbn [In]; repeat ((left; match goal with |- ?y = ?y => exact (eq_refl y) end) || right)|]). destruct H.
      * vm_compute. repeat constructor; cbn [In]; intuition discriminate.
Qed.
Notation cl_drawn tp :=
  (draw_elems tiny_engine toy_hash0 toy_dec 64 (2 * length (c_exprs cl_c)) (Coin (toy_hash0 (toy_hash0 [1; 2; 3]%Z ++ trace_root tiny_ops tiny_engine (fe_w tiny_good) toy_hash0 (@raw tiny_field) 2 1 tp)) 0)).
Lemma cl_lucky : lucky tiny_ops tiny_engine (fe_w tiny_good) toy_hash0 (@raw tiny_field) toy_dec 64 cl_seed cl_cells 2 1 1 cl_table [cl_p] cl_c [1; 2; 3]%Z.
Proof.
  assert (D : after (interpolate tiny_ops tiny_engine cl_table) (fun tp => toy_values (cl_drawn tp)) = Some [fe_val (tiny 16); fe_val (tiny 44)]) by (vm_compute; reflexivity).
  intros tp cs coin E1 E2. apply (after_inv _ _ _ tp D) in E1. cbv beta in E1. clear D. revert E1 E2. generalize (cl_drawn tp). intros x E1 E2. rewrite (toy_values_inv x cs coin (tiny 16) (tiny 44) E1 E2). exact cl_good.
Qed.
Lemma cl_enough : enough tiny_ops 1 [cl_p] cl_c 4.
Proof. split; [lia|]. split; [cbn; lia|]. intros c' args Ec H. rewrite cl_system in Ec. assert (c' = cl_c') by congruence. subst c'. assert (E : c_trace_arguments cl_c' = Some [(0, 0%Z); (0, 1%Z)]) by reflexivity. rewrite E in H. assert (length args = 2) by (injection H as <-; reflexivity). cbn; lia. Qed.
Notation cl_transcript := (transcript tiny_ops tiny_engine toy_hash0 (@raw tiny_field) toy_dec (isort (fun x => x)) toy_search 64 cl_seed cl_cells toy_solve0 toy_orders cl_c [cl_p] [1; 2; 3]%Z cl_table).
Example C57_claims_ex : exists proof cs z, cl_transcript = Some (Good (proof, (cs, z))) /\
  stark_prove tiny_ops tiny_engine toy_hash0 (@raw tiny_field) toy_dec (isort (fun x => x)) (isort fst) toy_search 64 cl_seed cl_cells toy_solve0 toy_orders cl_c [cl_p] [1; 2; 3]%Z cl_table = Some (Good proof) /\
  stark_verify tiny_ops tiny_engine toy_hash0 (@raw tiny_field) toy_dec (isort (fun x => x)) (isort fst) toy_search 64 cl_c [cl_p] [1; 2; 3]%Z proof = Some (Good tt).
Proof.
  destruct (C57_prover_total _ tiny_ops tiny_lawful tiny_engine 5 (fe_w tiny_good) tiny_sound _ _ _ _ _ _ _ _ toy_environment0 64 cl_seed cl_cells 2 1 1 cl_table [cl_p] cl_c 4 [1; 2; 3]%Z cl_proves cl_enough (toy_draws 4 ltac:(lia)) toy_solvable cl_lucky) as (proof & cs & z & E & H).
  exists proof, cs, z. split; [exact E|]. apply H. clear H.
  assert (S : toy_summary cl_transcript = Some (936, [16; 44]%Z, 58%Z)) by (vm_compute; reflexivity).
  rewrite E in S. unfold toy_summary in S. destruct (forallb _ proof); [|discriminate S]. assert (Zz : fe_val z = fe_val (tiny 58)) by (transitivity 58%Z; [congruence|vm_compute; reflexivity]). apply (fe_val_inj tiny_good) in Zz. subst z. clear.
  assert (G : forall h w2 w3 z, (forall w, w 2 = w2 -> w 3 = w3 -> h = egen tiny_engine -> ((forall r, r < 4 -> z <> fpw tiny_ops w2 r) /\
    forall i, i < 8 -> let x := fmul tiny_ops h (fpw tiny_ops w3 i) in x <> fpw tiny_ops z 2 /\ forall r, r < 4 -> x <> fmul tiny_ops (fpw tiny_ops w2 r) z) -> good_sample tiny_ops tiny_engine w 2 1 1 z)) by (intros h w2 w3 z w <- <- ->; exact (fun H => H)).
  destruct toy_roots as (R2 & R3 & R). apply (G (tiny 5) (tiny 22) (tiny 64) (tiny 58) (fe_w tiny_good) R2 R3 (eq_sym R)). apply (toy_sample_check (tiny 58) (tiny 5) (tiny 22) (tiny 64)); vm_compute; reflexivity.
Qed.
