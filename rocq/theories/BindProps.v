(** C65: what of a claim is bound by the proofs of a component. *)
Require Import Ring Field ZArith NArith Lia Bool List.
From Verif Require Import Word U256Model KnuthModel FieldSig FieldModel FieldInstance FieldAlgModel FieldAlgProofs Arr FftModel FftSpec PermuteProofs FftProofs StarkBase StarkInstance PolyModel PolyProps TraceModel TraceProps ExprModel ExprSpec ExprProofs ExprProps CheckProps
  HashModel MerkleModel ChannelModel PowModel QueryModel FriModel OodsModel OodsProofs StarkModel StarkProofs StarkProps MerkleProps ComponentModel BindModel BindSpec.
Import ListNotations.
Open Scope nat_scope.

(** ** Expressions that differ in constants *)
Section Alike.
Context {F : Type} (o : ops F).

Lemma alike_degree dbg x t : forall a b : rexpr F, alike a b -> degree_impl o dbg x t a = degree_impl o dbg x t b.
Proof. induction a; intros [] H; cbn [alike] in H; try contradiction; cbn [degree_impl]; try reflexivity; try (destruct H as [H1 H2]; subst; (rewrite (IHa _ H2) || rewrite (IHa1 _ H1), (IHa2 _ H2)); reflexivity); rewrite (IHa _ H); reflexivity. Qed.
Lemma alike_args : forall a b : rexpr F, alike a b -> forall s, trace_arguments_impl a s = trace_arguments_impl b s.
Proof.
  induction a; intros [] H s; cbn [alike] in H; try contradiction; cbn [trace_arguments_impl]; try reflexivity; try (destruct H as [H1 H2]; subst; reflexivity);
    try (destruct H as [H1 H2]; apply IHa; exact H2); try (destruct H as [H1 H2]; rewrite (IHa1 _ H1); destruct (trace_arguments_impl _ s); [apply IHa2, H2|reflexivity]); apply IHa, H.
Qed.
Lemma alike_usizes : forall a b : rexpr F, alike a b -> usizes a -> usizes b.
Proof. induction a; intros [] H U; cbn [alike] in H; try contradiction; cbn [usizes] in *; try exact I; try (destruct H as [H1 H2]; subst; destruct U as [U1 U2]; split; eauto); eauto. Qed.
Lemma alike_refl : forall a : rexpr F, trace_arguments a <> None -> alike a a.
Proof.
  unfold trace_arguments. intros a. generalize (@nil (nat * Z)). induction a; intros s H; cbn [trace_arguments_impl alike] in *; auto; try (split; [reflexivity|]); try (eapply IHa; eassumption); try (elim H; reflexivity).
  all: split; [apply (IHa1 s); destruct (trace_arguments_impl a1 s); [discriminate|exact H]|]; destruct (trace_arguments_impl a1 s) as [s'|]; [exact (IHa2 s' H)|elim H; reflexivity].
Qed.
Lemma map_alike {B} (f : rexpr F -> B) l l' : (forall a b, alike a b -> f a = f b) -> Forall2 alike l l' -> map f l = map f l'.
Proof. intros Hf H. induction H as [|a b l l' Hab H IH]; [reflexivity|]. cbn [map]. rewrite (Hf a b Hab), IH. reflexivity. Qed.
Lemma alike_c_args (c c' : constraints (F := F)) : alike_systems c c' -> c_trace_arguments c = c_trace_arguments c'.
Proof. intros (_ & _ & _ & _ & _ & _ & H). unfold c_trace_arguments. rewrite (map_alike trace_arguments _ _ (fun a b Hab => alike_args a b Hab []) H). reflexivity. Qed.
Lemma alike_c_degree dbg (c c' : constraints (F := F)) : alike_systems c c' -> c_degree o dbg c = c_degree o dbg c'.
Proof. intros (_ & _ & _ & _ & _ & _ & H). unfold c_degree. rewrite (map_alike (net_degree o dbg) _ _ (fun a b Hab => f_equal (fun x => let? nd := x in match nd with (n, d) => usub dbg n d end) (alike_degree dbg 0 1 a b Hab)) H). reflexivity. Qed.
End Alike.

(** ** The run of the verifier *)
Lemma bind_step {S E A C} (m : act S E A) (k : A -> act S E C) s a s' : m s = Some (Good (a, s')) -> act_bind m k s = k a s'.
Proof. intros H. unfold act_bind. rewrite H. reflexivity. Qed.
Ltac peel H := repeat match type of H with
  | act_bind (lift (Some ?x)) ?k ?s = ?rhs => change (k x s = rhs) in H; cbv beta in H
  | act_bind ?m ?k ?s = Some (Good ?r) =>
      let a := fresh "a" in let s' := fresh "s" in let E1 := fresh "E" in let H' := fresh "H'" in
      destruct (bind_good m k s r H) as (a & s' & E1 & H'); clear H; rename H' into H; cbv beta in H end.
Section Run.
Context {F : Type} (o : ops F) (e : engine F) (keccak : list Z -> list Z) (enc : F -> u256) (dec : u256 -> option F).
Context (sort_idx : list Z -> list Z) (sort_nodes : list (Z * hash) -> list (Z * hash)) (search : list Z -> Z -> option nat) (fuel : nat).
Lemma same_run c v r : verify_channel o e keccak enc dec sort_idx sort_nodes search fuel c [] v = Some (Good r) ->
  exists cs m z x s, oods_value_from_trace_values o (edbg e) c [] cs m z <> None /\
  forall c', alike_systems c c' -> verify_channel o e keccak enc dec sort_idx sort_nodes search fuel c' [] v =
    act_bind (lift (oods_value_from_trace_values o (edbg e) c' [] cs m z)) (fun y => if feqb o y x then ret tt else fail OodsMismatch) s.
Proof.
  intros H. unfold verify_channel in H |- *. cbn [substitute] in H |- *. cbv zeta in H |- *.
  peel H. destruct (negb _) eqn:Ep in H; [discriminate H|]. peel H. destruct a29 as [[folds previous] len]. peel H. destruct (negb a29) eqn:En in H; [discriminate H|]. peel H. destruct a30 as [root|]; [|discriminate H]. peel H.
  exists a4, (claimed_trace_map a8 a9), a7, (oods_value_from_constraint_values o a12 a7), s32. split.
  - match goal with E : lift (oods_value_from_trace_values _ _ _ _ _ _ _) _ = _ |- _ => apply lift_good in E as [E _]; rewrite E; discriminate end.
  - intros c' Al. pose proof (alike_c_args c c' Al) as A1. pose proof (alike_c_degree o (edbg e) c c' Al) as A2. destruct Al as (B1 & B2 & B3 & B4 & B5 & B6 & B7). assert (B8 : length (c_exprs c) = length (c_exprs c')) by (clear - B7; induction B7; cbn; lia). rewrite <- B1, <- B2, <- B3, <- B4, <- B5, <- B6, <- B8, <- A2. clear B1 B2 B3 B4 B5 B6 B7 B8 A2.
    Ltac follow A1 := repeat (match goal with
      | |- act_bind (lift (Some ?x)) ?k ?s = ?rhs => change (k x s = rhs); cbv beta iota; rewrite <- A1
      | Ei : ?m ?s = Some (Good (?a, ?s')) |- act_bind ?m ?k ?s = ?rhs => rewrite (bind_step m k s a s' Ei); cbv beta iota
      end).
    follow A1. rewrite Ep. follow A1. match goal with |- act_bind ?m ?k ?s = _ => rewrite (bind_step m k s a29 s30 E30) end. cbv beta iota. rewrite En. follow A1. reflexivity.
Qed.
End Run.

(** ** The combination of the constraints at the sample point *)
Section Combination.
Context {F : Type} (o : ops F) (L : lawful o).
Add Field Bfield : (law_field o L).
Lemma no_claims z T : forall ex : rexpr F, (let? ex' := substitute_claim o [] ex in eval_expr o z T ex') = eval_expr o z T ex.
Proof using.
  clear L. assert (H : forall ex : rexpr F, substitute_claim o [] ex = Some ex \/ substitute_claim o [] ex = None /\ eval_expr o z T ex = None).
  { unfold substitute_claim. induction ex as [|c|i j|p a IH|i n a IH|a IHa b IHb|a IH|a IHa b IHb|a IH|a IH n]; cbn [map_expr bind eval_expr]; auto.
    - destruct IH as [->|[-> ->]]; [left|right]; auto.
    - right. split; [|reflexivity]. destruct IH as [->|[-> _]]; cbn [bind]; [destruct i|]; reflexivity.
    - destruct IHa as [->|[-> ->]]; [|right; auto]. cbn [bind]. destruct IHb as [->|[-> ->]]; [left|right]; auto. split; [reflexivity|]. destruct (eval_expr o z T a); reflexivity.
    - destruct IH as [->|[-> ->]]; [left|right]; auto.
    - destruct IHa as [->|[-> ->]]; [|right; auto]. cbn [bind]. destruct IHb as [->|[-> ->]]; [left|right]; auto. split; [reflexivity|]. destruct (eval_expr o z T a); reflexivity.
    - destruct IH as [->|[-> ->]]; [left|right]; auto.
    - destruct IH as [->|[-> ->]]; [left|right]; auto. }
  intros ex. destruct (H ex) as [->|[-> ->]]; reflexivity.
Qed.
Definition total (us : list F) : F := fold_right (fadd o) (f0 o) us.
Lemma sum_eval z T l : forall e0 u, eval_expr o z T (fold_left EAdd l e0) = Some u <-> exists u0 us, eval_expr o z T e0 = Some u0 /\ Forall2 (fun ex v => eval_expr o z T ex = Some v) l us /\ u = fadd o u0 (total us).
Proof using L.
  induction l as [|e1 l IH]; intros e0 u; cbn [fold_left].
  - split; [intros E; exists u, []; split; [exact E|]; split; [constructor|]; cbn; ring|]. intros (u0 & us & E & H & ->). inversion H; subst. rewrite E. f_equal. cbn. ring.
  - rewrite IH. cbn [eval_expr]. split.
    + intros (u01 & us & E & H & ->). destruct (eval_expr o z T e0) as [u0|] eqn:E0; [|discriminate E]. destruct (eval_expr o z T e1) as [u1|] eqn:E1; [|discriminate E]. injection E as <-. exists u0, (u1 :: us). split; [reflexivity|]. split; [constructor; assumption|]. cbn [total fold_right]. fold (total us). ring.
    + intros (u0 & us & E & H & ->). inversion H as [|? u1 ? us' H1 H2]; subst. exists (fadd o u0 u1), us'. rewrite E, H1. split; [reflexivity|]. split; [exact H2|]. cbn [total fold_right]. fold (total us'). ring.
Qed.
Lemma e_sum_eval z T l u : eval_expr o z T (e_sum o l) = Some u <-> exists us, Forall2 (fun ex v => eval_expr o z T ex = Some v) l us /\ u = total us.
Proof using L.
  destruct l as [|e0 l]; cbn [e_sum].
  - split; [intros [= <-]; exists []; split; [constructor|reflexivity]|]. intros (us & H & ->). inversion H; subst. reflexivity.
  - rewrite sum_eval. split.
    + intros (u0 & us & E & H & ->). exists (u0 :: us). split; [constructor; assumption|reflexivity].
    + intros (us & H & ->). inversion H as [|? u0 ? us' H1 H2]; subst. exists u0, us'. split; [exact H1|]. split; [exact H2|reflexivity].
Qed.
Lemma terms dbg nrows target z T : forall exprs tps l, length tps = length exprs -> option_all (map (combine_term o dbg nrows target) (List.combine exprs tps)) = Some l ->
  exists ws, length ws = length exprs /\ forall exprs', Forall2 alike exprs exprs' -> exists l', option_all (map (combine_term o dbg nrows target) (List.combine exprs' tps)) = Some l' /\
  forall u, (exists us, Forall2 (fun ex v => eval_expr o z T ex = Some v) l' us /\ u = total us) <-> (exists vs, Forall2 (fun ex v => eval_expr o z T ex = Some v) exprs' vs /\ u = weighted o ws vs).
Proof using.
  clear L. induction exprs as [|ex exprs IH]; intros [|[lo hi] tps] l Hl E; try discriminate Hl.
  - exists []. split; [reflexivity|]. intros exprs' H. inversion H; subst. exists []. split; [reflexivity|]. intros u. split; intros (us & H1 & ->); inversion H1; subst; exists []; split; try constructor; reflexivity.
  - cbn [List.combine map option_all] in E. destruct (combine_term o dbg nrows target (ex, (lo, hi))) as [t|] eqn:Et; [|discriminate E]. destruct (option_all _) as [l0|] eqn:El in E; [|discriminate E]. destruct (IH tps l0 ltac:(cbn in Hl; lia) El) as (ws & Lw & H). clear IH E.
    cbn [combine_term] in Et. destruct (adjustment_degree o dbg nrows target ex) as [a|] eqn:Ea; [|discriminate Et]. exists (fadd o lo (fmul o hi (pow_usize o z a)) :: ws). split; [cbn; lia|].
    intros exprs' Hf. inversion Hf as [|? ex' ? exprs'' Ha Hf']; subst. destruct (H exprs'' Hf') as (l' & El' & Iff). cbn [List.combine map option_all combine_term].
    assert (Ea' : adjustment_degree o dbg nrows target ex' = Some a). { rewrite <- Ea. unfold adjustment_degree, degree. destruct (usub dbg (Z.of_nat nrows) 1) as [t0|]; [|reflexivity]. cbn [bind]. rewrite (alike_degree o dbg 1 t0 ex ex' Ha). reflexivity. }
    rewrite Ea'. cbn [bind]. rewrite El'. eexists. split; [reflexivity|]. intros u. split.
    + intros (us & H1 & ->). inversion H1 as [|? u0 ? us' H2 H3]; subst. cbn [eval_expr bind] in H2. destruct (eval_expr o z T ex') as [v|] eqn:Ev; [|discriminate H2]. cbn [bind] in H2. injection H2 as <-. destruct (proj1 (Iff (total us')) (ex_intro _ us' (conj H3 eq_refl))) as (vs & H4 & E4). exists (v :: vs). split; [constructor; assumption|]. cbn [total fold_right weighted]. fold (total us'). rewrite E4. reflexivity.
    + intros (vs & H1 & ->). inversion H1 as [|? v ? vs' H2 H3]; subst. destruct (proj2 (Iff (weighted o ws vs')) (ex_intro _ vs' (conj H3 eq_refl))) as (us & H4 & E4). exists (fmul o (fadd o lo (fmul o hi (pow_usize o z a))) v :: us). split; [constructor; [cbn [eval_expr bind]; rewrite H2; reflexivity|exact H4]|]. cbn [total fold_right weighted]. fold (total us). rewrite E4. reflexivity.
Qed.
Lemma tuples_length {A} : forall n (l : list A), length l = 2 * n -> length (tuples l) = n.
Proof using. clear. induction n as [|n IH]; intros [|a [|b l]] H; cbn [length] in H; try lia; [reflexivity|]. cbn [tuples length]. rewrite IH by lia. reflexivity. Qed.
Lemma evals_values z T exprs vs : (forall ex, In ex exprs -> usizes ex) -> Forall2 (fun ex v => eval_expr o z T ex = Some v) exprs vs <-> Forall2 (value o z T) exprs vs.
Proof using L. intros U. split; intros H; induction H as [|ex v exprs vs H1 H IH]; constructor; try (apply IH; intros x Hx; apply U; right; exact Hx); apply (eval_value o L z T ex v (U ex (or_introl eq_refl))); exact H1. Qed.
Lemma combination dbg (c : constraints (F := F)) cs m z : (forall ex, In ex (c_exprs c) -> usizes ex) -> oods_value_from_trace_values o dbg c [] cs m z <> None ->
  exists ws, length ws = length (c_exprs c) /\ forall c', alike_systems c c' -> forall u, oods_value_from_trace_values o dbg c' [] cs m z = Some u <->
    exists vs, Forall2 (value o z (map_get m)) (c_exprs c') vs /\ u = weighted o ws vs.
Proof using L.
  intros U N. unfold oods_value_from_trace_values in N. destruct (combine o dbg c cs) as [E|] eqn:Ec; [|elim N; reflexivity]. clear N. unfold combine in Ec. destruct (Nat.eqb_spec (2 * length (c_exprs c)) (length cs)) as [El|]; [|discriminate Ec]. destruct (target_degree o dbg c) as [target|] eqn:Et; [|discriminate Ec]. cbn [bind] in Ec.
  destruct (option_all _) as [l|] eqn:Eo in Ec; [|discriminate Ec]. clear Ec. destruct (terms dbg (c_nrows c) target z (map_get m) (c_exprs c) (tuples cs) l (tuples_length _ cs (eq_sym El)) Eo) as (ws & Lw & H). exists ws. split; [exact Lw|]. intros c' Al u.
  pose proof (alike_c_degree o dbg c c' Al) as Ad. destruct Al as (B1 & _ & _ & _ & _ & _ & B7). destruct (H (c_exprs c') B7) as (l' & El' & Iff). assert (B8 : length (c_exprs c) = length (c_exprs c')) by (clear - B7; induction B7; cbn; lia).
  assert (U' : forall ex, In ex (c_exprs c') -> usizes ex). { clear - U B7. induction B7 as [|a b l l' Hab H IH]; intros ex []; [subst; apply (alike_usizes a ex Hab), U; left; reflexivity|]. apply IH; [intros x Hx; apply U; right; exact Hx|assumption]. }
  unfold oods_value_from_trace_values, combine. rewrite <- B8. rewrite (proj2 (Nat.eqb_eq _ _) El). unfold target_degree in Et |- *. rewrite <- Ad, <- B1, Et. cbn [bind]. rewrite El'. cbn [bind]. rewrite (no_claims z (map_get m)), e_sum_eval, Iff.
  split; intros (vs & H1 & ->); exists vs; (split; [|reflexivity]); apply (evals_values z (map_get m) (c_exprs c') vs U'); exact H1.
Qed.
Lemma balanced u z w3 x4 d b : fadd o x4 (fneg o d) <> f0 o -> fadd o x4 (fneg o b) <> f0 o ->
  exists a, fmul o (fmul o u (fadd o z (fneg o a))) (finv o (fadd o x4 (fneg o b))) = fmul o (fmul o u (fadd o z (fneg o w3))) (finv o (fadd o x4 (fneg o d))).
Proof using L. intros N1 N2. exists (fsub o z (fmul o (fmul o (fadd o z (fneg o w3)) (fadd o x4 (fneg o b))) (finv o (fadd o x4 (fneg o d))))). field. split; assumption. Qed.
Lemma other_constants z T A g d v p q : value o z T (EMul (EMul A (e_sub EX (EConst g))) (EInv (e_sub (EExp EX 4) (EConst d)))) v -> p <> d -> q <> d -> p <> q ->
  exists a b, b <> d /\ value o z T (EMul (EMul A (e_sub EX (EConst a))) (EInv (e_sub (EExp EX 4) (EConst b)))) v.
Proof using L.
  unfold e_sub. intros V1 Hp Hq Hpq.
  inversion V1 as [| | | | | |? ? u1 u2 V2 V3| |]; subst. inversion V2 as [| | | | | |? ? u3 u4 V4 V5| |]; subst. inversion V3 as [| | | | | | |? d' V6 N|]; subst. clear V1 V2 V3.
  inversion V5 as [| | | |? ? u5 u6 V7 V8| | | |]; subst. inversion V7; subst. inversion V8 as [| | | | |? u7 V9| | |]; subst. inversion V9; subst. clear V5 V7 V8 V9.
  inversion V6 as [| | | |? ? x4 u8 V7 V8| | | |]; subst. inversion V8 as [| | | | |? u9 V9| | |]; subst. inversion V9; subst. clear V6 V8 V9.
  assert (B : exists b, b <> u9 /\ fadd o x4 (fneg o b) <> f0 o).
  { assert (S0 : forall b, fadd o x4 (fneg o b) = f0 o -> x4 = b) by (intros b E; transitivity (fadd o (fadd o x4 (fneg o b)) b); [ring|rewrite E; ring]).
    destruct (feq_dec o L x4 p) as [->|Ne]; [exists q|exists p]; (split; [assumption|]); intros E; apply S0 in E; congruence. }
  destruct B as (b & Nb & Nd). destruct (balanced u3 u5 u7 x4 u9 b N Nd) as (a & Ea). exists a, b. split; [exact Nb|]. rewrite <- Ea.
  apply v_mul; [apply v_mul; [exact V4|]|apply v_inv; [|exact Nd]]; repeat first [apply v_add|apply v_x|apply v_neg|apply v_const|exact V7].
Qed.
End Combination.

(** ** The claims that a proof is accepted for *)
(** An accepted proof is accepted for another constraint system, that differs in constants only and has the same channel seed,
    exactly if, at one point and for one assignment of values to cells, a weighted sum of the constraints has the same value. *)
Theorem C65_same_proof : forall F (o : ops F), lawful o -> forall e keccak enc dec sort_idx sort_nodes search fuel c seed proof,
  (forall ex, In ex (c_exprs c) -> usizes ex) -> stark_verify o e keccak enc dec sort_idx sort_nodes search fuel c [] seed proof = Some (Good tt) ->
  exists z T weights vs, length weights = length (c_exprs c) /\ Forall2 (value o z T) (c_exprs c) vs /\
  forall c', alike_systems c c' -> (stark_verify o e keccak enc dec sort_idx sort_nodes search fuel c' [] seed proof = Some (Good tt) <->
    exists vs', Forall2 (value o z T) (c_exprs c') vs' /\ weighted o weights vs' = weighted o weights vs).
Proof.
  intros F o L e keccak enc dec sort_idx sort_nodes search fuel c seed proof U V. unfold stark_verify in *. destruct (verify_channel _ _ _ _ _ _ _ _ _ c [] (verifier_new keccak proof seed)) as [[r|]|] eqn:E; try discriminate V. clear V.
  destruct (same_run o e keccak enc dec sort_idx sort_nodes search fuel c _ r E) as (cs & m & z & x & s & N & H). destruct (combination o L (edbg e) c cs m z U N) as (ws & Lw & Cb).
  assert (Al : alike_systems c c).
  { repeat split. assert (A : c_trace_arguments c <> None). { intros A. unfold verify_channel in E. cbn [substitute] in E. cbv zeta in E. peel E; match goal with E1 : lift (c_trace_arguments c) _ = _ |- _ => rewrite A in E1; discriminate E1 end. }
    unfold c_trace_arguments in A. destruct (option_all _) as [l|] eqn:El in A; [|elim A; reflexivity]. apply option_all_inv in El. clear - El. revert El. generalize (c_exprs c). intros exprs El. induction El as [|ex y exprs l H1 H2 IH]; constructor; [|exact IH]. apply alike_refl. congruence. }
  assert (Ov : oods_value_from_trace_values o (edbg e) c [] cs m z = Some x). { pose proof (H c Al) as Hc. rewrite E in Hc. unfold act_bind, lift in Hc. destruct (oods_value_from_trace_values _ _ _ _ _ _ _) as [y|]; [|discriminate Hc]. destruct (feqb o y x) eqn:Ef; [|discriminate Hc]. apply (law_eqb o L) in Ef. congruence. }
  destruct (proj1 (Cb c Al x) Ov) as (vs & Hvs & Ex). exists z, (map_get m), ws, vs. split; [exact Lw|]. split; [exact Hvs|]. intros c' Al'. rewrite (H c' Al'). rewrite <- Ex. transitivity (oods_value_from_trace_values o (edbg e) c' [] cs m z = Some x).
  - clear Ov. unfold act_bind, lift. destruct (oods_value_from_trace_values o (edbg e) c' [] cs m z) as [y|]; [|split; discriminate]. destruct (feqb o y x) eqn:Ef.
    + apply (law_eqb o L) in Ef as ->. split; reflexivity.
    + split; [discriminate|]. intros [= ->]. rewrite (proj2 (law_eqb o L x x) eq_refl) in Ef. discriminate Ef.
  - rewrite (Cb c' Al' x). split; intros (vs' & H1 & H2); exists vs'; split; congruence.
Qed.
Print Assumptions C65_same_proof.

(** Non-vacuity: the proof of C57_ex, for the constraint that squares follow one another in a column of 4 cells, is accepted for
    another system, in which neither the rows selected nor the exception are the same. *)
Lemma one_value {F} (o : ops F) z T ex vs : Forall2 (value o z T) [ex] vs -> exists v, vs = [v] /\ value o z T ex v.
Proof. intros V. inversion V as [|? v ? vs0 V1 V2]; subst. inversion V2; subst. eauto. Qed.
Definition toy_other (a b : fe tiny_field) : constraints := Constraints 4 1 [EMul (EMul (e_sub (ETrace 0 1) (EExp (ETrace 0 0) 2)) (e_sub EX (EConst a))) (EInv (e_sub (EExp EX 4) (EConst b)))] 2 1 2 [1; 1].
Example C65_ex : exists proof a b, length proof = 808 /\ b <> f1 tiny_ops /\
  stark_verify tiny_ops tiny_engine toy_hash (@raw tiny_field) toy_dec (isort (fun x => x)) (isort fst) toy_search 64 toy_c [] [1; 2; 3]%Z proof = Some (Good tt) /\
  stark_verify tiny_ops tiny_engine toy_hash (@raw tiny_field) toy_dec (isort (fun x => x)) (isort fst) toy_search 64 (toy_other a b) [] [1; 2; 3]%Z proof = Some (Good tt).
Proof.
  destruct C57_ex as (_ & proof & Lp & _ & _ & A & _). 
  destruct (C65_same_proof _ tiny_ops tiny_lawful tiny_engine toy_hash (@raw tiny_field) toy_dec (isort (fun x => x)) (isort fst) toy_search 64 toy_c [1; 2; 3]%Z proof) as (z & T & ws & vs & Lw & V & H).
  { intros ex [<-|[]]. apply toy_usizes. } { exact A. }
  assert (N : tiny 5 <> f1 tiny_ops /\ tiny 6 <> f1 tiny_ops /\ tiny 5 <> tiny 6) by (repeat split; intros Eb; apply (f_equal fe_val) in Eb; vm_compute in Eb; discriminate Eb).
  destruct (one_value _ _ _ _ _ V) as (v & -> & V1).
  destruct (other_constants tiny_ops tiny_lawful z T _ _ _ v (tiny 5) (tiny 6) V1 (proj1 N) (proj1 (proj2 N)) (proj2 (proj2 N))) as (a & b & Nb & V2).
  exists proof, a, b. split; [exact Lp|]. split; [exact Nb|]. split; [exact A|]. apply (H (toy_other a b)).
  - repeat split. constructor; [|constructor]. cbn. tauto.
  - exists [v]. split; [constructor; [exact V2|constructor]|reflexivity].
Qed.
