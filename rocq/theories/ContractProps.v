(** The contract that evaluates the constraints: crypto/stark/src/solidity_verifier.rs [generate], assets/OodsPoly.sol, Periodic.sol. *)
Require Import Field Ascii String ZArith NArith Lia Bool List Permutation.
From Verif Require Import Word KnuthModel U256Model U256Spec MontgomeryModel MontgomeryProofs MontgomeryProps FieldSig FieldModel FieldProofs FieldInstance FieldAlgModel FieldAlgProofs Arr FftModel StarkBase PolyModel PolyProps TraceModel ExprModel ExprSpec ExprProofs ContractModel ContractSpec ContractProofs ContractTotal.
Import ListNotations.
Open Scope Z_scope.

(** The call data hold the point, the values of the claim polynomials and of the periodic columns, the coefficients and
    the trace values. Then the contract returns the value that the verifier computes from the same coefficients. *)
Theorem C68_contract : forall P (G : good P) hasher fixed_point order trace_order (c : constraints (F := fe P)) claims x T data k ck pk tk coefficients e r cvs pvs tvs,
  (forall l, Permutation (order l) l) -> (forall l, Permutation (trace_order l) l) ->
  separated (fe_ops G) hasher fixed_point c -> unnested (fe_ops G) c -> Forall usizes (c_exprs c) ->
  generate (fe_ops G) true fe_val hasher fixed_point order trace_order c = Some (k, (ck, pk, tk)) -> expmod_context k < 2 ^ 64 ->
  Forall2 (denotes (fe_ops G) claims x T) ck cvs -> Forall2 (denotes (fe_ops G) claims x T) pk pvs -> Forall2 (denotes (fe_ops G) claims x T) tk tvs ->
  holds_words data (map fe_val ([x] ++ cvs ++ pvs ++ coefficients ++ tvs)) ->
  combine (fe_ops G) true c coefficients = Some e -> denotes (fe_ops G) claims x T e r ->
  run k data (val (p_modulus P)) = Some (fe_val r).
Proof. intros. eapply (contract_correct G hasher fixed_point order trace_order); eassumption. Qed.
Print Assumptions C68_contract.

(** The modulus that is written in the template is the modulus of the field. *)
Theorem C68_field : forall hasher fixed_point order trace_order (c : constraints (F := Felt)) claims x T data k ck pk tk coefficients e r cvs pvs tvs,
  (forall l, Permutation (order l) l) -> (forall l, Permutation (trace_order l) l) ->
  separated felt_ops hasher fixed_point c -> unnested felt_ops c -> Forall usizes (c_exprs c) ->
  generate felt_ops true fe_val hasher fixed_point order trace_order c = Some (k, (ck, pk, tk)) -> expmod_context k < 2 ^ 64 ->
  Forall2 (denotes felt_ops claims x T) ck cvs -> Forall2 (denotes felt_ops claims x T) pk pvs -> Forall2 (denotes felt_ops claims x T) tk tvs ->
  holds_words data (map fe_val ([x] ++ cvs ++ pvs ++ coefficients ++ tvs)) ->
  combine felt_ops true c coefficients = Some e -> denotes felt_ops claims x T e r ->
  run k data template_modulus = Some (fe_val r).
Proof. intros. replace template_modulus with (val (p_modulus proth_field)) by (rewrite proth_modulus; reflexivity). eapply (contract_correct proth_good hasher fixed_point order trace_order); eassumption. Qed.
Print Assumptions C68_field.

(** The generator returns a contract for all constraints that can be combined, unless a divisor has a divisor, the
    argument of a polynomial is not a power of the point, or an exponent is too large. *)
Theorem C68_total : forall F (o : ops F) num hasher fixed_point order trace_order (c : constraints (F := F)) coefficients e,
  (forall l, Permutation (order l) l) -> (forall l, Permutation (trace_order l) l) -> exponents_fit o c -> x_arguments o c -> unnested o c ->
  combine o true c coefficients = Some e -> exists k ck pk tk, generate o true num hasher fixed_point order trace_order c = Some (k, (ck, pk, tk)).
Proof.
  intros F o num hasher fixed_point order trace_order c coefficients e Po Pt Fit Xa Un Ec. unfold combine in Ec. destruct (Nat.eqb_spec (2 * length (c_exprs c)) (length coefficients)) as [Lc|]; [|discriminate Ec].
  apply bind_some in Ec as (target & Et & Ec). apply bind_some in Ec as (ts & Ets & _).
  assert (Hd : exists degrees, option_all (map (adjustment_degree o true (c_nrows c) target) (c_exprs c)) = Some degrees).
  { assert (Lt : forall n (l : list F), length l = (2 * n)%nat -> length (tuples l) = n) by (induction n as [|n IH]; intros [|a [|b l]] H; try (cbn in H; lia); [reflexivity|]; cbn [tuples length]; rewrite IH; [reflexivity|cbn in H; lia]).
    pose proof (Lt (length (c_exprs c)) coefficients (eq_sym Lc)) as Lp. clear - Ets Lp. revert ts Ets Lp. generalize (tuples coefficients). induction (c_exprs c) as [|a l IH]; intros pairs ts E Lp; [eexists; reflexivity|].
    destruct pairs as [|[lo hi] pairs]; [discriminate Lp|]. cbn [List.combine map option_all] in E. apply bind_some in E as (t & E0 & E). apply bind_some in E as (ts' & E1 & _). cbn [combine_term] in E0. apply bind_some in E0 as (d & E0 & _).
    injection Lp as Lp. destruct (IH pairs ts' E1 Lp) as (ds & E2). cbn [map option_all]. rewrite E0. cbn [bind]. rewrite E2. eexists. reflexivity. }
  destruct Hd as (degrees & Hd). destruct (generate_total o num hasher fixed_point c Fit Xa Un order trace_order Po Pt target degrees Et Hd) as ([k [[ck pk] tk]] & E). eauto 6.
Qed.
Print Assumptions C68_total.

(** The contract of a periodic column evaluates its polynomial, at every word that stands for the point. *)
Theorem C68_periodic : forall P (G : good P) (q : list (fe P)) x w, q <> [] -> w mod val (p_modulus P) = fe_val x ->
  periodic_run (val (p_modulus P)) (rev (map fe_val q)) w = fe_val (peval (fe_ops G) q x).
Proof.
  intros P G q x w Nq Ew. set (o := fe_ops G). pose proof (fe_lawful G) as L. fold o in L. set (p := val (p_modulus P)) in *. pose proof (ContractProofs.p_range G) as Pr. fold p in Pr.
  set (hv := fix hv (l : list (fe P)) (y : fe P) := match l with [] => y | c :: l => hv l (fadd o (fmul o x y) c) end).
  assert (Ea : forall l c y, hv (l ++ [c]) y = fadd o (fmul o x (hv l y)) c) by (induction l as [|d l IH]; intros c y; cbn; [reflexivity|apply IH]).
  assert (Ep : forall l, hv (rev l) (f0 o) = peval o l x).
  { induction l as [|c l IH]; [reflexivity|]. cbn [rev]. rewrite Ea, IH, (peval_cons o L). destruct (law_field o L) as [R _ _ _]. apply (Radd_comm R). }
  assert (Hh : forall l y v, l <> [] -> y mod p = fe_val v -> horner p w (map fe_val l) y = fe_val (hv l v)).
  { induction l as [|c l IH]; intros y v N Ey; [contradiction|]. assert (Em : y_mulmod w y p = fe_val (fmul o x v)) by (apply (ContractProofs.rep_mul G); assumption).
    destruct l as [|d l].
    - cbn [map horner hv]. rewrite Em. apply (ContractProofs.rep_add G); apply (ContractProofs.vl_mod G).
    - change (horner p w (map fe_val (c :: d :: l)) y) with (horner p w (map fe_val (d :: l)) (y_add (y_mulmod w y p) (fe_val c))). change (hv (c :: d :: l) v) with (hv (d :: l) (fadd o (fmul o x v) c)). apply IH; [discriminate|].
      rewrite Em. pose proof (fe_val_range G (fmul o x v)). pose proof (fe_val_range G c). fold p in H, H0. unfold y_add, W256. assert (2 ^ 255 + 2 ^ 255 = 2 ^ 256) by reflexivity. rewrite (Z.mod_small _ (2 ^ 256)) by lia.
      symmetry. exact (fe_add_val G (fmul o x v) c). }
  rewrite <- Ep, <- map_rev. destruct (rev q) as [|c l] eqn:Er; [exfalso; apply Nq; rewrite <- (rev_involutive q), Er; reflexivity|]. cbn [map periodic_run].
  assert (E0 : hv (c :: l) (f0 o) = hv l c). { cbn [hv]. f_equal. destruct (law_field o L) as [R _ _ _]. rewrite (Rmul_comm R). assert (Z0 : fmul o (f0 o) x = f0 o) by (apply (fmul_0_iff o L); left; reflexivity). rewrite Z0. apply (Radd_0_l R). }
  rewrite E0. destruct l as [|d l]; [reflexivity|]. apply Hh; [discriminate|]. apply (ContractProofs.vl_mod G).
Qed.
Print Assumptions C68_periodic.

(** ** Examples *)
(** The expressions of concrete constraints are a finite list. *)
Section Finite.
Context {F : Type} (o : ops F) (L : lawful o).
Fixpoint rexpr_eqb (a b : rexpr F) : bool :=
  match a, b with
  | EX, EX => true
  | EConst c, EConst d => feqb o c d
  | ETrace i j, ETrace i' j' => Nat.eqb i i' && (j =? j')
  | EPoly p a, EPoly q b => (fix eq p q := match p, q with [], [] => true | x :: p, y :: q => feqb o x y && eq p q | _, _ => false end) p q && rexpr_eqb a b
  | EClaim i n a, EClaim j m b => Nat.eqb i j && (n =? m) && rexpr_eqb a b
  | EAdd a b, EAdd a' b' | EMul a b, EMul a' b' => rexpr_eqb a a' && rexpr_eqb b b'
  | ENeg a, ENeg b | EInv a, EInv b => rexpr_eqb a b
  | EExp a n, EExp b m => (n =? m) && rexpr_eqb a b
  | _, _ => false
  end.
Lemma rexpr_eqb_true : forall a b, rexpr_eqb a b = true -> a = b.
Proof.
  induction a as [|c|i j|p a IH|i n a IH|a1 IH1 a2 IH2|a IH|a1 IH1 a2 IH2|a IH|a IH n]; intros [|c'|i' j'|p' b|i' n' b|b1 b2|b|b1 b2|b|b n'] H; cbn [rexpr_eqb] in H; try discriminate H;
    repeat (apply andb_true_iff in H as [H ?]); f_equal; auto; try (apply Z.eqb_eq; assumption); try (apply Nat.eqb_eq; assumption); try (apply (law_eqb o L); assumption).
  revert p' H. induction p as [|x p IHp]; intros [|y q] H; try discriminate H; [reflexivity|]. apply andb_true_iff in H as [H1 H2]. apply (law_eqb o L) in H1 as ->. f_equal. apply IHp. exact H2.
Qed.
Definition parts (e : rexpr F) : list (rexpr F) :=
  match e with
  | EX | EConst _ | ETrace _ _ => []
  | EPoly _ a | EClaim _ _ a | ENeg a | EInv a => [a]
  | EAdd a b | EMul a b => [a; b]
  | EExp a n => a :: match a with EExp b f => [EExp b (n * f)] | _ => [] end
  end.
Definition among (l : list (rexpr F)) (e : rexpr F) : bool := existsb (rexpr_eqb e) l.
Definition powers (c : constraints (F := F)) : list (rexpr F) :=
  match target_degree o true c with
  | Some t => flat_map (fun e => match adjustment_degree o true (c_nrows c) t e with Some d => [EExp EX d] | None => [] end) (c_exprs c)
  | None => []
  end.
Definition complete (c : constraints (F := F)) (l : list (rexpr F)) : bool := among l EX && forallb (among l) (powers c) && forallb (among l) (c_exprs c) && forallb (fun e => forallb (among l) (parts e)) l.
Lemma complete_spec c l : complete c l = true -> forall e, occurs o c e -> In e l.
Proof.
  intros H. unfold complete in H. repeat (apply andb_true_iff in H as [H ?]). rewrite forallb_forall in *.
  assert (A : forall e, among l e = true -> In e l) by (intros e He; unfold among in He; apply existsb_exists in He as (e' & Hi & E); apply rexpr_eqb_true in E as ->; exact Hi).
  assert (Pt : forall e d, In e l -> In d (parts e) -> In d l) by (intros e d He Hd; apply A; specialize (H0 e He); cbv beta in H0; rewrite forallb_forall in H0; apply H0; exact Hd).
  induction 1 as [|t e d Et He Ed|e He|q a Ho IH|i n a Ho IH|a b Ho IH|a b Ho IH|a Ho IH|a b Ho IH|a b Ho IH|a Ho IH|a n Ho IH|a f n Ho IH]; try (eapply Pt; [exact IH|cbn; auto]; fail).
  - apply A. exact H.
  - apply A, H2. unfold powers. rewrite Et. apply in_flat_map. exists e. split; [exact He|]. rewrite Ed. left. reflexivity.
  - apply A, H1. exact He.
Qed.
Fixpoint distinct (h : rexpr F -> Z) (l : list (rexpr F)) : bool := match l with [] => true | e :: l => forallb (fun d => negb (h d =? h e)) l && distinct h l end.
Lemma distinct_spec h l : distinct h l = true -> forall a b, In a l -> In b l -> h a = h b -> a = b.
Proof.
  induction l as [|e l IH]; intros H a b; [intros []|]; intros [Ha|Ha]; cbn [distinct] in H; apply andb_true_iff in H as [H1 H2]; rewrite forallb_forall in H1.
  - intros [Hb|Hb] E; [congruence|]. subst. specialize (H1 b Hb). apply negb_true_iff, Z.eqb_neq in H1. congruence.
  - intros [<-|Hb] E; [|apply IH; assumption]. specialize (H1 a Ha). apply negb_true_iff, Z.eqb_neq in H1. congruence.
Qed.
Definition flat (e : rexpr F) : bool := (fix f e := match e with EInv _ => false | EAdd a b | EMul a b => f a && f b | ENeg a | EExp a _ => f a | _ => true end) e.
Lemma flat_spec e : flat e = true -> no_inverse e.
Proof. induction e; cbn; try discriminate; auto; intros H; apply andb_true_iff in H as [H1 H2]; auto. Qed.
Lemma unnested_spec c l : complete c l = true -> forallb (fun e => match e with EInv a => flat a | _ => true end) l = true -> unnested o c.
Proof. intros H H' a Ho. apply (complete_spec c l H) in Ho. rewrite forallb_forall in H'. apply flat_spec. apply (H' _ Ho). Qed.
End Finite.
(** A hash of 64 bits *)
Definition toy_number (t : token (F := fe tiny_field)) : Z :=
  match t with TStr s => fold_left (fun h a => h * 256 + Z.of_N (N_of_ascii a)) (list_ascii_of_string s) 1 | TNum n => n + 7 | TElem (Some x) => fe_val x + 1000 | TElem None => 5 end.
Definition toy_hasher (l : list (token (F := fe tiny_field))) : Z := fold_left (fun h t => (h * 1000003 + toy_number t) mod 2 ^ 64) l 17.
Definition toy_hash := get_hash tiny_ops toy_hasher (tiny 10).
Definition same {A} (l : list A) : list A := l.
(** Two constraints, with a power of a power, a division, a periodic column and a claim polynomial *)
Definition ex_c : constraints (F := fe tiny_field) :=
  Constraints 4 2 [EMul (EAdd (ETrace 0 1) (ENeg (EExp (EExp (ETrace 0 0) 2) 3))) (EInv (EAdd EX (ENeg (EConst (tiny 1)))));
                   EMul (EAdd (ETrace 1 0) (EPoly [tiny 3; tiny 5] (EExp EX 2))) (EClaim 0 1 EX)] 4 0 2 [].
Definition ex_all : list (rexpr (fe tiny_field)) :=
  c_exprs ex_c ++ [EX; EExp EX 6; EExp EX 19; EAdd (ETrace 0 1) (ENeg (EExp (EExp (ETrace 0 0) 2) 3)); ETrace 0 1; ENeg (EExp (EExp (ETrace 0 0) 2) 3); EExp (EExp (ETrace 0 0) 2) 3; EExp (ETrace 0 0) 2; EExp (ETrace 0 0) 6; ETrace 0 0;
    EInv (EAdd EX (ENeg (EConst (tiny 1)))); EAdd EX (ENeg (EConst (tiny 1))); ENeg (EConst (tiny 1)); EConst (tiny 1);
    EAdd (ETrace 1 0) (EPoly [tiny 3; tiny 5] (EExp EX 2)); ETrace 1 0; EPoly [tiny 3; tiny 5] (EExp EX 2); EExp EX 2; EClaim 0 1 EX].
Definition ex_T (i : nat) (j : Z) : option (fe tiny_field) := Some (tiny (11 + 5 * Z.of_nat i + 3 * j)).
Definition ex_claims := [[tiny 8; tiny 9]].
Definition ex_coefficients := [tiny 21; tiny 22; tiny 23; tiny 24].
Definition evaluated (claims : list (list (fe tiny_field))) x T (e : rexpr (fe tiny_field)) : option (fe tiny_field) := let? e' := substitute_claim tiny_ops claims e in eval_expr tiny_ops x T e'.
Lemma evaluated_denotes claims x T e v : evaluated claims x T e = Some v -> denotes tiny_ops claims x T e v.
Proof. intros H. apply bind_some in H as (e' & A & E). exists e'. auto. Qed.
(** The call data, the words one after the other *)
Definition data_of (words : list Z) (a : Z) : Z := nth (Z.to_nat (a / 32)) words 0.
Lemma data_of_words words : holds_words (data_of words) words.
Proof. intros i w H. unfold data_of. rewrite (Z.mul_comm 32), Z.div_mul, Nat2Z.id by lia. apply nth_error_nth. exact H. Qed.
(** The generated contract on its call data, and the verifier's value *)
Definition both_values (c : constraints) claims x T coefficients : option (option Z * option Z) :=
  let? g := generate tiny_ops true fe_val toy_hasher (tiny 10) same same c in
  match g with (k, (ck, pk, tk)) =>
    let? cvs := option_all (map (evaluated claims x T) ck) in let? pvs := option_all (map (evaluated claims x T) pk) in let? tvs := option_all (map (evaluated claims x T) tk) in
    let? e := combine tiny_ops true c coefficients in
    Some (run k (data_of (map fe_val ([x] ++ cvs ++ pvs ++ coefficients ++ tvs))) 97, option_map fe_val (evaluated claims x T e))
  end.
Example C68_ex : both_values ex_c ex_claims (tiny 13) ex_T ex_coefficients = Some (Some 7, Some 7) /\ separated tiny_ops toy_hasher (tiny 10) ex_c /\ unnested tiny_ops ex_c /\ exponents_fit tiny_ops ex_c /\ x_arguments tiny_ops ex_c /\ Forall usizes (c_exprs ex_c).
Proof.
  assert (C : complete tiny_ops ex_c ex_all = true) by (vm_compute; reflexivity).
  split; [vm_compute; reflexivity|]. split; [|split; [|split; [|split]]].
  - intros a b Ha Hb. apply (complete_spec tiny_ops tiny_lawful _ _ C) in Ha, Hb. revert a b Ha Hb. assert (D : distinct toy_hash ex_all = true) by (vm_compute; reflexivity). intros a b Ha Hb. exact (distinct_spec toy_hash ex_all D a b Ha Hb).
  - apply (unnested_spec tiny_ops tiny_lawful ex_c ex_all C). vm_compute. reflexivity.
  - intros a f n H. apply (complete_spec tiny_ops tiny_lawful _ _ C) in H. unfold ex_all, ex_c in H. cbn [c_exprs app In] in H. repeat (destruct H as [H|H]; [try discriminate H|]); try contradiction. injection H as _ <- <-. reflexivity.
  - split; [intros q a H|intros i n a H]; apply (complete_spec tiny_ops tiny_lawful _ _ C) in H; unfold ex_all, ex_c in H; cbn [c_exprs app In] in H; repeat (destruct H as [H|H]; [try discriminate H|]); try contradiction; injection H; intros; subst; exact I.
  - repeat constructor; discriminate.
Qed.

(** ** Where the contract and the verifier differ *)
(** A divisor that has a divisor of its own: the contract reads the memory of the inner inverse before the inverses
    are there. All other hypotheses of C68_contract hold. *)
Definition nested_c : constraints (F := fe tiny_field) := Constraints 4 1 [EMul (ETrace 0 0) (EInv EX); EMul (ETrace 0 0) (EInv (EAdd (EInv EX) (EConst (tiny 1))))] 4 0 2 [].
Definition nested_all : list (rexpr (fe tiny_field)) := c_exprs nested_c ++ [EX; EExp EX 1; EExp EX 0; ETrace 0 0; EInv EX; EInv (EAdd (EInv EX) (EConst (tiny 1))); EAdd (EInv EX) (EConst (tiny 1)); EConst (tiny 1)].
Theorem C68_nested_refuted : exists w v, both_values nested_c [] (tiny 13) ex_T ex_coefficients = Some (Some w, Some v) /\ w <> v /\ separated tiny_ops toy_hasher (tiny 10) nested_c /\ Forall usizes (c_exprs nested_c).
Proof.
  eexists _, _. split; [vm_compute; reflexivity|]. split; [discriminate|]. split; [|repeat constructor]. assert (C : complete tiny_ops nested_c nested_all = true) by (vm_compute; reflexivity).
  intros a b Ha Hb. apply (complete_spec tiny_ops tiny_lawful _ _ C) in Ha, Hb. assert (D : distinct toy_hash nested_all = true) by (vm_compute; reflexivity). exact (distinct_spec toy_hash nested_all D a b Ha Hb).
Qed.
Print Assumptions C68_nested_refuted.
(** If the inner inverse is nowhere else, there is no contract: the generator panics, whatever the hash, although the
    constraints can be combined and have a value. *)
Definition inner_c : constraints (F := fe tiny_field) := Constraints 4 1 [EMul (ETrace 0 0) (EInv (EAdd (EInv EX) (EConst (tiny 1))))] 4 0 2 [].
Lemma checked {A B} (m : option A) (f : A -> option B) : match m with Some e => match f e with Some _ => true | None => false end | None => false end = true -> exists e v, m = Some e /\ f e = Some v.
Proof. destruct m as [e|]; [|discriminate]. destruct (f e) as [v|] eqn:E; [|discriminate]. intros _. exists e, v. auto. Qed.
Lemma absent {A} (m : option A) : match m with Some _ => true | None => false end = false -> m = None.
Proof. destruct m; [discriminate|reflexivity]. Qed.
Theorem C68_nested_panics : (exists e v, combine tiny_ops true inner_c [tiny 2; tiny 3] = Some e /\ evaluated [] (tiny 13) ex_T e = Some v)
  /\ separated tiny_ops toy_hasher (tiny 10) inner_c /\ generate tiny_ops true fe_val toy_hasher (tiny 10) same same inner_c = None.
Proof.
  split; [|split; [|apply absent; vm_compute; reflexivity]].
  - apply checked. vm_compute. reflexivity.
  - set (l := c_exprs inner_c ++ [EX; EExp EX 0; ETrace 0 0; EInv EX; EInv (EAdd (EInv EX) (EConst (tiny 1))); EAdd (EInv EX) (EConst (tiny 1)); EConst (tiny 1)]). assert (C : complete tiny_ops inner_c l = true) by (vm_compute; reflexivity).
    intros a b Ha Hb. apply (complete_spec tiny_ops tiny_lawful _ _ C) in Ha, Hb. assert (D : distinct toy_hash l = true) by (vm_compute; reflexivity). exact (distinct_spec toy_hash l D a b Ha Hb).
Qed.
Print Assumptions C68_nested_panics.
(** Whatever the hasher: different polynomials that agree at one fixed point have the same key. *)
Theorem C68_hash_collision : forall F (o : ops F) hasher fixed_point q r a b v,
  eval_expr o fixed_point (fun _ _ => None) (EPoly q a) = Some v -> eval_expr o fixed_point (fun _ _ => None) (EPoly r b) = Some v ->
  forall l, get o hasher fixed_point l (EPoly q a) = get o hasher fixed_point l (EPoly r b).
Proof. intros F o hasher fixed_point q r a b v E1 E2 l. unfold get. assert (H : get_hash o hasher fixed_point (EPoly q a) = get_hash o hasher fixed_point (EPoly r b)) by (unfold get_hash; cbn [tokens]; rewrite E1, E2; reflexivity). rewrite H. reflexivity. Qed.
Print Assumptions C68_hash_collision.
(** So the contract takes one for the other, and returns a wrong value. *)
Definition collide_c : constraints (F := fe tiny_field) := Constraints 4 1 [EMul (EMul (ETrace 0 0) (EAdd (EPoly [tiny 3; tiny 5] EX) (ENeg (EPoly [tiny 53] EX)))) (EInv EX)] 4 0 2 [].
Theorem C68_hash_refuted : (exists w v, both_values collide_c [] (tiny 13) ex_T [tiny 2; tiny 3] = Some (Some w, Some v) /\ w <> v) /\ unnested tiny_ops collide_c /\ Forall usizes (c_exprs collide_c).
Proof.
  split; [eexists _, _; split; [vm_compute; reflexivity|discriminate]|]. split; [|repeat constructor; discriminate].
  set (l := c_exprs collide_c ++ [EX; EInv EX; EMul (ETrace 0 0) (EAdd (EPoly [tiny 3; tiny 5] EX) (ENeg (EPoly [tiny 53] EX))); EExp EX 0; EExp EX 1; ETrace 0 0; EAdd (EPoly [tiny 3; tiny 5] EX) (ENeg (EPoly [tiny 53] EX)); EPoly [tiny 3; tiny 5] EX; ENeg (EPoly [tiny 53] EX); EPoly [tiny 53] EX]).
  apply (unnested_spec tiny_ops tiny_lawful collide_c l); vm_compute; reflexivity.
Qed.
Print Assumptions C68_hash_refuted.
(** Where a divisor is zero the verifier has no value (it panics); the contract returns a number. *)
Theorem C68_zero_divisor_deviation : exists w, both_values ex_c ex_claims (tiny 1) ex_T ex_coefficients = Some (Some w, None).
Proof. eexists. vm_compute. reflexivity. Qed.
Print Assumptions C68_zero_divisor_deviation.
Example C68_periodic_ex : periodic_run 97 (rev (map fe_val [tiny 3; tiny 5; tiny 96])) (13 + 97) = fe_val (peval tiny_ops [tiny 3; tiny 5; tiny 96] (tiny 13)).
Proof. apply (C68_periodic tiny_field tiny_good); [discriminate|vm_compute; reflexivity]. Qed.
