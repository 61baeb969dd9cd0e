(** C54: out-of-domain sampling. *)
Require Import Field ZArith NArith Lia Bool List Sorted.
From Verif Require Import Word KnuthModel FieldSig FieldInstance FieldAlgModel FieldAlgProofs FieldProps Arr FftSpec FftModel PermuteProofs FftProofs FftProps StarkBase StarkInstance PolyModel PolyProps TraceModel TraceProps ExprModel ExprSpec ExprProofs ExprProps CheckProps PolyRoots OodsModel OodsProofs.
Import ListNotations.
Open Scope nat_scope.

(** ** Specification *)
(** What a reference to column [i] at offset [j] means at the point [x]: the value of the i-th trace polynomial at
    x g^j, where g, of order n, is the step from one row to the next. *)
Definition poly_trace {F} (o : ops F) (g : F) (n : nat) (tp : list (list F)) (x : F) (i : nat) (j : Z) : option F :=
  Some (peval o (nth i tp []) (fmul o (fpw o g (Z.to_nat (j mod Z.of_nat n))) x)).
(** The polynomial recombined from the parts [H]: the sum of x^i H_i(x^d), d the number of parts. *)
Definition recombined {F} (o : ops F) (H : list (list F)) (x : F) : F :=
  fsum o (map (fun i => fmul o (fpw o x i) (peval o (nth i H []) (fpw o x (length H)))) (seq 0 (length H))).
(** The references of the expressions are to existing columns, and the offsets are isize values (other than the smallest). *)
Definition references_ok {F} (ncols : nat) (l : list (rexpr F)) : Prop :=
  forall ex i j, In ex l -> refers ex i j -> i < ncols /\ (- 2 ^ 63 < j < 2 ^ 63)%Z.

(** The trace arguments are the references of the constraints, each once, in increasing order. *)
Theorem C54_trace_arguments : forall F (c : constraints (F := F)) args, c_trace_arguments c = Some args ->
  StronglySorted (fun a b => fst a < fst b \/ fst a = fst b /\ (snd a < snd b)%Z) args /\
  forall i j, In (i, j) args <-> exists ex, In ex (c_exprs c) /\ refers ex i j.
Proof. intros F c args E. exact (c_trace_arguments_spec c args E). Qed.
Print Assumptions C54_trace_arguments.

(** The table the prover evaluates the constraints on holds the values of the trace polynomials on the coset. *)
Theorem C54_trace_coset : forall F (o : ops F), lawful o -> forall e M w, sound o e M w -> forall k b a tp ldes,
  k + b <= M -> a <= b -> tp <> [] -> Forall (fun p => length p = 2 ^ k) tp ->
  option_all (map (fun p => low_degree_extension o e p (2 ^ b)) tp) = Some ldes ->
  exists t, extract_trace_coset o e ldes (2 ^ (k + a)) = Some t /\ t_rows t = 2 ^ (k + a) /\ t_cols t = length tp /\
  forall i j, i < 2 ^ (k + a) -> j < length tp -> t_get t i j = Some (peval o (nth j tp []) (fmul o (egen e) (fpw o (w (k + a)) i))).
Proof. intros F o L e M w SD k b a tp ldes. exact (extract_spec o L e M w SD k b a tp ldes). Qed.
Print Assumptions C54_trace_coset.

(** From the values of a polynomial on the coset the prover computes parts that recombine to it, of the
    length of the trace polynomials. *)
Theorem C54_constraint_polynomials : forall F (o : ops F), lawful o -> forall e M w, sound o e M w -> forall k a C values,
  k + a <= M -> length C = 2 ^ (k + a) -> length values = 2 ^ (k + a) ->
  (forall i, i < 2 ^ (k + a) -> nth i values (f0 o) = peval o C (fmul o (egen e) (fpw o (w (k + a)) i))) ->
  exists H, constraint_polynomials o e values (2 ^ a) (2 ^ k) = Some H /\ length H = 2 ^ a /\ Forall (fun p => length p = 2 ^ k) H /\
  forall x, recombined o H x = peval o C x.
Proof.
  intros F o L e M w SD k a C values Hm LC Lv Hv. eexists. split; [apply (constraint_polynomials_spec o L e M w SD k a C values Hm LC Lv Hv)|]. rewrite map_length, seq_length. split; [reflexivity|]. split.
  - apply Forall_forall. intros p Hp. apply in_map_iff in Hp as (i & <- & _). unfold every. rewrite map_length, seq_length. reflexivity.
  - intros x. unfold recombined. rewrite map_length, seq_length. rewrite (split_eval o L (2 ^ a) x (2 ^ k) C) by (rewrite LC, Nat.pow_add_r; lia). apply fsum_map_ext. intros i Hi. apply in_seq in Hi. f_equal. f_equal.
    rewrite (nth_indep _ [] ((fun i => every o (2 ^ a) i C (2 ^ k)) 0)) by (rewrite map_length, seq_length; lia). rewrite (map_nth (fun i => every o (2 ^ a) i C (2 ^ k))), seq_nth by lia. reflexivity.
Qed.
Print Assumptions C54_constraint_polynomials.

(** What the verifier recombines from the values of the parts at x^d is the recombined polynomial at x. *)
Theorem C54_recombine : forall F (o : ops F), lawful o -> forall H x, (Z.of_nat (length H) < 2 ^ 64)%Z -> oods_value_from_constraint_values o (oods_constraint_values o H x) x = recombined o H x.
Proof.
  intros F o L H x HB. unfold oods_value_from_constraint_values, oods_constraint_values, oods_point_pow, recombined. rewrite (from_constraint_values_spec o L).
  rewrite (pow_usize_spec o L) by (unfold B; lia). rewrite <- (nat_N_Z (length H)), N2Z.id, (fexp_nat o). set (y := fpw o x (length H)).
  assert (G : forall n l, fmul o (fpw o x n) (peval o (map (fun p => evaluate o p y) l) x) = fsum o (map (fun i => fmul o (fpw o x i) (peval o (nth (i - n) l []) y)) (seq n (length l)))).
  { intros n l. revert n. induction l as [|p l IH]; intros n; cbn [map length seq].
    - rewrite peval_nil. unfold fsum. cbn [fold_right]. apply (fmul_zero_r o L).
    - rewrite fsum_cons, (peval_cons o L), (evaluate_spec o L), Nat.sub_diag. cbn [nth]. specialize (IH (S n)). cbn [fpw] in IH.
      rewrite (fsum_map_ext o (fun i => fmul o (fpw o x i) (peval o (nth (i - n) (p :: l) []) y)) (fun i => fmul o (fpw o x i) (peval o (nth (i - S n) l []) y))).
      + rewrite <- IH. apply (oods_ring o L).
      + intros i Hi. apply in_seq in Hi. replace (i - n) with (S (i - S n)) by lia. reflexivity. }
  specialize (G 0 H). cbn [fpw] in G. rewrite (oods_ring1 o L). rewrite G. apply fsum_map_ext. intros i _. rewrite Nat.sub_0_r. reflexivity.
Qed.
Print Assumptions C54_recombine.

(** The values the prover sends, put back into the combined constraint by the verifier, are the combined constraint
    at the sample point: it has this value exactly where no divisor vanishes. *)
Theorem C54_trace_values : forall F (o : ops F), lawful o -> forall e M w, sound o e M w -> forall dbg k tp c claims cs E0 E c' args,
  k <= M -> tp <> [] -> Forall (fun p => length p = 2 ^ k) tp -> references_ok (length tp) (c_exprs c) -> (forall ex, In ex (c_exprs c) -> usizes ex) ->
  combine o true c cs = Some E0 -> substitute_claim o claims E0 = Some E -> substitute o claims c = Some c' -> c_trace_arguments c' = Some args ->
  forall z, exists tv, oods_trace_values o e tp args z = Some tv /\
  forall v, oods_value_from_trace_values o dbg c claims cs (claimed_trace_map args tv) z = Some v <-> value o z (poly_trace o (w k) (2 ^ k) tp z) E v.
Proof.
  intros F o L e M w SD dbg k tp c claims cs E0 E c' args Hk Nt Htp HR HU E1 E2 E3 E4 z. pose proof (c_trace_arguments_spec c' args E4) as [Sa Ia].
  assert (Ha : forall i j, In (i, j) args -> i < length tp /\ (- 2 ^ 63 < j < 2 ^ 63)%Z).
  { intros i j H. apply (substitute_args o claims c c' args i j E3 E4) in H as (ex & H1 & H2). apply (HR ex i j H1 H2). }
  assert (Eg : oods_root e tp = Some (w k)). { destruct tp as [|p tp]; [contradiction|]. cbn [oods_root]. inversion Htp; subst. rewrite H1, (s_root _ _ _ _ SD k Hk). reflexivity. }
  set (tv := map (fun a => peval o (nth (fst a) tp []) (fmul o (fpw o (w k) (Z.to_nat (snd a mod Z.of_nat (2 ^ k)))) z)) args).
  assert (Ev : oods_trace_values o e tp args z = Some tv).
  { unfold oods_trace_values. rewrite Eg. cbn [bind]. unfold tv. clear - L SD Ha Hk. induction args as [|[i j] args IH]; [reflexivity|]. cbn [map option_all fst snd]. destruct (Ha i j ltac:(left; reflexivity)) as [Hi Hj].
    rewrite (nth_error_nth' tp []) by exact Hi. cbn [bind]. rewrite (pow_offset_spec o L e M w SD (edbg e) k j Hk Hj). cbn [bind]. rewrite IH by (intros i' j' H; apply Ha; right; exact H). cbn [bind]. rewrite (evaluate_spec o L). rewrite Nat2Z.inj_pow. rewrite (oods_comm o L z). reflexivity. }
  exists tv. split; [exact Ev|]. intros v.
  assert (UE : usizes E) by (apply (substitute_usizes o claims E0 E E2), (combine_usizes o c cs E0 E1), HU).
  unfold oods_value_from_trace_values. replace (combine o dbg c cs) with (Some E0) by (destruct dbg; [symmetry; exact E1|symmetry; apply (combine_rel o), E1]). cbn [bind]. rewrite E2. cbn [bind].
  rewrite (eval_value o L) by exact UE.
  assert (Lt : length tv = length args) by apply map_length.
  assert (X : forall i j, refers E i j -> map_get (claimed_trace_map args tv) i j = poly_trace o (w k) (2 ^ k) tp z i j).
  { intros i j R. assert (Hin : In (i, j) args). { apply (substitute_args o claims c c' args i j E3 E4). apply (substitute_refers o claims i j E0 E E2) in R. apply (combine_refers o true c cs E0 i j E1 R). }
    rewrite (claimed_map_spec args tv Sa Lt). destruct (In_nth args (i, j) (0, 0%Z) Hin) as (n & Hn & En). pose proof (map_get_spec (0, 0%Z) args tv n Sa Lt Hn) as G. rewrite En in G. cbn [fst snd] in G. rewrite G.
    unfold poly_trace, tv. rewrite nth_error_map, (nth_error_nth' args (0, 0%Z)) by exact Hn. rewrite En. reflexivity. }
  split; apply (value_ext_on o); intros i j R; [|symmetry]; apply X, R.
Qed.
Print Assumptions C54_trace_values.

(** If the combined constraint is a polynomial wherever it has a value, then the prover's parts exist and the two
    values the verifier compares are equal, at every sample point where the combined constraint has a value.
    [coset_values = Some values] says that the combined constraint has a value on the evaluation coset. *)
Theorem C54_consistency : forall F (o : ops F), lawful o -> forall e M w, sound o e M w -> forall dbg k b a tp ldes t c claims cs E0 E c' args values C,
  k + b <= M -> a <= b -> tp <> [] -> Forall (fun p => length p = 2 ^ k) tp -> references_ok (length tp) (c_exprs c) -> (forall ex, In ex (c_exprs c) -> usizes ex) ->
  option_all (map (fun p => low_degree_extension o e p (2 ^ b)) tp) = Some ldes -> extract_trace_coset o e ldes (2 ^ (k + a)) = Some t ->
  combine o true c cs = Some E0 -> substitute_claim o claims E0 = Some E -> substitute o claims c = Some c' -> c_trace_arguments c' = Some args ->
  coset_values o e t (2 ^ a) E = Some values ->
  length C = 2 ^ (k + a) -> (forall x v, value o x (poly_trace o (w k) (2 ^ k) tp x) E v -> v = peval o C x) ->
  exists H, constraint_polynomials o e values (2 ^ a) (2 ^ k) = Some H /\ length H = 2 ^ a /\ Forall (fun p => length p = 2 ^ k) H /\
  forall z, exists tv, oods_trace_values o e tp args z = Some tv /\
  forall v, value o z (poly_trace o (w k) (2 ^ k) tp z) E v ->
    oods_value_from_trace_values o dbg c claims cs (claimed_trace_map args tv) z = Some v /\
    oods_value_from_constraint_values o (oods_constraint_values o H z) z = v.
Proof.
  intros F o L e M w SD dbg k b a tp ldes t c claims cs E0 E c' args values C Hm Hab Nt Htp HR HU El Et E1 E2 E3 E4 Ev LC HC.
  assert (UE : usizes E) by (apply (substitute_usizes o claims E0 E E2), (combine_usizes o c cs E0 E1), HU).
  assert (RE : forall i j, refers E i j -> i < length tp). { intros i j R. apply (substitute_refers o claims i j E0 E E2) in R. destruct (combine_refers o true c cs E0 i j E1 R) as (ex & H1 & H2). apply (HR ex i j H1 H2). }
  destruct (extract_spec o L e M w SD k b a tp ldes Hm Hab Nt Htp El) as (t' & Et' & ER & EC & HT). rewrite Et in Et'. injection Et' as <-.
  destruct (coset_values_spec o L e M w SD k a tp t E values ltac:(lia) ER UE RE HT Ev) as [Lv Hv].
  destruct (C54_constraint_polynomials F o L e M w SD k a C values ltac:(lia) LC Lv) as (H & EH & LH & FH & HH).
  { intros i Hi. apply HC. exact (Hv i Hi). }
  exists H. split; [exact EH|]. split; [exact LH|]. split; [exact FH|]. intros z.
  destruct (C54_trace_values F o L e M w SD dbg k tp c claims cs E0 E c' args ltac:(lia) Nt Htp HR HU E1 E2 E3 E4 z) as (tv & Etv & Htv). exists tv. split; [exact Etv|]. intros v V. split; [apply Htv, V|].
  rewrite (C54_recombine F o L H z), HH; [symmetry; apply HC, V|]. rewrite LH. pose proof (s_max _ _ _ _ SD). rewrite Nat2Z.inj_pow. apply Z.pow_lt_mono_r; lia.
Qed.
Print Assumptions C54_consistency.

(** Soundness of the comparison: whatever polynomials the prover has, if the equation the verifier checks holds at more
    points than the degrees allow, then the combined constraint is the recombined polynomial at every point. [n] and
    [m] are the degree bounds of numerator and denominator of the combined constraint. *)
Theorem C54_soundness : forall F (o : ops F), lawful o -> forall k g tp E n m H len zs,
  usizes E -> poly_safe o (2 ^ Z.of_nat k - 1) E -> Forall (fun p => length p <= 2 ^ k) tp -> degree o true (2 ^ Z.of_nat k - 1) E = Some (n, m) -> Forall (fun p => length p <= len) H -> 0 < len ->
  NoDup zs -> (n < Z.of_nat (length zs))%Z -> (Z.of_nat (length H * len) + m <= Z.of_nat (length zs))%Z ->
  (forall z, In z zs -> value o z (poly_trace o g (2 ^ k) tp z) E (recombined o H z)) ->
  forall x v, value o x (poly_trace o g (2 ^ k) tp x) E v -> v = recombined o H x.
Proof.
  intros F o L k g tp E n m H len zs UE SE Htp ED HH Hlen ND Hn Hm Hz.
  pose proof (Z.pow_pos_nonneg 2 (Z.of_nat k) ltac:(lia) ltac:(lia)) as P.
  assert (Nn : (0 <= n /\ 0 <= m)%Z) by (apply (degree_nonneg o 1 (2 ^ Z.of_nat k - 1) ltac:(lia) ltac:(lia) E n m UE ED)).
  destruct (C49_degree F o L (2 ^ Z.of_nat k - 1)%Z (fun i => nth i tp []) (fun j => fpw o g (Z.to_nat (j mod Z.of_nat (2 ^ k)))) E n m UE SE ltac:(lia)) as (N & D & LN & LD & HND); [|exact ED|].
  { intros i. destruct (Nat.lt_ge_cases i (length tp)) as [Hi|Hi]; [|rewrite nth_overflow by exact Hi; cbn; lia]. rewrite Forall_forall in Htp. specialize (Htp _ (nth_In tp [] Hi)). apply Nat2Z.inj_le in Htp. rewrite Nat2Z.inj_pow in Htp. change (Z.of_nat 2) with 2%Z in Htp. lia. }
  destruct (recombined_poly o L H len HH Hlen) as (R & LR & ER).
  assert (EP : forall x, peval o N x = peval o (pmul o R D) x).
  { apply (agree_bound o L zs); [exact ND|lia|pose proof (pmul_len o R D); nia|]. intros z Hin. specialize (HND z _ (Hz z Hin)). destruct HND as [_ HND]. rewrite <- HND, (pmul_eval o L), ER. reflexivity. }
  intros x v V. destruct (HND x v V) as [Nd Ex]. rewrite EP, (pmul_eval o L), ER in Ex. rewrite (oods_comm o L v), (oods_comm o L (recombined o H x)) in Ex. apply (fmul_cancel_l o L _ _ _ Nd Ex).
Qed.
Print Assumptions C54_soundness.

(** The polynomial the prover commits to in the first FRI layer has the value that the verifier computes at each
    queried point from the opened trace and constraint values. The verifier's divisions are by zero only if the
    point is one of the sample points. *)
Theorem C54_quotient : forall F (o : ops F), lawful o -> forall e M w, sound o e M w -> forall k tp args H z tv tc cc,
  k <= M -> tp <> [] -> Forall (fun p => length p = 2 ^ k) tp -> Forall (fun p => length p = 2 ^ k) H -> (Z.of_nat (length H) < 2 ^ 64)%Z ->
  StronglySorted (fun a b => fst a < fst b \/ fst a = fst b /\ (snd a < snd b)%Z) args -> (forall i j, In (i, j) args -> i < length tp /\ (- 2 ^ 63 < j < 2 ^ 63)%Z) ->
  oods_trace_values o e tp args z = Some tv -> length tc = length args -> length cc = length H ->
  exists P, oods_combined o e tp args H z tc cc = Some P /\ length P = 2 ^ k /\
  forall x, let y := fmul o (egen e) x in
    (forall i j, In (i, j) args -> y <> fmul o (fpw o (w k) (Z.to_nat (j mod Z.of_nat (2 ^ k)))) z) -> y <> fpw o z (length H) ->
    out_of_domain_element o e x (map (fun p => peval o p y) tp) (map (fun p => peval o p y) H) z (claimed_trace_map args tv) (oods_constraint_values o H z) (tc ++ cc) (2 ^ k) = Some (Some (peval o P y)).
Proof.
  intros F o L e M w SD k tp args H z tv tc cc Hk Nt Htp HH HB Sa Ha Etv Ltc Lcc.
  assert (Eg : oods_root e tp = Some (w k)). { destruct tp as [|p tp]; [contradiction|]. cbn [oods_root]. inversion Htp as [|? ? H1 H2]; subst. rewrite H1, (s_root _ _ _ _ SD k Hk). reflexivity. }
  set (sh := fun j => fpw o (w k) (Z.to_nat (j mod Z.of_nat (2 ^ k)))).
  assert (Ep : forall i j, In (i, j) args -> pow_offset o (edbg e) (w k) j = Some (sh j)). { intros i j Hin. rewrite (pow_offset_spec o L e M w SD (edbg e) k j Hk (proj2 (Ha i j Hin))). unfold sh. rewrite Nat2Z.inj_pow. reflexivity. }
  unfold oods_combined. rewrite Eg. cbn [bind]. replace (match tp with [] => 0 | p :: _ => length p end) with (2 ^ k) by (destruct tp; [contradiction|inversion Htp; subst; congruence]).
  unfold poly_zeros. rewrite is_pow2. cbn [bind].
  destruct (trace_quotients o L k tp (w k) args z (edbg e) Htp ltac:(intros i j Hin; split; [apply (Ha i j Hin)|exists (sh j); apply (Ep i j Hin)]) tc (repeat (f0 o) (2 ^ k)) ltac:(apply repeat_length)) as (t1 & E1 & L1 & H1). rewrite E1. cbn [bind].
  pose proof (constraint_quotients o L k (oods_point_pow o H z) H cc t1 HH L1) as [L2 H2]. eexists. split; [reflexivity|]. split; [exact L2|]. intros x Hy1 Hy2. set (y := fmul o (egen e) x) in *.
  assert (Ey : oods_point_pow o H z = fpw o z (length H)). { unfold oods_point_pow. rewrite (pow_usize_spec o L) by (unfold B; lia). rewrite <- (nat_N_Z (length H)), N2Z.id, (fexp_nat o). reflexivity. }
  rewrite H2 by (rewrite Ey; exact Hy2). rewrite H1; [|intros i j s Hin Hs; rewrite (Ep i j Hin) in Hs; injection Hs as <-; rewrite (oods_comm o L); apply (Hy1 i j Hin)].
  rewrite (peval_zeros o L). unfold out_of_domain_element. rewrite (oods_comm o L x (egen e)). fold y. rewrite (s_root _ _ _ _ SD k Hk). cbn [bind]. rewrite map_length.
  replace (pow_usize o z (Z.of_nat (length H))) with (oods_point_pow o H z) by reflexivity.
  unfold oods_trace_values in Etv. rewrite Eg in Etv. cbn [bind] in Etv. apply option_all_inv in Etv.
  assert (Ltv : length tv = length args) by (symmetry; apply (Forall2_len _ _ _ Etv)). rewrite (claimed_map_spec args tv Sa Ltv).
  rewrite combine_app by (rewrite map_length, combine_length; lia). rewrite map_app.
  eassert (A1 : option_all (map _ (List.combine (map _ (List.combine args tv)) tc)) = Some _); cycle 1.
  eassert (A2 : option_all (map _ (List.combine (map _ (List.combine _ (oods_constraint_values o H z))) cc)) = Some _); cycle 1.
  { rewrite (option_all_app _ _ _ _ A1 A2). cbn [bind]. f_equal. f_equal. rewrite (fsum_app o L). symmetry. apply (quotient_sum o L). }
  - rewrite Ey. clear - L Lcc Hy2 Ey. unfold oods_constraint_values. rewrite Ey. generalize (fpw o z (length H)), Hy2. intros u Nu. revert cc Lcc. clear - L Nu. induction H as [|p H IH]; intros cc Lcc; [destruct cc; [reflexivity|discriminate Lcc]|]. destruct cc as [|c cc]; [discriminate Lcc|]. cbn [List.combine map option_all fst snd].
    unfold f_div at 1. rewrite (inv_opt_ne o L) by (intros C; apply Nu, (proj1 (fsub_0_iff o L _ _)), C). cbn [bind]. rewrite IH by (cbn in Lcc; lia). cbn [bind]. unfold qterm at 1. rewrite (evaluate_spec o L). f_equal. f_equal. apply (oods_comm o L).
  - assert (Ha' : forall i j, In (i, j) args -> i < length tp /\ pow_offset o (edbg e) (w k) j = Some (sh j) /\ y <> fmul o (sh j) z) by (intros i j Hin; split; [apply (Ha i j Hin)|split; [apply (Ep i j Hin)|apply (Hy1 i j Hin)]]).
    clear - L Etv Ltc Ha'. revert tc Ltc. induction Etv as [|[i j] v args tv Ev Etv IH]; intros tc Ltc; [destruct tc; [reflexivity|discriminate Ltc]|]. destruct tc as [|c tc]; [discriminate Ltc|]. cbn [List.combine map option_all fst snd] in *.
    destruct (Ha' i j ltac:(left; reflexivity)) as (Hi & Ep & Ny). rewrite nth_error_map, (nth_error_nth' tp []) in * by exact Hi. cbn [option_map bind] in *. rewrite Ep in *. cbn [bind] in *. injection Ev as <-. unfold f_div.
    rewrite (inv_opt_ne o L) by (intros C; apply Ny, (proj1 (fsub_0_iff o L _ _)), C). cbn [bind]. rewrite IH by (try (intros i' j' Hin; apply Ha'; right; exact Hin); cbn in Ltc; lia). cbn [bind]. unfold qterm at 1. rewrite (evaluate_spec o L), (oods_comm o L z). f_equal. f_equal. apply (oods_comm o L).
Qed.
Print Assumptions C54_quotient.
