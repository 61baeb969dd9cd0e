(** Lemmas for C63. *)
Require Import Field ZArith NArith Lia Bool List Zpow_facts.
From Verif Require Import Word KnuthModel FieldSig FieldInstance FieldAlgModel FieldAlgProofs Arr FftModel FftSpec PermuteProofs FftProofs FftProps StarkBase StarkInstance NumberTheory FieldModel FieldProofs Primes FieldSpec MontgomeryModel U256Model U256Spec FieldProps PolyModel PolyProps TraceModel TraceProps ExprModel ExprSpec ExprProofs ExprProps CheckProps OodsProofs OodsSatProps LayoutProps StarkSpec ClaimModel ClaimSpec ClaimProofs ClaimProps.
Import ListNotations.
Open Scope nat_scope.

(** Tables *)
Definition size {F} (t : table F) (R C : nat) : Prop := shaped t /\ t_rows t = R /\ t_cols t = C.
Definition cell {F} (o : ops F) (t : table F) (r i : nat) : F := nth (r * t_cols t + i) (t_values t) (f0 o).
Section Tables.
Context {F : Type} (o : ops F).
Lemma size_new R C : size (t_new o R C) R C.
Proof. destruct (C46_cells F o R C) as (H & _). split; [exact H|]. split; reflexivity. Qed.
Lemma size_get t R C r i : size t R C -> r < R -> i < C -> t_get t r i = Some (cell o t r i).
Proof. intros (Sh & <- & <-) Hr Hi. apply t_get_ok; assumption. Qed.
Lemma size_set t R C r i x : size t R C -> r < R -> i < C -> exists t', t_set t r i x = Some t' /\ size t' R C /\ cell o t' r i = x /\
  forall r' i', r' < R -> i' < C -> (r' <> r \/ i' <> i) -> cell o t' r' i' = cell o t r' i'.
Proof.
  intros S Hr Hi. pose proof S as (Sh & HR & HC). destruct (C46_cells F o 0 0) as (_ & _ & H). destruct (H t r i x Sh) as [_ H']. destruct H' as (t' & E & Sh' & R' & C' & G & O); [lia|lia|].
  assert (S' : size t' R C) by (split; [exact Sh'|]; split; congruence). exists t'. split; [exact E|]. split; [exact S'|]. split.
  - rewrite (size_get t' R C r i S' Hr Hi) in G. injection G as ->. reflexivity.
  - intros r' i' Hr' Hi' N. assert (G' : t_get t' r' i' = t_get t r' i') by (apply O; intros E'; injection E' as -> ->; lia). rewrite (size_get t' R C), (size_get t R C) in G' by assumption. injection G' as ->. reflexivity.
Qed.
Lemma row_here t R C r i : size t R C -> r < R -> i < C -> row_trace t r i 0 = Some (cell o t r i).
Proof. intros S Hr Hi. pose proof S as (_ & HR & _). unfold row_trace. rewrite HR, Z.add_0_r, Z.mod_small, Nat2Z.id by lia. apply (size_get t R C); assumption. Qed.
Lemma row_next t R C r i : size t R C -> r + 1 < R -> i < C -> row_trace t r i 1 = Some (cell o t (r + 1) i).
Proof. intros S Hr Hi. pose proof S as (_ & HR & _). unfold row_trace. rewrite HR, Z.mod_small by lia. replace (Z.to_nat (Z.of_nat r + 1)) with (r + 1) by lia. apply (size_get t R C); assumption. Qed.
End Tables.

Lemma cover_first k : covers k (Row 0) 0. Proof. cbn. rewrite Z.mod_0_l; [reflexivity|]. apply Z.pow_nonzero; lia. Qed.
Lemma cover_row k row index : covers k (Row index) row <-> row = Z.to_nat (index mod 2 ^ Z.of_nat k).
Proof. cbn. assert (0 < 2 ^ Z.of_nat k)%Z by (apply Z.pow_pos_nonneg; lia). pose proof (Z.mod_pos_bound index (2 ^ Z.of_nat k) ltac:(lia)). lia. Qed.
Lemma cover_last k row : covers k (Row (2 ^ Z.of_nat k - 1)) row <-> row = 2 ^ k - 1.
Proof. rewrite cover_row. assert (0 < 2 ^ Z.of_nat k)%Z by (apply Z.pow_pos_nonneg; lia). rewrite Z.mod_small by lia. rewrite <- pow_ZN. pose proof (pow2_pos k). lia. Qed.
Lemma row_lt k index : Z.to_nat (index mod 2 ^ Z.of_nat k) < 2 ^ k.
Proof. assert (0 < 2 ^ Z.of_nat k)%Z by (apply Z.pow_pos_nonneg; lia). pose proof (Z.mod_pos_bound index (2 ^ Z.of_nat k) ltac:(lia)). rewrite <- (pow_to k). lia. Qed.
Lemma cond_refl {F} (t : table F) (N : rexpr F) R C : size t R C -> 1 <= R -> usizes N -> division_free N -> (forall i j, refers N i j -> i < C /\ (0 <= j <= 1)%Z) -> condition t N.
Proof. intros (_ & HR & HC) HR1 U D H. split; [exact U|]. split; [exact D|]. intros i j Rf. destruct (H i j Rf). rewrite HR, HC. lia. Qed.

Lemma sub_eq {F} (o : ops F) (L : lawful o) x T a b u v : value o x T (e_sub a b) (f0 o) -> value o x T a u -> value o x T b v -> u = v.
Proof. intros H Ha Hb. apply (value_sub o L x T a b u v Ha Hb), H. Qed.
Ltac val S := repeat first [apply v_x | apply v_const | apply v_mul | apply v_add | apply v_neg | apply v_exp | apply v_trace; (eapply (row_here _ _ _ _ _ _ S) || eapply (row_next _ _ _ _ _ _ S)); lia | eassumption ].
Section Degrees.
Context {F : Type} (o : ops F).
Lemma umul_0 n : umul true n 0 = Some 0%Z. Proof. unfold umul. rewrite Z.mul_0_r. reflexivity. Qed.
Lemma uadd_0 n : (0 <= n < B)%Z -> uadd true n 0 = Some n. Proof. intros H. unfold uadd. rewrite Z.add_0_r. destruct (Z.ltb_spec n B); [reflexivity|lia]. Qed.
Lemma placed_degree g k N p d : trace_degree o true N = Some (d, 0%Z) -> (0 <= d < B)%Z -> net_degree o true (placed o g k (N, p)) = Some d.
Proof.
  intros E Hd. unfold net_degree, trace_degree, placed. cbn [degree_impl fst snd]. fold (trace_degree o true N). rewrite E. cbn [bind].
  destruct p; unfold every_row, on_row, on_loop_rows, on_loop_start_rows, e_div, e_sub; cbn [degree_impl bind]; rewrite ?umul_0; cbn [bind]; rewrite ?umul_0; cbn [bind]; change (uadd true 0 0) with (Some 0%Z); cbn [bind Z.max Z.compare]; change (uadd true 0 0) with (Some 0%Z); cbn [bind]; rewrite uadd_0 by exact Hd; cbn [bind]; change (uadd true 0 0) with (Some 0%Z); cbn [bind]; unfold usub; rewrite Z.sub_0_r; destruct (Z.leb_spec 0 d); try reflexivity; lia.
Qed.
Lemma periodic_degree e n values c : periodic o e n values = Some c -> trace_degree o true c = Some (0, 0)%Z.
Proof.
  unfold periodic. destruct (e_ifft o e values) as [v|]; [|discriminate]. cbn [bind]. destruct (permute (edbg e) v) as [u|]; [|discriminate]. cbn [bind]. destruct (poly_new u) as [p|] eqn:Ep; [|discriminate]. cbn [bind]. intros E. injection E as <-.
  unfold trace_degree. cbn [degree_impl bind]. rewrite !umul_0. cbn [bind]. assert (Np : poly_degree o p <> None) by (unfold poly_new in Ep; destruct (is_power_of_two _) eqn:E2 in Ep; [|discriminate]; injection Ep as <-; unfold poly_degree; destruct (length u); [discriminate E2|discriminate]).
  destruct (poly_degree o p); [|contradiction]. cbn [bind]. rewrite !umul_0. reflexivity.
Qed.
Lemma degrees_all g k cs ds x : Forall2 (fun c d => trace_degree o true (fst c) = Some (d, 0%Z) /\ (0 <= d < B)%Z) cs ds -> option_all (map (net_degree o true) (map (placed o g k) cs)) = Some ds /\ (forall ds', ds = x :: ds' -> cs <> []).
Proof.
  intros H. split; [|intros ds' -> ->; inversion H]. induction H as [|[N p] d cs ds [H1 H2] _ IH]; [reflexivity|]. cbn [map option_all]. rewrite (placed_degree g k N p d H1 H2). cbn [bind]. rewrite IH. reflexivity.
Qed.
Lemma system_degree g k R C cs b p q l d ds : Forall2 (fun c d => trace_degree o true (fst c) = Some (d, 0%Z) /\ (0 <= d < B)%Z) cs (d :: ds) ->
  c_degree o true (Constraints R C (map (placed o g k) cs) b p q l) = Some (fold_left Z.max ds d).
Proof. intros H. unfold c_degree. cbn [c_exprs]. rewrite (proj1 (degrees_all g k cs (d :: ds) d H)). reflexivity. Qed.
End Degrees.
Lemma pow_steps a Dg : (1 <= Dg)%Z -> (Dg <= 2 ^ Z.of_nat a)%Z -> (a = 0 \/ (2 ^ Z.of_nat (a - 1) < Dg)%Z) -> forall a', (Dg <= 2 ^ Z.of_nat a')%Z <-> a <= a'.
Proof.
  intros H1 H2 H3 a'. split; intros H.
  - destruct H3 as [->|H3]; [lia|]. destruct (Nat.le_gt_cases a a') as [|G]; [assumption|]. assert (2 ^ Z.of_nat a' <= 2 ^ Z.of_nat (a - 1))%Z by (apply Z.pow_le_mono_r; lia). lia.
  - assert (2 ^ Z.of_nat a <= 2 ^ Z.of_nat a')%Z by (apply Z.pow_le_mono_r; lia). lia.
Qed.
(** The cofactor of the field is not a root of unity of an order that is a power of two. *)
Lemma felt_coset k : k <= 192 -> fpw felt_ops (egen felt_engine) (2 ^ k) <> f1 felt_ops.
Proof.
  intros Hk E. assert (E' : fexp felt_ops (generator proth_good) (2 ^ 192)%N = f1 felt_ops).
  { replace (2 ^ 192)%N with (N.of_nat (2 ^ k) * 2 ^ N.of_nat (192 - k))%N.
    - rewrite (fexp_mul felt_ops felt_lawful). rewrite <- (fpw_N felt_ops _ (N.of_nat (2 ^ k))), Nat2N.id. change (generator proth_good) with (egen felt_engine). rewrite E. generalize (2 ^ N.of_nat (192 - k))%N. intros n. rewrite <- fpw_N. apply (fpw_one felt_ops felt_lawful).
    - replace (N.of_nat (2 ^ k)) with (2 ^ N.of_nat k)%N by (apply N2Z.inj; rewrite N2Z.inj_pow, !nat_N_Z, pow_ZN; reflexivity). rewrite <- N.pow_add_r. f_equal. lia. }
  apply (f_equal fe_val) in E'. unfold felt_ops in E'. rewrite (fe_exp_val proth_good), (generator_val proth_field proth_good 3 proth_constants) in E'. change (fe_val (f1 (fe_ops proth_good))) with (fe_val (fe1 proth_good)) in E'. rewrite (fe1_val proth_good) in E'.
  change (val (p_modulus proth_field)) with p_field in E'. change (Z.of_N (2 ^ 192)) with (2 ^ 192)%Z in E'.
  assert (Q : Zpow_mod 3 (2 ^ 192) p_field = (3 ^ 2 ^ 192 mod p_field)%Z) by (apply Zpow_mod_correct; discriminate).
  assert (N1 : Zpow_mod 3 (2 ^ 192) p_field <> 1%Z) by (vm_compute; discriminate). apply N1. exact (eq_trans Q E').
Qed.
