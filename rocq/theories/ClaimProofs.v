(** Lemmas for C62 and C63. *)
Require Import Field ZArith NArith Lia Bool List.
From Verif Require Import Word KnuthModel FieldSig FieldInstance FieldAlgModel FieldAlgProofs Arr FftModel FftSpec PermuteProofs FftProofs FftProps StarkBase StarkInstance PolyModel PolyProps TraceModel TraceProps ExprModel ExprSpec ExprProofs ExprProps CheckProps OodsProofs OodsSatProps ClaimModel ClaimSpec.
Import ListNotations.
Open Scope nat_scope.

Section Values.
Context {F : Type} (o : ops F) (L : lawful o).
Add Field Ffield : (law_field o L).
Lemma sub_zero a b : fadd o a (fneg o b) = f0 o <-> a = b.
Proof. split; [|intros ->; ring]. intros H. transitivity (fadd o (fadd o a (fneg o b)) b); [ring|rewrite H; ring]. Qed.
Lemma value_sub x T a b u v : value o x T a u -> value o x T b v -> (value o x T (e_sub a b) (f0 o) <-> u = v).
Proof.
  intros Ha Hb. assert (V : value o x T (e_sub a b) (fadd o u (fneg o v))) by (constructor; [exact Ha|constructor; exact Hb]). split.
  - intros V0. apply sub_zero. exact (value_fun o _ _ _ _ _ V V0).
  - intros ->. replace (f0 o) with (fadd o v (fneg o v)) by ring. exact V.
Qed.
Lemma value_mul_inv x T a b z : value o x T (EMul a b) z -> exists u v, value o x T a u /\ value o x T b v /\ fmul o u v = z.
Proof. intros V. inversion V; subst. eexists _, _. split; [eassumption|]. split; [eassumption|reflexivity]. Qed.
Lemma zero_iff x T : forall N, usizes N -> division_free N -> (forall i j, refers N i j -> T i j <> None) -> ((exists n, In n (numerators N) /\ value o x T n (f0 o)) <-> value o x T N (f0 o)).
Proof.
  intros N U D R. split; [intros (n & Hn & V); exact (factor_zero o L x T n N U D R Hn V)|]. revert U D R.
  induction N as [|c|i j|p a _|i b a _|a _ b _|a _|a IHa b IHb|a _|a _ m]; intros U D R V; try (eexists; split; [left; reflexivity|exact V]); [|contradiction].
  cbn [usizes division_free refers numerators] in *. apply value_mul_inv in V as (u & v & Va & Vb & E1). apply (fmul_0_iff o L) in E1 as [->| ->].
  - destruct (IHa (proj1 U) (proj1 D) (fun i j H => R i j (or_introl H)) Va) as (n & Hn & Vn). exists n. split; [apply in_or_app; left; exact Hn|exact Vn].
  - destruct (IHb (proj2 U) (proj2 D) (fun i j H => R i j (or_intror H)) Vb) as (n & Hn & Vn). exists n. split; [apply in_or_app; right; exact Hn|exact Vn].
Qed.
End Values.

Lemma pow_ZN k : Z.of_nat (2 ^ k) = (2 ^ Z.of_nat k)%Z. Proof. rewrite Nat2Z.inj_pow. reflexivity. Qed.
Lemma pow_to k : Z.to_nat (2 ^ Z.of_nat k) = 2 ^ k. Proof. rewrite <- pow_ZN, Nat2Z.id. reflexivity. Qed.
Lemma pow_div k j : j <= k -> (2 ^ Z.of_nat k / 2 ^ Z.of_nat j = 2 ^ Z.of_nat (k - j))%Z.
Proof. intros H. rewrite <- Z.pow_sub_r by lia. f_equal. lia. Qed.
Lemma pow_le_64 k : k < 64 -> (1 <= 2 ^ Z.of_nat k < 2 ^ 64)%Z.
Proof. intros H. split; [|apply Z.pow_lt_mono_r; lia]. assert (0 < 2 ^ Z.of_nat k)%Z by (apply Z.pow_pos_nonneg; lia). lia. Qed.

Section Rows.
Context {F : Type} (o : ops F) (L : lawful o) (e : engine F) (M : nat) (w : nat -> F) (SD : sound o e M w).
Variable k : nat.
Hypothesis Hk : k <= M.
Let g := w k.
Let n := (2 ^ Z.of_nat k)%Z.
Lemma k64 : k < 64. Proof using SD Hk. pose proof (s_max _ _ _ _ SD). lia. Qed.
Lemma exp_pow x m : (0 <= m)%Z -> fexp o x (Z.to_N m) = fpw o x (Z.to_nat m).
Proof. intros H. rewrite <- (fpw_N o), Z_N_nat. reflexivity. Qed.
Lemma row_eq a b : fpw o g a = fpw o g b <-> a mod 2 ^ k = b mod 2 ^ k.
Proof using L SD Hk.
  pose proof (pow2_pos k). unfold g. rewrite <- (w_mod o L e M w SD k a Hk), <- (w_mod o L e M w SD k b Hk). split; [|intros ->; reflexivity].
  apply (w_inj o L e M w SD k _ _ Hk); apply Nat.mod_upper_bound; lia.
Qed.
(** The denominators and the excluded rows *)
Lemma den_all T row : row < 2 ^ k -> value o (fpw o g row) T (e_sub (EExp EX n) (EConst (f1 o))) (f0 o).
Proof using L SD Hk.
  intros Hr. eapply (value_sub o L); [constructor; constructor|constructor|]. unfold n. rewrite exp_pow by (pose proof (pow_le_64 k k64); lia). rewrite pow_to, <- (fpw_mul o L), Nat.mul_comm, (fpw_mul o L). unfold g. rewrite (w_one o e M w SD k Hk). apply (fpw_one o L).
Qed.
Lemma num_last T row : row < 2 ^ k -> (value o (fpw o g row) T (e_sub EX (EExp (EConst g) (n - 1))) (f0 o) <-> row + 1 = 2 ^ k).
Proof using L SD Hk.
  intros Hr. rewrite (value_sub o L); [|constructor|constructor; constructor]. pose proof (pow_le_64 k k64). pose proof (pow2_pos k). unfold n. rewrite exp_pow by lia. replace (Z.to_nat (2 ^ Z.of_nat k - 1)) with (2 ^ k - 1) by (rewrite <- pow_ZN; lia). rewrite row_eq, !Nat.mod_small by lia. lia.
Qed.
Lemma den_row T row index : row < 2 ^ k -> (0 <= index)%Z -> (value o (fpw o g row) T (e_sub EX (EExp (EConst g) index)) (f0 o) <-> Z.of_nat row = (index mod n)%Z).
Proof using L SD Hk.
  intros Hr Hi. rewrite (value_sub o L); [|constructor|constructor; constructor]. rewrite exp_pow by exact Hi. rewrite row_eq, (Nat.mod_small row) by exact Hr. unfold n. rewrite <- pow_ZN. pose proof (pow2_pos k).
  rewrite <- (Z2Nat.id index Hi) at 2. rewrite <- Nat2Z.inj_mod. lia.
Qed.
Lemma num_blocks T row j : row < 2 ^ k -> j <= k -> k + (k - j) <= 64 ->
  (value o (fpw o g row) T (e_sub (EExp EX (n / 2 ^ Z.of_nat j)) (EConst (pow_usize o g (n / 2 ^ Z.of_nat j * (n - 1))))) (f0 o) <-> (row + 1) mod 2 ^ j = 0).
Proof using L SD Hk.
  intros Hr Hj H64. rewrite (value_sub o L); [|constructor; constructor|constructor]. unfold n. rewrite pow_div by exact Hj. pose proof (pow_le_64 k k64) as P. pose proof (pow2_pos k). pose proof (pow2_pos (k - j)). pose proof (pow2_pos j).
  assert (Pd : (1 <= 2 ^ Z.of_nat (k - j))%Z) by (rewrite <- pow_ZN; lia).
  assert (X : (2 ^ Z.of_nat (k - j) * (2 ^ Z.of_nat k - 1) < B)%Z).
  { apply Z.lt_le_trans with (2 ^ Z.of_nat (k - j) * 2 ^ Z.of_nat k)%Z; [apply Z.mul_lt_mono_pos_l; lia|]. rewrite <- Z.pow_add_r by lia. change B with (2 ^ 64)%Z. apply Z.pow_le_mono_r; lia. }
  rewrite (pow_usize_spec o L) by nia. rewrite !exp_pow by nia. rewrite pow_to. replace (Z.to_nat (2 ^ Z.of_nat (k - j) * (2 ^ Z.of_nat k - 1))) with (2 ^ (k - j) * (2 ^ k - 1)) by (rewrite <- !pow_ZN, Z2Nat.inj_mul by lia; rewrite Nat2Z.id; f_equal; lia).
  rewrite <- (fpw_mul o L), row_eq, (Nat.mul_comm row). assert (Ek : 2 ^ k = 2 ^ (k - j) * 2 ^ j) by (rewrite <- Nat.pow_add_r; f_equal; lia). rewrite Ek at 1 3. rewrite !Nat.mul_mod_distr_l by lia. rewrite Nat.mul_cancel_l by lia.
  assert (E1 : 2 ^ k - 1 = 2 ^ j - 1 + (2 ^ (k - j) - 1) * 2 ^ j) by (rewrite Ek; destruct (2 ^ (k - j)); [lia|]; cbn; rewrite Nat.sub_0_r; lia). rewrite E1, Nat.mod_add by lia. rewrite (Nat.mod_small (2 ^ j - 1)) by lia.
  pose proof (Nat.mod_upper_bound row (2 ^ j) ltac:(lia)). rewrite Nat.add_mod by lia. destruct (Nat.eq_dec (2 ^ j) 1) as [E|N1].
  - rewrite E, !Nat.mod_1_r. lia.
  - rewrite (Nat.mod_small 1) by lia. destruct (Nat.eq_dec (row mod 2 ^ j + 1) (2 ^ j)) as [E|N].
    + rewrite E, Nat.mod_same by lia. lia.
    + rewrite (Nat.mod_small (row mod 2 ^ j + 1)) by lia. lia.
Qed.
Lemma den_starts T row j : row < 2 ^ k -> j <= k ->
  (value o (fpw o g row) T (e_sub (EExp EX (n / 2 ^ Z.of_nat j)) (EConst (f1 o))) (f0 o) <-> row mod 2 ^ j = 0).
Proof using L SD Hk.
  intros Hr Hj. rewrite (value_sub o L); [|constructor; constructor|constructor]. unfold n. rewrite pow_div by exact Hj. pose proof (pow2_pos k). pose proof (pow2_pos (k - j)). pose proof (pow2_pos j).
  rewrite exp_pow by (apply Z.pow_nonneg; lia). rewrite pow_to, <- (fpw_mul o L). change (f1 o) with (fpw o g 0). rewrite row_eq, (Nat.mul_comm row). assert (Ek : 2 ^ k = 2 ^ (k - j) * 2 ^ j) by (rewrite <- Nat.pow_add_r; f_equal; lia). rewrite Ek, Nat.mul_mod_distr_l by lia. rewrite Nat.mod_0_l by lia. nia.
Qed.
Lemma violated_placed t row c : shaped t -> t_rows t = 2 ^ k -> row < 2 ^ k -> condition t (fst c) -> sensible k (snd c) ->
  (violated o (fpw o g row) (row_trace t row) (placed o g k c) <-> covers k (snd c) row /\ ~ satisfied o g t row (fst c)).
Proof using L SD Hk.
  intros Sh HR Hr (U & D & Rf) Sp. destruct c as [N p]. cbn [fst snd] in *. pose proof (pow2_pos k) as P2.
  assert (Tok : forall i j, refers N i j -> row_trace t row i j <> None).
  { intros i j R. destruct (Rf i j R) as (Hi & _). unfold row_trace. rewrite (t_get_ok o); [discriminate|exact Sh| |exact Hi]. pose proof (Z.mod_pos_bound (Z.of_nat row + j) (Z.of_nat (t_rows t)) ltac:(lia)). lia. }
  pose proof (zero_iff o L (fpw o g row) (row_trace t row) N U D Tok) as ZI. destruct (free_numerators N D) as [_ Dn].
  unfold violated, placed, satisfied. cbn [fst snd]. fold n.
  destruct p as [|index|j|j]; cbn [covers sensible] in *; unfold every_row, on_row, on_loop_rows, on_loop_start_rows, e_div; cbn [numerators denominators e_sub]; rewrite Dn; cbn [app].
  - split.
    + intros (_ & H). split; [|intros V; apply ZI in V as (m & Hm & V); exact (H m ltac:(apply in_or_app; left; exact Hm) V)].
      destruct (Nat.eq_dec (row + 1) (2 ^ k)) as [E|]; [|lia]. exfalso. apply (num_last (row_trace t row) row Hr) in E. refine (H _ _ E). apply in_or_app; right; left; reflexivity.
    + intros (Hc & Hn). split; [eexists; split; [left; reflexivity|apply den_all, Hr]|]. intros m Hm V. apply in_app_or in Hm as [Hm|[<-|[]]]; [apply Hn, ZI; exists m; split; assumption|]. apply (num_last _ row Hr) in V. lia.
  - split.
    + intros ((d & [<-|[]] & Vd) & H). split; [apply (den_row (row_trace t row)); [exact Hr|lia|exact Vd]|]. intros V. apply ZI in V as (m & Hm & V). refine (H m _ V). rewrite app_nil_r. exact Hm.
    + intros (Hc & Hn). split; [eexists; split; [left; reflexivity|apply den_row; [exact Hr|lia|exact Hc]]|]. intros m Hm V. rewrite app_nil_r in Hm. apply Hn, ZI. exists m; split; assumption.
  - destruct Sp as [Hj H64]. split.
    + intros (_ & H). split; [|intros V; apply ZI in V as (m & Hm & V); exact (H m ltac:(apply in_or_app; left; exact Hm) V)].
      intros E. apply (num_blocks (row_trace t row) row j Hr Hj H64) in E. refine (H _ _ E). apply in_or_app; right; left; reflexivity.
    + intros (Hc & Hn). split; [eexists; split; [left; reflexivity|apply den_all, Hr]|]. intros m Hm V. apply in_app_or in Hm as [Hm|[<-|[]]]; [apply Hn, ZI; exists m; split; assumption|]. apply (num_blocks _ row j Hr Hj H64) in V. lia.
  - split.
    + intros ((d & [<-|[]] & Vd) & H). split; [apply (den_starts (row_trace t row)); [exact Hr|exact Sp|exact Vd]|]. intros V. apply ZI in V as (m & Hm & V). refine (H m _ V). apply in_or_app; left; exact Hm.
    + intros (Hc & Hn). split; [eexists; split; [left; reflexivity|apply den_starts; assumption]|]. intros m Hm V. apply in_app_or in Hm as [Hm|[<-|[]]]; [apply Hn, ZI; exists m; split; assumption|]. apply (F_1_neq_0 (law_field o L)). apply (value_fun o _ _ _ _ _ (v_const o _ _ _) V).
Qed.
Lemma placed_ok t c : t_rows t = 2 ^ k -> condition t (fst c) -> sensible k (snd c) ->
  usizes (placed o g k c) /\ fraction (placed o g k c) /\ refers_within t (placed o g k c) /\ forall i j, refers (placed o g k c) i j -> (j < 2 ^ 63)%Z.
Proof using SD Hk.
  intros HR (U & D & Rf) Sp. destruct c as [N p]. cbn [fst snd] in *. destruct (free_numerators N D) as [Fn Dn]. pose proof (pow_le_64 k k64).
  assert (Rp : forall i j, refers (placed o g k (N, p)) i j -> refers N i j).
  { intros i j. unfold placed. cbn [fst snd refers]. destruct p; unfold every_row, on_row, on_loop_rows, on_loop_start_rows, e_div, e_sub; cbn; tauto. }
  split; [|split; [|split]].
  - unfold placed. cbn [fst snd usizes]. split; [exact U|]. destruct p; unfold every_row, on_row, on_loop_rows, on_loop_start_rows, e_div, e_sub; cbn [usizes sensible] in *; repeat split; try lia.
    all: try (apply Z.div_pos; lia); rewrite pow_div by lia; apply (pow_le_64 (k - j)); pose proof k64; lia.
  - unfold fraction, placed. cbn [fst snd numerators denominators]. rewrite Dn. cbn [app]. destruct p; unfold every_row, on_row, on_loop_rows, on_loop_start_rows, e_div, e_sub; cbn [numerators denominators app]; (split; [apply Forall_app; split; [exact Fn|]|]); repeat constructor.
  - intros i j R. destruct (Rf i j (Rp i j R)) as (H1 & H2 & H3). split; [exact H1|]. split; [exact H2|lia].
  - intros i j R. destruct (Rf i j (Rp i j R)) as (H1 & H2 & H3). lia.
Qed.
End Rows.
