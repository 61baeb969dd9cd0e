Require Import Field ZArith NArith Arith Lia Bool List Sorting.Sorted Zpow_facts.
From Verif Require Import Word KnuthModel U256Model U256Spec MontgomeryModel MontgomeryProofs MontgomeryProps FieldSig FieldModel FieldProofs FieldInstance FieldAlgModel FieldAlgProofs FieldProps Arr FftModel FftSpec PermuteProofs StarkBase PolyModel PolyProps StarkInstance FriModel FriProps ContractModel FriSolModel FriSolProofs.
Import ListNotations.
Open Scope Z_scope.
Notation o := felt_ops.
Notation L := felt_lawful.
Notation w := (fe_w proth_good).
Notation vl := (@fe_val proth_field).
Notation F := Felt.
Add Field FSfield2 : (law_field o L).

(** ** Polynomials *)
Definition hvalue (x : Z) (l : list Z) : Z := fold_right (fun c r => c + x * r) 0 l.
Lemma step_mod x r c : 0 <= c < 2 ^ 256 - MODULUS -> horner_step x r c mod MODULUS = (r * x + c) mod MODULUS.
Proof.
  intros Hc. unfold horner_step, wrap, y_mulmod. change (MODULUS =? 0) with false. cbn iota. pose proof (Z.mod_pos_bound (r * x) MODULUS eq_refl).
  rewrite (Z.mod_small ((r * x) mod MODULUS + c)) by lia. apply Zplus_mod_idemp_l.
Qed.
Lemma steps_mod x l : Forall (fun c => 0 <= c < 2 ^ 256 - MODULUS) l -> forall r r', r mod MODULUS = r' mod MODULUS ->
  fold_left (horner_step x) l r mod MODULUS = fold_left (fun r c => r * x + c) l r' mod MODULUS.
Proof.
  induction 1 as [|c l Hc Hl IH]; intros r r' E; [exact E|]. cbn [fold_left]. apply IH. rewrite step_mod by exact Hc. rewrite (Z.add_mod (r * x)), (Z.add_mod (r' * x)) by discriminate. f_equal. f_equal.
  rewrite <- (Zmult_mod_idemp_l r), <- (Zmult_mod_idemp_l r'), E. reflexivity.
Qed.
Lemma eights_spec x : forall fuel back r, back <> [] -> let q := horner_eights fuel x back r in
  fst q <> [] /\ fold_left (horner_step x) (removelast (fst q)) (snd q) = fold_left (horner_step x) (removelast back) r.
Proof.
  induction fuel as [|fuel IH]; intros back r N; cbn [horner_eights]; [split; [exact N|reflexivity]|]. destruct (Nat.ltb_spec 8 (length back)) as [H|H]; [|split; [exact N|reflexivity]].
  assert (N8 : skipn 8 back <> []) by (intros E; apply (f_equal (@length Z)) in E; rewrite skipn_length in E; cbn [length] in E; lia).
  destruct (IH (skipn 8 back) (fold_left (horner_step x) (firstn 8 back) r) N8) as [A E]. split; [exact A|]. rewrite E.
  rewrite <- (firstn_skipn 8 back) at 3. rewrite removelast_app by exact N8. rewrite fold_left_app. reflexivity.
Qed.
Lemma horner_spec x l : Forall (fun c => 0 <= c < 2 ^ 256 - MODULUS) l -> horner_eval l x = hvalue x l mod MODULUS.
Proof.
  intros H. destruct l as [|a l]; [reflexivity|]. unfold horner_eval. inversion H as [|? ? Ha Hl]; subst.
  destruct (eights_spec x (length (a :: l)) (rev (a :: l)) 0) as [_ E]; [intros E; apply (f_equal (@rev Z)) in E; rewrite rev_involutive in E; discriminate|]. rewrite E.
  cbn [rev]. rewrite removelast_app by discriminate. cbn [removelast]. rewrite app_nil_r.
  unfold y_addmod, y_mulmod. change (MODULUS =? 0) with false. cbn iota. rewrite Zplus_mod_idemp_l. cbn [hvalue fold_right]. rewrite (Z.add_comm a), (Z.add_mod (_ * x)), (Z.add_mod (x * _)) by discriminate. f_equal. f_equal.
  rewrite (Z.mul_comm x), <- Zmult_mod_idemp_l, <- (Zmult_mod_idemp_l (fold_right _ _ _)). f_equal. f_equal.
  rewrite (steps_mod x (rev l)) with (r' := 0); [|apply Forall_rev; exact Hl|reflexivity]. f_equal. rewrite <- fold_left_rev_right, rev_involutive. clear. induction l as [|b l IH]; [reflexivity|]. cbn [fold_right]. rewrite IH. unfold hvalue. ring.
Qed.
Lemma hvalue_vl x l : hvalue (vl x) (map vl l) mod MODULUS = vl (peval o l x).
Proof.
  induction l as [|a l IH]; [symmetry; exact (fe0_val proth_good)|].
  assert (E : peval o (a :: l) x = fadd o a (fmul o x (peval o l x))).
  { apply (peval_cons o L). }
  rewrite E. rewrite <- (add_rep (vl a) (y_mulmod (vl x) (hvalue (vl x) (map vl l)) MODULUS) a (fmul o x (peval o l x))).
  - unfold y_addmod, y_mulmod. change (MODULUS =? 0) with false. cbn iota. rewrite Zplus_mod_idemp_r. reflexivity.
  - apply vl_mod.
  - rewrite (mul_rep _ _ x (peval o l x)); [apply vl_mod|apply vl_mod|exact IH].
Qed.

(** ** Bits *)
Lemma lor_byte r b k : 0 <= b < 2 ^ k -> 0 <= k -> Z.lor (r * 2 ^ k) b = r * 2 ^ k + b.
Proof.
  intros Hb Hk. assert (H0 : Z.land (r * 2 ^ k) b = 0).
  { apply Z.bits_inj'. intros i Hi. rewrite Z.land_spec, Z.bits_0. destruct (Z.ltb_spec i k) as [Hl|Hl].
    - rewrite Z.mul_pow2_bits_low by exact Hl. reflexivity.
    - rewrite <- (Z.mod_small b (2 ^ k)) by exact Hb. rewrite Z.mod_pow2_bits_high by lia. apply andb_false_r. }
  rewrite Z.add_nocarry_lxor by exact H0. symmetry. apply Z.lxor_lor. exact H0.
Qed.
Lemma reverse_byte_spec b : (b < 256)%nat -> reverse_byte (Z.of_nat b) = Z.of_nat (rev_bits 8 b).
Proof.
  assert (A : forallb (fun b => reverse_byte (Z.of_nat b) =? Z.of_nat (rev_bits 8 b)) (seq 0 256) = true) by (vm_compute; reflexivity).
  intros Hb. rewrite forallb_forall in A. apply Z.eqb_eq, A, in_seq. lia.
Qed.
Lemma rev_byte a n : Z.of_nat (rev_bits (8 + a) n) = Z.of_nat (rev_bits 8 (n mod 256)) * 2 ^ Z.of_nat a + Z.of_nat (rev_bits a (n / 256)).
Proof.
  pose proof (Nat.div_mod n 256 ltac:(discriminate)) as E. rewrite E at 1. rewrite Nat.mul_comm. change 256%nat with (2 ^ 8)%nat at 2.
  rewrite (rev_split a 8) by (apply Nat.mod_upper_bound; discriminate). rewrite Nat2Z.inj_add, Nat2Z.inj_mul, Nat2Z.inj_pow. reflexivity.
Qed.
Lemma rev8_range n : 0 <= Z.of_nat (rev_bits 8 n) < 2 ^ 8. Proof. pose proof (rev_lt 8 n). change (2 ^ 8)%nat with 256%nat in H. change (2 ^ 8) with 256. lia. Qed.
Lemma byte_of n : Z.land (Z.of_nat n) 0xff = Z.of_nat (n mod 256).
Proof. change 0xff with (Z.ones 8). rewrite Z.land_ones by discriminate. rewrite Nat2Z.inj_mod. reflexivity. Qed.
Lemma shift8 n : Z.shiftr (Z.of_nat n) 8 = Z.of_nat (n / 256).
Proof. rewrite Z.shiftr_div_pow2 by discriminate. rewrite Nat2Z.inj_div. reflexivity. Qed.
Lemma step8 r b k : 0 <= r < 2 ^ k -> 0 <= k <= 200 -> 0 <= b < 2 ^ 8 -> Z.lor (wrap (Z.shiftl r 8)) b = r * 2 ^ 8 + b /\ 0 <= r * 2 ^ 8 + b < 2 ^ (k + 8).
Proof.
  intros Hr Hk Hb. assert (2 ^ k * 2 ^ 8 <= 2 ^ 256) by (rewrite <- Z.pow_add_r by lia; apply Z.pow_le_mono_r; lia).
  rewrite Z.shiftl_mul_pow2 by discriminate. unfold wrap. rewrite Z.mod_small by nia. split; [apply lor_byte; [exact Hb|discriminate]|]. rewrite Z.pow_add_r by lia. nia.
Qed.
Lemma bit_reverse2_spec k n : (k <= 40)%nat -> Z.of_nat n < 2 ^ Z.of_nat k -> bit_reverse2 (Z.of_nat n) (Z.of_nat k) = Z.of_nat (rev_bits k n).
Proof.
  intros Hk Hn. assert (Hn40 : Z.of_nat n < 2 ^ 40) by (eapply Z.lt_le_trans; [exact Hn|apply Z.pow_le_mono_r; lia]).
  set (n1 := (n / 256)%nat). set (n2 := (n1 / 256)%nat). set (n3 := (n2 / 256)%nat). set (n4 := (n3 / 256)%nat).
  assert (H4 : (n4 < 256)%nat). { assert (Z.of_nat n4 < 256); [|lia]. unfold n4, n3, n2, n1. rewrite !Nat2Z.inj_div. change (Z.of_nat 256) with 256. rewrite !Z.div_div by lia. apply Z.div_lt_upper_bound; [lia|]. exact Hn40. }
  unfold bit_reverse2. rewrite !shift8. fold n1 n2 n3 n4. rewrite !byte_of. rewrite !reverse_byte_spec by (try exact H4; apply Nat.mod_upper_bound; discriminate).
  destruct (step8 (Z.of_nat (rev_bits 8 (n mod 256))) (Z.of_nat (rev_bits 8 (n1 mod 256))) 8 (rev8_range _) ltac:(lia) (rev8_range _)) as [-> R1].
  destruct (step8 _ (Z.of_nat (rev_bits 8 (n2 mod 256))) (8 + 8) R1 ltac:(lia) (rev8_range _)) as [-> R2].
  destruct (step8 _ (Z.of_nat (rev_bits 8 (n3 mod 256))) (8 + 8 + 8) R2 ltac:(lia) (rev8_range _)) as [-> R3].
  destruct (step8 _ (Z.of_nat (rev_bits 8 n4)) (8 + 8 + 8 + 8) R3 ltac:(lia) (rev8_range _)) as [-> R4].
  assert (T : Z.of_nat (rev_bits 40 n) = (((Z.of_nat (rev_bits 8 (n mod 256)) * 2 ^ 8 + Z.of_nat (rev_bits 8 (n1 mod 256))) * 2 ^ 8 + Z.of_nat (rev_bits 8 (n2 mod 256))) * 2 ^ 8 + Z.of_nat (rev_bits 8 (n3 mod 256))) * 2 ^ 8 + Z.of_nat (rev_bits 8 n4)).
  { pose proof (rev_byte 32 n) as T1. pose proof (rev_byte 24 n1) as T2. pose proof (rev_byte 16 n2) as T3. pose proof (rev_byte 8 n3) as T4. fold n1 in T1. fold n2 in T2. fold n3 in T3. fold n4 in T4.
    change (8 + 32)%nat with 40%nat in T1. change (8 + 24)%nat with 32%nat in T2. change (8 + 16)%nat with 24%nat in T3. change (8 + 8)%nat with 16%nat in T4. rewrite T1, T2, T3, T4.
    change (Z.of_nat 32) with 32. change (Z.of_nat 24) with 24. change (Z.of_nat 16) with 16. change (Z.of_nat 8) with 8. change (2 ^ 32) with (2 ^ 8 * 2 ^ 8 * 2 ^ 8 * 2 ^ 8). change (2 ^ 24) with (2 ^ 8 * 2 ^ 8 * 2 ^ 8). change (2 ^ 16) with (2 ^ 8 * 2 ^ 8). ring. }
  rewrite <- T. assert (P : rev_bits 40 n = (rev_bits k n * 2 ^ (40 - k))%nat).
  { replace 40%nat with (k + (40 - k))%nat at 1 by lia. apply FriProps.rev_pad. apply Nat2Z.inj_lt. rewrite Nat2Z.inj_pow. exact Hn. }
  rewrite P, Nat2Z.inj_mul, Nat2Z.inj_pow. unfold wrap. rewrite Z.mod_small by lia. rewrite Z.shiftr_div_pow2 by lia. change (Z.of_nat 2) with 2. replace (Z.of_nat (40 - k)) with (40 - Z.of_nat k) by lia.
  apply Z.div_mul, Z.pow_nonzero; lia.
Qed.
Lemma bit_reverse_loop_spec : forall k n r j, 0 <= r < 2 ^ j -> 0 <= j -> j + Z.of_nat k <= 256 -> bit_reverse_loop k (Z.of_nat n) r = r * 2 ^ Z.of_nat k + Z.of_nat (rev_bits k n).
Proof.
  induction k as [|k IH]; intros n r j Hr Hj Hk; [cbn [bit_reverse_loop rev_bits]; change (2 ^ Z.of_nat 0) with 1; lia|]. cbn [bit_reverse_loop].
  assert (2 ^ j * 2 <= 2 ^ 256) by (change 2 with (2 ^ 1) at 2; rewrite <- Z.pow_add_r by lia; apply Z.pow_le_mono_r; lia).
  unfold wrap. rewrite Z.mod_small by lia. pose proof (Z.mod_pos_bound (Z.of_nat n) 2 ltac:(lia)). change (r * 2) with (r * 2 ^ 1). rewrite lor_byte by (change (2 ^ 1) with 2; lia).
  change 2 with (Z.of_nat 2) at 1. rewrite <- Nat2Z.inj_div. rewrite (IH (n / 2)%nat _ (j + 1)) by (try lia; rewrite Z.pow_add_r by lia; change (2 ^ 1) with 2; lia).
  cbn [rev_bits]. rewrite Nat2Z.inj_add, Nat2Z.inj_mul, Nat2Z.inj_pow, Nat2Z.inj_mod, Nat2Z.inj_succ, Z.pow_succ_r by lia. change (Z.of_nat 2) with 2. change (2 ^ 1) with 2. ring.
Qed.
Lemma num_step d k a x : 0 <= a -> 0 < k -> x = d / 2 ^ a -> 1 <= x < 2 ^ (2 * k) ->
  let s := if 2 ^ k <=? x then (a + k, Z.shiftr x k) else (a, x) in a <= fst s <= a + k /\ snd s = d / 2 ^ fst s /\ 1 <= snd s < 2 ^ k.
Proof.
  intros Ha Hk E Hx. destruct (Z.leb_spec (2 ^ k) x) as [H|H]; cbn [fst snd]; [|repeat split; lia].
  rewrite Z.shiftr_div_pow2 by lia. assert (P : 0 < 2 ^ k) by (apply Z.pow_pos_nonneg; lia). split; [lia|]. split.
  - subst x. rewrite Z.div_div by (try apply Z.pow_nonzero; lia). rewrite Z.pow_add_r by lia. reflexivity.
  - split; [apply Z.div_le_lower_bound; lia|]. apply Z.div_lt_upper_bound; [lia|]. rewrite <- Z.pow_add_r by lia. replace (k + k) with (2 * k) by ring. lia.
Qed.
Lemma num_bits_spec d : 0 < d < 2 ^ 64 -> num_bits d = Z.log2 d.
Proof.
  intros Hd.
  set (st := fun (k : Z) (s : Z * Z) => if 2 ^ k <=? snd s then (fst s + k, Z.shiftr (snd s) k) else s).
  assert (St : forall k s, 0 <= fst s -> 0 < k -> snd s = d / 2 ^ fst s -> 1 <= snd s < 2 ^ (2 * k) -> fst s <= fst (st k s) <= fst s + k /\ snd (st k s) = d / 2 ^ fst (st k s) /\ 1 <= snd (st k s) < 2 ^ k).
  { intros k [a x] Ha Hk E Hx. exact (num_step d k a x Ha Hk E Hx). }
  set (s5 := st 32 (0, d)). destruct (St 32 (0, d)) as (A5 & E5 & R5); cbn [fst snd]; [lia|lia|rewrite Z.div_1_r; reflexivity|lia|]. fold s5 in A5, E5, R5. cbn [fst snd] in A5.
  set (s4 := st 16 s5). destruct (St 16 s5) as (A4 & E4 & R4); [lia|lia|exact E5|exact R5|]. fold s4 in A4, E4, R4.
  set (s3 := st 8 s4). destruct (St 8 s4) as (A3 & E3 & R3); [lia|lia|exact E4|exact R4|]. fold s3 in A3, E3, R3.
  set (s2 := st 4 s3). destruct (St 4 s3) as (A2 & E2 & R2); [lia|lia|exact E3|exact R3|]. fold s2 in A2, E2, R2.
  set (s1 := st 2 s2). destruct (St 2 s2) as (A1 & E1 & R1); [lia|lia|exact E2|exact R2|]. fold s1 in A1, E1, R1.
  set (s0 := st 1 s1). destruct (St 1 s1) as (A0 & E0 & R0); [lia|lia|exact E1|exact R1|]. fold s0 in A0, E0, R0.
  change (2 ^ 1) with 2 in R0. assert (X : snd s0 = 1) by lia. change (num_bits d) with ((fst s0 + snd s0 mod 256 - 1) mod 256). rewrite X. change (1 mod 256) with 1. replace (fst s0 + 1 - 1) with (fst s0) by ring. rewrite Z.mod_small by lia.
  symmetry. apply Z.log2_unique; [lia|]. rewrite X in E0. assert (P : 0 < 2 ^ fst s0) by (apply Z.pow_pos_nonneg; lia).
  pose proof (Z.div_mod d (2 ^ fst s0) ltac:(lia)) as D. pose proof (Z.mod_pos_bound d (2 ^ fst s0) P). rewrite <- E0 in D. rewrite Z.pow_succ_r by lia. lia.
Qed.
Lemma root_spec k : (k <= 63)%nat -> root (2 ^ Z.of_nat k) = Some (vl (w k)).
Proof.
  intros Hk. assert (P : 0 < 2 ^ Z.of_nat k) by (apply Z.pow_pos_nonneg; lia). unfold root. destruct (Z.eqb_spec (2 ^ Z.of_nat k) 0) as [E|_]; [lia|].
  assert (D : (MODULUS - 1) mod 2 ^ Z.of_nat k = 0).
  { apply Z.mod_divide; [lia|]. apply Z.divide_trans with (2 ^ 63); [|exists ((MODULUS - 1) / 2 ^ 63); reflexivity]. exists (2 ^ (63 - Z.of_nat k)). rewrite <- Z.pow_add_r by lia. f_equal. lia. }
  rewrite D. cbn [Z.eqb]. f_equal. rewrite root_power by exact Hk. rewrite Zpow_mod_correct by discriminate. reflexivity.
Qed.

(** ** Ends of the protocol *)
Lemma exp_rep u n : modexp (vl u) (Z.of_nat n) MODULUS = vl (fpw o u n).
Proof.
  unfold modexp. change (MODULUS =? 0) with false. cbn iota. rewrite <- (fexp_nat o). change (fexp o u (N.of_nat n)) with (fexp (fe_ops proth_good) u (N.of_nat n)). rewrite (fe_exp_val proth_good), p_val, nat_N_Z. reflexivity.
Qed.
Lemma init_spec n q : (n <= 40)%nat -> (q < 2 ^ n)%nat -> init_x_inv (Z.of_nat q) (Z.of_nat n) = Some (vl (finv o (fpw o (w n) (rev_bits n q)))).
Proof.
  intros Hn Hq. assert (Hz : Z.of_nat q < 2 ^ Z.of_nat n) by (change 2 with (Z.of_nat 2); rewrite <- Nat2Z.inj_pow; lia).
  assert (P : 0 < 2 ^ Z.of_nat n < 2 ^ 256) by (split; [apply Z.pow_pos_nonneg; lia|apply Z.pow_lt_mono_r; lia]).
  unfold init_x_inv. rewrite Z.shiftl_1_l. unfold wrap. rewrite (Z.mod_small (2 ^ Z.of_nat n)) by lia. rewrite root_spec by lia. cbn [bind]. rewrite bit_reverse2_spec by assumption.
  pose proof (rev_lt n q) as RL. assert (Ez : 2 ^ Z.of_nat n - Z.of_nat (rev_bits n q) = Z.of_nat (2 ^ n - rev_bits n q)) by (rewrite Nat2Z.inj_sub, Nat2Z.inj_pow by lia; reflexivity).
  rewrite Ez. rewrite Z.mod_small by lia. rewrite exp_rep. apply (f_equal Some), (f_equal vl). apply (finv_unique o L). rewrite <- (fpw_add o L). replace (rev_bits n q + (2 ^ n - rev_bits n q))%nat with (2 ^ n)%nat by lia.
  exact (proj1 (s_prim _ _ _ _ felt_sound n ltac:(lia))).
Qed.
Lemma generator_spec m K : (m + K <= 63)%nat -> next_generator (vl (w (m + K))) (2 ^ Z.of_nat m) = vl (w K).
Proof.
  intros H. unfold next_generator. change 2 with (Z.of_nat 2). rewrite <- Nat2Z.inj_pow, exp_rep. rewrite Nat.add_comm, (w_pow o L felt_engine 63 w felt_sound K m) by lia. reflexivity.
Qed.
Lemma last_spec dbg K l q y : (K <= 40)%nat -> (q < 2 ^ K)%nat -> (exists d, length l = 2 ^ d)%nat ->
  last_check o dbg (2 ^ K) (w K) l q y = Some (last_layer_check (vl (w K)) (Z.of_nat K) (map vl l) (Z.of_nat q) (vl y)).
Proof.
  intros HK Hq [d Ld]. unfold last_check. rewrite permute_index_spec by (try exact Hq; lia). cbn [bind]. unfold poly_new. rewrite Ld, is_pow2. cbn [bind]. pose proof (rev_lt K q) as RL.
  assert (P : (2 ^ K <= 2 ^ 63)%nat) by (apply Nat.pow_le_mono_r; lia). rewrite (e_pow o L felt_engine 63 w felt_sound) by lia. rewrite (evaluate_spec o L).
  apply (f_equal Some). unfold last_layer_check. assert (Hz : Z.of_nat q < 2 ^ Z.of_nat K) by (change 2 with (Z.of_nat 2); rewrite <- Nat2Z.inj_pow; lia).
  rewrite bit_reverse2_spec by assumption. rewrite exp_rep, horner_spec, hvalue_vl.
  - set (a := peval o l (fpw o (w K) (rev_bits K q))). clearbody a. destruct (Z.eqb_spec (vl a) (vl y)) as [E|N].
    + apply (law_eqb o L). apply (fe_val_inj proth_good). exact E.
    + destruct (feqb o a y) eqn:E; [|reflexivity]. apply (law_eqb o L) in E. subst y. contradiction.
  - apply Forall_forall. intros z Hz'. apply in_map_iff in Hz' as (u & <- & _). pose proof (vl_range u). assert (2 * MODULUS < 2 ^ 256) by reflexivity. lia.
Qed.
