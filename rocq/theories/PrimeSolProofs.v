(** Proofs about the field operations of the Ethereum contract. *)
Require Import Field ZArith NArith Arith Lia Bool List Znumtheory Zpow_facts.
From Verif Require Import Word KnuthModel U256Model U256Spec MontgomeryModel MontgomeryProofs MontgomeryProps NumberTheory FieldSig FieldModel FieldSpec FieldProofs FieldInstance Arr OodsModel ContractModel FriSolModel FriSolProofs PrimeSolModel.
Import ListNotations.
Open Scope Z_scope.
Notation p := MODULUS.
Notation o := felt_ops.
Notation L := felt_lawful.

Lemma p_prime : prime p. Proof. rewrite <- p_val. exact (g_prime _ proth_good). Qed.
Lemma mm a b : y_mulmod a b p = (a * b) mod p. Proof. reflexivity. Qed.
Lemma am a b : y_addmod a b p = (a + b) mod p. Proof. reflexivity. Qed.
Lemma R_ok : MONTGOMERY_R = 2 ^ 256 mod p. Proof. vm_compute. reflexivity. Qed.
Lemma R_inv_ok : (2 ^ 256 * MONTGOMERY_R_INV) mod p = 1. Proof. vm_compute. reflexivity. Qed.
(** the words of an element: the limbs that the library stores *)
Lemma raw_val (u : Felt) : val (raw u) = (fe_val u * 2 ^ 256) mod p.
Proof. destruct (fe_rep proth_good u) as [_ [_ E]]. rewrite p_val in E. exact E. Qed.
Lemma raw_range (u : Felt) : 0 <= val (raw u) < p. Proof. rewrite raw_val. apply Z.mod_pos_bound. reflexivity. Qed.
Lemma to_ok u : to_montgomery (fe_val u) = val (raw (P := proth_field) u).
Proof. unfold to_montgomery. rewrite mm, R_ok, Zmult_mod_idemp_r, raw_val. reflexivity. Qed.
Lemma shift_R a : ((a * 2 ^ 256) mod p * MONTGOMERY_R_INV) mod p = a mod p.
Proof. rewrite Zmult_mod_idemp_l, <- Z.mul_assoc, <- Zmult_mod_idemp_r, R_inv_ok, Z.mul_1_r. reflexivity. Qed.
Lemma from_ok u : from_montgomery (val (raw (P := proth_field) u)) = fe_val u.
Proof. unfold from_montgomery. rewrite mm, raw_val, shift_R. apply vl_mod. Qed.
Lemma mul_val (u v : Felt) : fe_val (fmul o u v) = (fe_val u * fe_val v) mod p.
Proof. rewrite <- mul_vl. reflexivity. Qed.
Lemma add_val (u v : Felt) : fe_val (fadd o u v) = (fe_val u + fe_val v) mod p.
Proof. symmetry. exact (add_rep _ _ u v (vl_mod u) (vl_mod v)). Qed.
Lemma fmul_mont_ok (u v : Felt) : fmul_mont (val (raw u)) (val (raw v)) = val (raw (fmul o u v)).
Proof.
  unfold fmul_mont, sol_fmul. rewrite !mm, !raw_val, mul_val. rewrite <- Zmult_mod, !Zmult_mod_idemp_l.
  replace (fe_val u * 2 ^ 256 * (fe_val v * 2 ^ 256) * MONTGOMERY_R_INV) with (fe_val u * fe_val v * 2 ^ 256 * (2 ^ 256 * MONTGOMERY_R_INV)) by ring.
  rewrite <- Zmult_mod_idemp_r, R_inv_ok, Z.mul_1_r. reflexivity.
Qed.
Lemma fadd_ok (u v : Felt) : sol_fadd (val (raw u)) (val (raw v)) = val (raw (fadd o u v)).
Proof. unfold sol_fadd. rewrite am, !raw_val, add_val. rewrite <- Zplus_mod, Zmult_mod_idemp_l. f_equal. ring. Qed.
Lemma fsub_ok a b : 0 <= b <= p -> sol_fsub a b = (a - b) mod p.
Proof.
  intros H. unfold sol_fsub. assert (2 * p < 2 ^ 256) by reflexivity. unfold wrap. rewrite am, (Z.mod_small (p - b)) by lia. replace (a + (p - b)) with (a - b + 1 * p) by ring. apply Z.mod_add. discriminate.
Qed.
(** ** Inversion *)
Lemma fermat_word a : a mod p <> 0 -> (a * inverse a) mod p = 1 /\ 0 <= inverse a < p.
Proof.
  intros N. unfold inverse, modexp. change (p =? 0) with false. cbn iota. split; [|apply Z.mod_pos_bound; reflexivity].
  rewrite Zmult_mod_idemp_r. rewrite <- Z.pow_succ_r by discriminate. change (Z.succ (p - 2)) with (p - 1). apply (fermat p a p_prime). intros D. apply N. apply Z.mod_divide; [discriminate|exact D].
Qed.
Definition prod (l : list Z) : Z := fold_right Z.mul 1 l.
Lemma products_spec : forall l c, length (fst (products c l)) = length l /\ snd (products c l) mod p = (c * prod l) mod p /\
  forall i, (i < length l)%nat -> nth i (fst (products c l)) 0 mod p = (c * prod (firstn (S i) l)) mod p.
Proof.
  induction l as [|a l IH]; intros c; [cbn [products fst snd length prod fold_right]; split; [reflexivity|]; split; [rewrite Z.mul_1_r; reflexivity|intros i Hi; lia]|].
  cbn [products fst snd length]. rewrite mm. destruct (IH ((c * a) mod p)) as (I1 & I2 & I3). split; [lia|]. split.
  - rewrite I2. cbn [prod fold_right]. rewrite Zmult_mod_idemp_l. f_equal. unfold prod. ring.
  - intros [|i] Hi; cbn [nth].
    + cbn [firstn prod fold_right]. rewrite Z.mod_mod by discriminate. f_equal. ring.
    + rewrite I3 by (cbn [length] in Hi; lia). change (firstn (S (S i)) (a :: l)) with (a :: firstn (S i) l). rewrite Zmult_mod_idemp_l. f_equal. unfold prod. cbn [fold_right]. ring.
Qed.
Lemma prod_snoc l i : (i < length l)%nat -> prod (firstn (S i) l) = prod (firstn i l) * nth i l 0.
Proof.
  revert i. induction l as [|a l IH]; intros i Hi; [cbn in Hi; lia|]. destruct i as [|i]; [cbn; ring|]. cbn [length] in Hi.
  change (firstn (S (S i)) (a :: l)) with (a :: firstn (S i) l). change (firstn (S i) (a :: l)) with (a :: firstn i l). cbn [prod fold_right nth]. fold (prod (firstn (S i) l)). fold (prod (firstn i l)). rewrite IH by lia. ring.
Qed.
(** [k] says what the carried value times the product of the first elements is: 1, or 0 when there is a zero *)
Lemma inverses_spec l k : forall i c out, (i < length l)%nat -> length out = length l ->
  (forall j, (j < i)%nat -> nth j out 0 mod p = prod (firstn (S j) l) mod p) -> (c * prod (firstn (S i) l)) mod p = k mod p -> 0 <= c < p ->
  let r := inverses i c l out in length (fst r) = length l /\ (forall j, (j > i)%nat -> nth j (fst r) 0 = nth j out 0) /\
  (forall j, (0 < j <= i)%nat -> 0 <= nth j (fst r) 0 < p /\ (nth j (fst r) 0 * nth j l 0) mod p = k mod p) /\ 0 <= snd r < p /\ (snd r * nth 0 l 0) mod p = k mod p.
Proof.
  induction i as [|i IH]; intros c out Hi Lo Ho Hc Rc; cbn [inverses].
  - cbn [fst snd]. split; [exact Lo|]. split; [reflexivity|]. split; [intros j Hj; lia|]. split; [exact Rc|]. rewrite <- Hc. f_equal. rewrite prod_snoc by exact Hi. cbn [firstn prod fold_right]. ring.
  - set (ith := y_mulmod c (nth i out 0) p). destruct (IH (y_mulmod c (nth (S i) l 0) p) (upd out (S i) ith)) as (I1 & I2 & I3 & I4 & I5).
    + lia.
    + rewrite upd_length. exact Lo.
    + intros j Hj. rewrite nth_upd by lia. destruct (Nat.eqb_spec j (S i)); [lia|]. apply Ho. lia.
    + rewrite mm, Zmult_mod_idemp_l, <- Hc. f_equal. rewrite (prod_snoc l (S i)) by exact Hi. ring.
    + rewrite mm. apply Z.mod_pos_bound. reflexivity.
    + split; [exact I1|]. split; [|split; [|split; [exact I4|exact I5]]].
      * intros j Hj. rewrite I2 by lia. rewrite nth_upd by lia. destruct (Nat.eqb_spec j (S i)); [lia|reflexivity].
      * intros j Hj. destruct (Nat.eq_dec j (S i)) as [->|Nj]; [|apply I3; lia]. rewrite I2 by lia. rewrite nth_upd by lia. rewrite Nat.eqb_refl. unfold ith. rewrite mm.
        split; [apply Z.mod_pos_bound; reflexivity|]. rewrite Zmult_mod_idemp_l, <- Hc. rewrite (prod_snoc l (S i)) by exact Hi.
        rewrite <- Z.mul_assoc, <- Zmult_mod_idemp_r. rewrite <- (Zmult_mod_idemp_l (nth i out 0)), Ho by lia. rewrite Zmult_mod_idemp_l, Zmult_mod_idemp_r. reflexivity.
Qed.
Lemma batch_spec l k : l <> [] -> (inverse (snd (products 1 l)) * prod l) mod p = k mod p ->
  snd (batch_invert l) = None /\ length (fst (batch_invert l)) = length l /\ forall j, (j < length l)%nat -> 0 <= nth j (fst (batch_invert l)) 0 < p /\ (nth j (fst (batch_invert l)) 0 * nth j l 0) mod p = k mod p.
Proof.
  intros N E. assert (Ll : (0 < length l)%nat) by (destruct l; [contradiction|cbn; lia]). destruct (products_spec l 1) as (P1 & P2 & P3).
  assert (Rc : 0 <= inverse (snd (products 1 l)) < p) by (unfold inverse, modexp; change (p =? 0) with false; cbn iota; apply Z.mod_pos_bound; reflexivity).
  unfold batch_invert. fold (inverse (snd (products 1 l))). destruct (inverses_spec l k (length l - 1) (inverse (snd (products 1 l))) (fst (products 1 l))) as (I1 & _ & I3 & I4 & I5).
  - lia.
  - exact P1.
  - intros j Hj. rewrite P3 by lia. rewrite Z.mul_1_l. reflexivity.
  - replace (S (length l - 1)) with (length l) by lia. rewrite firstn_all. exact E.
  - exact Rc.
  - destruct (inverses (length l - 1) (inverse (snd (products 1 l))) l (fst (products 1 l))) as [out c]. cbn [fst snd] in *. destruct out as [|x out]; [cbn in I1; lia|]. cbn [fst snd]. split; [reflexivity|]. split; [rewrite upd_length; exact I1|].
    intros j Hj. rewrite nth_upd by (cbn; lia). destruct (Nat.eqb_spec j 0) as [->|Nj]; [split; assumption|]. apply I3. lia.
Qed.
Lemma prod_ne l : Forall (fun a => a mod p <> 0) l -> prod l mod p <> 0.
Proof.
  induction 1 as [|a l Ha Hl IH]; [discriminate|]. cbn [prod fold_right]. fold (prod l). intros E. apply Z.mod_divide in E; [|discriminate].
  destruct (prime_mult p p_prime _ _ E) as [D|D]; [apply Ha|apply IH]; apply Z.mod_divide; try discriminate; exact D.
Qed.
Lemma prod_zero l : Exists (fun a => a mod p = 0) l -> prod l mod p = 0.
Proof.
  induction 1 as [a l Ha|a l Hl IH]; cbn [prod fold_right]; fold (prod l).
  - rewrite <- Zmult_mod_idemp_l, Ha. reflexivity.
  - rewrite <- Zmult_mod_idemp_r, IH, Z.mul_0_r. reflexivity.
Qed.
(** ** The sum *)
Lemma oods_spec (z : Felt) : forall values power result, fold_left (fun s v => (sol_fadd (fst s) (fmul_mont v (snd s)), fmul_mont (snd s) (val (raw z)))) (map (fun v => val (raw v)) values) (val (raw result), val (raw power)) =
  (val (raw (from_constraint_values o power result values z)), val (raw (fold_left (fun q (_ : Felt) => fmul o q z) values power))).
Proof.
  induction values as [|v values IH]; intros power result; [reflexivity|]. cbn [map fold_left fst snd from_constraint_values]. rewrite !fmul_mont_ok, fadd_ok. apply IH.
Qed.
(** ** The roots *)
Lemma adic k : 0 <= k <= 192 -> (p - 1) mod 2 ^ k = 0.
Proof.
  intros Hk. replace (p - 1) with (0x0800000000000011 * 2 ^ 192) by reflexivity. replace (2 ^ 192) with (2 ^ (192 - k) * 2 ^ k) by (rewrite <- Z.pow_add_r by lia; f_equal; lia).
  rewrite Z.mul_assoc. apply Z.mod_mul. apply Z.pow_nonzero; lia.
Qed.
Lemma not_adic k : 192 < k -> (p - 1) mod 2 ^ k <> 0.
Proof.
  intros Hk E. apply Z.mod_divide in E; [|apply Z.pow_nonzero; lia]. assert (D : (2 ^ 193 | p - 1)).
  { eapply Z.divide_trans; [|exact E]. exists (2 ^ (k - 193)). rewrite <- Z.pow_add_r by lia. f_equal. lia. }
  apply Z.mod_divide in D; [|discriminate]. vm_compute in D. discriminate.
Qed.
Lemma gp_spec k : 0 <= k <= 255 -> generator_power k = if k <=? 192 then Some (modexp 3 ((p - 1) / 2 ^ k) p) else None.
Proof.
  intros Hk. assert (P0 : 0 < 2 ^ k) by (apply Z.pow_pos_nonneg; lia). assert (B : 2 ^ k < 2 ^ 256) by (apply Z.pow_lt_mono_r; lia).
  unfold generator_power. unfold wrap. rewrite (Z.mod_small (2 ^ k)) by lia. destruct (Z.eqb_spec (2 ^ k) 0) as [E|_]; [lia|].
  pose proof (Z.div_mod (p - 1) (2 ^ k) ltac:(lia)) as DM. pose proof (Z.mod_pos_bound (p - 1) (2 ^ k) P0) as MB. assert (PB : p - 1 < 2 ^ 256) by reflexivity. assert (QN : 0 <= (p - 1) / 2 ^ k) by (apply Z.div_pos; [discriminate|exact P0]).
  rewrite (Z.mod_small ((p - 1) / 2 ^ k * 2 ^ k)) by (split; [apply Z.mul_nonneg_nonneg; lia|lia]). destruct (Z.leb_spec k 192) as [Hl|Hg].
  - rewrite (adic k) in DM by lia. destruct (Z.eqb_spec ((p - 1) / 2 ^ k * 2 ^ k) (p - 1)) as [_|N]; [reflexivity|lia].
  - pose proof (not_adic k Hg). destruct (Z.eqb_spec ((p - 1) / 2 ^ k * 2 ^ k) (p - 1)) as [E|_]; [lia|reflexivity].
Qed.
Lemma gp_root k : 0 <= k <= 192 -> generator_power k = root (2 ^ k).
Proof.
  intros Hk. rewrite gp_spec by lia. destruct (Z.leb_spec k 192); [|lia]. unfold root. assert (P0 : 0 < 2 ^ k) by (apply Z.pow_pos_nonneg; lia). destruct (Z.eqb_spec (2 ^ k) 0) as [E|_]; [lia|]. rewrite adic by exact Hk. reflexivity.
Qed.
(** ** Zeros in a batch *)
Lemma inverse_zero a : a mod p = 0 -> inverse a = 0.
Proof. intros E. unfold inverse, modexp. change (p =? 0) with false. cbn iota. rewrite Zpower_mod, E, Z.pow_0_l by reflexivity. reflexivity. Qed.
Lemma inverses_zero l : forall i out, (i < length out)%nat -> let r := inverses i 0 l out in length (fst r) = length out /\ snd r = 0 /\ (forall j, (i < j)%nat -> nth j (fst r) 0 = nth j out 0) /\ forall j, (0 < j <= i)%nat -> nth j (fst r) 0 = 0.
Proof.
  induction i as [|i IH]; intros out Hi; cbn [inverses].
  - cbn [fst snd]. repeat split; try reflexivity. intros j Hj. lia.
  - rewrite !mm, !Z.mul_0_l. change (0 mod p) with 0. destruct (IH (upd out (S i) 0)) as (I1 & I2 & I3 & I4); [rewrite upd_length; lia|]. rewrite upd_length in I1. split; [exact I1|]. split; [exact I2|]. split.
    + intros j Hj. rewrite I3 by lia. rewrite nth_upd by lia. destruct (Nat.eqb_spec j (S i)); [lia|reflexivity].
    + intros j Hj. destruct (Nat.eq_dec j (S i)) as [->|Nj]; [|apply I4; lia]. rewrite I3 by lia. rewrite nth_upd by lia. rewrite Nat.eqb_refl. reflexivity.
Qed.
Lemma batch_zero l : Exists (fun a => a mod p = 0) l -> batch_invert l = (repeat 0 (length l), None).
Proof.
  intros X. assert (Ll : (0 < length l)%nat) by (inversion X; cbn; lia). destruct (products_spec l 1) as (P1 & P2 & _). rewrite Z.mul_1_l, (prod_zero l X) in P2.
  unfold batch_invert. fold (inverse (snd (products 1 l))). rewrite (inverse_zero _ P2). destruct (inverses_zero l (length l - 1) (fst (products 1 l))) as (I1 & I2 & _ & I4); [lia|].
  destruct (inverses (length l - 1) 0 l (fst (products 1 l))) as [out c]. cbn [fst snd] in *. subst c. destruct out as [|x out]; [cbn in I1; lia|]. cbn iota. f_equal.
  apply nth_ext with (d := 0) (d' := 0); [rewrite upd_length, repeat_length; lia|]. intros j Hj. rewrite upd_length in Hj. rewrite nth_repeat. rewrite nth_upd by (cbn; lia). destruct (Nat.eqb_spec j 0); [reflexivity|]. apply I4. lia.
Qed.
Lemma oods_residues : forall l l' z s, Forall2 (fun a b => a mod p = b mod p) l l' ->
  fold_left (fun s v => (sol_fadd (fst s) (fmul_mont v (snd s)), fmul_mont (snd s) z)) l s = fold_left (fun s v => (sol_fadd (fst s) (fmul_mont v (snd s)), fmul_mont (snd s) z)) l' s.
Proof.
  intros l l' z s F. revert s. induction F as [|a b l l' E F IH]; intros s; [reflexivity|]. cbn [fold_left].
  assert (X : fmul_mont a (snd s) = fmul_mont b (snd s)) by (unfold fmul_mont, sol_fmul; f_equal; rewrite !mm, <- (Zmult_mod_idemp_l a), E, Zmult_mod_idemp_l; reflexivity). rewrite X. apply IH.
Qed.
(** ** Elements *)
Lemma sub_add {F} (o : ops F) (L : lawful o) u v : u = fadd o (fsub o u v) v.
Proof. destruct (law_field o L) as [R _ _ _]. destruct R as [Z0 Cm As _ _ _ _ Sd Op]. rewrite Sd, <- As, (Cm (fneg o v)), Op, Cm, Z0. reflexivity. Qed.
Lemma sub_val (u v : Felt) : fe_val (fsub o u v) = (fe_val u - fe_val v) mod p.
Proof.
  transitivity (fe_val (fsub o u v) mod p); [symmetry; apply vl_mod|]. pose proof (f_equal fe_val (sub_add o L u v)) as E. rewrite add_val in E. rewrite E, Zminus_mod_idemp_l. f_equal. ring.
Qed.
Lemma val_0 : fe_val (f0 o : Felt) = 0. Proof. exact (fe0_val proth_good). Qed.
Lemma val_1 : fe_val (f1 o : Felt) = 1. Proof. exact (fe1_val proth_good). Qed.
Lemma inv_val (u : Felt) : u <> f0 o -> inverse (fe_val u) = fe_val (finv o u).
Proof.
  intros N. assert (Nz : fe_val u mod p <> 0) by (intros E; apply N, (fe_val_inj proth_good); transitivity 0; [rewrite <- E; symmetry; apply vl_mod|symmetry; exact val_0]).
  destruct (fermat_word _ Nz) as [E R]. pose proof (f_equal fe_val (finv_r o L u N)) as E2. rewrite mul_val in E2. rewrite val_1 in E2.
  assert (V : fe_val (finv o u) mod p = fe_val (finv o u)) by exact (vl_mod (finv o u)). rewrite <- V. rewrite <- (Z.mod_small (inverse (fe_val u)) p) by exact R.
  set (x := inverse (fe_val u)) in *. set (y := fe_val (finv o u)) in *. clearbody x y. 
  transitivity ((x * (fe_val u * y)) mod p); [rewrite <- Zmult_mod_idemp_r, E2, Z.mul_1_r; reflexivity|].
  replace (x * (fe_val u * y)) with (y * (fe_val u * x)) by ring. rewrite <- Zmult_mod_idemp_r, E, Z.mul_1_r. reflexivity.
Qed.
Lemma raw_inj (u v : Felt) : val (raw u) = val (raw v) -> u = v.
Proof. intros E. apply (fe_val_inj proth_good). rewrite <- !from_ok, E. reflexivity. Qed.
Lemma raw_0 : val (raw (f0 o : Felt)) = 0. Proof. rewrite raw_val, val_0. reflexivity. Qed.
Lemma oods_ok (values : list Felt) z : oods_sum (map (fun v => val (raw v)) values) (val (raw z)) = val (raw (oods_value_from_constraint_values o values z)).
Proof. unfold oods_sum. rewrite <- val_1, to_ok, <- raw_0, oods_spec. reflexivity. Qed.
