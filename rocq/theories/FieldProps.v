(** Property theorems: the prime field layer. C17, C18, C20 - C25. *)
Require Import ZArith NArith Lia Bool List Znumtheory Zpow_facts Ring_theory Field_theory.
From Verif Require Import Word U256Model U256Spec U256Proofs MontgomeryModel MontgomeryProofs MontgomeryProps
  KnuthModel KnuthProofs DivisionProps BinaryModel BinaryProofs EncodingProofs NumberTheory Primes
  FieldSig FieldSpec FieldModel FieldProofs FieldInstance FieldAlgModel FieldAlgProofs.
Import ListNotations.
Open Scope Z_scope.

(** ** C17: arithmetic modulo the prime. [P] ranges over all parameter sets whose constants
    satisfy their documentation; no operation panics on canonical operands. *)
Theorem C17_arithmetic : forall P m x y a b, consistent (fmp P) m ->
  represents m x a -> represents m y b ->
  (exists r, pf_add P x y = Some r /\ represents m r ((a + b) mod m)) /\
  (exists r, pf_sub P x y = Some r /\ represents m r ((a - b) mod m)) /\
  (exists r, pf_mul P x y = Some r /\ represents m r ((a * b) mod m)) /\
  (exists r, pf_neg P x = Some r /\ represents m r ((- a) mod m)) /\
  (exists r, pf_square P x = Some r /\ pf_mul P x x = Some r) /\
  (exists r, pf_double P x = Some r /\ represents m r ((2 * a) mod m)) /\
  (exists r, pf_triple P x = Some r /\ represents m r ((3 * a) mod m)).
Proof.
  intros P m x y a b C Hx Hy. repeat split.
  - apply pf_add_spec; assumption.
  - apply pf_sub_spec; assumption.
  - apply pf_mul_spec; assumption.
  - apply pf_neg_spec; assumption.
  - destruct (pf_square_spec P m C x a Hx) as (r & E & R), (pf_mul_spec P m C x x a a Hx Hx) as (s & E' & R').
    exists r. split; [exact E|]. rewrite E'. f_equal. eapply rep_inj; eassumption.
  - replace (2 * a) with (a + a) by ring. apply pf_add_spec; assumption.
  - unfold pf_triple. destruct (pf_add_spec P m C x x a a Hx Hx) as (r & -> & R). rewrite bind_some.
    destruct (pf_add_spec P m C r x _ a R Hx) as (s & E & R'). exists s. split; [exact E|].
    rewrite Zplus_mod_idemp_l in R'. replace (3 * a) with (a + a + a) by ring. exact R'.
Qed.
Print Assumptions C17_arithmetic.

Theorem C17_comparison : forall P m x y a b, consistent (fmp P) m ->
  represents m x a -> represents m y b ->
  pf_eq P x y = Some (a =? b) /\ pf_is_zero P x = Some (a =? 0) /\ pf_is_one P x = Some (a =? 1) /\
  (exists z, pf_zero P = Some z /\ represents m z 0) /\ (exists u, pf_one P = Some u /\ represents m u 1) /\
  (x = y <-> a = b).
Proof.
  intros P m x y a b C Hx Hy. repeat split.
  - apply (pf_eq_spec P m C); assumption.
  - apply (pf_is_zero_spec P m C); assumption.
  - apply (pf_is_one_spec P m C); assumption.
  - apply (pf_zero_spec P m C).
  - apply (pf_one_spec P m C).
  - intros <-. eapply (rep_val P m C); eassumption.
  - intros <-. eapply rep_inj; eassumption.
Qed.
Print Assumptions C17_comparison.

Theorem C17_sum_product : forall P m xs vs, consistent (fmp P) m -> Forall2 (represents m) xs vs ->
  (exists r, pf_sum P xs = Some r /\ represents m r (fold_right Z.add 0 vs mod m)) /\
  (exists r, pf_product P xs = Some r /\ represents m r (fold_right Z.mul 1 vs mod m)).
Proof.
  intros P m xs vs C H. pose proof (c_range _ _ C) as Hm. split.
  - unfold pf_sum. destruct (pf_zero_spec P m C) as (z & -> & Z0). rewrite bind_some.
    destruct (pf_fold_spec m (pf_add P) Z.add xs (pf_add_spec P m C) z 0 vs Z0 H) as (r & E & R).
    exists r. split; [exact E|]. rewrite (fold_add_mod P m C) in R by lia. rewrite Z.add_0_l in R. exact R.
  - unfold pf_product. destruct (pf_one_spec P m C) as (z & -> & Z0). rewrite bind_some.
    destruct (pf_fold_spec m (pf_mul P) Z.mul xs (pf_mul_spec P m C) z 1 vs Z0 H) as (r & E & R).
    exists r. split; [exact E|]. rewrite (fold_mul_mod P m C) in R by lia. rewrite Z.mul_1_l in R. exact R.
Qed.
Print Assumptions C17_sum_product.

(** from_uint and to_uint are mutually inverse on [0, MODULUS); from_uint panics (debug) beyond. *)
Theorem C17_from_to_uint : forall P m u v, consistent (fmp P) m -> denotes u v ->
  (v < m -> exists x, pf_from_uint P u = Some x /\ represents m x v /\ pf_to_uint P x = Some u) /\
  (m <= v -> pf_from_uint P u = None).
Proof.
  intros P m u v C D. split.
  - intros H. destruct (pf_from_uint_spec P m C u v D H) as (r & E & R). exists r. split; [exact E|]. split; [exact R|].
    destruct (pf_to_uint_spec P m C r v R) as (u' & E' & [W' V']). rewrite E'. f_equal. destruct D as [Wu Vu].
    apply val_inj; auto. congruence.
  - intros H. apply (pf_from_uint_panics P m C u v); assumption.
Qed.
Print Assumptions C17_from_to_uint.

Theorem C17_to_from_uint : forall P m x v, consistent (fmp P) m -> represents m x v ->
  exists u, pf_to_uint P x = Some u /\ denotes u v /\ pf_from_uint P u = Some x.
Proof.
  intros P m x v C H. destruct (pf_to_uint_spec P m C x v H) as (u & E & D). exists u. split; [exact E|]. split; [exact D|].
  destruct (pf_from_uint_spec P m C u v D) as (r & E' & R); [apply H|]. rewrite E'. f_equal. eapply rep_inj; eassumption.
Qed.
Print Assumptions C17_to_from_uint.

Theorem C17_from_uint_reduce : forall P m u v, consistent (fmp P) m -> denotes u v ->
  exists x, pf_from_uint_reduce P u = Some x /\ represents m x (v mod m).
Proof. intros. apply pf_from_uint_reduce_spec; assumption. Qed.
Print Assumptions C17_from_uint_reduce.

(** Every limb pattern below the modulus is the representation of exactly one value, and the
    debug build refuses every other pattern. *)
Theorem C17_canonical : forall P m x n, consistent (fmp P) m -> denotes x n ->
  (n < m -> exists! v, represents m x v) /\
  (m <= n -> forall y, pf_add P x y = None /\ pf_mul P x y = None /\ pf_to_uint P x = None).
Proof.
  intros P m x n C [Wx Vx]. split; intros H.
  - pose proof (val_range x Wx). exists (val (from_montgomery (fmp P) x)).
    assert (R : represents m x (val (from_montgomery (fmp P) x))) by (apply (rep_exists P m C); [assumption|lia]).
    split; [exact R|]. intros v' H'. eapply (rep_val P m C); eassumption.
  - intros y. destruct (as_mont_panics P m C x Wx) as [E _]; [lia|]. unfold pf_add, pf_mul, pf_to_uint. rewrite E. cbn [bind].
    repeat split. destruct (u_ltb x (p_modulus P)); reflexivity.
Qed.
Print Assumptions C17_canonical.

(** Non-vacuity: the field of the code base, with 3 (the generator's limbs) and 1. *)
Example C17_example : consistent (fmp proth_field) p_field /\
  represents p_field (GENERATOR proth_field) 3 /\ represents p_field (R1 (fmp proth_field)) 1 /\
  exists r, pf_sub proth_field (R1 (fmp proth_field)) (GENERATOR proth_field) = Some r /\ represents p_field r (p_field - 2).
Proof.
  assert (C := g_cons _ proth_good). change (val (p_modulus proth_field)) with p_field in C. split; [exact C|].
  assert (R3 : represents p_field (GENERATOR proth_field) 3) by (unfold represents, denotes, wf, u64; vm_compute; repeat split; congruence).
  pose proof (rep_R1 _ _ C) as R1. split; [exact R3|]. split; [exact R1|].
  destruct (pf_sub_spec _ _ C _ _ _ _ R1 R3) as (r & E & R). exists r. split; [exact E|exact R].
Qed.

(** ** C18 *)
Theorem C18_moduli_prime :
  denotes (p_modulus proth_field) (2 ^ 251 + 17 * 2 ^ 192 + 1) /\ prime (2 ^ 251 + 17 * 2 ^ 192 + 1) /\
  denotes (p_modulus order_field) 0x0800000000000010ffffffffffffffffb781126dcae7b2321e66a241adc64d2f /\
  prime 0x0800000000000010ffffffffffffffffb781126dcae7b2321e66a241adc64d2f.
Proof.
  split; [unfold denotes, wf, u64; vm_compute; repeat split; congruence|]. split; [exact prime_field|].
  split; [unfold denotes, wf, u64; vm_compute; repeat split; congruence|]. exact prime_order.
Qed.
Print Assumptions C18_moduli_prime.

(** R1, R2, R3, M64 ([consistent]), ORDER = MODULUS - 1, and GENERATOR a generator of the
    whole multiplicative group. *)
Definition constants_ok (P : fparams) (m g : Z) : Prop :=
  consistent (fmp P) m /\ denotes (ORDER P) (m - 1) /\ represents m (GENERATOR P) g /\ primitive_root m g.

Lemma proth_constants : constants_ok proth_field p_field 3.
Proof.
  split; [exact (g_cons _ proth_good)|]. split; [unfold denotes, wf, u64; vm_compute; repeat split; congruence|].
  split; [unfold represents, denotes, wf, u64; vm_compute; repeat split; congruence|].
  split; [|apply field_generator_order]. intros D. apply Z.divide_pos_le in D; [|lia]. vm_compute in D. congruence.
Qed.
Lemma tiny_constants : constants_ok tiny_field 97 5.
Proof.
  split; [exact (g_cons _ tiny_good)|]. split; [unfold denotes, wf, u64; vm_compute; repeat split; congruence|].
  split; [unfold represents, denotes, wf, u64; vm_compute; repeat split; congruence|]. split.
  - intros D. apply Z.divide_pos_le in D; lia.
  - apply (exact_order 97 5 96 [2; 3]); try reflexivity.
    + intros r Hr D. change 96 with (2 ^ 5 * 3) in D. apply prime_dvd_mul in D as [D|D]; auto.
      * apply prime_dvd_pow in D; auto; [|lia]. apply prime_div_prime in D; auto using prime_2. subst; cbn; auto.
      * apply prime_div_prime in D; auto using prime_3. subst; cbn; auto.
    + intros r [<-|[<-|[]]]; vm_compute; discriminate.
Qed.
Lemma order_constants : constants_ok order_field p_order order_generator.
Proof.
  split; [exact (g_cons _ order_good)|]. split; [unfold denotes, wf, u64; vm_compute; repeat split; congruence|].
  split; [unfold represents, denotes, wf, u64; vm_compute; repeat split; congruence|].
  split; [|apply order_generator_order]. intros D. apply Z.divide_pos_le in D; [|reflexivity]. vm_compute in D. congruence.
Qed.
Theorem C18_constants :
  constants_ok proth_field (2 ^ 251 + 17 * 2 ^ 192 + 1) 3 /\
  (exists g, constants_ok order_field 0x0800000000000010ffffffffffffffffb781126dcae7b2321e66a241adc64d2f g).
Proof. split; [exact proth_constants|]. exists order_generator. exact order_constants. Qed.
Print Assumptions C18_constants.

(** The generator is not a square. *)
Theorem C18_generator_non_square : forall P m g r, constants_ok P m g -> 2 < m -> prime m -> (r * r) mod m <> g mod m.
Proof.
  intros P m g r (C & _ & _ & Ng & Hg) Hm Pr E.
  pose proof (c_m64 _ _ C) as Hodd.
  assert (Od : (m - 1) mod 2 = 0).
  { assert (Hd : ~ (2 | m)). { intros D. apply prime_div_prime in D; auto using prime_2; lia. }
    pose proof (Z.mod_pos_bound m 2 ltac:(lia)). destruct (Z.eq_dec (m mod 2) 0) as [Z0|N0].
    - exfalso. apply Hd. apply Z.mod_divide; [lia|assumption].
    - replace m with (1 + (m / 2) * 2) by (pose proof (Z.div_mod m 2 ltac:(lia)); lia).
      replace (1 + m / 2 * 2 - 1) with (0 + (m / 2) * 2) by ring. rewrite Z_mod_plus_full. reflexivity. }
  pose proof (Z.div_mod (m - 1) 2 ltac:(lia)) as D2. set (h := (m - 1) / 2) in *.
  assert (Eh : g ^ h mod m = 1).
  { rewrite Zpower_mod, <- E, <- Zpower_mod by lia. rewrite <- Z.pow_2_r, <- Z.pow_mul_r by lia.
    replace (2 * h) with (m - 1) by lia. apply fermat; [exact Pr|]. intros D. apply Ng.
    apply Z.mod_divide; [lia|]. rewrite <- E. apply Z.mod_divide; [lia|]. apply Z.divide_mul_l. exact D. }
  apply Hg in Eh; [|lia]. apply Z.divide_pos_le in Eh; lia.
Qed.
Print Assumptions C18_generator_non_square.

(** ** C20: exponentiation, for every lawful field *)
Theorem C20_pow : forall F (o : ops F) a, lawful o ->
  (forall e n, denotes e n -> pow_u256 o a e = fexp o a (Z.to_N n)) /\
  (forall n, 0 <= n < 2 ^ 64 -> pow_usize o a n = fexp o a (Z.to_N n)).
Proof.
  intros F o a L. split.
  - intros e n [H <-]. apply pow_u256_spec; assumption.
  - intros n H. apply pow_usize_spec; assumption.
Qed.
Print Assumptions C20_pow.

(** On the elements of a concrete prime field, in terms of integers. *)
Theorem C20_pow_value : forall P (G : good P) (a : fe P) e n, denotes e n ->
  fe_val (pow_u256 (fe_ops G) a e) = fe_val a ^ n mod val (p_modulus P).
Proof.
  intros P G a e n [H <-]. rewrite (pow_u256_spec _ (fe_lawful G)) by assumption.
  rewrite (fe_exp_val G), Z2N.id by (apply val_range; assumption). reflexivity.
Qed.
Print Assumptions C20_pow_value.

Theorem C20_pow_isize : forall F (o : ops F) dbg a e, lawful o -> - 2 ^ 63 < e < 2 ^ 63 ->
  exists r, pow_isize o dbg a e = Some r /\
  (0 <= e -> r = Some (fexp o a (Z.to_N e))) /\
  (e < 0 -> a = f0 o -> r = None) /\
  (e < 0 -> a <> f0 o -> exists b, r = Some b /\ fmul o b (fexp o a (Z.to_N (- e))) = f1 o).
Proof.
  intros F o dbg a e L He. unfold pow_isize. destruct (Z.eqb_spec e (- 2 ^ 63)); [lia|]. cbn [bind].
  destruct (Z.ltb_spec e 0).
  - eexists. split; [reflexivity|]. split; [lia|]. split.
    + intros _ ->. rewrite (proj2 (inv_opt_none o L _) eq_refl). reflexivity.
    + intros _ Na. rewrite (inv_opt_ne o L) by assumption. cbn [bind]. eexists. split; [reflexivity|].
      rewrite (pow_usize_spec o L) by (unfold B; lia). replace (Z.abs e) with (- e) by lia.
      rewrite (finv_fexp o L) by assumption. apply (finv_l o L). apply (fexp_neq_0 o L). assumption.
  - eexists. split; [reflexivity|]. split; [intros _|lia]. rewrite (pow_usize_spec o L) by (unfold B; lia).
    f_equal. f_equal. lia.
Qed.
Print Assumptions C20_pow_isize.

(** Finding: for isize::MIN a debug build panics; a release build returns the right power. *)
Theorem C20_isize_min_deviation : forall F (o : ops F) a, lawful o -> a <> f0 o ->
  pow_isize o true a (- 2 ^ 63) = None /\
  exists b, pow_isize o false a (- 2 ^ 63) = Some (Some b) /\ fmul o b (fexp o a (2 ^ 63)%N) = f1 o.
Proof.
  intros F o a L Na. split; [reflexivity|]. unfold pow_isize. rewrite Z.eqb_refl. cbn [bind].
  destruct (Z.ltb_spec (- 2 ^ 63) 0); [|lia]. rewrite (inv_opt_ne o L) by assumption. cbn [bind]. eexists. split; [reflexivity|].
  rewrite (pow_usize_spec o L) by (unfold B; lia). rewrite (finv_fexp o L) by assumption. apply (finv_l o L). apply (fexp_neq_0 o L). assumption.
Qed.
Print Assumptions C20_isize_min_deviation.

Example C20_example : lawful felt_ops /\ fe_val (pow_usize tiny_ops (tiny 5) 5) = 21 /\
  match pow_isize tiny_ops true (tiny 5) (-2) with
  | Some (Some b) => (fe_val b * 25) mod 97 = 1 | _ => False end.
Proof.
  split; [apply felt_lawful|]. split; vm_compute; reflexivity.
Qed.

(** ** C21: roots of unity *)
Lemma generator_val P (G : good P) g : constants_ok P (val (p_modulus P)) g -> fe_val (generator G) = g.
Proof.
  intros (C & _ & R & _). unfold generator, pf_generator.
  destruct (rep_range P _ C _ _ R) as [W1 R1]. destruct (as_mont_ok P _ C _ W1 R1) as [_ E].
  apply (lift_ok G (fe0 G) _ (GENERATOR P) g E R).
Qed.

Lemma root_value P (G : good P) g n q : constants_ok P (val (p_modulus P)) g -> 0 < n -> 0 <= q -> q * n = val (p_modulus P) - 1 ->
  order_exactly (val (p_modulus P)) (fe_val (fexp (fe_ops G) (generator G) (Z.to_N q))) n.
Proof.
  intros K Hn Hq E. rewrite (fe_exp_val G), (generator_val P G g K), Z2N.id by assumption.
  destruct K as (C & _ & _ & Ng & Hg). pose proof (c_range _ _ C) as Hm. set (m := val (p_modulus P)) in *.
  split.
  - rewrite <- Zpower_mod, <- Z.pow_mul_r by lia. rewrite E. apply fermat; [apply (g_prime P G)|exact Ng].
  - intros k Hk H. rewrite <- Zpower_mod, <- Z.pow_mul_r in H by lia. apply Hg in H; [|nia].
    assert (Hq0 : 0 < q) by nia. rewrite <- E in H. apply Z.mul_divide_cancel_l in H; [|lia]. apply Z.divide_pos_le in H; lia.
Qed.

Theorem C21_root_usize : forall P (G : good P) g n, constants_ok P (val (p_modulus P)) g -> 0 < n < 2 ^ 64 ->
  exists r, root_usize G n = Some r /\
  (r <> None <-> (n | val (p_modulus P) - 1)) /\
  (forall w, r = Some w -> order_exactly (val (p_modulus P)) (fe_val w) n).
Proof.
  intros P G g n K Hn. pose proof K as (C & [Wo Vo] & _). pose proof (c_range _ _ C) as Hm.
  unfold root_usize. destruct (C03_div_rem_u64 (ORDER P) _ n (conj Wo Vo) Hn) as (q & E & Wq & Vq). rewrite E. cbn [bind].
  set (m := val (p_modulus P)) in *. eexists. split; [reflexivity|].
  destruct (Z.eqb_spec ((m - 1) mod n) 0) as [Z0|N0].
  - split; [split; [intros _; apply Z.mod_divide; [lia|assumption]|discriminate]|].
    intros w [= <-]. rewrite (pow_u256_spec _ (fe_lawful G)) by assumption. rewrite Vq.
    apply (root_value P G g n _ K); [lia|apply Z.div_pos; lia|]. fold m. pose proof (Z.div_mod (m - 1) n ltac:(lia)). lia.
  - split; [|discriminate]. split; [congruence|]. intros D. exfalso. apply N0. apply Z.mod_divide; [lia|assumption].
Qed.
Print Assumptions C21_root_usize.

Theorem C21_root_zero : forall P (G : good P) dbg,
  root_usize G 0 = Some (Some (fe1 G)) /\ root_u256 G dbg ZERO = Some (Some (fe1 G)) /\ fe_val (fe1 G) = 1.
Proof. intros. split; [reflexivity|]. split; [reflexivity|]. apply fe1_val. Qed.
Print Assumptions C21_root_zero.

(** U256 orders: as above, except where the divisions of C03 collide (only possible for
    orders between 2^128 and 2^192), in which case a debug build panics. *)
Theorem C21_root_u256 : forall P (G : good P) g dbg x n, constants_ok P (val (p_modulus P)) g -> denotes x n -> 0 < n ->
  ~ leading_limbs_collide 4 (val (p_modulus P) - 1) n ->
  exists r, root_u256 G dbg x = Some r /\
  (r <> None <-> (n | val (p_modulus P) - 1)) /\
  (forall w, r = Some w -> order_exactly (val (p_modulus P)) (fe_val w) n).
Proof.
  intros P G g dbg x n K D Hn Hc. pose proof K as (C & Do & _). pose proof (c_range _ _ C) as Hm.
  unfold root_u256. destruct (C03_div_rem dbg (ORDER P) x _ n Do D Hn Hc) as (q & rm & E & [Wq Vq] & [Wr Vr]). rewrite E. cbn [bind].
  set (m := val (p_modulus P)) in *. eexists. split; [reflexivity|]. rewrite is_zero_eq by assumption. rewrite Vr.
  destruct (Z.eqb_spec ((m - 1) mod n) 0) as [Z0|N0].
  - split; [split; [intros _; apply Z.mod_divide; [lia|assumption]|discriminate]|].
    intros w [= <-]. rewrite (pow_u256_spec _ (fe_lawful G)) by assumption. rewrite Vq.
    apply (root_value P G g n _ K); [lia|apply Z.div_pos; lia|]. fold m. pose proof (Z.div_mod (m - 1) n ltac:(lia)). lia.
  - split; [|discriminate]. split; [congruence|]. intros Dv. exfalso. apply N0. apply Z.mod_divide; [lia|assumption].
Qed.
Print Assumptions C21_root_u256.

(** All powers of two, in the base field. *)
Theorem C21_root_power_of_two : forall dbg k x, 0 <= k <= 192 -> denotes x (2 ^ k) ->
  exists w, root_u256 proth_good dbg x = Some (Some w) /\ order_exactly p_field (fe_val w) (2 ^ k).
Proof.
  intros dbg k x Hk D.
  assert (NC : ~ leading_limbs_collide 4 (p_field - 1) (2 ^ k)).
  { intros Hc. destruct proth_constants as (_ & Do & _).
    pose proof (C03_collision_panics _ _ _ _ Do D ltac:(apply Z.pow_pos_nonneg; lia) Hc) as E.
    assert (A : forallb (fun j => match u_div_rem true (ORDER proth_field) (u_of_Z (2 ^ Z.of_nat j)) with Some _ => true | None => false end) (seq 0 193) = true) by (vm_compute; reflexivity).
    rewrite forallb_forall in A. specialize (A (Z.to_nat k)). rewrite Z2Nat.id in A by lia.
    destruct (u_of_Z_spec (2 ^ k)) as [W1 V1]. { split; [apply Z.pow_nonneg; lia|]. change W with (2 ^ 256). apply Z.pow_lt_mono_r; lia. }
    assert (x = u_of_Z (2 ^ k)). { destruct D as [W2 V2]. apply val_inj; auto. congruence. }
    subst x. rewrite E in A. discriminate A. apply in_seq. lia. }
  destruct (C21_root_u256 proth_field proth_good 3 dbg x (2 ^ k) proth_constants D ltac:(apply Z.pow_pos_nonneg; lia) NC) as (r & E & Hd & Hw).
  assert (r <> None). { apply Hd. change (val (p_modulus proth_field)) with p_field. rewrite factors_field.
    apply Z.divide_mul_l. exists (2 ^ (192 - k)). rewrite <- Z.pow_add_r by lia. f_equal. lia. }
  destruct r as [w|]; [|congruence]. exists w. split; [exact E|]. apply Hw. reflexivity.
Qed.
Print Assumptions C21_root_power_of_two.

Example C21_example : constants_ok tiny_field 97 5 /\
  match root_usize tiny_good 12 with Some (Some w) => order_exactly 97 (fe_val w) 12 | _ => False end /\
  match root_usize tiny_good 11 with Some None => True | _ => False end.
Proof.
  split; [exact tiny_constants|]. split; [|vm_compute; exact I].
  destruct (C21_root_usize tiny_field tiny_good 5 12 tiny_constants ltac:(lia)) as (r & -> & H & Hw).
  destruct r as [w|]; [apply Hw; reflexivity|]. apply (proj2 H); [exists 8; reflexivity|reflexivity].
Qed.

(** ** C22: square roots *)
Lemma sqrt_ready P (G : good P) g : constants_ok P (val (p_modulus P)) g -> 2 < val (p_modulus P) ->
  wf (p_modulus P) /\ wf (ORDER P) /\ (val (p_modulus P) - 1) mod 2 = 0 /\
  (forall a, a <> f0 (fe_ops G) -> fexp (fe_ops G) a (Z.to_N (val (p_modulus P) - 1)) = f1 (fe_ops G)) /\
  fexp (fe_ops G) (generator G) (Z.to_N ((val (p_modulus P) - 1) / 2)) = fneg (fe_ops G) (f1 (fe_ops G)) /\
  f1 (fe_ops G) <> fneg (fe_ops G) (f1 (fe_ops G)).
Proof.
  intros K H2. pose proof K as (C & [Wo Vo] & _ & Ng & Hg). set (m := val (p_modulus P)) in *.
  assert (Pr : prime m) by apply (g_prime P G).
  assert (Od : (m - 1) mod 2 = 0).
  { assert (Hd : ~ (2 | m)). { intros D. apply prime_div_prime in D; auto using prime_2; lia. }
    pose proof (Z.mod_pos_bound m 2 ltac:(lia)). destruct (Z.eq_dec (m mod 2) 0) as [Z0|N0].
    - exfalso. apply Hd. apply Z.mod_divide; [lia|assumption].
    - replace m with (1 + (m / 2) * 2) by (pose proof (Z.div_mod m 2 ltac:(lia)); lia).
      replace (1 + m / 2 * 2 - 1) with (0 + (m / 2) * 2) by ring. rewrite Z_mod_plus_full. reflexivity. }
  assert (Fm : forall a, a <> f0 (fe_ops G) -> fexp (fe_ops G) a (Z.to_N (m - 1)) = f1 (fe_ops G)) by (apply fe_fermat).
  assert (N1 : f1 (fe_ops G) <> fneg (fe_ops G) (f1 (fe_ops G))).
  { intros E. apply (f_equal fe_val) in E. cbn [f1 fneg fe_ops] in E. rewrite (fe_neg_val G), (fe1_val G) in E. fold m in E. change (- (1)) with (-1) in E.
    assert ((-1) mod m = m - 1) by (symmetry; apply mod_eq with (q := -1); lia). lia. }
  split; [apply C|]. split; [exact Wo|]. split; [exact Od|]. split; [exact Fm|]. split; [|exact N1].
  assert (Gv := generator_val P G g K).
  assert (Gn : generator G <> f0 (fe_ops G)).
  { intros E. apply Ng. rewrite <- Gv, E. cbn [f0 fe_ops]. rewrite (fe0_val G). apply Z.divide_0_r. }
  pose proof (Z.div_mod (m - 1) 2 ltac:(lia)) as D2.
  destruct (fsquare_1 (fe_ops G) (fe_lawful G) (fexp (fe_ops G) (generator G) (Z.to_N ((m - 1) / 2)))) as [E|E]; [| |exact E].
  - rewrite <- (fexp_double _ (fe_lawful G)). replace (2 * Z.to_N ((m - 1) / 2))%N with (Z.to_N (m - 1)) by lia. apply Fm. exact Gn.
  - exfalso. apply (f_equal fe_val) in E. rewrite (fe_exp_val G), Gv, Z2N.id in E by lia. cbn [f1 fe_ops] in E. rewrite (fe1_val G) in E.
    apply Hg in E; [|lia]. apply Z.divide_pos_le in E; lia.
Qed.

Theorem C22_square_root : forall P (G : good P) g (a : fe P), constants_ok P (val (p_modulus P)) g -> 2 < val (p_modulus P) ->
  exists r, fe_square_root G a = Some r /\
  (forall x, r = Some x -> (fe_val x * fe_val x) mod val (p_modulus P) = fe_val a) /\
  (r = None <-> forall v, (v * v) mod val (p_modulus P) <> fe_val a) /\
  (fe_is_quadratic_residue G a = true <-> exists v, (v * v) mod val (p_modulus P) = fe_val a).
Proof.
  intros P G g a K H2. destruct (sqrt_ready P G g K H2) as (Wm & Wo & Od & Fm & Gn & N1).
  pose proof K as (_ & [_ Vo] & _). pose proof (fe_lawful G) as L.
  destruct (square_root_spec (fe_ops G) L (p_modulus P) (ORDER P) (generator G) (val (p_modulus P) - 1) Wm Wo ltac:(lia) Od ltac:(lia) Vo Fm Gn a)
    as (r & E & Hn & Hs).
  assert (Sq : forall v, (v * v) mod val (p_modulus P) = fe_val a -> is_qr (fe_ops G) (p_modulus P) a = true).
  { intros v Hv. replace a with (fmul (fe_ops G) (fe_of_Z G v) (fe_of_Z G v)).
    - apply (is_qr_square (fe_ops G) L (p_modulus P) (val (p_modulus P) - 1)); auto; lia.
    - apply (fe_val_inj G). cbn [fmul fe_ops]. rewrite (fe_mul_val G), (fe_of_Z_val G), <- Zmult_mod. exact Hv. }
  assert (Sx : forall x, r = Some x -> (fe_val x * fe_val x) mod val (p_modulus P) = fe_val a).
  { intros x Hx. apply Hs in Hx. rewrite <- Hx. cbn [fmul fe_ops]. rewrite (fe_mul_val G). reflexivity. }
  exists r. split; [exact E|]. split; [exact Sx|]. split; split.
  - intros Hr v Hv. apply Hn in Hr. specialize (Sq v Hv). congruence.
  - intros Hv. destruct r as [x|]; [|reflexivity]. exfalso. apply (Hv (fe_val x)). apply Sx. reflexivity.
  - intros Q. destruct r as [x|]; [exists (fe_val x); apply Sx; reflexivity|].
    exfalso. assert (is_qr (fe_ops G) (p_modulus P) a = false) by (apply Hn; reflexivity). unfold fe_is_quadratic_residue in Q. congruence.
  - intros (v & Hv). exact (Sq v Hv).
Qed.
Print Assumptions C22_square_root.

Example C22_example : constants_ok proth_field p_field 3 /\ constants_ok tiny_field 97 5 /\
  match fe_square_root tiny_good (tiny 2) with Some (Some x) => (fe_val x * fe_val x) mod 97 = 2 | _ => False end /\
  match fe_square_root tiny_good (tiny 5) with Some None => True | _ => False end.
Proof. split; [exact proth_constants|]. split; [exact tiny_constants|]. split; vm_compute; [reflexivity|exact I]. Qed.

(** ** C23: conversions from and to machine integers *)
Theorem C23_from_unsigned : forall P m n, consistent (fmp P) m -> 0 <= n < 2 ^ 128 ->
  exists x, pf_from_unsigned P n = Some x /\ represents m x (n mod m).
Proof. intros P m n C H. apply (pf_from_uint_reduce_spec P m C). apply from_u128_spec. exact H. Qed.
Print Assumptions C23_from_unsigned.

Theorem C23_from_signed : forall P m bits n, consistent (fmp P) m -> 0 < bits <= 128 ->
  - 2 ^ (bits - 1) < n < 2 ^ (bits - 1) ->
  exists x, pf_from_signed P bits n = Some x /\ represents m x (n mod m).
Proof.
  intros P m bits n C Hb Hn. pose proof (c_range _ _ C) as Hm. unfold pf_from_signed.
  assert (Hp : 2 ^ (bits - 1) <= 2 ^ 127) by (apply Z.pow_le_mono_r; lia).
  destruct (Z.leb_spec 0 n).
  - destruct (from_i128_spec n ltac:(lia)) as [H1 H2].
    rewrite Z.mod_small in H2 by (change W with (2 ^ 256); lia). apply (pf_from_uint_reduce_spec P m C). split; assumption.
  - destruct (Z.eqb_spec n (- 2 ^ (bits - 1))); [lia|].
    destruct (from_i128_spec (- n) ltac:(lia)) as [H1 H2]. rewrite Z.mod_small in H2 by (change W with (2 ^ 256); lia).
    destruct (pf_from_uint_reduce_spec P m C _ _ (conj H1 H2)) as (r & -> & R). rewrite bind_some.
    destruct (pf_neg_spec P m C r _ R) as (s & E & R'). exists s. split; [exact E|].
    replace (n mod m) with ((- ((- n) mod m)) mod m); [exact R'|].
    rewrite <- (Z.sub_0_l (_ mod m)), Zminus_mod_idemp_r. f_equal. ring.
Qed.
Print Assumptions C23_from_signed.

(** Finding: the minimum of a signed type panics in a debug build, and in a release build
    i64::MIN is converted to a wrong element. *)
Theorem C23_signed_min_refuted :
  (forall P bits, 0 < bits -> pf_from_signed P bits (- 2 ^ (bits - 1)) = None) /\
  exists x v, pf_from_signed_release proth_field 64 (- 2 ^ 63) = Some x /\ represents p_field x v /\ v <> (- 2 ^ 63) mod p_field.
Proof.
  split.
  - intros P bits H. unfold pf_from_signed. pose proof (Z.pow_pos_nonneg 2 (bits - 1) ltac:(lia) ltac:(lia)).
    destruct (Z.leb_spec 0 (- 2 ^ (bits - 1))); [lia|]. rewrite Z.eqb_refl. reflexivity.
  - eexists. exists ((- (2 ^ 256 - 2 ^ 63)) mod p_field). split; [vm_compute; reflexivity|].
    unfold represents, denotes, wf, u64. vm_compute. repeat split; congruence.
Qed.
Print Assumptions C23_signed_min_refuted.

Lemma u_to_u128_spec u v : denotes u v -> u_to_u128 u = if v <? 2 ^ 128 then Some v else None.
Proof.
  intros [H <-]. unfold u_to_u128.
  assert (Wc : wf (mk 0 0 1 0)) by (apply mk_wf; uB; lia).
  rewrite u_ltb_spec by assumption. change (val (mk 0 0 1 0)) with (2 ^ 128).
  destruct (Z.ltb_spec (val u) (2 ^ 128)) as [Lt|]; [|reflexivity]. f_equal.
  destruct (as_u128_val u H) as [E _]. unfold as_u128 in E. rewrite ?(Z.lor_comm (l0 u)) in *. rewrite E.
  apply Z.mod_small. split; [apply val_range; assumption|assumption].
Qed.
Lemma u_to_i128_spec u v : denotes u v -> u_to_i128 u = if v <? 2 ^ 127 then Some v else None.
Proof.
  intros D. unfold u_to_i128. rewrite (u_to_u128_spec u v D).
  destruct (Z.ltb_spec v (2 ^ 128)); cbn [bind]; [reflexivity|]. destruct (Z.ltb_spec v (2 ^ 127)); [|reflexivity].
  assert (2 ^ 127 < 2 ^ 128) by reflexivity. lia.
Qed.

(** to_u64 / to_u128 return the value when it fits and None otherwise. *)
Theorem C23_to_unsigned : forall P m x v, consistent (fmp P) m -> represents m x v ->
  pf_to_u128 P x = Some (if v <? 2 ^ 128 then Some v else None) /\
  pf_to_u64 P x = Some (if v <? 2 ^ 64 then Some v else None).
Proof.
  intros P m x v C R. assert (E : pf_to_u128 P x = Some (if v <? 2 ^ 128 then Some v else None)).
  { unfold pf_to_u128. destruct (pf_to_uint_spec P m C x v R) as (u & -> & D). rewrite bind_some. f_equal. apply u_to_u128_spec. exact D. }
  split; [exact E|]. unfold pf_to_u64. rewrite E, bind_some. f_equal.
  destruct (Z.ltb_spec v (2 ^ 128)); cbn [bind]; [reflexivity|]. destruct (Z.ltb_spec v (2 ^ 64)); [|reflexivity].
  assert (2 ^ 64 < 2 ^ 128) by reflexivity. lia.
Qed.
Print Assumptions C23_to_unsigned.

(** to_i64 / to_i128 interpret the element as the signed integer of least absolute value: every
    integer of the type except its i128 minimum is returned, and nothing else. *)
Theorem C23_to_signed : forall P m x v z, consistent (fmp P) m -> 2 ^ 129 < m -> represents m x v ->
  (pf_to_i128 P x = Some (Some z) <-> - 2 ^ 127 < z < 2 ^ 127 /\ v = z mod m) /\
  (pf_to_i64 P x = Some (Some z) <-> - 2 ^ 63 <= z < 2 ^ 63 /\ v = z mod m).
Proof.
  intros P m x v z C Hm R. pose proof (c_range _ _ C) as Hr.
  assert (E : pf_to_i128 P x = Some (if v <? m / 2 then if v <? 2 ^ 127 then Some v else None
                                     else if m - v <? 2 ^ 127 then Some (- (m - v)) else None)).
  { unfold pf_to_i128. destruct (pf_to_uint_spec P m C x v R) as (u & -> & D). rewrite bind_some.
    destruct (u_shr_spec (p_modulus P) 1 (fm_wf P m C) ltac:(lia)) as [W1 V1]. rewrite (fm_val P m C), Z.pow_1_r in V1.
    pose proof D as [Wu Vu]. rewrite u_ltb_spec by assumption. rewrite V1, Vu.
    destruct (Z.ltb_spec v (m / 2)); [f_equal; apply u_to_i128_spec; exact D|]. f_equal.
    destruct (u_sub_spec (p_modulus P) u (fm_wf P m C) Wu) as [W2 V2]. rewrite (fm_val P m C), Vu in V2.
    destruct R as [Rv _]. rewrite Z.mod_small in V2 by (change W with (2 ^ 256); lia).
    rewrite (u_to_i128_spec _ (m - v)) by (split; assumption). destruct (Z.ltb_spec (m - v) (2 ^ 127)); cbn [bind]; [|reflexivity].
    destruct (Z.eqb_spec (m - v) (- 2 ^ 127)); [lia|reflexivity]. }
  destruct R as [Rv _]. pose proof (Z.div_mod m 2 ltac:(lia)) as Dm. pose proof (Z.mod_pos_bound m 2 ltac:(lia)) as Bm.
  assert (Neg : forall y, - 2 ^ 127 <= y < 0 -> y mod m = m + y) by (intros y Hy; symmetry; apply mod_eq with (q := -1); lia).
  assert (I128 : pf_to_i128 P x = Some (Some z) <-> - 2 ^ 127 < z < 2 ^ 127 /\ v = z mod m).
  { rewrite E. destruct (Z.ltb_spec v (m / 2)).
    - destruct (Z.ltb_spec v (2 ^ 127)); split.
      + intros [= <-]. split; [lia|]. symmetry. apply Z.mod_small. lia.
      + intros [Hz ->]. do 2 f_equal. destruct (Z.neg_nonneg_cases z); [rewrite Neg in * by lia; lia|]. apply Z.mod_small. lia.
      + discriminate.
      + intros [Hz ->]. destruct (Z.neg_nonneg_cases z); [rewrite Neg in * by lia; lia|]. rewrite Z.mod_small in * by lia. lia.
    - destruct (Z.ltb_spec (m - v) (2 ^ 127)); split.
      + intros [= <-]. split; [lia|]. rewrite Neg by lia. lia.
      + intros [Hz ->]. do 2 f_equal. destruct (Z.neg_nonneg_cases z); [rewrite Neg in * by lia; lia|]. rewrite Z.mod_small in * by lia. lia.
      + discriminate.
      + intros [Hz ->]. destruct (Z.neg_nonneg_cases z); [rewrite Neg in * by lia; lia|]. rewrite Z.mod_small in * by lia. lia. }
  split; [exact I128|].
  unfold pf_to_i64. destruct (pf_to_i128 P x) as [[v'|]|] eqn:E1; cbn [bind].
  - destruct ((- 2 ^ 63 <=? v') && (v' <? 2 ^ 63)) eqn:Rg.
    + apply andb_prop in Rg as [Rg1 Rg2]. apply Z.leb_le in Rg1. apply Z.ltb_lt in Rg2. split.
      * intros [= <-]. split; [lia|]. apply I128. reflexivity.
      * intros [Hz Ez]. rewrite (proj2 I128) by (split; [lia|assumption]). reflexivity.
    + split; [discriminate|]. intros [Hz Ez]. assert (Some (Some v') = Some (Some z)) by (apply I128; split; [lia|assumption]).
      injection H as ->. apply andb_false_iff in Rg as [Rg|Rg]; [apply Z.leb_gt in Rg|apply Z.ltb_ge in Rg]; lia.
  - split; [discriminate|]. intros [Hz Ez]. assert (@Some (option Z) None = Some (Some z)) by (apply I128; split; [lia|assumption]). discriminate.
  - discriminate.
Qed.
Print Assumptions C23_to_signed.

Example C23_example : exists x, pf_from_signed proth_field 64 (-5) = Some x /\ represents p_field x (p_field - 5) /\
  pf_to_i64 proth_field x = Some (Some (-5)) /\ pf_to_u64 proth_field x = Some None.
Proof.
  eexists. split; [vm_compute; reflexivity|]. split; [unfold represents, denotes, wf, u64; vm_compute; repeat split; congruence|].
  split; vm_compute; reflexivity.
Qed.

(** ** C24: batch inversion *)
Theorem C24_invert_batch : forall F (o : ops F) l, lawful o -> (forall a, In a l -> a <> f0 o) ->
  exists r, invert_batch o l = Some r /\ Forall2 (fun a b => fmul o a b = f1 o) l r.
Proof.
  intros F o l L H. exists (map (finv o) l). unfold invert_batch.
  rewrite (invert_batch_src_dst_spec o L) by (rewrite repeat_length; reflexivity).
  destruct (existsb (fun a => feqb o a (f0 o)) l) eqn:E.
  - apply existsb_exists in E as (a & Ha & Ea). apply (law_eqb o L) in Ea. exfalso. exact (H a Ha Ea).
  - split; [reflexivity|]. clear E. induction l; constructor; [apply (finv_r o L), H; left; reflexivity|].
    apply IHl. intros. apply H. right; assumption.
Qed.
Print Assumptions C24_invert_batch.

(** A zero anywhere panics; nothing is returned. *)
Theorem C24_zero_panics : forall F (o : ops F) l, lawful o -> In (f0 o) l -> invert_batch o l = None.
Proof.
  intros F o l L H. unfold invert_batch. rewrite (invert_batch_src_dst_spec o L) by (rewrite repeat_length; reflexivity).
  destruct (existsb (fun a => feqb o a (f0 o)) l) eqn:E; [reflexivity|]. exfalso.
  assert (existsb (fun a => feqb o a (f0 o)) l = true); [|congruence].
  apply existsb_exists. exists (f0 o). split; [assumption|]. apply (law_eqb o L). reflexivity.
Qed.
Print Assumptions C24_zero_panics.

(** The in-place variant ignores the old contents of its destination and insists on equal lengths. *)
Theorem C24_src_dst : forall F (o : ops F) l d, lawful o ->
  invert_batch_src_dst o l d = if (length l =? length d)%nat then invert_batch o l else None.
Proof.
  intros F o l d L. destruct (Nat.eqb_spec (length l) (length d)) as [E|N].
  - unfold invert_batch. rewrite !(invert_batch_src_dst_spec o L) by (rewrite ?repeat_length; auto). reflexivity.
  - unfold invert_batch_src_dst. destruct (Nat.eqb_spec (length l) (length d)); [contradiction|reflexivity].
Qed.
Print Assumptions C24_src_dst.

Example C24_example : lawful felt_ops /\
  match invert_batch tiny_ops [tiny 2; tiny 3; tiny 5] with
  | Some [a; b; c] => (fe_val a * 2) mod 97 = 1 /\ (fe_val b * 3) mod 97 = 1 /\ (fe_val c * 5) mod 97 = 1
  | _ => False end.
Proof. split; [apply felt_lawful|]. vm_compute. auto. Qed.

(** ** C25: geometric series. [g_nth o g i] is what the (i+1)-th call of [next] returns. *)
Theorem C25_series : forall F (o : ops F) base step i, lawful o ->
  (Z.of_nat i < 2 ^ 64 - 1 -> g_nth o (geometric_series base step) i = Some (fmul o base (fpw o step i))) /\
  (2 ^ 64 - 1 <= Z.of_nat i -> g_nth o (geometric_series base step) i = None).
Proof.
  intros F o base step i L. rewrite (g_nth_spec o L) by (cbn; unfold B; lia). cbn [current FieldAlgModel.step glen geometric_series].
  change (B - 1) with (2 ^ 64 - 1). destruct (Z.ltb_spec (Z.of_nat i) (2 ^ 64 - 1)); split; intros; (reflexivity || lia).
Qed.
Print Assumptions C25_series.

(** Random access agrees with iteration. *)
Theorem C25_at : forall F (o : ops F) (g : giter) i, lawful o -> 0 <= glen g -> Z.of_nat i < glen g -> glen g < 2 ^ 64 ->
  g_nth o g i = Some (g_at o g (Z.of_nat i)).
Proof.
  intros F o g i L H0 H1 H2. rewrite (g_nth_spec o L) by assumption. destruct (Z.ltb_spec (Z.of_nat i) (glen g)); [|lia].
  unfold g_at. rewrite (pow_usize_spec o L) by (unfold B; lia).
  replace (Z.to_N (Z.of_nat i)) with (N.of_nat i) by lia. rewrite (fexp_nat o). reflexivity.
Qed.
Print Assumptions C25_at.

Theorem C25_take : forall F (o : ops F) (g : giter) n i, lawful o -> 0 <= glen g -> 0 <= n ->
  g_nth o (g_take g n) i = (if Z.of_nat i <? n then g_nth o g i else None).
Proof.
  intros F o g n i L H0 Hn. rewrite !(g_nth_spec o L) by (cbn; lia). cbn [g_take glen current step].
  destruct (Z.ltb_spec (Z.of_nat i) (Z.min (glen g) n)), (Z.ltb_spec (Z.of_nat i) n), (Z.ltb_spec (Z.of_nat i) (glen g)); try lia; reflexivity.
Qed.
Print Assumptions C25_take.

Theorem C25_skip : forall F (o : ops F) dbg (g : giter) n, lawful o -> glen g < 2 ^ 64 -> Z.of_nat n <= glen g ->
  exists g', g_skip o dbg g (Z.of_nat n) = Some g' /\ forall i, g_nth o g' i = g_nth o g (n + i).
Proof.
  intros F o dbg g n L H0 Hn. unfold g_skip. destruct (Z.leb_spec (Z.of_nat n) (glen g)); [|lia]. cbn [bind].
  eexists. split; [reflexivity|]. intros i. rewrite !(g_nth_spec o L) by (cbn [glen]; lia). cbn [current step glen].
  rewrite (pow_usize_spec o L) by (unfold B; lia). replace (Z.to_N (Z.of_nat n)) with (N.of_nat n) by lia. rewrite (fexp_nat o).
  destruct (Z.ltb_spec (Z.of_nat i) (glen g - Z.of_nat n)), (Z.ltb_spec (Z.of_nat (n + i)) (glen g)); try lia; [|reflexivity].
  f_equal. rewrite (fpw_add o L). pose proof (F_R (law_field o L)) as R. rewrite (Rmul_assoc R). reflexivity.
Qed.
Print Assumptions C25_skip.

(** Finding: skipping more than is left panics in a debug build; in a release build the length
    wraps and the exhausted iterator yields elements again. *)
Theorem C25_skip_past_end_refuted : forall F (o : ops F) (a s : F), lawful o ->
  g_skip o true (g_take (geometric_series a s) 3) 4 = None /\
  exists g', g_skip o false (g_take (geometric_series a s) 3) 4 = Some g' /\
    g_nth o g' 0 = Some (fmul o a (fpw o s 4)) /\ g_nth o (g_take (geometric_series a s) 3) 4 = None.
Proof.
  intros F o a s L. split; [reflexivity|]. eexists. split; [reflexivity|]. rewrite !(g_nth_spec o L) by (cbn; discriminate).
  cbn [current step glen]. split; [|reflexivity]. change (_ <? _) with true. f_equal.
  rewrite (pow_usize_spec o L) by (unfold B; lia). change (Z.to_N 4) with (N.of_nat 4). rewrite (fexp_nat o).
  pose proof (F_R (law_field o L)) as R. cbn [fpw]. rewrite (Rmul_comm R _ (f1 o)), (Rmul_1_l R). reflexivity.
Qed.
Print Assumptions C25_skip_past_end_refuted.

(** step_by yields every s-th element, but only floor(len / s) of them. *)
Theorem C25_step_by : forall F (o : ops F) (g : giter) s i, lawful o -> 0 <= glen g -> (0 < s)%nat -> Z.of_nat s < 2 ^ 64 ->
  exists g', g_step_by o g (Z.of_nat s) = Some g' /\
  g_nth o g' i = (if Z.of_nat i <? glen g / Z.of_nat s then g_nth o g (i * s) else None).
Proof.
  intros F o g s i L H0 Hs Hb. unfold g_step_by. destruct (Z.ltb_spec 0 (Z.of_nat s)); [|lia]. eexists. split; [reflexivity|].
  assert (0 <= glen g / Z.of_nat s) by (apply Z.div_pos; lia).
  rewrite !(g_nth_spec o L) by (cbn [glen]; assumption). cbn [current step glen].
  destruct (Z.ltb_spec (Z.of_nat i) (glen g / Z.of_nat s)); [|reflexivity].
  pose proof (Z.div_mod (glen g) (Z.of_nat s) ltac:(lia)). pose proof (Z.mod_pos_bound (glen g) (Z.of_nat s) ltac:(lia)).
  destruct (Z.ltb_spec (Z.of_nat (i * s)) (glen g)) as [|H5]; [|rewrite Nat2Z.inj_mul in H5; nia].
  do 2 f_equal. rewrite (pow_usize_spec o L) by (unfold B; lia). replace (Z.to_N (Z.of_nat s)) with (N.of_nat s) by lia.
  rewrite (fexp_nat o), Nat.mul_comm, (fpw_mul o L). reflexivity.
Qed.
Print Assumptions C25_step_by.

(** Finding: unlike [Iterator::step_by], the last element is lost when s does not divide the length:
    of the 3 elements 1, s, s^2, step_by(2) yields only the first. *)
Theorem C25_step_by_deviation : forall F (o : ops F) (s : F), lawful o ->
  exists g', g_step_by o (g_take (geometric_series (f1 o) s) 3) 2 = Some g' /\
  g_nth o g' 1 = None /\ g_nth o (g_take (geometric_series (f1 o) s) 3) 2 = Some (fmul o (f1 o) (fpw o s 2)).
Proof.
  intros F o s L. eexists. split; [reflexivity|]. rewrite !(g_nth_spec o L) by (cbn; discriminate). split; reflexivity.
Qed.
Print Assumptions C25_step_by_deviation.

(** root_series(n) enumerates the n powers of a primitive n-th root of unity. *)
Theorem C25_root_series : forall P (G : good P) g n, constants_ok P (val (p_modulus P)) g ->
  0 < n < 2 ^ 64 -> (n | val (p_modulus P) - 1) ->
  exists w s, order_exactly (val (p_modulus P)) (fe_val w) n /\
    (let? r := root_usize G n in root_series (fe_ops G) r n) = Some s /\ glen s = Z.min (2 ^ 64 - 1) n /\
    forall i, g_nth (fe_ops G) s i = if Z.of_nat i <? Z.min (2 ^ 64 - 1) n then Some (fpw (fe_ops G) w i) else None.
Proof.
  intros P G g n K Hn D. destruct (C21_root_usize P G g n K Hn) as (r & E & Hr & Hw).
  destruct r as [w|]; [|exfalso; apply (proj2 Hr D); reflexivity].
  exists w. eexists. split; [apply Hw; reflexivity|]. rewrite E. cbn [bind root_series]. split; [reflexivity|].
  pose proof (fe_lawful G) as L. split; [reflexivity|]. intros i.
  rewrite (g_nth_spec (fe_ops G) L) by (cbn; unfold B; lia). cbn [glen g_take geometric_series current step].
  change (B - 1) with (2 ^ 64 - 1). destruct (Z.of_nat i <? Z.min (2 ^ 64 - 1) n); [|reflexivity].
  f_equal. pose proof (F_R (law_field _ L)) as R. apply (Rmul_1_l R).
Qed.
Print Assumptions C25_root_series.

Example C25_example : lawful felt_ops /\
  match g_nth tiny_ops (g_take (geometric_series (tiny 5) (tiny 2)) 10) 3 with
  | Some a => fe_val a = 40 | None => False end /\
  match (let? r := root_usize tiny_good 8 in root_series tiny_ops r 8) with Some s => glen s = 8 | None => False end.
Proof. split; [apply felt_lawful|]. split; vm_compute; reflexivity. Qed.
