(** The engine of a concrete prime field. *)
Require Import ZArith Lia Bool List Permutation.
From Verif Require Import Word U256Model U256Spec U256Proofs MontgomeryModel MontgomeryProofs MontgomeryProps KnuthModel FieldSig FieldModel FieldSpec FieldInstance FieldProofs Primes FieldAlgModel FieldAlgProofs DivisionProps FieldProps Arr FftModel FftSpec PermuteProofs FftProofs FftProps StarkBase.
Import ListNotations.
Open Scope nat_scope.

Definition fe_engine {P} (G : good P) ml dbg std o1 o2 : engine (fe P) := Engine _ (fe_root G) (fe_from_usize G) (generator G) ml dbg std o1 o2.
Definition fe_w {P} (G : good P) (k : nat) : fe P := fexp (fe_ops G) (generator G) (Z.to_N ((val (p_modulus P) - 1) / 2 ^ Z.of_nat k)).
Lemma fe_sound P (G : good P) g ml dbg std o1 o2 M : constants_ok P (val (p_modulus P)) g -> g <> 0%Z -> M < 64 -> (2 ^ Z.of_nat M | val (p_modulus P) - 1)%Z ->
  (forall k, k <= M -> schedule k (o1 (2 ^ k)) /\ schedule k (o2 (2 ^ k))) -> sound (fe_ops G) (fe_engine G ml dbg std o1 o2) M (fe_w G).
Proof.
  intros C Ng HM D SC. pose proof C as (Cs & [Wo Vo] & _). pose proof (c_range _ _ Cs) as Hm. set (m := val (p_modulus P)) in *.
  assert (DK : forall k, k <= M -> (2 ^ Z.of_nat k | m - 1)%Z).
  { intros k Hk. apply Z.divide_trans with (2 ^ Z.of_nat M)%Z; [|exact D]. exists (2 ^ Z.of_nat (M - k))%Z. rewrite <- Z.pow_add_r by lia. f_equal. lia. }
  assert (Ez : forall k, Z.of_nat (2 ^ k) = (2 ^ Z.of_nat k)%Z) by (intros k; rewrite Nat2Z.inj_pow; reflexivity).
  assert (R : forall k, k <= M -> fe_root G (2 ^ k) = Some (Some (fe_w G k))).
  { intros k Hk. pose proof (pow2_pos k) as P2. pose proof (pow2_bound k (2 ^ k) ltac:(lia) (Nat.le_refl _)) as Bd. unfold B in Bd. unfold fe_root, root_usize.
    destruct (C03_div_rem_u64 (ORDER P) _ (Z.of_nat (2 ^ k)) (conj Wo Vo)) as (q & E & Wq & Vq); [lia|]. rewrite E. cbn [bind].
    destruct (Z.eqb_spec ((m - 1) mod Z.of_nat (2 ^ k)) 0) as [_|N]; [|exfalso; apply N; rewrite Ez; apply Z.mod_divide; [apply Z.pow_nonzero; lia|apply DK, Hk]].
    rewrite (pow_u256_spec _ (fe_lawful G)) by assumption. rewrite Vq. unfold fe_w. rewrite Ez. reflexivity. }
  split; cbn [eroot efrom egen eord1 eord2 fe_engine]; try assumption.
  - intros k Hk. destruct (C27_field P G g C k ltac:(lia) (DK k Hk)) as (w & E & Pw & _). rewrite (R k Hk) in E. injection E as ->. exact Pw.
  - intros k Hk. unfold fe_w. rewrite <- (fexp_add (fe_ops G) (fe_lawful G)). f_equal. fold m.
    destruct (DK (S k) ltac:(lia)) as [q Eq]. rewrite Eq. rewrite Nat2Z.inj_succ, Z.pow_succ_r by lia. replace (q * (2 * 2 ^ Z.of_nat k))%Z with (q * 2 * 2 ^ Z.of_nat k)%Z by ring.
    assert (0 < 2 ^ Z.of_nat k)%Z by (apply Z.pow_pos_nonneg; lia).
    rewrite Z.div_mul by lia. replace (q * 2 * 2 ^ Z.of_nat k)%Z with (q * (2 * 2 ^ Z.of_nat k))%Z by ring. rewrite Z.div_mul by lia.
    assert (0 <= q)%Z. { rewrite Nat2Z.inj_succ, Z.pow_succ_r in Eq by lia. nia. } lia.
  - intros k Hk. destruct (C27_field P G g C k ltac:(lia) (DK k Hk)) as (w & _ & _ & _ & E). exact E.
  - intros k Hk. apply (SC k Hk).
  - intros k Hk. apply (SC k Hk).
  - intros E. apply Ng. rewrite <- (generator_val P G g C). rewrite E. exact (fe0_val G).
Qed.
(** The orders in which the rows are taken one after the other. *)
Definition in_order (n : nat) : list nat := seq 0 (2 ^ (Nat.log2 n / 2)).
Lemma in_order_schedule k : schedule k (in_order (2 ^ k)).
Proof. unfold schedule, in_order. rewrite Nat.log2_pow2 by lia. reflexivity. Qed.
Definition tiny_engine : engine (fe tiny_field) := fe_engine tiny_good 128 true true in_order in_order.
Lemma tiny_sound : sound tiny_ops tiny_engine 5 (fe_w tiny_good).
Proof. apply (fe_sound tiny_field tiny_good 5%Z); [exact tiny_constants|lia|lia|exists 3%Z; reflexivity|intros k _; split; apply in_order_schedule]. Qed.
Definition felt_engine : engine Felt := fe_engine proth_good 128 true true in_order in_order.
Lemma felt_sound : sound felt_ops felt_engine 63 (fe_w proth_good).
Proof.
  apply (fe_sound proth_field proth_good 3%Z); [exact proth_constants|lia|lia| |intros k _; split; apply in_order_schedule].
  change (2 ^ Z.of_nat 63 | p_field - 1)%Z. exists ((p_field - 1) / 2 ^ 63)%Z. vm_compute. reflexivity.
Qed.
