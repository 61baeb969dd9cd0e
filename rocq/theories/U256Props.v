(** Property theorems: U256 additive and multiplicative arithmetic.
    C01, C02, C13, C14. *)
Require Import ZArith Lia Bool List.
Import ListNotations.
From Verif Require Import Word U256Model U256Spec U256Proofs.
Open Scope Z_scope.

(** ** C01 *)

(** a + b, a - b, -a denote the integer results modulo 2^256. *)
Theorem C01_add_mod_2_256 : forall a b x y,
  denotes a x -> denotes b y -> denotes (u_add a b) ((x + y) mod 2 ^ 256).
Proof.
  intros a b x y [Ha <-] [Hb <-]. exact (u_add_spec a b Ha Hb).
Qed.
Print Assumptions C01_add_mod_2_256.

Theorem C01_sub_mod_2_256 : forall a b x y,
  denotes a x -> denotes b y -> denotes (u_sub a b) ((x - y) mod 2 ^ 256).
Proof.
  intros a b x y [Ha <-] [Hb <-]. exact (u_sub_spec a b Ha Hb).
Qed.
Print Assumptions C01_sub_mod_2_256.

Theorem C01_neg_mod_2_256 : forall a x, denotes a x -> denotes (u_neg a) ((- x) mod 2 ^ 256).
Proof.
  intros a x [Ha <-]. exact (u_neg_spec a Ha).
Qed.
Print Assumptions C01_neg_mod_2_256.

Theorem C01_sub_from_mod_2_256 : forall a b x y,
  denotes a x -> denotes b y -> denotes (u_sub_from a b) ((y - x) mod 2 ^ 256).
Proof.
  intros a b x y [Ha <-] [Hb <-]. exact (u_sub_spec b a Hb Ha).
Qed.
Print Assumptions C01_sub_from_mod_2_256.

(** The carry of the full addition is 1 exactly when the sum does not fit. *)
Theorem C01_add_carry : forall a b x y,
  denotes a x -> denotes b y ->
  snd (u_add_full a b) = (if 2 ^ 256 <=? x + y then 1 else 0) /\
  fst (u_add_full a b) = u_add a b.
Proof.
  intros a b x y [Ha <-] [Hb <-]. destruct (u_add_full_spec a b Ha Hb) as (H1 & H2 & H3).
  pose proof (val_range _ H1). change (2 ^ 256) with W in *. split; [|reflexivity].
  destruct (Z.leb_spec W (val a + val b)); unfold W in *; nia.
Qed.
Print Assumptions C01_add_carry.

(** The borrow of the full subtraction is 1 exactly when a < b. *)
Theorem C01_sub_borrow : forall a b x y,
  denotes a x -> denotes b y ->
  snd (u_sub_full a b) = (if x <? y then 1 else 0) /\
  fst (u_sub_full a b) = u_sub a b.
Proof.
  intros a b x y [Ha <-] [Hb <-]. destruct (u_sub_full_spec a b Ha Hb) as (H1 & H2 & H3).
  pose proof (val_range _ H1). split; [|reflexivity].
  destruct (Z.ltb_spec (val a) (val b)); unfold W in *; nia.
Qed.
Print Assumptions C01_sub_borrow.

(** Comparison and equality agree with the integers. *)
Theorem C01_order : forall a b x y,
  denotes a x -> denotes b y ->
  u_cmp a b = (x ?= y) /\ (u_eqb a b = true <-> x = y) /\
  u_ltb a b = (x <? y) /\ u_gtb a b = (y <? x) /\ u_geb a b = (y <=? x).
Proof.
  intros a b x y [Ha <-] [Hb <-]. split; [apply u_cmp_spec; assumption|]. split.
  - rewrite u_eqb_spec. split; [congruence|apply val_inj; assumption].
  - auto using u_ltb_spec, u_gtb_spec, u_geb_spec.
Qed.
Print Assumptions C01_order.

(** Every integer in range is denoted by exactly one value. *)
Theorem C01_representation_unique : forall a b x, denotes a x -> denotes b x -> a = b.
Proof. intros a b x [Ha E] [Hb F]. apply val_inj; congruence. Qed.
Print Assumptions C01_representation_unique.

Example C01_example :
  denotes MAX (2 ^ 256 - 1) /\
  u_add_full MAX ONE = (ZERO, 1) /\ u_sub_full ZERO ONE = (MAX, 1).
Proof. unfold denotes, wf, u64. vm_compute. repeat split; congruence. Qed.

(** ** C02 *)
Theorem C02_mul_full : forall a b x y, denotes a x -> denotes b y ->
  wf (fst (u_mul_full a b)) /\ wf (snd (u_mul_full a b)) /\
  val (fst (u_mul_full a b)) + 2 ^ 256 * val (snd (u_mul_full a b)) = x * y.
Proof.
  intros a b x y [Ha <-] [Hb <-]. exact (u_mul_full_spec a b Ha Hb).
Qed.
Print Assumptions C02_mul_full.

(** The full square is bit for bit the full product with itself. *)
Theorem C02_square_full_is_mul_full : forall a x, denotes a x ->
  u_square_full a = u_mul_full a a /\
  val (fst (u_square_full a)) + 2 ^ 256 * val (snd (u_square_full a)) = x * x.
Proof.
  intros a x [Ha <-]. destruct (u_mul_full_spec a a Ha Ha) as (H1 & H2 & H3).
  destruct (u_square_full_spec a Ha) as (G1 & G2 & G3).
  split; [|exact G3].
  rewrite (surjective_pairing (u_square_full a)), (surjective_pairing (u_mul_full a a)).
  pose proof (val_range _ H1). pose proof (val_range _ H2).
  pose proof (val_range _ G1). pose proof (val_range _ G2).
  assert (E : val (snd (u_square_full a)) = val (snd (u_mul_full a a))) by (unfold W in *; nia).
  f_equal; apply val_inj; try assumption. unfold W in *. lia.
Qed.
Print Assumptions C02_square_full_is_mul_full.

Theorem C02_mul_u64_full : forall a b x, denotes a x -> 0 <= b < 2 ^ 64 ->
  wf (fst (u_mul_full_u64 a b)) /\ 0 <= snd (u_mul_full_u64 a b) < 2 ^ 64 /\
  val (fst (u_mul_full_u64 a b)) + 2 ^ 256 * snd (u_mul_full_u64 a b) = x * b.
Proof.
  intros a b x [Ha <-] Hb. exact (u_mul_full_u64_spec a b Ha Hb).
Qed.
Print Assumptions C02_mul_u64_full.

Theorem C02_mul_wrapping : forall a b x y, denotes a x -> denotes b y ->
  denotes (u_mul a b) ((x * y) mod 2 ^ 256).
Proof. intros a b x y [Ha <-] [Hb <-]. exact (u_mul_spec a b Ha Hb). Qed.
Print Assumptions C02_mul_wrapping.

Theorem C02_square_wrapping : forall a x, denotes a x -> denotes (u_square a) ((x * x) mod 2 ^ 256).
Proof. intros a x [Ha <-]. exact (u_square_spec a Ha). Qed.
Print Assumptions C02_square_wrapping.

Theorem C02_mul_u64_wrapping : forall a b x, denotes a x -> 0 <= b < 2 ^ 64 ->
  denotes (u_mul_u64 a b) ((x * b) mod 2 ^ 256).
Proof. intros a b x [Ha <-] Hb. exact (u_mul_u64_spec a b Ha Hb). Qed.
Print Assumptions C02_mul_u64_wrapping.

(** The u128 intermediate of [mac], [msb] and [adc] never wraps on u64 operands
    (so the same holds in the debug profile). *)
Theorem C02_mac_no_u128_overflow : forall a b c k,
  0 <= a < 2 ^ 64 -> 0 <= b < 2 ^ 64 -> 0 <= c < 2 ^ 64 -> 0 <= k < 2 ^ 64 ->
  a + b * c + k < 2 ^ 128 /\ b * c + k < 2 ^ 128 /\
  fst (mac a b c k) + 2 ^ 64 * snd (mac a b c k) = a + b * c + k.
Proof.
  intros a b c k Ha Hb Hc Hk. destruct (mac a b c k) as [lo hi] eqn:E.
  destruct (mac_spec a b c k Ha Hb Hc Hk lo hi E) as (H1 & H2 & H3).
  pose proof (mul_bound_u64 b c Hb Hc). unfold B in *.
  change (2 ^ 128) with 340282366920938463463374607431768211456.
  change (2 ^ 64) with 18446744073709551616 in *. simpl. lia.
Qed.
Print Assumptions C02_mac_no_u128_overflow.

Example C02_example :
  u_mul_full MAX MAX = (ONE, mk (B - 2) (B - 1) (B - 1) (B - 1)) /\
  u_square_full MAX = (ONE, mk (B - 2) (B - 1) (B - 1) (B - 1)).
Proof. vm_compute. split; reflexivity. Qed.

(** ** C13 *)
Definition sum_of (l : list u256) : Z := fold_right Z.add 0 (map val l).
Definition product_of (l : list u256) : Z := fold_right Z.mul 1 (map val l).

Theorem C13_product : forall l, Forall wf l -> denotes (u_product l) (product_of l mod 2 ^ 256).
Proof.
  intros l Hl. destruct (product_fold_spec l ONE wf_ONE Hl) as [H1 H2].
  rewrite val_ONE, Z.mul_1_l in H2. exact (conj H1 H2).
Qed.
Print Assumptions C13_product.

(** What the code computes for Sum: one more than the sum. *)
Theorem C13_sum_is_one_too_many : forall l, Forall wf l ->
  denotes (u_sum l) ((1 + sum_of l) mod 2 ^ 256).
Proof.
  intros l Hl. destruct (sum_fold_spec l ONE wf_ONE Hl) as [H1 H2].
  rewrite val_ONE in H2. exact (conj H1 H2).
Qed.
Print Assumptions C13_sum_is_one_too_many.

(** Hence the contract of [Iterator::sum] fails for every list. *)
Theorem C13_sum_refuted : forall l, Forall wf l -> ~ denotes (u_sum l) (sum_of l mod 2 ^ 256).
Proof.
  intros l Hl [_ H]. destruct (C13_sum_is_one_too_many l Hl) as [_ G].
  rewrite H in G.
  pose proof (Z.mod_pos_bound (sum_of l) (2 ^ 256) eq_refl).
  pose proof (Z.div_mod (sum_of l) (2 ^ 256) ltac:(discriminate)).
  pose proof (Z.div_mod (1 + sum_of l) (2 ^ 256) ltac:(discriminate)).
  lia.
Qed.
Print Assumptions C13_sum_refuted.

Example C13_example : u_product [mk 6 0 0 0; mk 7 0 0 0] = mk 42 0 0 0 /\
  u_sum [mk 6 0 0 0; mk 7 0 0 0] = mk 14 0 0 0 /\ u_sum [] = ONE.
Proof. vm_compute. auto. Qed.

(** ** C14 *)
Theorem C14_pow : forall a x e, denotes a x -> 0 <= e < 2 ^ 64 ->
  exists r, u_pow a e = Some r /\ denotes r (x ^ e mod 2 ^ 256).
Proof.
  intros a x e [Ha <-] He. destruct (u_pow_spec a e Ha He) as (r & H1 & H2 & H3).
  exists r. exact (conj H1 (conj H2 H3)).
Qed.
Print Assumptions C14_pow.

Example C14_example : u_pow (mk 3 0 0 0) 161 =
    Some (mk 15190266389140679043 2227948201839348202 11312808255030481982 10441498787414525016) /\
  val (mk 15190266389140679043 2227948201839348202 11312808255030481982 10441498787414525016) = 3 ^ 161.
Proof. vm_compute. auto. Qed.
Example C14_example0 : u_pow ZERO 0 = Some ONE.
Proof. reflexivity. Qed.
