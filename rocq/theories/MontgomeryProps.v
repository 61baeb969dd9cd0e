(** Property theorems: Montgomery arithmetic. C15, C16. *)
Require Import ZArith Lia Bool List.
From Verif Require Import Word U256Model U256Spec U256Proofs MontgomeryModel MontgomeryProofs.
Open Scope Z_scope.

(** Specification: the declared constants of a parameter set mean what their
    documentation says (traits/mod.rs:281-294), for a modulus below 2^255. *)
Record consistent (M : mparams) (m : Z) : Prop := {
  c_modulus : denotes (MODULUS M) m;
  c_range : 1 < m <= 2 ^ 255;
  c_m64_range : 0 <= M64 M < 2 ^ 64;
  c_m64 : (m * M64 M + 1) mod 2 ^ 64 = 0;
  c_r1 : denotes (R1 M) (2 ^ 256 mod m);
  c_r2 : denotes (R2 M) (2 ^ 512 mod m);
  c_r3 : denotes (R3 M) (2 ^ 768 mod m)
}.

(** [v] is the canonical Montgomery reduction of [t]: the value t / 2^256 in Z/m. *)
Definition is_redc (m t : Z) (v : u256) : Prop :=
  wf v /\ 0 <= val v < m /\ (val v * 2 ^ 256) mod m = t mod m.

Lemma consistent_valid M m : consistent M m -> valid_params M /\ val (MODULUS M) = m.
Proof.
  intros [[Hm <-] Hr Hk Hk2 [W1 E1] [W2 E2] [W3 E3]]. split; [|reflexivity].
  unfold valid_params, valid_modulus. change (2 ^ 64) with B in *. change (2 ^ 256) with W in *.
  change (2 ^ 512) with (W * W) in *. change (2 ^ 768) with (W * W * W) in *.
  change (2 ^ 255) with (W / 2) in *.
  repeat split; try assumption; try apply Hm; try apply W1; try apply W2; try apply W3; try lia.
  - pose proof (Z.mod_pos_bound (val (MODULUS M) * M64 M) B eq_refl) as P.
    pose proof (Z.div_mod (val (MODULUS M) * M64 M) B ltac:(discriminate)).
    pose proof (Z.div_mod (val (MODULUS M) * M64 M + 1) B ltac:(discriminate)). rewrite Hk2 in *.
    unfold B in *. lia.
  - assert (2 * (W / 2) = W) by reflexivity. lia.
Qed.

Lemma mont_is_redc m t v : 0 < m -> wf v -> mont_of m t (val v) -> is_redc m t v.
Proof. intros Hm Hv Mo. split; [exact Hv|]. exact (mont_of_mod m t (val v) Hm Mo). Qed.

(** ** C15: the general algorithm, for every modulus *)
Theorem C15_redc_general : forall M m lo hi x y, consistent M m ->
  denotes lo x -> denotes hi y -> y < m ->
  is_redc m (x + 2 ^ 256 * y) (g_redc M lo hi).
Proof.
  intros M m lo hi x y C [Hlo <-] [Hhi <-] Hlt. destruct (consistent_valid M m C) as [(HM & Hgt & Hsz & _) <-].
  destruct (g_redc_spec M lo hi) as [H1 H2]; auto. apply mont_is_redc; auto. lia.
Qed.
Print Assumptions C15_redc_general.

(** The second factor must be reduced; the first may be any U256. The additions
    in the code never overflow ([Some]). *)
Theorem C15_mul_redc_general : forall M m a b x y, consistent M m ->
  denotes a x -> denotes b y -> y < m ->
  exists r, g_mul_redc M a b = Some r /\ is_redc m (x * y) r.
Proof.
  intros M m a b x y C [Ha <-] [Hb <-] Hlt. destruct (consistent_valid M m C) as [(HM & Hgt & Hsz & _) <-].
  destruct (g_mul_redc_spec M a b) as (r & H1 & H2 & H3); auto. exists r. split; [exact H1|].
  apply mont_is_redc; auto. lia.
Qed.
Print Assumptions C15_mul_redc_general.

(** The dispatching entry points used by every client. *)
Theorem C15_redc : forall M m lo hi x y, consistent M m ->
  denotes lo x -> denotes hi y -> y < m -> is_redc m (x + 2 ^ 256 * y) (redc M lo hi).
Proof.
  intros M m lo hi x y C [Hlo <-] [Hhi <-] Hlt. destruct (consistent_valid M m C) as [(HM & Hgt & Hsz & _) <-].
  destruct (redc_spec M lo hi) as [H1 H2]; auto. apply mont_is_redc; auto. lia.
Qed.
Print Assumptions C15_redc.

Theorem C15_mul_redc : forall M m a b x y, consistent M m ->
  denotes a x -> denotes b y -> y < m -> exists r, mul_redc M a b = Some r /\ is_redc m (x * y) r.
Proof.
  intros M m a b x y C [Ha <-] [Hb <-] Hlt. destruct (consistent_valid M m C) as [(HM & Hgt & Hsz & _) <-].
  destruct (mul_redc_spec M a b) as (r & H1 & H2 & H3); auto. exists r. split; [exact H1|].
  apply mont_is_redc; auto. lia.
Qed.
Print Assumptions C15_mul_redc.

Theorem C15_square_redc : forall M m a x, consistent M m -> denotes a x -> x < m ->
  is_redc m (x * x) (square_redc M a).
Proof.
  intros M m a x C [Ha <-] Hlt. destruct (consistent_valid M m C) as [HP <-].
  destruct (square_redc_spec M a HP Ha Hlt) as [H1 H2]. apply mont_is_redc; auto.
  destruct HP as (_ & ? & _). lia.
Qed.
Print Assumptions C15_square_redc.

(** Conversion into Montgomery form, for every input, reduced or not. *)
Theorem C15_to_montgomery : forall M m a x, consistent M m -> denotes a x ->
  exists r, to_montgomery M a = Some r /\ denotes r ((x * 2 ^ 256) mod m).
Proof.
  intros M m a x C [Ha <-]. destruct (consistent_valid M m C) as [HP <-].
  destruct (to_montgomery_spec M a HP Ha) as (r & H1 & H2 & H3). exists r. exact (conj H1 (conj H2 H3)).
Qed.
Print Assumptions C15_to_montgomery.

(** The compile-time conversion returns the same bits. *)
Theorem C15_to_montgomery_const : forall M m a x, consistent M m -> denotes a x ->
  exists r, to_montgomery_const a (MODULUS M) (M64 M) (R2 M) = Some r /\ denotes r ((x * 2 ^ 256) mod m).
Proof.
  intros M m a x C D. destruct (C15_to_montgomery M m a x C D) as (r & H1 & H2). exists r.
  destruct (consistent_valid M m C) as [HP _]. destruct D as [Ha _].
  rewrite to_montgomery_const_spec2; auto.
Qed.
Print Assumptions C15_to_montgomery_const.

(** from after to is the identity modulo m; to after from is the identity on [0, m). *)
Theorem C15_from_to : forall M m a x r, consistent M m -> denotes a x ->
  to_montgomery M a = Some r -> denotes (from_montgomery M r) (x mod m).
Proof.
  intros M m a x r C [Ha <-] E. destruct (consistent_valid M m C) as [HP <-].
  destruct (to_montgomery_spec M a HP Ha) as (r' & H1 & H2 & H3).
  assert (r' = r) by congruence. subst r'.
  destruct (from_montgomery_spec M r HP H2) as (G1 & G2 & G3). split; [exact G1|].
  destruct HP as (HM & Hgt & _).
  apply cancel_W; [lia|eapply valid_odd; eassumption|assumption|].
  rewrite G3, H3. apply Z.mod_mod. lia.
Qed.
Print Assumptions C15_from_to.

Theorem C15_to_from : forall M m a x, consistent M m -> denotes a x -> x < m ->
  to_montgomery M (from_montgomery M a) = Some a.
Proof.
  intros M m a x C [Ha <-] Hlt. destruct (consistent_valid M m C) as [HP <-].
  destruct (from_montgomery_spec M a HP Ha) as (G1 & G2 & G3).
  destruct (to_montgomery_spec M (from_montgomery M a) HP G1) as (r & H1 & H2 & H3).
  rewrite H1. f_equal. apply val_inj; auto. rewrite H3, G3. apply Z.mod_small.
  pose proof (val_range a Ha). lia.
Qed.
Print Assumptions C15_to_from.

Theorem C15_mul_mod : forall M m a b x y, consistent M m -> denotes a x -> denotes b y -> y < m ->
  exists r, mul_mod M a b = Some r /\ denotes r ((x * y) mod m).
Proof.
  intros M m a b x y C [Ha <-] [Hb <-] Hlt. destruct (consistent_valid M m C) as [HP <-].
  destruct (mul_mod_spec M a b HP Ha Hb Hlt) as (r & H1 & H2 & H3). exists r. exact (conj H1 (conj H2 H3)).
Qed.
Print Assumptions C15_mul_mod.

(** A non-Proth instance (the order of the curve, elliptic-curve/src/scalar_field.rs). *)
Definition order_params : mparams :=
  MP (mk 0x1e66a241adc64d2f 0xb781126dcae7b232 0xffffffffffffffff 0x0800000000000010)
     0xbb6b3c4ce8bde631
     (mk 0x51925a0bf4fca74f 0xc75ec4b46df16bee 0x0000000000000008 0x07fffffffffffdf1)
     (mk 0x6021b3f1ea1c688d 0x509cf64d14ce60b9 0xbaf0ab4cf78bbabb 0x07d9e57c2333766e)
     (mk 0x81147668fddd0429 0x1da2136eb8b3f20e 0x1f0d9dedfedfda50 0x01b2ba88ca1fe18a).

Ltac check_consistent :=
  constructor; [| | |vm_compute; reflexivity| | |];
  unfold denotes, wf, u64; vm_compute; repeat split; congruence.

Example C15_example : consistent order_params 0x0800000000000010ffffffffffffffffb781126dcae7b2321e66a241adc64d2f.
Proof. check_consistent. Qed.

(** The documented trait admits larger moduli, for which the code is wrong:
    m = 2^256 - 189 with M64 = 1/189 mod 2^64 overflows a u64 addition. *)
Definition big_modulus : u256 := mk (B - 189) (B - 1) (B - 1) (B - 1).
Definition big_params (m64 : Z) : mparams := MP big_modulus m64 ZERO ZERO ZERO.

Theorem C15_large_modulus_refuted : exists M a b x y,
  denotes (MODULUS M) (2 ^ 256 - 189) /\ ((2 ^ 256 - 189) * M64 M + 1) mod 2 ^ 64 = 0 /\
  denotes a x /\ denotes b y /\ x < 2 ^ 256 - 189 /\ y < 2 ^ 256 - 189 /\
  g_mul_redc M a b = None.
Proof.
  exists (big_params 11907422100489763477), (mk (B - 190) (B - 1) (B - 1) (B - 1)),
    (mk (B - 190) (B - 1) (B - 1) (B - 1)), (2 ^ 256 - 190), (2 ^ 256 - 190).
  unfold denotes, wf, u64. vm_compute. repeat split; congruence.
Qed.
Print Assumptions C15_large_modulus_refuted.

(** ** C16: the Proth-specialised code returns the same result as the general code *)
Theorem C16_proth_redc : forall M m lo hi x y, consistent M m -> is_proth M = true ->
  denotes lo x -> denotes hi y -> y < m ->
  p_redc (l3 (MODULUS M)) lo hi = g_redc M lo hi.
Proof.
  intros M m lo hi x y C P [Hlo <-] [Hhi <-] Hlt. destruct (consistent_valid M m C) as [(HM & Hgt & Hsz & _) <-].
  destruct (g_redc_spec M lo hi) as [H1 H2]; auto.
  destruct (redc_spec M lo hi) as [G1 G2]; auto. unfold redc in *. rewrite P in *.
  apply val_inj; auto. eapply mont_unique; [|eapply valid_odd; eassumption|eassumption|eassumption]. lia.
Qed.
Print Assumptions C16_proth_redc.

Theorem C16_proth_mul_redc : forall M m a b x y, consistent M m -> is_proth M = true ->
  denotes a x -> denotes b y -> y < m ->
  p_mul_redc (l3 (MODULUS M)) a b = g_mul_redc M a b /\ g_mul_redc M a b <> None.
Proof.
  intros M m a b x y C P [Ha <-] [Hb <-] Hlt. destruct (consistent_valid M m C) as [(HM & Hgt & Hsz & _) <-].
  destruct (g_mul_redc_spec M a b) as (r & H1 & H2 & H3); auto.
  destruct (mul_redc_spec M a b) as (s & G1 & G2 & G3); auto. unfold mul_redc in *. rewrite P in *.
  rewrite G1, H1. split; [|congruence]. f_equal.
  apply val_inj; auto. eapply mont_unique; [|eapply valid_odd; eassumption|eassumption|eassumption]. lia.
Qed.
Print Assumptions C16_proth_mul_redc.

(** is_proth recognises exactly the moduli k * 2^192 + 1. *)
Theorem C16_is_proth : forall M m, denotes (MODULUS M) m ->
  (is_proth M = true <-> m mod 2 ^ 192 = 1).
Proof.
  intros M m [Hm <-]. unfold is_proth. rewrite !andb_true_iff, !Z.eqb_eq.
  destruct Hm as (H0 & H1 & H2 & H3). rewrite val_B. change (2 ^ 192) with (B * B * B).
  rewrite (Z.mul_comm (B * B * B) (l3 _)), Z_mod_plus_full, Z.mod_small by (uB; lia).
  uB. lia.
Qed.
Print Assumptions C16_is_proth.

(** The base field parameters (primefield/src/proth_field.rs) are an instance. *)
Definition proth_params : mparams :=
  MP (mk 1 0 0 0x0800000000000011) 0xffffffffffffffff
     (mk 0xffffffffffffffe1 0xffffffffffffffff 0xffffffffffffffff 0x07fffffffffffdf0)
     (mk 0xfffffd737e000401 0x00000001330fffff 0xffffffffff6f8000 0x07ffd4ab5e008810)
     (mk 0xcc7177d1406df18e 0x7545706677ffcc06 0xf47d84f836300018 0x038e5f79873c0a6d).
Example C16_example : consistent proth_params 0x0800000000000011000000000000000000000000000000000000000000000001 /\
  is_proth proth_params = true /\
  p_mul_redc 0x0800000000000011
     (mk 0x80278f4f03462d4c 0x2e0baa9a77a0be7c 0x977fb2eda057b54b 0x0548c135e26faa9c)
     (mk 0x3cfa8f7c8f886f6b 0x1eaff9a78e27d409 0x6e09955db534ef4b 0x024385f6bebc1c49)
  = Some (mk 0xf530cbb28f0805b4 0xb7b2bd184259dae8 0xd374ad069cfdec8b 0x012b854fc6321976).
Proof. split; [check_consistent|]. vm_compute. auto. Qed.
