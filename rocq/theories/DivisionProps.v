(** Property theorems: U256 division, remainder and modular multiplication. C03, C04.

    [dbg] is the build profile (true: debug, false: release); the outer option of
    the model is a panic, the inner one the Option returned by the API. *)
Require Import ZArith Lia Bool List.
From Verif Require Import Word U256Model U256Spec U256Proofs KnuthModel KnuthProofs.
Open Scope Z_scope.

(** Specification of the inputs on which the code fails.

    [y] has [limbs y] 64-bit limbs; schoolbook division first scales both operands
    so that the top bit of the leading limb of the divisor is set. *)
Definition limbs (y : Z) : Z := Z.log2 y / 64 + 1.
Definition scale (y : Z) : Z := 2 ^ (64 * limbs y - 1 - Z.log2 y).
(** Dividing a [total]-limb [x] by [y]: some running remainder (the scaled dividend
    without its lowest k+1 limbs, modulo the scaled divisor) has the same two leading
    limbs as the scaled divisor, which has at least three limbs. *)
Definition leading_limbs_collide (total x y : Z) : Prop :=
  3 <= limbs y /\ exists k, 0 <= k < total - limbs y /\
    ((x * scale y / 2 ^ (64 * (k + 1))) mod (y * scale y)) / 2 ^ (64 * (limbs y - 2))
    = (y * scale y) / 2 ^ (64 * (limbs y - 2)).

(** ** C03 *)
Theorem C03_div_rem_u64 : forall x a d, denotes x a -> 0 < d < 2 ^ 64 ->
  exists q, u_div_rem_u64 x d = Some (Some (q, a mod d)) /\ denotes q (a / d).
Proof.
  intros x a d [Hx <-] Hd. destruct (u_div_rem_u64_spec x d Hx) as (q & r & E & Hq & Hr & V); [uB; lia|lia|].
  assert (val x / d = val q) by (symmetry; apply Z.div_unique with (r := r); lia).
  assert (val x mod d = r) by (symmetry; apply Z.mod_unique with (q := val q); lia).
  exists q. rewrite H0. split; [assumption|]. split; [assumption|]. lia.
Qed.
Print Assumptions C03_div_rem_u64.

Theorem C03_zero_divisor : forall dbg x,
  u_div_rem_u64 x 0 = Some None /\ u_div_rem dbg x ZERO = Some None /\
  u_div dbg x ZERO = None /\ u_rem dbg x ZERO = None.
Proof. intros. repeat split. Qed.
Print Assumptions C03_zero_divisor.

(** In both profiles, outside the collision set, q = floor(x/y) and r = x mod y. *)
Theorem C03_div_rem : forall dbg x y a b, denotes x a -> denotes y b -> 0 < b ->
  ~ leading_limbs_collide 4 a b ->
  exists q r, u_div_rem dbg x y = Some (Some (q, r)) /\ denotes q (a / b) /\ denotes r (a mod b).
Proof.
  intros dbg x y a b [Hx <-] [Hy <-] Hb Hc.
  destruct (u_div_rem_spec dbg x y Hx Hy Hb Hc) as (q & r & E & Hq & Hr & V & L).
  exists q, r. pose proof (val_range r Hr).
  split; [assumption|]. split; (split; [assumption|]).
  - apply Z.div_unique with (r := val r); lia.
  - apply Z.mod_unique with (q := val q); lia.
Qed.
Print Assumptions C03_div_rem.

(** Only divisors of exactly three limbs are ever affected. *)
Theorem C03_div_rem_unaffected : forall dbg x y a b, denotes x a -> denotes y b ->
  0 < b < 2 ^ 128 \/ 2 ^ 192 <= b ->
  exists q r, u_div_rem dbg x y = Some (Some (q, r)) /\ denotes q (a / b) /\ denotes r (a mod b).
Proof.
  intros dbg x y a b Hx Hy Hb. apply C03_div_rem; auto; [lia|].
  destruct Hb as [Hb|Hb]; [apply no_clash_small; assumption|].
  intros (_ & k & Hk & _).
  assert (192 <= Z.log2 b) by (apply Z.log2_le_pow2; lia).
  unfold limbs in Hk. assert (3 <= Z.log2 b / 64) by (apply Z.div_le_lower_bound; lia). lia.
Qed.
Print Assumptions C03_div_rem_unaffected.

(** The operators / and %. *)
Theorem C03_operators : forall dbg x y a b, denotes x a -> denotes y b -> 0 < b ->
  ~ leading_limbs_collide 4 a b ->
  exists q r, u_div dbg x y = Some q /\ u_rem dbg x y = Some r /\ denotes q (a / b) /\ denotes r (a mod b).
Proof.
  intros dbg x y a b Hx Hy Hb Hc. destruct (C03_div_rem dbg x y a b Hx Hy Hb Hc) as (q & r & E & H1 & H2).
  exists q, r. unfold u_div, u_rem. rewrite E. auto.
Qed.
Print Assumptions C03_operators.

(** On the collision set a debug build always panics. *)
Theorem C03_collision_panics : forall x y a b, denotes x a -> denotes y b -> 0 < b ->
  leading_limbs_collide 4 a b -> u_div_rem true x y = None.
Proof. intros x y a b [Hx <-] [Hy <-] Hb Hc. apply u_div_rem_panics; assumption. Qed.
Print Assumptions C03_collision_panics.

(** Consequently a debug build never returns a wrong result. *)
Theorem C03_debug_sound : forall x y a b q r, denotes x a -> denotes y b -> 0 < b ->
  u_div_rem true x y = Some (Some (q, r)) -> denotes q (a / b) /\ denotes r (a mod b).
Proof.
  intros x y a b q r [Hx <-] [Hy <-] Hb E.
  assert (Hc : ~ leading_limbs_collide 4 (val x) (val y)).
  { intros Hc. rewrite (u_div_rem_panics x y Hx Hy Hb Hc) in E. discriminate. }
  destruct (C03_div_rem true x y (val x) (val y) (conj Hx eq_refl) (conj Hy eq_refl) Hb Hc) as (q' & r' & E' & H1 & H2).
  assert (q' = q /\ r' = r) as [-> ->] by (rewrite E in E'; inversion E'; auto). auto.
Qed.
Print Assumptions C03_debug_sound.

(** Finding: U256 division is wrong. Dividing (2^191 + 4) * 2^64 by 2^191 + 5 panics
    in a debug build, and in a release build returns a quotient that is too small
    and a remainder larger than the divisor. *)
Theorem C03_div_rem_refuted : exists x y a b q r,
  denotes x a /\ denotes y b /\ 0 < b /\
  u_div_rem true x y = None /\
  u_div_rem false x y = Some (Some (q, r)) /\
  val q <> a / b /\ val r <> a mod b /\ b <= val r.
Proof.
  exists (mk 0 4 0 (2 ^ 63)), (mk 5 0 (2 ^ 63) 0), ((2 ^ 191 + 4) * 2 ^ 64), (2 ^ 191 + 5).
  eexists _, _. unfold denotes, wf, u64. vm_compute. repeat split; congruence.
Qed.
Print Assumptions C03_div_rem_refuted.

(** A concrete three-limb division outside the collision set. *)
Example C03_example :
  ~ leading_limbs_collide 4 (84 * 2 ^ 192 + 79 * 2 ^ 128 + 31 * 2 ^ 64 + 40) (12 * 2 ^ 128 + 12 * 2 ^ 64 + 53) /\
  u_div_rem true (mk 40 31 79 84) (mk 53 12 12 0) =
    Some (Some (mk 0xffffffffffffffff 6 0 0, mk 93 0xfffffffffffffeb8 6 0)).
Proof.
  split; [|vm_compute; reflexivity].
  intros (_ & k & Hk & H). assert (k = 0) by (match type of Hk with _ <= _ < _ - ?l => replace l with 3 in Hk by (vm_compute; reflexivity) end; lia). subst k. vm_compute in H. discriminate.
Qed.

(** ** C04 *)
Theorem C04_mulmod : forall dbg x y m a b n, denotes x a -> denotes y b -> denotes m n -> 0 < n ->
  ~ leading_limbs_collide 8 (a * b) n ->
  exists r, u_mulmod dbg x y m = Some r /\ denotes r ((a * b) mod n).
Proof.
  intros dbg x y m a b n [Hx <-] [Hy <-] [Hm <-] Hn Hc.
  destruct (u_mulmod_spec dbg x y m Hx Hy Hm Hn Hc) as (r & E & Hr & V).
  exists r. exact (conj E (conj Hr V)).
Qed.
Print Assumptions C04_mulmod.

Theorem C04_mulmod_small_modulus : forall dbg x y m a b n, denotes x a -> denotes y b -> denotes m n ->
  0 < n < 2 ^ 128 -> exists r, u_mulmod dbg x y m = Some r /\ denotes r ((a * b) mod n).
Proof. intros. eapply C04_mulmod; eauto; [lia|]. apply no_clash_small. assumption. Qed.
Print Assumptions C04_mulmod_small_modulus.

Theorem C04_zero_modulus_panics : forall dbg x y, u_mulmod dbg x y ZERO = None.
Proof. intros. unfold u_mulmod. destruct (u_mul_full x y). reflexivity. Qed.
Print Assumptions C04_zero_modulus_panics.

Theorem C04_collision_panics : forall x y m a b n, denotes x a -> denotes y b -> denotes m n -> 0 < n ->
  leading_limbs_collide 8 (a * b) n -> u_mulmod true x y m = None.
Proof. intros x y m a b n [Hx <-] [Hy <-] [Hm <-] Hn Hc. apply u_mulmod_panics; assumption. Qed.
Print Assumptions C04_collision_panics.

(** Finding: for the reduced operands n-1 and 2^64 modulo n = 2^255 + 5*2^64 + 5
    a release build returns a value that is not the product modulo n. *)
Theorem C04_mulmod_refuted : exists x y m a b n r,
  denotes x a /\ denotes y b /\ denotes m n /\ 0 <= a < n /\ 0 <= b < n /\
  u_mulmod true x y m = None /\
  u_mulmod false x y m = Some r /\ val r <> (a * b) mod n.
Proof.
  exists (mk 4 5 0 (2 ^ 63)), (mk 0 1 0 0), (mk 5 5 0 (2 ^ 63)),
    (2 ^ 255 + 5 * 2 ^ 64 + 4), (2 ^ 64), (2 ^ 255 + 5 * 2 ^ 64 + 5).
  eexists. unfold denotes, wf, u64. vm_compute. repeat split; try congruence.
Qed.
Print Assumptions C04_mulmod_refuted.

(** Finding: with the project's own prime p, mulmod(p - 1, 2^64, p) panics in a debug build. *)
Theorem C04_mulmod_own_prime_panics : exists x y m,
  denotes m 0x0800000000000011000000000000000000000000000000000000000000000001 /\
  denotes x (val m - 1) /\ denotes y (2 ^ 64) /\ u_mulmod true x y m = None.
Proof.
  exists (mk 0 0 0 0x0800000000000011), (mk 0 1 0 0), (mk 1 0 0 0x0800000000000011).
  unfold denotes, wf, u64. vm_compute. repeat split; congruence.
Qed.
Print Assumptions C04_mulmod_own_prime_panics.

Example C04_example :
  ~ leading_limbs_collide 8 (12345 * (2 ^ 200 + 7)) (2 ^ 250 + 1) /\
  exists r, u_mulmod true (mk 12345 0 0 0) (mk 7 0 0 256) (mk 1 0 0 (2 ^ 58)) = Some r /\
  val r = 12345 * (2 ^ 200 + 7).
Proof.
  split; [|eexists; vm_compute; auto].
  intros (_ & k & Hk & H). assert (D : k = 0 \/ k = 1 \/ k = 2 \/ k = 3)
    by (match type of Hk with _ <= _ < _ - ?l => replace l with 4 in Hk by (vm_compute; reflexivity) end; lia).
  destruct D as [-> | [-> | [-> | ->]]]; vm_compute in H; discriminate.
Qed.
