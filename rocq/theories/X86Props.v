(** C59: the assembly routines compute what the portable code computes, from any state of the processor, with one
    exception. *)
Require Import ZArith Lia Bool List.
From Verif Require Import Word U256Model U256Spec U256Proofs MontgomeryModel MontgomeryProofs MontgomeryProps X86Model X86Proofs.
Import ListNotations.
Open Scope Z_scope.

(** Any contents of the registers, the flags and the memory *)
Definition a_state (s : machine) : Prop := length (regs s) = 20%nat.

Lemma load_two s x y : array (load [words x; words y] s) 0 = x /\ array (load [words x; words y] s) 1 = y.
Proof. destruct x, y. split; reflexivity. Qed.

(** The conditional subtraction of field additions, the one routine that the crate uses (feature "asm") *)
Theorem C59_reduce_1 : forall s x m a b, a_state s -> denotes x a -> denotes m b ->
  denotes (x_reduce_1 s x m) (if b <=? a then a - b else a) /\ x_reduce_1 s x m = reduce_1 x m.
Proof.
  intros s x m a b L [Hx <-] [Hm <-]. pose proof (reduce_1_run s x m L Hx Hm) as E. split; [|exact E]. rewrite E. unfold reduce_1. rewrite u_geb_spec by assumption.
  pose proof (val_range x Hx). pose proof (val_range m Hm). destruct (Z.leb_spec (val m) (val x)); [|split; auto].
  destruct (u_sub_spec x m Hx Hm) as [S1 S2]. rewrite Z.mod_small in S2 by lia. split; assumption.
Qed.
Print Assumptions C59_reduce_1.

(** Products *)
Theorem C59_mul : forall s x y a b, a_state s -> denotes x a -> denotes y b -> denotes (x_mul s x y) ((a * b) mod 2 ^ 256).
Proof.
  intros s x y a b L [Hx <-] [Hy <-]. unfold x_mul. destruct s as [rs c v m].
  pose proof (mul_run rs c v (mem (load [words x; words y] (Machine rs c v m))) L Hx Hy) as H. cbv zeta in H.
  change (Machine rs c v (mem (load [words x; words y] (Machine rs c v m)))) with (load [words x; words y] (Machine rs c v m)) in H.
  rewrite (proj1 (load_two (Machine rs c v m) x y)), (proj2 (load_two (Machine rs c v m) x y)) in H. exact H.
Qed.
Print Assumptions C59_mul.
Theorem C59_full_mul : forall s x y a b, a_state s -> denotes x a -> denotes y b ->
  exists lo hi, x_full_mul s x y = (lo, hi) /\ wf lo /\ wf hi /\ val lo + 2 ^ 256 * val hi = a * b.
Proof.
  intros s x y a b L [Hx <-] [Hy <-]. unfold x_full_mul. destruct s as [rs c v m].
  pose proof (full_mul_run rs c v (mem (load [words x; words y] (Machine rs c v m))) L Hx Hy) as H. cbv zeta in H.
  change (Machine rs c v (mem (load [words x; words y] (Machine rs c v m)))) with (load [words x; words y] (Machine rs c v m)) in H.
  rewrite (proj1 (load_two (Machine rs c v m) x y)), (proj2 (load_two (Machine rs c v m) x y)) in H. eexists _, _. split; [reflexivity|]. exact H.
Qed.
Print Assumptions C59_full_mul.
(** The product composed of four blocks, with any states between them *)
Theorem C59_full_mul2 : forall s s1 s2 s3 x y a b, a_state s -> a_state s1 -> a_state s2 -> a_state s3 -> denotes x a -> denotes y b ->
  exists lo hi, x_full_mul2 s s1 s2 s3 x y = (lo, hi) /\ wf lo /\ wf hi /\ val lo + 2 ^ 256 * val hi = a * b.
Proof.
  intros s s1 s2 s3 x y a b L L1 L2 L3 [Hx <-] [Hy <-]. pose proof (full_mul2_run s s1 s2 s3 x y L L1 L2 L3 Hx Hy) as H.
  destruct (x_full_mul2 s s1 s2 s3 x y) as [lo hi]. exists lo, hi. split; [reflexivity|exact H].
Qed.
Print Assumptions C59_full_mul2.

(** Montgomery reduction for moduli 1 + m3 * 2^192 *)
Theorem C59_proth_redc : forall s m3 lo hi x y, a_state s -> 0 < m3 < 2 ^ 63 -> denotes lo x -> denotes hi y -> y < 1 + 2 ^ 192 * m3 ->
  is_redc (1 + 2 ^ 192 * m3) (x + 2 ^ 256 * y) (x_proth_redc s m3 lo hi).
Proof.
  intros s m3 lo hi x y L Hm [Hx <-] [Hy <-] Hlt. unfold x_proth_redc. destruct s as [rs c v m].
  set (s := load [words lo; words hi; []; []; [m3]] (Machine rs c v m)).
  assert (A0 : array s 0 = lo) by (destruct lo; reflexivity). assert (A1 : array s 1 = hi) by (destruct hi; reflexivity).
  pose proof (proth_redc_run rs c v (mem s) L Hx Hy) as H. cbv zeta in H. change (Machine rs c v (mem s)) with s in H. change (mem s 4%nat 0%nat) with m3 in H. rewrite A0, A1 in H.
  assert (PM : proth_m m3 = 1 + 2 ^ 192 * m3) by (unfold proth_m, B; lia). rewrite PM in H.
  destruct H as [H1 H2]; [unfold u64, B; lia|lia|unfold W; lia|exact Hlt|]. apply mont_is_redc; [lia|exact H1|exact H2].
Qed.
Print Assumptions C59_proth_redc.

(** Montgomery multiplication: exactly what is computed. [lost] is 1 if limb 3 of (the lowest limb of x) * y comes out
    as 2^64 - 1 plus a carry; this second carry is then added at 2^64 instead of 2^256. *)
Theorem C59_mul_redc_exact : forall s M m a b x y, a_state s -> consistent M m -> denotes a x -> denotes b y -> y < m ->
  is_redc m (x * y - lost (x mod 2 ^ 64) y * (2 ^ 256 - 2 ^ 64)) (x_mul_redc s M a b).
Proof.
  intros s M m a b x y L C [Ha <-] [Hb <-] Hlt. destruct (consistent_valid M m C) as [(HM & Hgt & Hsz & _) <-]. pose proof (m0_inv _ _ HM) as Hinv. destruct HM as (Hm & Hm64 & _).
  unfold x_mul_redc. destruct s as [rs c v me]. set (s := load [words a; words b; []; []; words (MODULUS M); [M64 M]] (Machine rs c v me)).
  assert (A0 : array s 0 = a) by (destruct a; reflexivity). assert (A1 : array s 1 = b) by (destruct b; reflexivity). assert (A4 : array s 4 = MODULUS M) by (unfold s; clear; destruct (MODULUS M); reflexivity).
  pose proof (mul_redc_run rs c v (mem s) L Ha Hb Hm Hm64 Hinv) as H. cbv zeta in H. change (Machine rs c v (mem s)) with s in H. rewrite A0, A1, A4 in H.
  destruct H as (H1 & H2 & j & H3); [lia|]. set (r := array (run mul_redc_text s) 2) in *.
  assert (X0 : val a mod 2 ^ 64 = l0 a).
  { destruct Ha as (A & _). rewrite val_B. symmetry. apply Z.mod_unique with (l1 a + B * l2 a + B * B * l3 a); [left; exact A|]. change (2 ^ 64) with B. ring. }
  rewrite X0. pose proof (mont_finish r (MODULUS M) _ j H1 Hm ltac:(lia) H3 ltac:(lia)) as [G1 G2]. apply mont_is_redc; [lia|exact G1|exact G2].
Qed.
Print Assumptions C59_mul_redc_exact.
(** So it is right if limb 3 of (the lowest limb of x) * y is not zero. *)
Theorem C59_mul_redc : forall s M m a b x y, a_state s -> consistent M m -> denotes a x -> denotes b y -> y < m ->
  (x mod 2 ^ 64 * y / 2 ^ 192) mod 2 ^ 64 <> 0 -> is_redc m (x * y) (x_mul_redc s M a b).
Proof.
  intros s M m a b x y L C Ha Hb Hlt NZ. pose proof (C59_mul_redc_exact s M m a b x y L C Ha Hb Hlt) as H. unfold lost in H.
  destruct (Z.eqb_spec ((x mod 2 ^ 64 * y / 2 ^ 192) mod 2 ^ 64) 0) as [E|_]; [contradiction|]. rewrite andb_false_r, Z.mul_0_l, Z.sub_0_r in H. exact H.
Qed.
Print Assumptions C59_mul_redc.
(** And it is wrong for the base field of the library: here for x = 2^64 - 1 and one y, in every state. *)
Theorem C59_mul_redc_refuted : let m := 0x0800000000000011000000000000000000000000000000000000000000000001 in
  consistent proth_params m /\
  exists a b x y, denotes a x /\ denotes b y /\ x < m /\ y < m /\ forall s, a_state s -> ~ is_redc m (x * y) (x_mul_redc s proth_params a b).
Proof.
  cbv zeta. set (m := 0x0800000000000011000000000000000000000000000000000000000000000001). assert (C : consistent proth_params m) by apply C16_example. split; [exact C|].
  exists (mk (2 ^ 64 - 1) 0 0 0), (mk 0 6 5 5), (2 ^ 64 - 1), (6 * 2 ^ 64 + 5 * 2 ^ 128 + 5 * 2 ^ 192).
  assert (DA : denotes (mk (2 ^ 64 - 1) 0 0 0) (2 ^ 64 - 1)) by (split; [unfold wf, u64, B; cbn [l0 l1 l2 l3]; lia|reflexivity]).
  assert (DB : denotes (mk 0 6 5 5) (6 * 2 ^ 64 + 5 * 2 ^ 128 + 5 * 2 ^ 192)) by (split; [unfold wf, u64, B; cbn [l0 l1 l2 l3]; lia|reflexivity]).
  split; [exact DA|]. split; [exact DB|]. split; [vm_compute; reflexivity|]. split; [vm_compute; reflexivity|]. intros s L (_ & _ & H).
  assert (N : let x := 2 ^ 64 - 1 in let y := 6 * 2 ^ 64 + 5 * 2 ^ 128 + 5 * 2 ^ 192 in (x * y) mod m <> (x * y - lost (x mod 2 ^ 64) y * (2 ^ 256 - 2 ^ 64)) mod m) by (vm_compute; discriminate).
  cbv zeta in N.
  destruct (C59_mul_redc_exact s proth_params m _ _ _ _ L C DA DB ltac:(vm_compute; reflexivity)) as (_ & _ & G). apply N. rewrite <- H, <- G. reflexivity.
Qed.
Print Assumptions C59_mul_redc_refuted.

(** A state with other values everywhere, and the computed results *)
Definition noise : machine := Machine (map (fun i => 0x123456789abcdef * Z.of_nat i) (seq 1 20)) 1 1 (fun a i => Z.of_nat (7 * a + i)).
Example C59_example : a_state noise /\
  x_reduce_1 noise (mk 1 2 3 4) (mk 2 2 2 3) = mk (2 ^ 64 - 1) (2 ^ 64 - 1) 0 1 /\
  x_reduce_1 noise (mk 1 2 3 4) (mk 2 2 2 5) = mk 1 2 3 4 /\
  x_mul noise (mk 3 5 7 (2 ^ 64 - 1)) (mk 2 4 6 8) = mk 6 22 52 80 /\
  x_full_mul noise (mk 3 5 7 (2 ^ 64 - 1)) (mk 2 4 6 8) = x_full_mul2 noise noise noise noise (mk 3 5 7 (2 ^ 64 - 1)) (mk 2 4 6 8) /\
  x_proth_redc noise 0x0800000000000011 (mk 1 2 3 4) (mk 5 6 7 8) = redc proth_params (mk 1 2 3 4) (mk 5 6 7 8) /\
  (1 * val (mk 5 6 7 8) / 2 ^ 192) mod 2 ^ 64 = 8 /\
  Some (x_mul_redc noise proth_params (mk 1 2 3 4) (mk 5 6 7 8)) = mul_redc proth_params (mk 1 2 3 4) (mk 5 6 7 8).
Proof. vm_compute. repeat split; reflexivity. Qed.
