(** Symbolic execution of the assembly routines. *)
Require Import ZArith Lia Bool List.
From Verif Require Import Word U256Model U256Spec U256Proofs MontgomeryModel MontgomeryProofs X86Model.
Import ListNotations.
Open Scope Z_scope.

Lemma run_cons i p s : run (i :: p) s = run p (step s i).
Proof. reflexivity. Qed.
Lemma run_app p q s : run (p ++ q) s = run q (run p s).
Proof. unfold run. apply fold_left_app. Qed.
Lemma sum3 a b c : u64 a -> u64 b -> 0 <= c <= 1 -> exists r k, (a + b + c) mod B = r /\ (a + b + c) / B = k /\ u64 r /\ 0 <= k <= 1 /\ r + B * k = a + b + c.
Proof.
  intros Ha Hb Hc. exists ((a + b + c) mod B), ((a + b + c) / B). pose proof (Z.mod_pos_bound (a + b + c) B eq_refl). pose proof (Z.div_mod (a + b + c) B ltac:(discriminate)).
  split; [reflexivity|]. split; [reflexivity|]. split; [assumption|]. unfold u64 in *. split; [|lia]. unfold B in *. lia.
Qed.
Lemma prod2 a b : u64 a -> u64 b -> exists lo hi, (a * b) mod B = lo /\ (a * b) / B = hi /\ u64 lo /\ u64 hi /\ lo + B * hi = a * b /\ 0 <= a * b <= (B - 1) * (B - 1).
Proof.
  intros Ha Hb. exists ((a * b) mod B), ((a * b) / B). pose proof (Z.mod_pos_bound (a * b) B eq_refl). pose proof (Z.div_mod (a * b) B ltac:(discriminate)).
  split; [reflexivity|]. split; [reflexivity|]. split; [assumption|]. unfold u64 in *. split; [|split; [lia|nia]]. split; [apply Z.div_pos; nia|]. apply Z.div_lt_upper_bound; [reflexivity|]. nia.
Qed.
Lemma diff3 a b c : u64 a -> u64 b -> 0 <= c <= 1 -> exists r k, (a - b - c) mod B = r /\ bit (a <? b + c) = k /\ u64 r /\ 0 <= k <= 1 /\ r - B * k = a - b - c.
Proof.
  intros Ha Hb Hc. unfold u64 in *. destruct (Z.ltb_spec a (b + c)).
  - exists (a - b - c + B), 1. split; [|cbn [bit]; unfold u64; unfold B in *; lia]. symmetry. apply Z.mod_unique with (-1); unfold B in *; lia.
  - exists (a - b - c), 0. split; [apply Z.mod_small; unfold B in *; lia|]. cbn [bit]. unfold u64. lia.
Qed.
Lemma diff2 a b : u64 a -> u64 b -> exists r k, (a - b) mod B = r /\ bit (a <? b) = k /\ u64 r /\ 0 <= k <= 1 /\ r - B * k = a - b.
Proof. intros Ha Hb. destruct (diff3 a b 0 Ha Hb ltac:(lia)) as (r & k & H1 & H2 & H). rewrite Z.sub_0_r in *. rewrite Z.add_0_r in H2. exists r, k. auto. Qed.
Lemma neg1 a : u64 a -> exists r k, (- a) mod B = r /\ bit (negb (a =? 0)) = k /\ u64 r /\ 0 <= k <= 1 /\ r + a = B * k.
Proof.
  intros Ha. unfold u64 in *. destruct (Z.eqb_spec a 0) as [->|N]; cbn [negb bit].
  - exists 0, 0. repeat split; lia.
  - exists (B - a), 1. split; [symmetry; apply Z.mod_unique with (-1); unfold B in *; lia|]. unfold u64, B in *. lia.
Qed.
Lemma u64_0 : u64 0. Proof. unfold u64, B. lia. Qed.
Lemma u64_1 : u64 1. Proof. unfold u64, B. lia. Qed.
Lemma flag_0 : 0 <= 0 <= 1. Proof. lia. Qed.
Lemma flag_out_of_range x : 0 <= out_of_range x <= 1. Proof. unfold out_of_range. destruct (_ && _)%bool; lia. Qed.
Lemma flag_bit b : 0 <= bit b <= 1. Proof. destruct b; cbn; lia. Qed.
Ltac known := first [assumption|exact u64_0|exact u64_1|exact flag_0].
(** One instruction *)
Ltac x1 :=
  match goal with |- context [run (?i :: ?p) ?s] =>
    rewrite (run_cons i p s);
    let t := constr:(step s i) in
    let t' := eval cbv beta iota zeta delta [step set get flags read poke put nth number regs cf ovf mem Nat.eqb andb] in t in
    change t with t'
  end;
  try match goal with
  | |- context [Z.lxor ?a ?a] => rewrite (Z.lxor_nilpotent a)
  end;
  try match goal with |- context [out_of_range ?x] => let z := fresh "z" in let F := fresh in pose proof (flag_out_of_range x) as F; generalize dependent (out_of_range x); intros z F end;
  try match goal with |- context [bit (?x =? 2 ^ 63)] => let z := fresh "z" in let F := fresh in pose proof (flag_bit (x =? 2 ^ 63)) as F; generalize dependent (bit (x =? 2 ^ 63)); intros z F end;
  try match goal with
  | |- context [(?a + ?b + ?c) mod B] => let r := fresh "r" in let k := fresh "c" in let E := fresh "E" in let E1 := fresh in let E2 := fresh in
      destruct (sum3 a b c ltac:(known) ltac:(known) ltac:(known)) as (r & k & E1 & E2 & ? & ? & E); rewrite E1, E2; clear E1 E2
  | |- context [(?a + ?b) mod B] => let r := fresh "r" in let k := fresh "c" in let E := fresh "E" in let E1 := fresh in let E2 := fresh in
      destruct (sum3 a b 0 ltac:(known) ltac:(known) ltac:(known)) as (r & k & E1 & E2 & ? & ? & E); rewrite Z.add_0_r in E1, E2; rewrite E1, E2; clear E1 E2
  | |- context [(?a * ?b) mod B] => let r := fresh "p" in let k := fresh "q" in let E := fresh "E" in let E1 := fresh in let E2 := fresh in
      destruct (prod2 a b ltac:(known) ltac:(known)) as (r & k & E1 & E2 & ? & ? & E & ?); rewrite E1, E2; clear E1 E2
  | |- context [(?a - ?b - ?c) mod B] => let r := fresh "r" in let k := fresh "c" in let E := fresh "E" in let E1 := fresh in let E2 := fresh in
      destruct (diff3 a b c ltac:(known) ltac:(known) ltac:(known)) as (r & k & E1 & E2 & ? & ? & E); rewrite E1, E2; clear E1 E2
  | |- context [(?a - ?b) mod B] => let r := fresh "r" in let k := fresh "c" in let E := fresh "E" in let E1 := fresh in let E2 := fresh in
      destruct (diff2 a b ltac:(known) ltac:(known)) as (r & k & E1 & E2 & ? & ? & E); rewrite E1, E2; clear E1 E2
  | |- context [(- ?a) mod B] => let r := fresh "r" in let k := fresh "c" in let E := fresh "E" in let E1 := fresh in let E2 := fresh in
      destruct (neg1 a ltac:(known)) as (r & k & E1 & E2 & ? & ? & E); rewrite E1, E2; clear E1 E2
  end.
Ltac regs20 rs := do 20 (destruct rs as [|?r rs]; [discriminate|]); destruct rs; [|discriminate].
(** Only the equations *)
Ltac eqs := repeat match goal with H : ?T |- _ => lazymatch T with (_ = _ :> Z) => fail | _ => clear H end end.
Definition words_at (m : nat -> nat -> Z) (a : nat) : Prop := u64 (m a 0%nat) /\ u64 (m a 1%nat) /\ u64 (m a 2%nat) /\ u64 (m a 3%nat).

Lemma mul_run rs c v m : length rs = 20%nat -> words_at m 0 -> words_at m 1 ->
  let r := array (run mul_text (Machine rs c v m)) 2 in
  wf r /\ val r = (val (array (Machine rs c v m) 0) * val (array (Machine rs c v m) 1)) mod W.
Proof.
  intros L (X0 & X1 & X2 & X3) (Y0 & Y1 & Y2 & Y3). regs20 rs. cbv zeta. unfold mul_text.
  do 34 x1. unfold array. cbv beta iota zeta delta [run fold_left mem Nat.eqb andb].
  split; [unfold wf; cbn [l0 l1 l2 l3]; auto|].
  apply Z.mod_unique with (c11 + q8 + c9 + c10 + q7 + c7 + q5 + c6 + c2 + q2 + (m 0%nat 1%nat * m 1%nat 3%nat + m 0%nat 2%nat * m 1%nat 2%nat + m 0%nat 3%nat * m 1%nat 1%nat) + B * (m 0%nat 2%nat * m 1%nat 3%nat + m 0%nat 3%nat * m 1%nat 2%nat) + B * B * (m 0%nat 3%nat * m 1%nat 3%nat)).
  - left. match goal with |- _ <= val ?r < _ => apply (val_range r) end. unfold wf; cbn [l0 l1 l2 l3]; auto.
  - rewrite !val_B. cbn [l0 l1 l2 l3]. rewrite W_B. eqs. unfold B in *. lia.
Qed.

(** Five limbs *)
Definition v5 (a0 a1 a2 a3 a4 : Z) : Z := a0 + B * a1 + B * B * a2 + B * B * B * a3 + B * B * B * B * a4.
Ltac done := cbv beta iota zeta delta [run fold_left get nth number regs].
Lemma mul_1_run rs c v m a b0 b1 b2 b3 : length rs = 20%nat -> u64 a -> u64 b0 -> u64 b1 -> u64 b2 -> u64 b3 ->
  let '(r0, r1, r2, r3, r4) := x_mul_1 (Machine rs c v m) a b0 b1 b2 b3 in
  u64 r0 /\ u64 r1 /\ u64 r2 /\ u64 r3 /\ u64 r4 /\ v5 r0 r1 r2 r3 r4 = a * v4 b0 b1 b2 b3.
Proof.
  intros L Ha H0 H1 H2 H3. regs20 rs. unfold x_mul_1, mul_1_text, load. cbv beta iota zeta delta [set regs cf ovf put number mem].
  do 8 x1. done. assert (Z : c3 = 0) by (uB; lia). subst c3. do 5 (split; [assumption|]). unfold v5, v4. eqs. unfold B in *. lia.
Qed.
Lemma mul_add_1_run rs c v m r0 r1 r2 r3 a b0 b1 b2 b3 : length rs = 20%nat -> u64 r0 -> u64 r1 -> u64 r2 -> u64 r3 -> u64 a -> u64 b0 -> u64 b1 -> u64 b2 -> u64 b3 ->
  let '(s0, s1, s2, s3, s4) := x_mul_add_1 (Machine rs c v m) r0 r1 r2 r3 a b0 b1 b2 b3 in
  u64 s0 /\ u64 s1 /\ u64 s2 /\ u64 s3 /\ u64 s4 /\ v5 s0 s1 s2 s3 s4 = v4 r0 r1 r2 r3 + a * v4 b0 b1 b2 b3.
Proof.
  intros L R0 R1 R2 R3 Ha H0 H1 H2 H3. regs20 rs. unfold x_mul_add_1, mul_add_1_text, load. cbv beta iota zeta delta [set regs cf ovf put number mem].
  do 14 x1. done.
  assert (c7 = 0) by (clear -H31 H32 H30 E10; uB; lia). subst c7.
  assert (EQ : v5 r23 r25 r27 r29 r31 + B * B * B * B * B * c8 = v4 r0 r1 r2 r3 + a * v4 b0 b1 b2 b3) by (unfold v5, v4; eqs; unfold B in *; lia).
  assert (c8 = 0).
  { pose proof (v4_range r0 r1 r2 r3 R0 R1 R2 R3) as VR. pose proof (v4_range b0 b1 b2 b3 H0 H1 H2 H3) as VB. assert (V5 : 0 <= v5 r23 r25 r27 r29 r31) by (unfold v5; uB; lia).
    assert (P : a * v4 b0 b1 b2 b3 <= (B - 1) * (W - 1)) by (uB; apply Z.mul_le_mono_nonneg; lia). rewrite W_B in *. clear -EQ VR V5 H34 P. unfold B in *. lia. }
  subst c8. do 5 (split; [assumption|]). lia.
Qed.
Lemma full_mul2_run s s1 s2 s3 x y : length (regs s) = 20%nat -> length (regs s1) = 20%nat -> length (regs s2) = 20%nat -> length (regs s3) = 20%nat -> wf x -> wf y ->
  let '(lo, hi) := x_full_mul2 s s1 s2 s3 x y in wf lo /\ wf hi /\ val lo + W * val hi = val x * val y.
Proof.
  intros L L1 L2 L3 (X0 & X1 & X2 & X3) (Y0 & Y1 & Y2 & Y3). destruct s, s1, s2, s3. unfold x_full_mul2.
  pose proof (mul_1_run regs cf ovf mem (l0 x) (l0 y) (l1 y) (l2 y) (l3 y) L X0 Y0 Y1 Y2 Y3) as H. destruct (x_mul_1 _ _ _ _ _ _) as [[[[a0 a1] a2] a3] a4]. destruct H as (A0 & A1 & A2 & A3 & A4 & EA).
  pose proof (mul_add_1_run regs0 cf0 ovf0 mem0 a1 a2 a3 a4 (l1 x) (l0 y) (l1 y) (l2 y) (l3 y) L1 A1 A2 A3 A4 X1 Y0 Y1 Y2 Y3) as H. destruct (x_mul_add_1 _ _ _ _ _ _ _ _ _ _) as [[[[b1 b2] b3] b4] b5] eqn:G. clear G. destruct H as (B1 & B2 & B3 & B4 & B5 & EB).
  pose proof (mul_add_1_run regs1 cf1 ovf1 mem1 b2 b3 b4 b5 (l2 x) (l0 y) (l1 y) (l2 y) (l3 y) L2 B2 B3 B4 B5 X2 Y0 Y1 Y2 Y3) as H. destruct (x_mul_add_1 _ _ _ _ _ _ _ _ _ _) as [[[[c2 c3] c4] c5] c6] eqn:G. clear G. destruct H as (C2 & C3 & C4 & C5 & C6 & EC).
  pose proof (mul_add_1_run regs2 cf2 ovf2 mem2 c3 c4 c5 c6 (l3 x) (l0 y) (l1 y) (l2 y) (l3 y) L3 C3 C4 C5 C6 X3 Y0 Y1 Y2 Y3) as H. destruct (x_mul_add_1 _ _ _ _ _ _ _ _ _ _) as [[[[d3 d4] d5] d6] d7] eqn:G. clear G. destruct H as (D3 & D4 & D5 & D6 & D7 & ED).
  split; [unfold wf; cbn [l0 l1 l2 l3]; auto|]. split; [unfold wf; cbn [l0 l1 l2 l3]; auto|].
  rewrite (val_B (mk a0 b1 c2 d3)), (val_B (mk d4 d5 d6 d7)), (val_B x), (val_B y), W_B. cbn [l0 l1 l2 l3]. unfold v5, v4 in *. clear -EA EB EC ED. unfold B in *. lia.
Qed.

(** There is no carry out of a row *)
Lemma row_carry b0 b1 b2 b3 b4 k t x Y : u64 b0 -> u64 b1 -> u64 b2 -> u64 b3 -> u64 b4 -> 0 <= k <= 1 -> 0 <= t < W -> u64 x -> 0 <= Y < W ->
  v5 b0 b1 b2 b3 b4 + B * B * B * B * B * k = t + x * Y -> k = 0.
Proof.
  intros B0 B1 B2 B3 B4 K T X HY E. assert (P : x * Y <= (B - 1) * (W - 1)) by (uB; apply Z.mul_le_mono_nonneg; lia). rewrite W_B in *.
  assert (V5 : 0 <= v5 b0 b1 b2 b3 b4) by (unfold v5; uB; lia). clear -E V5 K P T. unfold B in *. lia.
Qed.
(** A carry that cannot be *)
Lemma top_carry p q t r k c : u64 p -> 0 <= t <= (B - 1) * (B - 1) -> p + B * q = t -> 0 <= c <= 1 -> u64 r -> 0 <= k <= 1 -> r + B * k = q + 0 + c -> k = 0.
Proof. unfold u64, B. lia. Qed.
Ltac zero k := match goal with E : ?r + B * k = ?q + 0 + ?c, P : ?p + B * ?q = ?t |- _ => assert (k = 0) by (apply (top_carry p q t r k c); assumption) end.
Lemma full_mul_run rs c v m : length rs = 20%nat -> words_at m 0 -> words_at m 1 ->
  let s := run full_mul_text (Machine rs c v m) in
  wf (array s 2) /\ wf (array s 3) /\ val (array s 2) + W * val (array s 3) = val (array (Machine rs c v m) 0) * val (array (Machine rs c v m) 1).
Proof.
  intros L (X0 & X1 & X2 & X3) (Y0 & Y1 & Y2 & Y3). regs20 rs. cbv zeta. unfold full_mul_text.
  do 11 x1. zero c3.
  assert (Q0 : v5 p r19 r20 r21 r22 = m 0%nat 0%nat * v4 (m 1%nat 0%nat) (m 1%nat 1%nat) (m 1%nat 2%nat) (m 1%nat 3%nat)) by (unfold v5, v4; eqs; unfold B in *; lia).
  clear E E0 E1 E2 E3 E4 E5 E6.
  pose proof (v4_range _ _ _ _ Y0 Y1 Y2 Y3) as VY. remember (v4 (m 1%nat 0%nat) (m 1%nat 1%nat) (m 1%nat 2%nat) (m 1%nat 3%nat)) as Y eqn:EY.
  do 15 x1. zero c11.
  assert (Q1 : v5 r23 r25 r27 r29 r31 + B * B * B * B * B * c12 = v4 r19 r20 r21 r22 + m 0%nat 1%nat * Y) by (clear Q0; rewrite EY; unfold v5, v4; eqs; unfold B in *; lia).
  assert (c12 = 0) by (eapply row_carry; [..|exact Q1]; try assumption; apply v4_range; assumption). clear E E0 E1 E2 E3 E4 E5 E6 E7 E8 E9 E10 E11.
  do 15 x1. zero c20.
  assert (Q2 : v5 r32 r34 r36 r38 r40 + B * B * B * B * B * c21 = v4 r25 r27 r29 r31 + m 0%nat 2%nat * Y) by (clear Q0 Q1; rewrite EY; unfold v5, v4; eqs; unfold B in *; lia).
  assert (c21 = 0) by (eapply row_carry; [..|exact Q2]; try assumption; apply v4_range; assumption). clear E E0 E1 E2 E3 E4 E5 E6 E7 E8 E9 E10 E11.
  do 15 x1. zero c29.
  assert (Q3 : v5 r41 r43 r45 r47 r49 + B * B * B * B * B * c30 = v4 r34 r36 r38 r40 + m 0%nat 3%nat * Y) by (clear Q0 Q1 Q2; rewrite EY; unfold v5, v4; eqs; unfold B in *; lia).
  assert (c30 = 0) by (eapply row_carry; [..|exact Q3]; try assumption; apply v4_range; assumption). clear E E0 E1 E2 E3 E4 E5 E6 E7 E8 E9 E10 E11.
  do 4 x1. unfold array. cbv beta iota zeta delta [run fold_left mem Nat.eqb andb].
  split; [unfold wf; cbn [l0 l1 l2 l3]; auto|]. split; [unfold wf; cbn [l0 l1 l2 l3]; auto|].
  rewrite !val_B, W_B. cbn [l0 l1 l2 l3]. change (m 1%nat 0%nat + B * m 1%nat 1%nat + B * B * m 1%nat 2%nat + B * B * B * m 1%nat 3%nat) with (v4 (m 1%nat 0%nat) (m 1%nat 1%nat) (m 1%nat 2%nat) (m 1%nat 3%nat)).
  rewrite <- EY. unfold v5, v4 in Q0, Q1, Q2, Q3. eqs. clear EY. unfold B in *. lia.
Qed.

(** A conditional move, when the carry flag is known *)
Ltac cm :=
  match goal with |- context [run (Cmovnc ?x ?d :: ?p) ?s] =>
    rewrite (run_cons (Cmovnc x d) p s);
    let t := constr:(step s (Cmovnc x d)) in
    let t' := eval cbv beta iota zeta delta [step set get flags read poke put nth number regs cf ovf mem Z.eqb] in t in
    change t with t'
  end.
Lemma reduce_1_run s x m : length (regs s) = 20%nat -> wf x -> wf m -> x_reduce_1 s x m = reduce_1 x m.
Proof.
  intros L (X0 & X1 & X2 & X3) (M0 & M1 & M2 & M3). destruct s as [rs c v me]. cbn [regs] in L. regs20 rs.
  destruct x as [x0 x1 x2 x3], m as [m0 m1 m2 m3]. cbn [l0 l1 l2 l3] in *.
  unfold x_reduce_1, reduce_1_text, load, words. cbv beta iota zeta delta [set regs cf ovf put number mem l0 l1 l2 l3].
  do 8 x1. unfold reduce_1. rewrite u_geb_spec by (unfold wf; cbn [l0 l1 l2 l3]; auto).
  set (x := mk x0 x1 x2 x3). set (m := mk m0 m1 m2 m3). assert (Hx : wf x) by (unfold wf; cbn [x l0 l1 l2 l3]; auto). assert (Hm : wf m) by (unfold wf; cbn [m l0 l1 l2 l3]; auto).
  assert (EQ : v4 r19 r20 r21 r22 - W * c3 = val x - val m) by (unfold x, m, v4; rewrite !val_B, W_B; cbn [l0 l1 l2 l3]; eqs; unfold B in *; lia).
  pose proof (v4_range r19 r20 r21 r22 ltac:(assumption) ltac:(assumption) ltac:(assumption) ltac:(assumption)) as VR. pose proof (val_range x Hx) as VX. pose proof (val_range m Hm) as VM.
  assert (C : c3 = 0 \/ c3 = 1) by lia. destruct C as [-> | ->]; do 4 cm; done.
  - destruct (Z.leb_spec (val m) (val x)); [|lia]. destruct (u_sub_spec x m Hx Hm) as [H1' H2']. rewrite Z.mod_small in H2' by lia.
    apply val_inj; [unfold wf; cbn [l0 l1 l2 l3]; auto|assumption|]. rewrite H2', val_B. cbn [l0 l1 l2 l3]. unfold v4 in EQ. lia.
  - destruct (Z.leb_spec (val m) (val x)); [lia|]. reflexivity.
Qed.

Lemma proth_redc_run rs c v m : length rs = 20%nat -> words_at m 0 -> words_at m 1 -> u64 (m 4%nat 0%nat) -> 0 < m 4%nat 0%nat -> 2 * proth_m (m 4%nat 0%nat) <= W ->
  let lo := array (Machine rs c v m) 0 in let hi := array (Machine rs c v m) 1 in val hi < proth_m (m 4%nat 0%nat) ->
  let r := array (run proth_redc_text (Machine rs c v m)) 2 in
  wf r /\ mont_of (proth_m (m 4%nat 0%nat)) (val lo + W * val hi) (val r).
Proof.
  intros L (X0 & X1 & X2 & X3) (Y0 & Y1 & Y2 & Y3) M Hp Hsz lo hi. unfold lo, hi, array. cbn [mem]. intros Hlt. clear lo hi. regs20 rs. cbv zeta. unfold proth_redc_text.
  do 37 x1.
  assert (c3 = 0) by (clear -E2 H10 H11 H1; unfold u64, B in *; lia).
  set (m3 := m 4%nat 0%nat) in *. set (K := v4 r19 r20 r21 r32). set (V := v4 r33 r34 r35 r36). set (V' := v4 r37 r38 r39 r40).
  set (lo := mk (m 0%nat 0%nat) (m 0%nat 1%nat) (m 0%nat 2%nat) (m 0%nat 3%nat)) in *. set (hi := mk (m 1%nat 0%nat) (m 1%nat 1%nat) (m 1%nat 2%nat) (m 1%nat 3%nat)) in *.
  assert (EQ : (V + W * (c11 + c12 + c17)) * W = val lo + W * val hi + K * proth_m m3).
  { unfold V, K, v4, proth_m, lo, hi. rewrite !val_B, !W_B. cbn [l0 l1 l2 l3]. eqs. clearbody m3. unfold B in *. lia. }
  assert (EQ2 : V' - W * c21 = V - proth_m m3) by (unfold V, V', v4, proth_m; rewrite !W_B; clear -E21 E22 E23 E24; unfold B in *; lia).
  assert (PM : 0 < proth_m m3) by (unfold proth_m, B; lia).
  assert (VK : 0 <= K < W) by (apply v4_range; assumption). assert (VV : 0 <= V < W) by (apply v4_range; assumption). assert (VV' : 0 <= V' < W) by (apply v4_range; assumption).
  assert (Vlo : 0 <= val lo < W) by (apply val_range; unfold wf, lo; cbn [l0 l1 l2 l3]; auto). assert (Vhi : 0 <= val hi < W) by (apply val_range; unfold wf, hi; cbn [l0 l1 l2 l3]; auto).
  assert (LT : V + W * (c11 + c12 + c17) < 2 * proth_m m3).
  { clear - EQ VK Hlt Vlo Vhi PM. assert (K * proth_m m3 <= (W - 1) * proth_m m3) by (apply Z.mul_le_mono_nonneg_r; lia).
    generalize dependent (K * proth_m m3). unfold W in *. intros. lia. }
  assert (Z0 : c11 + c12 + c17 = 0) by (clear -LT Hsz VV H36 H38 H52; unfold W in *; lia). rewrite Z0 in *.
  assert (C : c21 = 0 \/ c21 = 1) by (clear -H64; lia).
  destruct C as [-> | ->]; do 4 cm; do 4 x1; unfold array; cbv beta iota zeta delta [run fold_left mem Nat.eqb andb]; (split; [unfold wf; cbn [l0 l1 l2 l3]; auto|]); unfold mont_of; rewrite (val_B (mk _ _ _ _)); cbn [l0 l1 l2 l3].
  - change (0 <= V' < proth_m m3 /\ exists j, V' * W = val lo + W * val hi + j * proth_m m3). split; [lia|]. exists (K - W). lia.
  - change (0 <= V < proth_m m3 /\ exists j, V * W = val lo + W * val hi + j * proth_m m3). split; [lia|]. exists K. lia.
Qed.

(** The lowest limb vanishes *)
Lemma digit a m0 m64 k q lo hi r c o : (m0 * m64) mod B = B - 1 -> k + B * q = a * m64 -> lo + B * hi = k * m0 -> u64 r -> r + B * c = a + lo + o -> o = 0 -> r = 0.
Proof.
  intros Hm EK EP Hr E ->.
  pose proof (Z.div_mod (m0 * m64) B ltac:(discriminate)) as D. rewrite Hm in D.
  assert (R : r = B * (a + a * (m0 * m64 / B) - q * m0 - hi - c)).
  { assert (E1 : a * (m0 * m64) = a * (B * (m0 * m64 / B) + (B - 1))) by (rewrite <- D; reflexivity). assert (E2 : k * m0 = (a * m64 - B * q) * m0) by (rewrite <- EK; ring). lia. }
  unfold u64 in Hr. generalize dependent (a + a * (m0 * m64 / B) - q * m0 - hi - c). intros t R. unfold B in *. lia.
Qed.
Ltac digit a r := match goal with
  | Hinv : (?m0 * ?m64) mod B = B - 1, EK : ?k + B * ?q = a * ?m64, E : r + B * ?c = a + ?lo + ?o, EP : ?lo + B * ?hi = ?k * ?m0 |- _ =>
      assert (r = 0) by (apply (digit a m0 m64 k q lo hi r c o Hinv EK EP); assumption) end.
(** No carry out of a row of the interleaved multiplication *)
Lemma row_total t x Y k N : t < Y + N -> u64 x -> u64 k -> 0 <= Y -> 0 <= N -> Y + N <= W -> t + x * Y + k * N < B * (Y + N) /\ B * (Y + N) <= B * B * B * B * B.
Proof.
  intros Ht Hx Hk HY HN HS. unfold u64 in *. assert (x * Y <= (B - 1) * Y) by (apply Z.mul_le_mono_nonneg_r; lia). assert (k * N <= (B - 1) * N) by (apply Z.mul_le_mono_nonneg_r; lia).
  rewrite W_B in HS. split; [lia|]. unfold B in *. lia.
Qed.
Lemma no_carry t b0 b1 b2 b3 b4 k : t < B * B * B * B * B -> u64 b0 -> u64 b1 -> u64 b2 -> u64 b3 -> u64 b4 -> 0 <= k -> v5 b0 b1 b2 b3 b4 + B * B * B * B * B * k = t -> k = 0.
Proof. unfold v5, u64, B. intros. lia. Qed.
Lemma five b1 b2 b3 b4 : v5 0 b1 b2 b3 b4 = B * v4 b1 b2 b3 b4.
Proof. unfold v5, v4. ring. Qed.
Lemma row_close b1 b2 b3 b4 c t x Y k N : v5 0 b1 b2 b3 b4 + B * B * B * B * B * c = t + x * Y + k * N -> t < Y + N -> u64 x -> u64 k -> 0 <= Y -> 0 <= N -> Y + N <= W -> u64 b1 -> u64 b2 -> u64 b3 -> u64 b4 -> 0 <= c ->
  c = 0 /\ B * v4 b1 b2 b3 b4 = t + x * Y + k * N /\ v4 b1 b2 b3 b4 < Y + N.
Proof.
  intros E Ht Hx Hk HY HN HS B1 B2 B3 B4 Hc. destruct (row_total t x Y k N Ht Hx Hk HY HN HS) as [T1 T2].
  assert (T4 : c = 0) by (eapply no_carry; [..|exact E]; try assumption; [lia|exact u64_0]).
  split; [exact T4|]. rewrite T4, five in E. split; [lia|]. clear -E T1. unfold B in *. lia.
Qed.
(** The carry of the first row that is added in the wrong place: limb 3 of x0 * y is the sum of 2^64 - 1, which is
    limb 3 of x0 times the upper half of y, and a carry. *)
Definition lost (x0 y : Z) : Z :=
  if (((x0 * (y - y mod 2 ^ 128)) / 2 ^ 192) mod 2 ^ 64 =? 2 ^ 64 - 1) && (((x0 * y) / 2 ^ 192) mod 2 ^ 64 =? 0) then 1 else 0.
Lemma limb3 a0 a1 a2 a3 t : u64 a0 -> u64 a1 -> u64 a2 -> u64 a3 -> (v5 a0 a1 a2 a3 t / 2 ^ 192) mod 2 ^ 64 = a3.
Proof.
  intros A0 A1 A2 A3. replace (v5 a0 a1 a2 a3 t / 2 ^ 192) with (a3 + t * 2 ^ 64).
  - rewrite Z_mod_plus_full. apply Z.mod_small. exact A3.
  - apply Z.div_unique with (a0 + B * a1 + B * B * a2); [left|]; unfold v5, u64, B in *; lia.
Qed.
Lemma mul_redc_run rs c v m : length rs = 20%nat -> words_at m 0 -> words_at m 1 -> words_at m 4 -> u64 (m 5%nat 0%nat) -> (m 4%nat 0%nat * m 5%nat 0%nat) mod B = B - 1 ->
  let x := array (Machine rs c v m) 0 in let y := array (Machine rs c v m) 1 in let n := array (Machine rs c v m) 4 in val y + val n <= W ->
  let r := array (run mul_redc_text (Machine rs c v m)) 2 in
  wf r /\ val r < val y + val n /\ exists j, val r * W = val x * val y - lost (l0 x) (val y) * (W - B) + j * val n.
Proof.
  intros L (X0 & X1 & X2 & X3) (Y0 & Y1 & Y2 & Y3) (M0 & M1 & M2 & M3) M Hinv x y n. unfold x, y, n, array. cbn [mem]. intros Hsz. clear x y n. regs20 rs. cbv zeta. unfold mul_redc_text.
  assert (Hn : wf (mk (m 4%nat 0%nat) (m 4%nat 1%nat) (m 4%nat 2%nat) (m 4%nat 3%nat))) by (unfold wf; cbn [l0 l1 l2 l3]; auto).
  assert (Hy : wf (mk (m 1%nat 0%nat) (m 1%nat 1%nat) (m 1%nat 2%nat) (m 1%nat 3%nat))) by (unfold wf; cbn [l0 l1 l2 l3]; auto).
  pose proof (val_range _ Hn) as VN. pose proof (val_range _ Hy) as VY. clear Hn Hy.
  remember (val (mk (m 1%nat 0%nat) (m 1%nat 1%nat) (m 1%nat 2%nat) (m 1%nat 3%nat))) as Y eqn:EY.
  remember (val (mk (m 4%nat 0%nat) (m 4%nat 1%nat) (m 4%nat 2%nat) (m 4%nat 3%nat))) as N eqn:EN.
  do 26 x1. zero c3. digit p1 r24. assert (Z3 : c3 = 0) by assumption. assert (R24 : r24 = 0) by assumption.
  assert (Q0 : v5 r24 r26 r28 r30 r32 + B * B * B * B * B * (c12 + c13) = 0 + m 0%nat 0%nat * Y + p3 * N + c4 * (B - B * B * B * B)) by (rewrite EY, EN, !val_B; unfold v5; cbn [l0 l1 l2 l3]; eqs; unfold B in *; lia).
  assert (LO : lost (m 0%nat 0%nat) Y = c4).
  { assert (A1 : m 0%nat 0%nat * Y = v5 p1 r19 r21 r23 (r22 + c4)) by (rewrite EY, !val_B; unfold v5; cbn [l0 l1 l2 l3]; clear -E E0 E1 E2 E4 E5 E6 E7 E8 Z3; unfold B in *; lia).
    assert (A2 : m 0%nat 0%nat * (Y - Y mod 2 ^ 128) = v5 0 0 p2 r20 r22).
    { replace (Y mod 2 ^ 128) with (m 1%nat 0%nat + B * m 1%nat 1%nat) by (rewrite EY, val_B; cbn [l0 l1 l2 l3]; apply Z.mod_unique with (m 1%nat 2%nat + B * m 1%nat 3%nat); [left; clear -Y0 Y1; unfold u64, B in *; lia|unfold B; lia]).
      rewrite EY, val_B. unfold v5. cbn [l0 l1 l2 l3]. clear -E E0 E1 E2 E4 E5 E6 E7 E8 Z3. unfold B in *. lia. }
    unfold lost. rewrite A1, A2, !limb3 by (first [assumption|exact u64_0]).
    assert (U20 : u64 r20) by assumption. assert (U23 : u64 r23) by assumption. clear -E8 U20 U23 H25 H21. unfold u64, B in *. destruct (Z.eqb_spec r20 (2 ^ 64 - 1)), (Z.eqb_spec r23 0); cbn [andb]; lia. }
  assert (T : c12 + c13 = 0 /\ B * v4 r26 r28 r30 r32 = m 0%nat 0%nat * Y + p3 * N + c4 * (B - B * B * B * B) /\ v4 r26 r28 r30 r32 < Y + N).
  { assert (U : 0 < Y + N) by (destruct (Z.eq_dec N 0) as [EN0|]; [exfalso; clear -Hinv EN0 EN M0 M1 M2 M3; rewrite val_B in EN; cbn [l0 l1 l2 l3] in EN; assert (m 4%nat 0%nat = 0) by (uB; lia); rewrite H in Hinv; discriminate|lia]).
    destruct (row_total 0 (m 0%nat 0%nat) Y p3 N U) as [T1 T2]; [assumption|assumption|lia|lia|lia|].
    assert (T3 : c4 * (B - B * B * B * B) <= 0) by (clear -H25; unfold B in *; lia).
    assert (T4 : c12 + c13 = 0) by (eapply no_carry; [..|exact Q0]; [clear -T1 T2 T3; lia|assumption|assumption|assumption|assumption|assumption|lia]).
    split; [exact T4|]. rewrite T4, R24, five in Q0. split; [lia|]. clear -Q0 T1 T3. unfold B in *. lia. }
  destruct T as (T1 & T2 & T3). assert (c12 = 0) by lia. assert (c13 = 0) by lia. clear Q0 E E0 E1 E2 E3 E4 E5 E6 E7 E8 E9 E10 E11 E12 E13 E14 E15 E16 E17 E18 E19 E20 E21 Z3 R24 T1.
  clear H3 H6 H9 H12 H15 H28 H31 H42 H45.
  do 29 x1. zero c21. digit r33 r42. assert (R : r42 = 0) by assumption.
  assert (Q : v5 r33 r35 r37 r39 r41 + B * B * B * B * B * c22 = v4 r26 r28 r30 r32 + m 0%nat 1%nat * Y) by (clear EN T2 T3; rewrite EY, val_B; unfold v5, v4; cbn [l0 l1 l2 l3]; eqs; unfold B in *; lia).
  assert (ZZ : c22 = 0) by (eapply row_carry; [..|exact Q]; try assumption; apply v4_range; assumption). rewrite ZZ, Z.mul_0_r, Z.add_0_r in Q.
  assert (Q' : v5 r42 r44 r46 r48 r50 + B * B * B * B * B * (c30 + c31) = v5 r33 r35 r37 r39 r41 + p12 * N) by (clear EY T2 T3 Q; rewrite EN, val_B; unfold v5, v4; cbn [l0 l1 l2 l3]; eqs; unfold B in *; lia).
  rewrite Q, R in Q'. eapply row_close in Q'; [|exact T3|assumption|assumption|lia|lia|exact Hsz|assumption|assumption|assumption|assumption|lia]. destruct Q' as (Z' & S1 & L1).
  assert (c30 = 0) by lia. assert (c31 = 0) by lia. clear Q R Z' T3 ZZ. rename L1 into T3.
  clear E E0 E1 E2 E3 E4 E5 E6 E7 E8 E9 E10 E11 E12 E13 E14 E15 E16 E17 E18 E19 E20 E21 E22 E23 E24 E25.
  repeat match goal with H : 0 <= _ * _ <= _ |- _ => clear H end.
  do 29 x1. zero c39. digit r51 r60. assert (R : r60 = 0) by assumption.
  assert (Q : v5 r51 r53 r55 r57 r59 + B * B * B * B * B * c40 = v4 r44 r46 r48 r50 + m 0%nat 2%nat * Y) by (clear EN T2 T3; rewrite EY, val_B; unfold v5, v4; cbn [l0 l1 l2 l3]; eqs; unfold B in *; lia).
  assert (ZZ : c40 = 0) by (eapply row_carry; [..|exact Q]; try assumption; apply v4_range; assumption). rewrite ZZ, Z.mul_0_r, Z.add_0_r in Q.
  assert (Q' : v5 r60 r62 r64 r66 r68 + B * B * B * B * B * (c48 + c49) = v5 r51 r53 r55 r57 r59 + p21 * N) by (clear EY T2 T3 Q; rewrite EN, val_B; unfold v5, v4; cbn [l0 l1 l2 l3]; eqs; unfold B in *; lia).
  rewrite Q, R in Q'. eapply row_close in Q'; [|exact T3|assumption|assumption|lia|lia|exact Hsz|assumption|assumption|assumption|assumption|lia]. destruct Q' as (Z' & S2 & L2).
  assert (c48 = 0) by lia. assert (c49 = 0) by lia. clear Q R Z' T3 ZZ. rename L2 into T3.
  clear E E0 E1 E2 E3 E4 E5 E6 E7 E8 E9 E10 E11 E12 E13 E14 E15 E16 E17 E18 E19 E20 E21 E22 E23 E24 E25.
  repeat match goal with H : 0 <= _ * _ <= _ |- _ => clear H end.
  do 29 x1. zero c57. digit r69 r78. assert (R : r78 = 0) by assumption.
  assert (Q : v5 r69 r71 r73 r75 r77 + B * B * B * B * B * c58 = v4 r62 r64 r66 r68 + m 0%nat 3%nat * Y) by (clear EN T2 T3; rewrite EY, val_B; unfold v5, v4; cbn [l0 l1 l2 l3]; eqs; unfold B in *; lia).
  assert (ZZ : c58 = 0) by (eapply row_carry; [..|exact Q]; try assumption; apply v4_range; assumption). rewrite ZZ, Z.mul_0_r, Z.add_0_r in Q.
  assert (Q' : v5 r78 r80 r82 r84 r86 + B * B * B * B * B * (c66 + c67) = v5 r69 r71 r73 r75 r77 + p30 * N) by (clear EY T2 T3 Q; rewrite EN, val_B; unfold v5, v4; cbn [l0 l1 l2 l3]; eqs; unfold B in *; lia).
  rewrite Q, R in Q'. eapply row_close in Q'; [|exact T3|assumption|assumption|lia|lia|exact Hsz|assumption|assumption|assumption|assumption|lia]. destruct Q' as (Z' & S3 & L3).
  assert (c66 = 0) by lia. assert (c67 = 0) by lia. clear Q R Z' T3 ZZ. rename L3 into T3.
  clear E E0 E1 E2 E3 E4 E5 E6 E7 E8 E9 E10 E11 E12 E13 E14 E15 E16 E17 E18 E19 E20 E21 E22 E23 E24 E25.
  repeat match goal with H : 0 <= _ * _ <= _ |- _ => clear H end.
  do 4 x1. unfold array. cbv beta iota zeta delta [run fold_left mem Nat.eqb andb].
  split; [unfold wf; cbn [l0 l1 l2 l3]; auto|]. rewrite (val_B (mk r80 _ _ _)), (val_B (mk (m 0%nat 0%nat) _ _ _)), W_B. cbn [l0 l1 l2 l3]. split; [exact T3|].
  exists (p3 + B * p12 + B * B * p21 + B * B * B * p30). rewrite LO. unfold v4 in *. clear -T2 S1 S2 S3. unfold B in *. lia.
Qed.
