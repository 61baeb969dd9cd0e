(** The field of canonical Montgomery representations: a lawful instance of [ops]
    whose operations are the limb-level ones of FieldModel.v. *)
Require Import ZArith NArith Lia Bool List Znumtheory Zpow_facts Eqdep_dec Field_theory.
From Verif Require Import Word U256Model U256Spec U256Proofs MontgomeryModel MontgomeryProofs MontgomeryProps
  BinaryModel BinaryProofs EncodingProofs NumberTheory Primes FieldSig FieldSpec FieldModel FieldProofs.
Import ListNotations.
Open Scope Z_scope.

Definition wfb (x : u256) : bool :=
  let ok l := (0 <=? l) && (l <? B) in ok (l0 x) && ok (l1 x) && ok (l2 x) && ok (l3 x).
Lemma wfb_spec x : wfb x = true <-> wf x.
Proof.
  unfold wfb, wf, u64. rewrite !andb_true_iff, !Z.leb_le, !Z.ltb_lt. tauto.
Qed.
(** The values a [PrimeField<P>] can hold: limbs below the modulus. *)
Definition canon (P : fparams) (x : u256) : bool := wfb x && u_ltb x (p_modulus P).
Definition fe (P : fparams) : Type := { x : u256 | canon P x = true }.
Definition raw {P} (a : fe P) : u256 := proj1_sig a.

Lemma fe_eq {P} (a b : fe P) : raw a = raw b -> a = b.
Proof.
  destruct a as [x Hx], b as [y Hy]. cbn. intros ->. f_equal. apply UIP_dec. apply bool_dec.
Qed.

(** Turn the outcome of a limb-level operation into an element; the default is never
    used ([lift_ok]): the operations do not panic on canonical operands. *)
Definition lift {P} (d : fe P) (r : option u256) : fe P :=
  match r with
  | Some x => match bool_dec (canon P x) true with left H => exist _ x H | right _ => d end
  | None => d
  end.

Definition u_of_Z (z : Z) : u256 := mk (z mod B) (z / B mod B) (z / (B * B) mod B) (z / (B * B * B) mod B).
Lemma u_of_Z_spec z : 0 <= z < W -> wf (u_of_Z z) /\ val (u_of_Z z) = z.
Proof.
  intros H. unfold u_of_Z. split.
  - apply mk_wf; apply Z.mod_pos_bound; reflexivity.
  - rewrite val_B. cbn [l0 l1 l2 l3].
    rewrite <- !Z.div_div by (unfold B; lia).
    pose proof (Z.div_mod z B ltac:(discriminate)). pose proof (Z.div_mod (z / B) B ltac:(discriminate)).
    pose proof (Z.div_mod (z / B / B) B ltac:(discriminate)).
    assert (z / B / B / B < B). { rewrite !Z.div_div by (unfold B; lia). apply Z.div_lt_upper_bound; [reflexivity|]. rewrite W_B in H. lia. }
    assert (0 <= z / B / B / B). { apply Z.div_pos; [|reflexivity]. apply Z.div_pos; [|reflexivity]. apply Z.div_pos; [lia|reflexivity]. }
    rewrite (Z.mod_small (z / B / B / B)) by lia.
    set (q1 := z / B) in *. set (q2 := q1 / B) in *. set (q3 := q2 / B) in *. clearbody q1 q2 q3.
    set (r1 := z mod B) in *. set (r2 := q1 mod B) in *. set (r3 := q2 mod B) in *. clearbody r1 r2 r3.
    subst q2 q1 z. ring.
Qed.

(** Inverse in Z/m, by the extended Euclidean algorithm; if its answer does not check, by
    Fermat's theorem. This is the specification of inversion, not the code's algorithm. *)
Fixpoint egcd (fuel : nat) (r0 r1 t0 t1 : Z) : Z :=
  match fuel with
  | O => t0
  | S f => if r1 =? 0 then t0 else let q := r0 / r1 in egcd f r1 (r0 - q * r1) t1 (t0 - q * t1)
  end.
Definition inv_Z (m a : Z) : Z :=
  let t := egcd 600 m a 0 1 mod m in
  if (a * t) mod m =? 1 then t else a ^ (m - 2) mod m.

Lemma inv_Z_spec m a : prime m -> ~ (m | a) -> (inv_Z m a * a) mod m = 1 /\ 0 <= inv_Z m a < m.
Proof.
  intros Hp Ha. assert (1 < m) by (destruct Hp; lia). unfold inv_Z.
  destruct (Z.eqb_spec ((a * (egcd 600 m a 0 1 mod m)) mod m) 1) as [E|_].
  - split; [rewrite Z.mul_comm; exact E|apply Z.mod_pos_bound; lia].
  - split; [|apply Z.mod_pos_bound; lia]. rewrite Zmult_mod_idemp_l.
    rewrite <- (fermat m a Hp Ha). f_equal. replace (m - 1) with (m - 2 + 1) by ring.
    destruct (Z.eq_dec m 2) as [->|]; [rewrite Z.pow_0_r, Z.pow_1_r; ring|].
    rewrite Z.pow_add_r, Z.pow_1_r by lia. reflexivity.
Qed.

(** Parameters that describe a prime field. *)
Record good (P : fparams) : Prop := {
  g_cons : consistent (fmp P) (val (p_modulus P));
  g_prime : prime (val (p_modulus P))
}.

Section Instance.
Context {P : fparams} (G : good P).
Let m := val (p_modulus P).
Let C : consistent (fmp P) m := g_cons P G.
Let Pr : prime m := g_prime P G.
Let Hm : 1 < m <= 2 ^ 255 := c_range _ _ C.

Lemma canon_iff x : canon P x = true <-> wf x /\ 0 <= val x < m.
Proof.
  unfold canon. rewrite andb_true_iff, wfb_spec. split; intros [H1 H2]; (split; [exact H1|]).
  - rewrite u_ltb_spec in H2 by (auto using (fm_wf P m C)). apply Z.ltb_lt in H2. pose proof (val_range x H1). unfold m. lia.
  - rewrite u_ltb_spec by (auto using (fm_wf P m C)). apply Z.ltb_lt. apply H2.
Qed.
Lemma canon_rep x v : represents m x v -> canon P x = true.
Proof. intros H. apply canon_iff. eapply rep_range; eassumption. Qed.

Definition fe0 : fe P := exist _ ZERO (proj2 (canon_iff ZERO) (conj wf_ZERO (conj (Z.le_refl 0) (Z.lt_trans 0 1 m Z.lt_0_1 (proj1 Hm))))).
Definition fe1 : fe P := exist _ (R1 (fmp P)) (canon_rep _ _ (rep_R1 P m C)).
Definition fe_add (a b : fe P) : fe P := lift a (pf_add P (raw a) (raw b)).
Definition fe_sub (a b : fe P) : fe P := lift a (pf_sub P (raw a) (raw b)).
Definition fe_mul (a b : fe P) : fe P := lift a (pf_mul P (raw a) (raw b)).
Definition fe_neg (a : fe P) : fe P := lift a (pf_neg P (raw a)).
Definition fe_eqb (a b : fe P) : bool := match pf_eq P (raw a) (raw b) with Some r => r | None => false end.
(** The integer an element stands for. *)
Definition fe_val (a : fe P) : Z := match pf_to_uint P (raw a) with Some u => val u | None => 0 end.
Definition fe_of_Z (z : Z) : fe P := lift fe0 (pf_from_uint P (u_of_Z (z mod m))).
Definition fe_inv (a : fe P) : fe P := fe_of_Z (inv_Z m (fe_val a)).
Definition fe_ops : ops (fe P) := Ops _ fe0 fe1 fe_add fe_sub fe_mul fe_neg fe_inv fe_eqb.

Lemma fe_rep (a : fe P) : represents m (raw a) (fe_val a).
Proof.
  destruct a as [x Hx]. pose proof (proj1 (canon_iff x) Hx) as [H1 H2]. unfold fe_val. cbn [raw proj1_sig].
  destruct (pf_to_uint_spec P m C x _ (rep_exists P m C x H1 H2)) as (r & -> & D & E). rewrite E.
  apply rep_exists; assumption.
Qed.
Lemma fe_val_range a : 0 <= fe_val a < m. Proof. apply (fe_rep a). Qed.
Lemma fe_val_inj a b : fe_val a = fe_val b -> a = b.
Proof. intros E. apply fe_eq. apply (rep_inj m _ _ (fe_val a)); [apply fe_rep|rewrite E; apply fe_rep]. Qed.
Lemma lift_ok d r x v : r = Some x -> represents m x v -> raw (lift d r) = x /\ fe_val (lift d r) = v.
Proof.
  intros -> H. assert (R : raw (lift d (Some x)) = x).
  { cbn [lift]. destruct (bool_dec (canon P x) true) as [|N]; [reflexivity|]. exfalso. apply N. apply (canon_rep x v H). }
  split; [exact R|]. apply (rep_val P m C x); [rewrite <- R at 1; apply fe_rep|exact H].
Qed.
Lemma fe_val_rep (a : fe P) v : represents m (raw a) v -> fe_val a = v.
Proof. intros H. apply (rep_val P m C (raw a)); [apply fe_rep|exact H]. Qed.

Lemma fe0_val : fe_val fe0 = 0.
Proof. apply fe_val_rep. destruct (pf_zero_spec P m C) as (r & E & R). unfold fe0. cbn. unfold pf_zero in E.
  rewrite (proj2 (as_mont_ok P m C ZERO wf_ZERO ltac:(rewrite val_ZERO; lia))) in E. injection E as <-. exact R. Qed.
Lemma fe1_val : fe_val fe1 = 1. Proof. apply fe_val_rep. apply (rep_R1 P m C). Qed.
Lemma fe_add_val a b : fe_val (fe_add a b) = (fe_val a + fe_val b) mod m.
Proof. destruct (pf_add_spec P m C _ _ _ _ (fe_rep a) (fe_rep b)) as (r & E & R). exact (proj2 (lift_ok a _ r _ E R)). Qed.
Lemma fe_sub_val a b : fe_val (fe_sub a b) = (fe_val a - fe_val b) mod m.
Proof. destruct (pf_sub_spec P m C _ _ _ _ (fe_rep a) (fe_rep b)) as (r & E & R). exact (proj2 (lift_ok a _ r _ E R)). Qed.
Lemma fe_mul_val a b : fe_val (fe_mul a b) = (fe_val a * fe_val b) mod m.
Proof. destruct (pf_mul_spec P m C _ _ _ _ (fe_rep a) (fe_rep b)) as (r & E & R). exact (proj2 (lift_ok a _ r _ E R)). Qed.
Lemma fe_neg_val a : fe_val (fe_neg a) = (- fe_val a) mod m.
Proof. destruct (pf_neg_spec P m C _ _ (fe_rep a)) as (r & E & R). exact (proj2 (lift_ok a _ r _ E R)). Qed.
Lemma fe_of_Z_val z : fe_val (fe_of_Z z) = z mod m.
Proof.
  pose proof (Z.mod_pos_bound z m ltac:(lia)) as B1.
  destruct (u_of_Z_spec (z mod m)) as [W1 E1]; [change W with (2 ^ 256); lia|].
  destruct (pf_from_uint_spec P m C (u_of_Z (z mod m)) _ (conj W1 E1)) as (r & E & R); [lia|].
  exact (proj2 (lift_ok fe0 _ r _ E R)).
Qed.
Lemma fe_eqb_spec a b : fe_eqb a b = true <-> a = b.
Proof.
  unfold fe_eqb. rewrite (pf_eq_spec P m C _ _ _ _ (fe_rep a) (fe_rep b)). rewrite Z.eqb_eq. split; [apply fe_val_inj|congruence].
Qed.
(** The limb-level operations return exactly the element of the instance. *)
Lemma fe_add_raw a b : pf_add P (raw a) (raw b) = Some (raw (fe_add a b)).
Proof. destruct (pf_add_spec P m C _ _ _ _ (fe_rep a) (fe_rep b)) as (r & E & R). rewrite E. f_equal. symmetry. exact (proj1 (lift_ok a _ r _ E R)). Qed.
Lemma fe_sub_raw a b : pf_sub P (raw a) (raw b) = Some (raw (fe_sub a b)).
Proof. destruct (pf_sub_spec P m C _ _ _ _ (fe_rep a) (fe_rep b)) as (r & E & R). rewrite E. f_equal. symmetry. exact (proj1 (lift_ok a _ r _ E R)). Qed.
Lemma fe_mul_raw a b : pf_mul P (raw a) (raw b) = Some (raw (fe_mul a b)).
Proof. destruct (pf_mul_spec P m C _ _ _ _ (fe_rep a) (fe_rep b)) as (r & E & R). rewrite E. f_equal. symmetry. exact (proj1 (lift_ok a _ r _ E R)). Qed.
Lemma fe_neg_raw a : pf_neg P (raw a) = Some (raw (fe_neg a)).
Proof. destruct (pf_neg_spec P m C _ _ (fe_rep a)) as (r & E & R). rewrite E. f_equal. symmetry. exact (proj1 (lift_ok a _ r _ E R)). Qed.
Lemma fe_square_raw a : pf_square P (raw a) = Some (raw (fe_mul a a)).
Proof.
  destruct (pf_square_spec P m C _ _ (fe_rep a)) as (r & E & R). rewrite E. f_equal.
  apply (rep_inj m _ _ _ R). rewrite <- fe_mul_val. apply fe_rep.
Qed.

Lemma fe_inv_val a : fe_val a <> 0 -> (fe_val (fe_inv a) * fe_val a) mod m = 1.
Proof.
  intros N. unfold fe_inv. rewrite fe_of_Z_val. pose proof (fe_val_range a).
  destruct (inv_Z_spec m (fe_val a) Pr) as [H1 H2].
  { intros D. apply Z.divide_pos_le in D; lia. }
  rewrite (Z.mod_small (inv_Z m (fe_val a))) by lia. exact H1.
Qed.

Ltac vals := apply fe_val_inj; repeat first [rewrite fe_add_val | rewrite fe_sub_val | rewrite fe_mul_val | rewrite fe_neg_val | rewrite fe0_val | rewrite fe1_val].
Lemma fe_small a : fe_val a mod m = fe_val a. Proof. apply Z.mod_small, fe_val_range. Qed.

Theorem fe_lawful : lawful fe_ops.
Proof.
  constructor; [|exact fe_eqb_spec]. unfold fe_ops. cbn [f0 f1 fadd fsub fmul fneg finv feqb].
  constructor; [constructor| | |].
  - intros a. vals. rewrite Z.add_0_l. apply fe_small.
  - intros a b. vals. f_equal. ring.
  - intros a b c. vals. rewrite Zplus_mod_idemp_l, Zplus_mod_idemp_r. f_equal. ring.
  - intros a. vals. rewrite Z.mul_1_l. apply fe_small.
  - intros a b. vals. f_equal. ring.
  - intros a b c. vals. rewrite Zmult_mod_idemp_l, Zmult_mod_idemp_r. f_equal. ring.
  - intros a b c. vals. rewrite Zmult_mod_idemp_l, <- Zplus_mod. f_equal. ring.
  - intros a b. vals. rewrite Zplus_mod_idemp_r. f_equal. 
  - intros a. vals. rewrite Zplus_mod_idemp_r, Z.add_opp_diag_r. apply Z.mod_0_l. lia.
  - intros E. apply (f_equal fe_val) in E. rewrite fe0_val, fe1_val in E. discriminate.
  - intros a b. reflexivity.
  - intros a N. vals. apply fe_inv_val. intros E. apply N. apply fe_val_inj. rewrite E, fe0_val. reflexivity.
Qed.

(** Powers. *)
Lemma fe_exp_val a n : fe_val (fexp fe_ops a n) = fe_val a ^ Z.of_N n mod m.
Proof.
  induction n as [|n IH] using N.peano_ind; [rewrite fexp_0, Z.pow_0_r; cbn [f1 fe_ops]; rewrite fe1_val, Z.mod_small by lia; reflexivity|].
  rewrite (fexp_succ fe_ops fe_lawful) || rewrite fexp_succ. cbn [fmul fe_ops]. rewrite fe_mul_val, IH, N2Z.inj_succ, Z.pow_succ_r by lia.
  rewrite Zmult_mod_idemp_r. reflexivity.
Qed.
(** Fermat, in the field. *)
Lemma fe_fermat a : a <> f0 fe_ops -> fexp fe_ops a (Z.to_N (m - 1)) = f1 fe_ops.
Proof.
  intros N. apply fe_val_inj. rewrite fe_exp_val. cbn [f1 fe_ops]. rewrite fe1_val, Z2N.id by lia.
  apply fermat; [exact Pr|]. pose proof (fe_val_range a). intros D. apply Z.divide_pos_le in D; [lia|].
  destruct (Z.eq_dec (fe_val a) 0) as [E|]; [|lia]. exfalso. apply N. apply fe_val_inj. cbn [f0 fe_ops]. rewrite E, fe0_val. reflexivity.
Qed.
End Instance.

(** ** The two fields of the code base *)
(** algebra/primefield/src/proth_field.rs:13-27 [Proth] *)
Definition proth_field : fparams := FP proth_params
  (u_of_Z 0x07fffffffffff9b0ffffffffffffffffffffffffffffffffffffffffffffffa1)
  (u_of_Z 0x0800000000000011000000000000000000000000000000000000000000000000).
(** algebra/elliptic-curve/src/scalar_field.rs:10-21 [Order] *)
Definition order_field : fparams := FP order_params
  (u_of_Z 0x03)
  (u_of_Z 0x0800000000000010ffffffffffffffffb781126dcae7b2321e66a241adc64d2e).

Lemma proth_modulus : val (p_modulus proth_field) = p_field. Proof. reflexivity. Qed.
Lemma order_modulus : val (p_modulus order_field) = p_order. Proof. reflexivity. Qed.
Theorem proth_good : good proth_field.
Proof. constructor; rewrite proth_modulus; [check_consistent|apply prime_field]. Qed.
Theorem order_good : good order_field.
Proof. constructor; rewrite order_modulus; [check_consistent|apply prime_order]. Qed.

(** [FieldElement] and the scalar field, as instances of the generic operations. *)
Definition Felt : Type := fe proth_field.
Definition felt_ops : ops Felt := fe_ops proth_good.
Definition Scalar : Type := fe order_field.
Definition scalar_ops : ops Scalar := fe_ops order_good.
Lemma felt_lawful : lawful felt_ops. Proof. apply fe_lawful. Qed.
Lemma scalar_lawful : lawful scalar_ops. Proof. apply fe_lawful. Qed.

(** A small field, not in the code base: it only serves to run concrete examples cheaply. The
    constants are those the documentation prescribes for the modulus 97 and generator 5. *)
Definition tiny_field : fparams := FP (MP (mk 97 0 0 0) 0x5c5f02a3a0fd5c5f (mk 61 0 0 0) (mk 35 0 0 0) (mk 1 0 0 0))
  (mk 14 0 0 0) (mk 96 0 0 0).
Lemma tiny_modulus : val (p_modulus tiny_field) = 97. Proof. reflexivity. Qed.
Theorem tiny_good : good tiny_field.
Proof. constructor; rewrite tiny_modulus; [check_consistent|apply (trial_division _ 5); reflexivity]. Qed.
Definition tiny_ops : ops (fe tiny_field) := fe_ops tiny_good.
Lemma tiny_lawful : lawful tiny_ops. Proof. apply fe_lawful. Qed.
Definition tiny (n : Z) : fe tiny_field := fe_of_Z tiny_good n.
