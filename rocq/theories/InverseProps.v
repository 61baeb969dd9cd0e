(** C19: inversion and division in the prime fields.

    [fe P] is the set of field elements of the code (canonical Montgomery limbs) and [inv_opt (fe_ops G)]
    their mathematical inverse; every other theorem about field elements uses that one. Here
    the code's inverse, computed by Lehmer's algorithm on the raw limbs, is compared with it. *)
Require Import ZArith Lia Bool List Znumtheory Field.
From Verif Require Import Word U256Model U256Spec U256Proofs BinaryModel KnuthModel MontgomeryModel MontgomeryProofs MontgomeryProps
  FieldModel FieldSpec FieldProofs FieldSig FieldInstance DivisionProps LehmerModel LehmerSpec LehmerProps InverseModel.
Open Scope Z_scope.

Section Generic.
Context {F : Type} (o : ops F) (L : lawful o).
Add Field Ffield : (law_field o L).
Lemma div_mul a b : b <> f0 o -> fmul o b (fmul o a (finv o b)) = a.
Proof. intros N. transitivity (fmul o a (fmul o b (finv o b))); [ring|]. rewrite (finv_r o L b N). ring. Qed.
End Generic.
Section Inverse.
Context {P : fparams} (G : good P).
Let m := val (p_modulus P).
Let C : consistent (fmp P) m := g_cons P G.
Let Pr : prime m := g_prime P G.

Lemma inv_redc_ok dbg x v b ni : represents m x v -> u_inv_mod dbg (p_modulus P) x = Some (Some ni) -> denotes ni b -> (val x * b) mod m = 1 ->
  exists y w, pf_inv dbg P x = Some (Some y) /\ represents m y w /\ (v * w) mod m = 1.
Proof.
  intros R E D I. assert (Hm : 1 < m) by (destruct Pr; assumption). unfold pf_inv. destruct (rep_range P m C x v R) as [Wx Rx].
  assert (E1 : (if dbg then as_mont P x else Some x) = Some x) by (destruct dbg; [apply (as_mont_rep P m C x v R)|reflexivity]).
  rewrite E1. cbn [bind]. unfold inv_redc. unfold p_modulus in E. rewrite E. cbn [bind].
  destruct (c_r3 _ _ C) as [W3 E3]. pose proof (Z.mod_pos_bound (2 ^ 768) m ltac:(lia)) as MB.
  destruct (C15_mul_redc (fmp P) m ni (R3 (fmp P)) _ _ C D (conj W3 E3) ltac:(lia)) as (y & Ey & Iy). rewrite Ey. cbn [bind].
  assert (Wy : wf y) by apply Iy. assert (Ry : 0 <= val y < m) by apply Iy.
  assert (E2 : (if dbg then of_mont P y else Some y) = Some y) by (destruct dbg; [apply (as_mont_ok P m C y Wy Ry)|reflexivity]).
  rewrite E2. cbn [bind]. exists y, ((b * W) mod m). split; [reflexivity|]. split.
  - eapply (redc_rep P m C y); [exact Wy|exact Iy|]. change (2 ^ 768) with (W * W * W). rewrite Zmult_mod_idemp_r. f_equal. ring.
  - rewrite Zmult_mod_idemp_r. rewrite <- I. rewrite (rep_eq m x v R), Zmult_mod_idemp_l. f_equal. ring.
Qed.
Lemma gcd_prime a : 0 <= a < m -> (Z.gcd a m <> 1 <-> a = 0).
Proof.
  intros Ha. assert (Hm : 1 < m) by (destruct Pr; assumption). split.
  - intros N. destruct (Z.eq_dec a 0); [assumption|]. elim N. apply Zgcd_1_rel_prime. apply rel_prime_le_prime; [exact Pr|lia].
  - intros ->. rewrite Z.gcd_0_l, Z.abs_eq; lia.
Qed.
Lemma pf_inv_of dbg (a : fe P) r : u_inv_mod dbg (p_modulus P) (raw a) = Some r -> is_inverse (val (raw a)) m r -> (r = None <-> Z.gcd (val (raw a)) m <> 1) ->
  pf_inv dbg P (raw a) = Some (option_map raw (inv_opt (fe_ops G) a)).
Proof.
  intros E I N. pose proof (fe_rep G a) as R. fold m in R. destruct (rep_range P m C _ _ R) as [Wx Rx].
  rewrite (gcd_prime _ Rx) in N. rewrite (rep_zero_iff P m C _ _ R) in N.
  destruct r as [ni|].
  - destruct I as (b & D & Hb & I). destruct (inv_redc_ok dbg _ _ b ni R E D I) as (y & w & Ey & Ry & Hw). rewrite Ey. f_equal.
    assert (N0 : a <> f0 (fe_ops G)). { intros Ea. assert (Q : @None u256 = None) by reflexivity. assert (fe_val a = 0) by (rewrite Ea; apply (fe0_val G)). destruct N as [_ N]. specialize (N H). discriminate. }
    rewrite (inv_opt_ne (fe_ops G) (fe_lawful G) a N0). cbn [option_map]. f_equal.
    assert (Cy : canon P y = true) by (apply (canon_rep G y w Ry)).
    set (z := exist _ y Cy : fe P). change y with (raw z). f_equal.
    apply (finv_unique (fe_ops G) (fe_lawful G)). apply (fe_val_inj G). cbn [fmul f1 fe_ops]. rewrite (fe_mul_val G), (fe1_val G).
    rewrite (fe_val_rep G z w Ry). exact Hw.
  - destruct N as [N _]. specialize (N eq_refl). assert (Ea : a = f0 (fe_ops G)) by (apply (fe_val_inj G); rewrite N; symmetry; apply (fe0_val G)).
    unfold pf_inv. assert (E1 : (if dbg then as_mont P (raw a) else Some (raw a)) = Some (raw a)) by (destruct dbg; [apply (as_mont_rep P m C _ _ R)|reflexivity]).
    rewrite E1. cbn [bind]. unfold inv_redc. unfold p_modulus in E. rewrite E. cbn [bind].
    rewrite (proj2 (inv_opt_none (fe_ops G) (fe_lawful G) a) Ea). reflexivity.
Qed.
End Inverse.

(** In both profiles a.inv() is the inverse of a, and None for zero; unless Euclid's algorithm on the
    Montgomery limbs of a and the modulus needs a division on which C03 fails. *)
Theorem C19_inv : forall P (G : good P) dbg (a : fe P), ~ unlucky (val (raw a)) (val (p_modulus P)) ->
  pf_inv dbg P (raw a) = Some (option_map raw (inv_opt (fe_ops G) a)).
Proof.
  intros P G dbg a N. pose proof (fe_rep G a) as R. destruct (rep_range P _ (g_cons P G) _ _ R) as [Wx Rx].
  assert (Hm : 1 < val (p_modulus P)) by (destruct (g_prime P G); assumption).
  destruct (C06_inv_mod dbg (raw a) (p_modulus P) _ _ (conj Wx eq_refl) (c_modulus _ _ (g_cons P G)) ltac:(lia) N) as (r & E & I & Q).
  apply (pf_inv_of G dbg a r E I Q).
Qed.
Print Assumptions C19_inv.
(** A debug build returns the inverse or panics, for every element. *)
Theorem C19_debug_sound : forall P (G : good P) (a : fe P) r, pf_inv true P (raw a) = Some r -> r = option_map raw (inv_opt (fe_ops G) a).
Proof.
  intros P G a r E. pose proof (fe_rep G a) as R. destruct (rep_range P _ (g_cons P G) _ _ R) as [Wx Rx].
  assert (Hm : 1 < val (p_modulus P)) by (destruct (g_prime P G); assumption).
  destruct (u_inv_mod true (p_modulus P) (raw a)) as [s|] eqn:Es.
  - destruct (C06_debug_sound (raw a) (p_modulus P) _ _ s (conj Wx eq_refl) (c_modulus _ _ (g_cons P G)) ltac:(lia) Es) as [I Q].
    rewrite (pf_inv_of G true a s Es I Q) in E. congruence.
  - exfalso. unfold pf_inv in E. destruct (as_mont P (raw a)) as [x|] eqn:Ex; cbn [bind] in E; [|discriminate].
    assert (x = raw a) by (unfold as_mont in Ex; destruct (u_ltb (raw a) (p_modulus P)); congruence). subst x.
    unfold inv_redc in E. unfold p_modulus in Es. rewrite Es in E. discriminate.
Qed.
Print Assumptions C19_debug_sound.
(** The inverse that the two theorems refer to: the identities of a field, for all elements. *)
Theorem C19_field : forall P (G : good P) (a b : fe P),
  (inv_opt (fe_ops G) a = None <-> fe_val a = 0) /\
  (inv_opt (fe_ops G) a = Some b -> (fe_val a * fe_val b) mod val (p_modulus P) = 1).
Proof.
  intros P G a b. split.
  - rewrite (inv_opt_none (fe_ops G) (fe_lawful G) a). split; [intros ->; apply (fe0_val G)|]. intros E. apply (fe_val_inj G). rewrite E. symmetry. apply (fe0_val G).
  - intros E. apply (inv_opt_some (fe_ops G) (fe_lawful G)) in E. apply (f_equal fe_val) in E. cbn [fmul f1 fe_ops] in E. rewrite (fe_mul_val G), (fe1_val G) in E. exact E.
Qed.
Print Assumptions C19_field.
(** Division: b * (a / b) = a, and a panic for b = 0. *)
Theorem C19_div : forall P (G : good P) dbg (a b : fe P), ~ unlucky (val (raw b)) (val (p_modulus P)) ->
  (fe_val b = 0 -> pf_div dbg P (raw a) (raw b) = None) /\
  (fe_val b <> 0 -> exists c : fe P, pf_div dbg P (raw a) (raw b) = Some (raw c) /\ (fe_val b * fe_val c) mod val (p_modulus P) = fe_val a).
Proof.
  intros P G dbg a b N. unfold pf_div. rewrite (C19_inv P G dbg b N). cbn [bind]. split.
  - intros E. rewrite (proj2 (inv_opt_none (fe_ops G) (fe_lawful G) b)); [reflexivity|]. apply (fe_val_inj G). rewrite E. symmetry. apply (fe0_val G).
  - intros E. assert (Nb : b <> f0 (fe_ops G)) by (intros Eb; apply E; rewrite Eb; apply (fe0_val G)).
    rewrite (inv_opt_ne (fe_ops G) (fe_lawful G) b Nb). cbn [option_map].
    exists (fe_mul a (finv (fe_ops G) b)). split.
    + destruct (pf_mul_spec P _ (g_cons P G) _ _ _ _ (fe_rep G a) (fe_rep G (finv (fe_ops G) b))) as (r & Er & Rr). rewrite Er. f_equal.
      symmetry. apply (lift_ok G a _ r _ Er Rr).
    + rewrite <- (fe_mul_val G). f_equal. change (fmul (fe_ops G) b (fmul (fe_ops G) a (finv (fe_ops G) b)) = a).
      apply (div_mul (fe_ops G) (fe_lawful G)). exact Nb.
Qed.
Print Assumptions C19_div.

(** Finding: a field element whose inverse a debug build panics
    on; a release build silently returns another element. *)
Theorem C19_refuted : exists a b : fe proth_field,
  fe_val a <> 0 /\ pf_inv true proth_field (raw a) = None /\ pf_inv false proth_field (raw a) = Some (Some (raw b)) /\
  (fe_val a * fe_val b) mod val (p_modulus proth_field) <> 1.
Proof.
  set (x := mk 0x5555555555555556 0x5555555555555555 0x2aaaaaaaaaaaab0 0).
  assert (Cx : canon proth_field x = true) by (vm_compute; reflexivity).
  destruct (pf_inv false proth_field x) as [[y|]|] eqn:E; [|exfalso; revert E; vm_compute; discriminate|exfalso; revert E; vm_compute; discriminate].
  assert (Cy : canon proth_field y = true).
  { assert (Q : match pf_inv false proth_field x with Some (Some y) => canon proth_field y | _ => false end = true) by (vm_compute; reflexivity). rewrite E in Q. exact Q. }
  exists (exist _ x Cx), (exist _ y Cy). unfold fe_val. cbn [raw proj1_sig].
  split; [vm_compute; discriminate|]. split; [vm_compute; reflexivity|]. split; [exact E|].
  assert (Q : match pf_inv false proth_field x with Some (Some y) =>
     (match pf_to_uint proth_field x with Some u => val u | None => 0 end * match pf_to_uint proth_field y with Some u => val u | None => 0 end) mod val (p_modulus proth_field) =? 1 | _ => true end = false) by (vm_compute; reflexivity).
  rewrite E in Q. apply Z.eqb_neq in Q. exact Q.
Qed.
Print Assumptions C19_refuted.
(** The hypothesis of C19_inv holds for the field element 3, and the inverse is the expected one. *)
Example C19_example : exists a : fe proth_field, fe_val a = 3 /\ ~ unlucky (val (raw a)) (val (p_modulus proth_field)) /\
  match pf_inv true proth_field (raw a) with Some (Some y) => option_map val (pf_to_uint proth_field y) = Some ((val (p_modulus proth_field) + 1) / 3) | _ => False end.
Proof.
  assert (Cx : canon proth_field (GENERATOR proth_field) = true) by (vm_compute; reflexivity).
  exists (exist _ (GENERATOR proth_field) Cx). unfold fe_val. cbn [raw proj1_sig].
  split; [vm_compute; reflexivity|]. split; [apply (luckyb_spec 400); vm_compute; reflexivity|]. vm_compute. reflexivity.
Qed.
