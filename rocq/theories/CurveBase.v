(** Fixed-base multiplication with the table of the generator. *)
Require Import ZArith NArith Lia Bool List Field Ring Ring_theory Field_theory Znumtheory.
From Verif Require Import Word U256Model U256Spec U256Proofs MontgomeryModel FieldModel Primes FieldSig FieldInstance FieldAlgModel FieldProps Arr
  CurveModel CurveSpec CurveGroup CurveProofs WnafModel WnafSpec WnafProofs ScalarMulProofs CurveInstance CurveOrder.
Import ListNotations.
Open Scope Z_scope.

Local Notation zm := (zmul felt_ops (f1 felt_ops)).
Local Notation "p ⊕ q" := (padd felt_ops (f1 felt_ops) p q) (at level 50, left associativity).
Local Notation aff := (a_from_jacobian felt_ops).
Local Notation "x *f y" := (fmul felt_ops x y) (at level 40, left associativity).

Section Fourth.
Context {F : Type} (o : ops F) (L : lawful o).
Notation "x * y" := (fmul o x y). Notation "x + y" := (fadd o x y). Notation "x - y" := (fsub o x y).
Add Field Ffield : (law_field o L).
Lemma not_fourth z u s i g v x : (forall r, r * r <> g) -> s * s = g * u -> i * i + f1 o = f0 o -> u * u * v = x -> v <> f0 o -> u <> f0 o -> z * z * (z * z) * v <> x.
Proof.
  intros Ng Es Ei Eu Nv Nu E. assert (E1 : (z * z - u) * (z * z + u) * v = f0 o).
  { transitivity (z * z * (z * z) * v - u * u * v); [ring|]. rewrite E, Eu. ring. }
  apply (fmul_0_iff o L) in E1 as [E1|E1]; [|contradiction].
  assert (K : forall t, t * t = u -> False).
  { intros t Et. assert (Nt : t <> f0 o) by (intros ->; apply Nu; rewrite <- Et; ring).
    apply (Ng (s * finv o t)). transitivity (s * s * (finv o t * finv o t)); [ring|]. rewrite Es, <- Et. field. exact Nt. }
  apply (fmul_0_iff o L) in E1 as [E1|E1].
  - apply (K z). apply (fsub_0_iff o L). exact E1.
  - apply (K (i * z)). transitivity ((i * i + f1 o) * (z * z) - (z * z + u) + u); [ring|]. rewrite Ei, E1. ring.
Qed.
(** The z coordinate after a doubling. *)
Lemma j_double_z (r : jacobian F) x y : a_from_jacobian o r = APoint x y -> y <> f0 o ->
  jz (j_double o r) = (y + y) * (jz r * jz r * (jz r * jz r)) /\ jz r <> f0 o.
Proof.
  destruct r as [X Y Z1]. intros E Ny. destruct (feq_dec o L Z1 (f0 o)) as [->|Nz]; [rewrite (aff_zero o L) in E; discriminate|].
  rewrite (aff_point o L) in E by exact Nz. injection E as _ Ey. assert (EY : Y = y * (Z1 * Z1 * Z1)) by (rewrite <- Ey; field; exact Nz).
  split; [|exact Nz]. cbn [j_double jz]. destruct (feqb_spec o L Y (f0 o)) as [E0|_].
  - destruct Ny. rewrite <- Ey, E0. field. exact Nz.
  - cbn [jz]. unfold sqr. rewrite EY. ring.
Qed.
End Fourth.

Lemma generator_table_spec : exists t, generator_table = Some t /\ odd_table felt_ops (fun x => x) GENERATOR 32 t.
Proof. apply (window_table_affine_spec felt_ops felt_lawful BETA stark_smooth); [lia|exact gen_on]. Qed.
Lemma gen_nonzero : GENERATOR <> AZero. Proof. discriminate. Qed.
Lemma order_big : 1000 < p_order. Proof. reflexivity. Qed.
Lemma order_128 : p_order mod 128 = 47. Proof. vm_compute. reflexivity. Qed.

Lemma base_ok t k : wf k -> 0 <= val k < p_order -> odd_table felt_ops (fun x => x) GENERATOR 32 t -> val k <> p_order - 94 ->
  exists r, base_mul felt_ops t k = Some r /\ aff r = zm (val k) GENERATOR.
Proof.
  intros Wk Hk Ht Nk. refine (base_mul_spec felt_ops felt_lawful BETA stark_smooth GENERATOR p_order gen_on gen_nonzero prime_order generator_order t k Wk Hk order_big Ht _).
  rewrite order_128. exact Nk.
Qed.

Lemma three_nonsquare (r : Felt) : r *f r <> phi 3.
Proof.
  intros E. apply (f_equal fe_val) in E. rewrite phi_val in E. assert (E1 : fe_val (r *f r) = (fe_val r * fe_val r) mod p_field) by apply (fe_mul_val proth_good).
  rewrite E1 in E. revert E. apply (C18_generator_non_square proth_field); [exact proth_constants|reflexivity|exact prime_field].
Qed.
Lemma phi_neq z : z mod p_field <> 0 -> phi z <> f0 felt_ops.
Proof. intros N E. apply N. rewrite <- phi_val, E. apply (fe0_val proth_good). Qed.
Lemma phi_mod a c : (a - c) mod p_field = 0 -> phi a = phi c.
Proof. intros E. apply Z.mod_divide in E; [|discriminate]. destruct E as [q E]. apply (phi_eq a c q). rewrite E. ring. Qed.

Lemma neg_product a c : - a * (- c + - c) = 2 * a * c. Proof. ring. Qed.
Lemma half_sum : (p_order - 47) / 2 + (p_order - 47) / 2 = p_order + - (47). Proof. vm_compute. reflexivity. Qed.
Local Opaque phi felt_ops p_order x47 y47 xh yh wu ws wi.
(** The exceptional scalar: the last addition would be a doubling, which the mixed addition turns into zero. *)
Lemma base_exception t k : wf k -> val k = p_order - 94 -> odd_table felt_ops (fun x => x) GENERATOR 32 t ->
  exists r, base_mul felt_ops t k = Some r /\ aff r = AZero.
Proof.
  intros Wk Ek Ht. unfold base_mul. destruct (naf_spec k 7 Wk ltac:(lia)) as (l & -> & Ll & Wf). cbn [bind].
  rewrite (rev_get l (fun r d => digit_step (j_add_affine felt_ops) (j_sub_affine felt_ops) t (j_double felt_ops r) d)).
  destruct l as [|d l2]; [discriminate Ll|]. pose proof (wnaf_value _ _ _ Wf) as V. cbn [digits_value] in V. rewrite Ek in V.
  pose proof order_128 as O128. pose proof (Z.div_mod p_order 128 ltac:(lia)) as DM. rewrite O128 in DM.
  assert (Od : d <> 0). { intros ->. lia. }
  destruct (wnaf_digit _ _ _ Wf 0%nat Od) as [Odd Ab]. cbn [nth] in Odd, Ab. change (2 ^ (7 - 1)) with 64 in Ab.
  destruct (wnaf_high 7 (val k) [] d l2 Wf ltac:(lia) Od) as [c Ec]. change (2 ^ 7) with 128 in Ec.
  assert (Ed : d = -47). { rewrite Ec in V. set (q := p_order / 128) in *. clearbody q. lia. }
  subst d. assert (Ev : digits_value l2 = (p_order - 47) / 2). { replace (p_order - 47) with (digits_value l2 * 2) by lia. symmetry. apply Z.div_mul. lia. }
  clear c Ec DM O128.
  assert (Dok : digits_ok 32 (-47 :: l2)) by (apply (wnaf_digits_ok 7 _ _ Wf); [lia|reflexivity]).
  assert (Cf : clash_free felt_ops GENERATOR l2).
  { assert (K : forall l4 l3, l2 = l3 ++ l4 -> clash_free felt_ops GENERATOR l4).
    { induction l4 as [|d l4 IH]; intros l3 E; [exact I|]. split; [apply (IH (l3 ++ [d])); rewrite <- app_assoc; exact E|].
      intros Nd Cl. rewrite E in Wf. change (-47 :: l3 ++ d :: l4) with ((-47 :: l3) ++ d :: l4) in Wf.
      assert (B : (-47 :: l3) = [] /\ val k = p_order + 2 * d); [|destruct B as [B _]; discriminate B].
      refine (base_safe felt_ops felt_lawful BETA stark_smooth GENERATOR p_order gen_on gen_nonzero prime_order generator_order (val k) (-47 :: l3) d l4 Wf _ order_big Nd Cl).
      rewrite Ek. pose proof order_big. lia. }
    apply (K l2 []). reflexivity. }
  destruct (base_run felt_ops felt_lawful BETA stark_smooth GENERATOR 32 t l2 gen_on Ht (fun x Hx => Dok x (or_intror Hx)) Cf) as (r & Er & Ar).
  cbn [rev]. rewrite for_each_app, Er. cbn [bind for_each]. rewrite Ev, point_h in Ar. unfold pt in Ar. cbn [opposite fst snd] in Ar.
  (* the table entry 47 G *)
  unfold digit_step. change (0 <? -47) with false. change (-47 <? 0) with true. cbv iota. change (Z.to_nat (Z.shiftr (- -47) 1)) with 23%nat.
  destruct Ht as [_ Ht]. destruct (Ht 23%nat ltac:(lia)) as (x & -> & Ex). cbn [bind]. change (2 * Z.of_nat 23 + 1) with 47 in Ex. rewrite point_47 in Ex.
  eexists. split; [reflexivity|]. rewrite Ex. unfold j_sub_affine, pt. cbn [a_neg fst snd].
  assert (Two : fadd felt_ops (f1 felt_ops) (f1 felt_ops) <> f0 felt_ops) by apply (sm_two _ _ _ stark_smooth).
  assert (Ny : phi (- yh) <> f0 felt_ops) by (apply phi_neq; vm_compute; discriminate).
  rewrite <- phi_opp in Ar. destruct (j_double_z felt_ops felt_lawful r _ _ Ar Ny) as [Ez Nz].
  pose proof (aff_double felt_ops felt_lawful Two r) as Ad. rewrite Ar in Ad.
  assert (E2 : APoint (phi xh) (phi (- yh)) ⊕ APoint (phi xh) (phi (- yh)) = APoint (phi x47) (phi (- y47))).
  { rewrite phi_opp at 1 2. change (APoint (phi xh) (fneg felt_ops (phi yh))) with (opposite felt_ops (pt (xh, yh))). rewrite <- point_h, <- zm_add.
    rewrite half_sum.
    rewrite zm_add, generator_order, (zmul_opp felt_ops felt_lawful), point_47. unfold pt. cbn [opposite fst snd padd]. rewrite phi_opp. reflexivity. }
  rewrite E2 in Ad. destruct (j_double felt_ops r) as [X Y Zd] eqn:Ej. cbn [jz] in Ez.
  assert (Nzd : Zd <> f0 felt_ops). { intros E. rewrite E, (aff_zero felt_ops felt_lawful) in Ad. discriminate Ad. }
  rewrite (aff_add_affine_same felt_ops felt_lawful Two) by (try assumption; rewrite Ad; reflexivity).
  destruct (feqb_spec felt_ops felt_lawful (phi x47) (fneg felt_ops (phi y47) *f Zd)) as [E|_]; [exfalso|reflexivity].
  destruct w_facts as (W1 & W2 & W3).
  refine (not_fourth felt_ops felt_lawful (jz r) (phi wu) (phi ws) (phi wi) (phi 3) (phi (2 * y47 * yh)) (phi x47) three_nonsquare _ _ _ _ _ _).
  - rewrite <- !phi_mul. apply phi_mod. exact W2.
  - rewrite <- phi_mul, <- phi_1, <- phi_add, <- phi_0. apply phi_mod. rewrite Z.sub_0_r. exact W3.
  - rewrite <- !phi_mul. apply phi_mod. exact W1.
  - apply phi_neq. vm_compute. discriminate.
  - apply phi_neq. vm_compute. discriminate.
  - rewrite E, Ez, <- phi_opp, <- phi_add. set (z4 := jz r *f jz r *f (jz r *f jz r)). 
    transitivity (phi (- y47) *f phi (- yh + - yh) *f z4).
    + rewrite <- phi_mul. rewrite (neg_product y47 yh). apply (Rmul_comm (F_R (law_field felt_ops felt_lawful))).
    + symmetry. apply (Rmul_assoc (F_R (law_field felt_ops felt_lawful))).
Qed.
