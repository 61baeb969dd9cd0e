(** The concrete curve of algebra/elliptic-curve/src/lib.rs: parameters, smoothness, order. *)
Require Import ZArith NArith Lia Bool List Field Ring Znumtheory.
From Verif Require Import Word U256Model U256Spec U256Proofs MontgomeryModel FieldModel Primes FieldSig FieldInstance FieldAlgModel Arr
  CurveModel CurveSpec CurveGroup CurveProofs WnafModel WnafSpec WnafProofs ScalarMulProofs.
Import ListNotations.
Open Scope Z_scope.

Section Disc.
Context {F : Type} (o : ops F) (L : lawful o) (a b : F).
Notation "0" := (f0 o). Notation "1" := (f1 o).
Notation "x + y" := (fadd o x y). Notation "x - y" := (fsub o x y). Notation "x * y" := (fmul o x y).
Notation "- x" := (fneg o x).
Add Field Ffield : (law_field o L).
(** 4 a^3 + 27 b^2 *)
Definition disc : F := let two := 1 + 1 in let three := two + 1 in two * two * (a * a * a) + three * three * three * (b * b).
Lemma smooth_disc : 1 + 1 <> 0 -> disc <> 0 -> smooth o a b.
Proof.
  intros T D. constructor; [exact T|]. intros x E1 E2. apply D.
  assert (Ea : a = - (x * x + x * x + x * x)) by (transitivity (x * x + x * x + x * x + a - (x * x + x * x + x * x)); [ring|rewrite E2; ring]).
  assert (Eb : b = - (x * x * x + a * x)) by (transitivity (x * x * x + a * x + b - (x * x * x + a * x)); [ring|rewrite E1; ring]).
  unfold disc. rewrite Eb, Ea. ring.
Qed.
(** sums from a given slope *)
Lemma chord_by x1 y1 x2 y2 l x y : x1 <> x2 -> l * (x1 - x2) = y1 - y2 -> l * l - x1 - x2 = x + 0 -> l * (x1 - x) - y1 = y + 0 ->
  padd o a (APoint x1 y1) (APoint x2 y2) = APoint x y.
Proof.
  intros N E1 E2 E3. rewrite (add_chord o L) by assumption.
  assert (El : slope o x1 y1 x2 y2 = l). { unfold slope. rewrite <- E1. field. intros E. apply N. apply (fsub_0_iff o L). exact E. }
  unfold third. rewrite El. assert (E2' : l * l - x1 - x2 = x) by (rewrite E2; ring). rewrite E2'. f_equal. rewrite E3. ring.
Qed.
Lemma tangent_by x1 y1 l x y : y1 + y1 <> 0 -> l * (y1 + y1) = x1 * x1 + x1 * x1 + x1 * x1 + a -> l * l - x1 - x1 = x + 0 -> l * (x1 - x) - y1 = y + 0 ->
  padd o a (APoint x1 y1) (APoint x1 y1) = APoint x y.
Proof.
  intros N E1 E2 E3. rewrite (add_tangent o L) by (intros E; apply N; rewrite E; ring).
  assert (El : tslope o a x1 y1 = l). { unfold tslope. rewrite <- E1. field. exact N. }
  unfold third. rewrite El. assert (E2' : l * l - x1 - x1 = x) by (rewrite E2; ring). rewrite E2'. f_equal. rewrite E3. ring.
Qed.
End Disc.

(** lib.rs:71-73 [BETA], lib.rs:77-84 [GENERATOR]: Montgomery limbs, least significant first *)
Definition BETA : Felt := exist _ (mk 0x359ddd67b59a21ca 0x6725f2237aab9006 0xab8a1e002a41f947 0x013931651774247f) eq_refl.
Definition GEN_X : Felt := exist _ (mk 0xc9019623cf0273dd 0x51a9bf65d4403dea 0x0429bf5184041c7b 0x033840300bf6cec1) eq_refl.
Definition GEN_Y : Felt := exist _ (mk 0x569d0da34235308a 0x0939e3442869bbe7 0xfbd89a97cf4b33ad 0x05a0e71610f55329) eq_refl.
Definition GENERATOR : affine Felt := APoint GEN_X GEN_Y.
(** elliptic-curve-crypto/src/lib.rs:62-68 [GENERATOR_TABLE] *)
Definition generator_table : option (list (affine Felt)) := window_table_affine felt_ops GENERATOR 32.
Lemma beta_val : fe_val BETA = 0x06f21413efbe40de150e596d72f7a8c5609ad26c15c915c1f4cdfcb99cee9e89. Proof. vm_compute. reflexivity. Qed.
Lemma gen_val : fe_val GEN_X = 0x01ef15c18599971b7beced415a40f0c7deacfd9b0d1819e03d723d8bc943cfca /\
  fe_val GEN_Y = 0x005668060aa49730b7be4801df46ec62de53ecd11abe43a32873000c36e8dc1f.
Proof. split; vm_compute; reflexivity. Qed.

Lemma eqb_ne {F} (o : ops F) (L : lawful o) x y : feqb o x y = false -> x <> y.
Proof. intros E ->. rewrite (proj2 (law_eqb o L y y) eq_refl) in E. discriminate. Qed.
Lemma stark_smooth : smooth felt_ops (f1 felt_ops) BETA.
Proof. apply (smooth_disc felt_ops felt_lawful); apply (eqb_ne felt_ops felt_lawful); vm_compute; reflexivity. Qed.
Lemma gen_on : on_curve felt_ops (f1 felt_ops) BETA GENERATOR.
Proof. cbn [on_curve GENERATOR]. apply (law_eqb felt_ops felt_lawful). vm_compute. reflexivity. Qed.
