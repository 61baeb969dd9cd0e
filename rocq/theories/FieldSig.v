(** Fields as the generic code sees them: the operations of the Rust traits
    [FieldLike] / [RefFieldLike] (algebra/primefield/src/traits.rs:34-89), and the
    laws that make them a field. The concrete instances, built from the limb-level
    model of [PrimeField], are in FieldInstance.v. *)
Require Import ZArith NArith Lia Bool List Field Ring.
Import ListNotations.

Record ops (F : Type) : Type := Ops {
  f0 : F; f1 : F;
  fadd : F -> F -> F; fsub : F -> F -> F; fmul : F -> F -> F; fneg : F -> F;
  finv : F -> F; (* the inverse of a non-zero element *)
  feqb : F -> F -> bool
}.
Arguments f0 {F} _. Arguments f1 {F} _. Arguments fadd {F} _ _ _. Arguments fsub {F} _ _ _.
Arguments fmul {F} _ _ _. Arguments fneg {F} _ _. Arguments finv {F} _ _. Arguments feqb {F} _ _ _.

(** The operations satisfy the axioms of a field and [feqb] decides equality. *)
Record lawful {F : Type} (o : ops F) : Prop := {
  law_field : field_theory (f0 o) (f1 o) (fadd o) (fmul o) (fsub o) (fneg o)
                (fun a b => fmul o a (finv o b)) (finv o) (@eq F);
  law_eqb : forall a b, feqb o a b = true <-> a = b
}.

(** Specification of powers: the n-fold product. *)
Definition fexp {F} (o : ops F) (a : F) (n : N) : F := N.iter n (fmul o a) (f1 o).
Fixpoint fpw {F} (o : ops F) (a : F) (n : nat) : F :=
  match n with O => f1 o | S n' => fmul o a (fpw o a n') end.
Definition fsum {F} (o : ops F) (l : list F) : F := fold_right (fadd o) (f0 o) l.
Definition fprod {F} (o : ops F) (l : list F) : F := fold_right (fmul o) (f1 o) l.

(** [inv()] as an [Option] (prime_field.rs:281-290): None exactly for zero. That the
    limb-level algorithm computes this is the subject of C19. *)
Definition inv_opt {F} (o : ops F) (a : F) : option F := if feqb o a (f0 o) then None else Some (finv o a).

Section Laws.
Context {F : Type} (o : ops F) (L : lawful o).
Notation "0" := (f0 o). Notation "1" := (f1 o).
Notation "x + y" := (fadd o x y). Notation "x - y" := (fsub o x y). Notation "x * y" := (fmul o x y).
Notation "- x" := (fneg o x). Notation "x ^ n" := (fpw o x n).
Add Field Ffield : (law_field o L).

Lemma feqb_spec a b : reflect (a = b) (feqb o a b).
Proof. destruct (feqb o a b) eqn:E; constructor; [apply (law_eqb o L); exact E|]. intros H. apply (law_eqb o L) in H. congruence. Qed.
Lemma feq_dec (a b : F) : {a = b} + {a <> b}.
Proof. destruct (feqb_spec a b); [left|right]; assumption. Qed.
Lemma f_1_neq_0 : 1 <> 0. Proof. apply (F_1_neq_0 (law_field o L)). Qed.
Lemma finv_l a : a <> 0 -> finv o a * a = 1. Proof. apply (Finv_l (law_field o L)). Qed.
Lemma finv_r a : a <> 0 -> a * finv o a = 1. Proof. intros H. rewrite <- (finv_l a H). ring. Qed.
Lemma fmul_0_iff a b : a * b = 0 <-> a = 0 \/ b = 0.
Proof.
  split; [|intros [->| ->]; ring]. intros H. destruct (feq_dec a 0) as [|N]; [left; assumption|right].
  transitivity (finv o a * (a * b)); [|rewrite H; ring].
  transitivity ((finv o a * a) * b); [rewrite finv_l by assumption; ring|ring].
Qed.
Lemma fmul_neq_0 a b : a <> 0 -> b <> 0 -> a * b <> 0.
Proof. intros Ha Hb H. apply fmul_0_iff in H. tauto. Qed.
Lemma fmul_cancel_l a b c : a <> 0 -> a * b = a * c -> b = c.
Proof.
  intros Ha H. transitivity ((finv o a * a) * b); [rewrite finv_l by assumption; ring|].
  transitivity (finv o a * (a * b)); [ring|]. rewrite H.
  transitivity ((finv o a * a) * c); [ring|rewrite finv_l by assumption; ring].
Qed.
Lemma finv_unique a b : a * b = 1 -> b = finv o a.
Proof.
  intros H. assert (a <> 0). { intros ->. apply f_1_neq_0. rewrite <- H. ring. }
  apply (fmul_cancel_l a); [assumption|]. rewrite H, finv_r by assumption. reflexivity.
Qed.
Lemma finv_neq_0 a : a <> 0 -> finv o a <> 0.
Proof. intros H E. apply f_1_neq_0. rewrite <- (finv_l a H), E. ring. Qed.
Lemma fsub_0_iff a b : a - b = 0 <-> a = b.
Proof. split; [|intros ->; ring]. intros H. transitivity ((a - b) + b); [ring|rewrite H; ring]. Qed.
Lemma fneg_0_iff a : - a = 0 <-> a = 0.
Proof. split; [|intros ->; ring]. intros H. transitivity (- - a); [ring|rewrite H; ring]. Qed.
Lemma fsquare_1 a : a * a = 1 -> a = 1 \/ a = - (1).
Proof.
  intros H. assert (E : (a - 1) * (a + 1) = 0). { transitivity (a * a - 1); [ring|rewrite H; ring]. }
  apply fmul_0_iff in E as [E|E]; [left; apply fsub_0_iff; exact E|right].
  transitivity ((a + 1) - 1); [ring|rewrite E; ring].
Qed.
Lemma inv_opt_none a : inv_opt o a = None <-> a = 0.
Proof. unfold inv_opt. destruct (feqb_spec a 0); split; congruence. Qed.
Lemma inv_opt_some a b : inv_opt o a = Some b -> a * b = 1.
Proof. unfold inv_opt. destruct (feqb_spec a 0); intros [= <-]. apply finv_r. assumption. Qed.
Lemma inv_opt_ne a : a <> 0 -> inv_opt o a = Some (finv o a).
Proof. unfold inv_opt. destruct (feqb_spec a 0); congruence. Qed.

(** ** Powers *)
Lemma fpw_0 a : a ^ 0 = 1. Proof. reflexivity. Qed.
Lemma fpw_1 a : a ^ 1%nat = a. Proof. cbn. ring. Qed.
Lemma fpw_S a n : a ^ (S n) = a * a ^ n. Proof. reflexivity. Qed.
Lemma fpw_add a n m : a ^ (n + m)%nat = a ^ n * a ^ m.
Proof. induction n; cbn; [ring|]. rewrite IHn. ring. Qed.
Lemma fpw_mul a n m : a ^ (n * m)%nat = (a ^ n) ^ m.
Proof.
  rewrite Nat.mul_comm. induction m; [reflexivity|]. cbn [fpw Nat.mul]. rewrite fpw_add, IHm. reflexivity.
Qed.
Lemma fpw_mul_base a b n : (a * b) ^ n = a ^ n * b ^ n.
Proof. induction n; cbn; [ring|]. rewrite IHn. ring. Qed.
Lemma fpw_one n : (1) ^ n = 1.
Proof. induction n; cbn; [reflexivity|]. rewrite IHn. ring. Qed.
Lemma fpw_neq_0 a n : a <> 0 -> a ^ n <> 0.
Proof. intros H. induction n; cbn; [apply f_1_neq_0|]. apply fmul_neq_0; assumption. Qed.
Lemma fpw_zero n : (0 < n)%nat -> (0) ^ n = 0.
Proof. destruct n; [lia|]. intros _. cbn. ring. Qed.

Lemma fexp_0 a : fexp o a 0 = 1. Proof. reflexivity. Qed.
Lemma fexp_succ a n : fexp o a (N.succ n) = a * fexp o a n.
Proof. unfold fexp. rewrite N.iter_succ. reflexivity. Qed.
Lemma fexp_1 a : fexp o a 1%N = a. Proof. cbn. ring. Qed.
Lemma fexp_add a n m : fexp o a (n + m)%N = fexp o a n * fexp o a m.
Proof.
  induction n as [|n IH] using N.peano_ind; [cbn [N.add]; rewrite fexp_0; ring|].
  rewrite N.add_succ_l, !fexp_succ, IH. ring.
Qed.
Lemma fexp_mul a n m : fexp o a (n * m)%N = fexp o (fexp o a n) m.
Proof.
  induction m as [|m IH] using N.peano_ind; [rewrite N.mul_0_r; reflexivity|].
  rewrite N.mul_succ_r, fexp_add, IH, fexp_succ. ring.
Qed.
Lemma fexp_mul_base a b n : fexp o (a * b) n = fexp o a n * fexp o b n.
Proof. induction n as [|n IH] using N.peano_ind; [rewrite !fexp_0; ring|]. rewrite !fexp_succ, IH. ring. Qed.
Lemma fexp_one n : fexp o 1 n = 1.
Proof. induction n as [|n IH] using N.peano_ind; [reflexivity|]. rewrite fexp_succ, IH. ring. Qed.
Lemma fexp_double a n : fexp o a (2 * n)%N = fexp o a n * fexp o a n.
Proof. replace (2 * n)%N with (n + n)%N by lia. apply fexp_add. Qed.
Lemma fexp_neq_0 a n : a <> 0 -> fexp o a n <> 0.
Proof. intros H. induction n as [|n IH] using N.peano_ind; [apply f_1_neq_0|]. rewrite fexp_succ. apply fmul_neq_0; assumption. Qed.
Lemma fexp_zero n : (0 < n)%N -> fexp o 0 n = 0.
Proof. intros H. replace n with (N.succ (n - 1)) by lia. rewrite fexp_succ. ring. Qed.
Lemma fexp_nat a n : fexp o a (N.of_nat n) = a ^ n.
Proof. induction n; [reflexivity|]. rewrite Nat2N.inj_succ, fexp_succ, IHn. reflexivity. Qed.
Lemma fpw_N a n : a ^ (N.to_nat n) = fexp o a n.
Proof. rewrite <- fexp_nat, N2Nat.id. reflexivity. Qed.
Lemma fexp_neg1_even n : fexp o (- (1)) (2 * n)%N = 1.
Proof. rewrite fexp_mul. change 2%N with (N.succ 1). rewrite fexp_succ, fexp_1. replace (- (1) * - (1)) with 1 by ring. apply fexp_one. Qed.
Lemma finv_fexp a n : a <> 0 -> fexp o (finv o a) n = finv o (fexp o a n).
Proof. intros H. apply finv_unique. rewrite <- fexp_mul_base, finv_r by assumption. apply fexp_one. Qed.
Lemma finv_fpw a n : a <> 0 -> (finv o a) ^ n = finv o (a ^ n).
Proof. intros H. rewrite <- !fexp_nat. apply finv_fexp. assumption. Qed.
Lemma finv_mul a b : a <> 0 -> b <> 0 -> finv o (a * b) = finv o a * finv o b.
Proof.
  intros Ha Hb. symmetry. apply finv_unique.
  replace (a * b * (finv o a * finv o b)) with ((a * finv o a) * (b * finv o b)) by ring.
  rewrite !finv_r by assumption. ring.
Qed.
Lemma finv_inv a : a <> 0 -> finv o (finv o a) = a.
Proof. intros H. symmetry. apply finv_unique. apply finv_l. assumption. Qed.
Lemma finv_1 : finv o 1 = 1.
Proof. symmetry. apply finv_unique. ring. Qed.

(** ** Sums *)
Lemma fsum_cons a l : fsum o (a :: l) = a + fsum o l. Proof. reflexivity. Qed.
Lemma fsum_nil : fsum o [] = 0. Proof. reflexivity. Qed.
Lemma fprod_nil : fprod o [] = 1. Proof. reflexivity. Qed.
Lemma fsum_app l l' : fsum o (l ++ l') = fsum o l + fsum o l'.
Proof. induction l; cbn [app]; rewrite ?fsum_nil, ?fsum_cons; [ring|]. rewrite IHl. ring. Qed.
Lemma fprod_cons a l : fprod o (a :: l) = a * fprod o l. Proof. reflexivity. Qed.
Lemma fprod_app l l' : fprod o (l ++ l') = fprod o l * fprod o l'.
Proof. induction l; cbn [app]; rewrite ?fprod_nil, ?fprod_cons; [ring|]. rewrite IHl. ring. Qed.
Lemma fprod_neq_0 l : (forall a, In a l -> a <> 0) <-> fprod o l <> 0.
Proof.
  induction l as [|a l IH]; [split; [intros _; apply f_1_neq_0|intros _ b Hb; destruct Hb]|]. rewrite fprod_cons. split.
  - intros H. apply fmul_neq_0; [apply H; left; reflexivity|]. apply (proj1 IH). intros b Hb. apply H. right; assumption.
  - intros H b [<-|Hb].
    + intros ->. apply H. ring.
    + apply (proj2 IH); [|assumption]. intros E. apply H. rewrite E. ring.
Qed.
Lemma fsum_map_mul {A} c (f : A -> F) l : fsum o (map (fun i => c * f i) l) = c * fsum o (map f l).
Proof. induction l; cbn [map]; rewrite ?fsum_nil, ?fsum_cons; [ring|]. rewrite IHl. ring. Qed.
Lemma fsum_map_mul_r {A} c (f : A -> F) l : fsum o (map (fun i => f i * c) l) = fsum o (map f l) * c.
Proof. induction l; cbn [map]; rewrite ?fsum_nil, ?fsum_cons; [ring|]. rewrite IHl. ring. Qed.
Lemma fsum_map_add {A} (f g : A -> F) l : fsum o (map (fun i => f i + g i) l) = fsum o (map f l) + fsum o (map g l).
Proof. induction l; cbn [map]; rewrite ?fsum_nil, ?fsum_cons; [ring|]. rewrite IHl. ring. Qed.
Lemma fsum_map_sub {A} (f g : A -> F) l : fsum o (map (fun i => f i - g i) l) = fsum o (map f l) - fsum o (map g l).
Proof. induction l; cbn [map]; rewrite ?fsum_nil, ?fsum_cons; [ring|]. rewrite IHl. ring. Qed.
Lemma fsum_map_ext {A} (f g : A -> F) l : (forall i, In i l -> f i = g i) -> fsum o (map f l) = fsum o (map g l).
Proof. intros H. f_equal. apply map_ext_in. assumption. Qed.
Lemma fsum_map_0 {A} (f : A -> F) l : (forall i, In i l -> f i = 0) -> fsum o (map f l) = 0.
Proof.
  induction l; intros H; [reflexivity|]. cbn [map]. rewrite fsum_cons, H by (left; reflexivity). rewrite IHl; [ring|]. intros i Hi. apply H. right; assumption.
Qed.
Lemma fsum_swap {A C} (f : A -> C -> F) l l' :
  fsum o (map (fun i => fsum o (map (fun j => f i j) l')) l) = fsum o (map (fun j => fsum o (map (fun i => f i j) l)) l').
Proof.
  induction l; cbn [map].
  - rewrite fsum_nil. symmetry. apply fsum_map_0. reflexivity.
  - rewrite fsum_cons, IHl, <- fsum_map_add. apply fsum_map_ext. intros i _. rewrite fsum_cons. reflexivity.
Qed.
Lemma fsum_seq_S f n : fsum o (map f (seq 0 (S n))) = fsum o (map f (seq 0 n)) + f n.
Proof. rewrite seq_S, map_app, fsum_app. cbn [map Nat.add]. rewrite fsum_cons, fsum_nil. ring. Qed.
(** (a - 1) (1 + a + ... + a^(n-1)) = a^n - 1 *)
Lemma geometric_sum a n : (a - 1) * fsum o (map (fun i => a ^ i) (seq 0 n)) = a ^ n - 1.
Proof. induction n; [cbn; ring|]. rewrite fsum_seq_S, fpw_S. transitivity ((a - 1) * fsum o (map (fun i => a ^ i) (seq 0 n)) + (a - 1) * a ^ n); [ring|]. rewrite IHn. ring. Qed.
Lemma geometric_sum_0 a n : a <> 1 -> a ^ n = 1 -> fsum o (map (fun i => a ^ i) (seq 0 n)) = 0.
Proof.
  intros H E. pose proof (geometric_sum a n) as G. rewrite E in G.
  replace (1 - 1) with 0 in G by ring. apply fmul_0_iff in G as [G|G]; [|assumption].
  exfalso. apply H. apply (proj1 (fsub_0_iff a 1) G).
Qed.
(** The image of a natural number in the field. *)
Fixpoint fnat (n : nat) : F := match n with O => 0 | S k => 1 + fnat k end.
Lemma fnat_add n m : fnat (n + m) = fnat n + fnat m.
Proof. induction n; cbn; [ring|]. rewrite IHn. ring. Qed.
Lemma fnat_mul n m : fnat (n * m) = fnat n * fnat m.
Proof. induction n; cbn; [ring|]. rewrite fnat_add, IHn. ring. Qed.
Lemma fsum_map_1 {A} (l : list A) : fsum o (map (fun _ => 1) l) = fnat (length l).
Proof. induction l; cbn [map length fnat]; [reflexivity|]. rewrite fsum_cons, IHl. reflexivity. Qed.
End Laws.
Arguments fnat {F} o n.
