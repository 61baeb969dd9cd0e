(** Scalar multiplications compute multiples in the group of the curve. *)
Require Import ZArith NArith Lia Bool List Field Ring Znumtheory.
From Verif Require Import Word U256Model U256Spec U256Proofs KnuthModel BinaryModel BinaryProofs FieldSig FieldAlgModel Arr
  CurveModel CurveSpec CurveGroup CurveProofs WnafModel WnafSpec WnafProofs.
Import ListNotations.
Open Scope Z_scope.

Lemma rev_get {A S} (l : list A) (f : S -> A -> option S) s :
  for_each (rev (seq 0 (length l))) (fun s i => let? d := get l i in f s d) s = for_each (rev l) f s.
Proof.
  revert s f. induction l as [|a l IH] using rev_ind; intros s f; [reflexivity|].
  rewrite app_length. cbn [length]. rewrite Nat.add_1_r, seq_S, !rev_app_distr. cbn [rev app for_each Nat.add].
  unfold get at 1. rewrite nth_error_app2, Nat.sub_diag by lia. cbn [nth_error bind]. destruct (f s a) as [s'|]; cbn [bind]; [|reflexivity].
  rewrite <- IH. apply for_each_ext. intros r i Hi. apply in_rev, in_seq in Hi. unfold get. rewrite nth_error_app1 by lia. reflexivity.
Qed.
Lemma rev_get2 {A C S} (l : list A) (l' : list C) (f : S -> A -> C -> option S) s : length l = length l' ->
  for_each (rev (seq 0 (length l))) (fun s i => let? a := get l i in let? b := get l' i in f s a b) s =
  for_each (rev (combine l l')) (fun s '(a, b) => f s a b) s.
Proof.
  intros E. assert (H := rev_get (combine l l') (fun s '(a, b) => f s a b) s). rewrite combine_length, <- E, Nat.min_id in H. rewrite <- H.
  clear H. apply for_each_ext. intros r i Hi. apply in_rev, in_seq in Hi. unfold get.
  destruct (nth_error l i) as [a|] eqn:Ea; [|apply nth_error_None in Ea; lia]. destruct (nth_error l' i) as [c|] eqn:Ec; [|apply nth_error_None in Ec; lia].
  assert (Ecb : nth_error (combine l l') i = Some (a, c)).
  { clear Hi E. revert l' i Ea Ec. induction l as [|x l IH]; intros [|y l'] [|i] Ea Ec; cbn in *; try discriminate; [congruence|]. apply IH; assumption. }
  rewrite Ecb. reflexivity.
Qed.

Section Mul.
Context {F : Type} (o : ops F) (L : lawful o) (b : F).
Hypothesis Sm : smooth o (f1 o) b.
Local Notation on := (on_curve o (f1 o) b).
Local Notation neg := (opposite o).
Local Notation "p ⊕ q" := (padd o (f1 o) p q) (at level 50, left associativity).
Local Notation aff := (a_from_jacobian o).
Local Notation nm := (nmul o (f1 o)). Local Notation zm := (zmul o (f1 o)).
Let Two := sm_two _ _ _ Sm.

(** *** Double-and-add *)
Section Generic.
Context {A : Type} (V : A -> affine F) (double : A -> option A) (add : A -> A -> option A) (zero : A).
Hypothesis Hd : forall r, exists r', double r = Some r' /\ V r' = V r ⊕ V r.
Hypothesis Ha : forall r q, exists r', add r q = Some r' /\ V r' = V r ⊕ V q.
Hypothesis Hz : V zero = AZero.

Lemma double_add_loop p bits k r : wf bits -> on (V p) -> V r = zm (val bits / 2 ^ Z.of_nat k) (V p) ->
  exists r', for_each (rev (map (fun i => Z.of_nat i) (seq 0 k))) (fun r i =>
      let? r := double r in if u_bit bits i then add r p else Some r) r = Some r' /\ V r' = zm (val bits) (V p).
Proof.
  intros Wb Op. revert r. induction k as [|k IH]; intros r E.
  - exists r. split; [reflexivity|]. rewrite E. f_equal. apply Z.div_1_r.
  - rewrite seq_S, map_app, rev_app_distr. cbn [map rev app for_each Nat.add].
    destruct (Hd r) as (r1 & -> & E1). cbn [bind]. rewrite (u_bit_spec bits _ Wb) by lia.
    assert (Ev : val bits / 2 ^ Z.of_nat k = 2 * (val bits / 2 ^ Z.of_nat (S k)) + (if Z.testbit (val bits) (Z.of_nat k) then 1 else 0)).
    { rewrite Nat2Z.inj_succ, Z.pow_succ_r by lia. rewrite (Z.mul_comm 2 (2 ^ Z.of_nat k)), <- Z.div_div by (first [lia | apply Z.pow_nonzero; lia]).
      pose proof (Z.testbit_spec' (val bits) (Z.of_nat k) ltac:(lia)) as Tb. unfold Z.b2z in Tb. rewrite Tb. apply Z.div_mod. lia. }
    assert (Ed : V r1 = zm (2 * (val bits / 2 ^ Z.of_nat (S k))) (V p)).
    { rewrite E1, E, <- zmul_add with (b := b) by assumption. f_equal. lia. }
    destruct (Z.testbit (val bits) (Z.of_nat k)).
    + destruct (Ha r1 p) as (r2 & -> & E2). cbn [bind]. apply IH. rewrite E2, Ed, Ev, zmul_add with (b := b) by assumption. rewrite zmul_1. reflexivity.
    + cbn [bind]. apply IH. rewrite Ed, Ev. f_equal. lia.
Qed.
Lemma op_mul_spec p bits : wf bits -> on (V p) -> exists r, op_mul double add zero p bits = Some r /\ V r = zm (val bits) (V p).
Proof.
  intros Wb Op. unfold op_mul, u_most_significant_bit. pose proof (u_leading_zeros_spec bits Wb) as Lz. pose proof (val_range bits Wb) as Rv.
  destruct (Z.eq_dec (val bits) 0) as [E|N].
  - rewrite E in Lz. destruct (Z.eqb_spec 0 0); [|congruence]. rewrite Lz. exists zero. split; [reflexivity|]. rewrite E, Hz. reflexivity.
  - destruct (Z.eqb_spec (val bits) 0); [contradiction|]. pose proof (Z.log2_nonneg (val bits)). pose proof (Z.log2_spec (val bits) ltac:(lia)) as Ls.
    rewrite Lz. destruct (Z.leb_spec (255 - Z.log2 (val bits)) (256 - 1)); [|lia]. replace (256 - 1 - (255 - Z.log2 (val bits))) with (Z.log2 (val bits)) by ring.
    unfold rev_range, range. rewrite Z.sub_0_r. rewrite (map_ext _ (fun i => Z.of_nat i)) by (intros; lia).
    apply double_add_loop; try assumption. rewrite Z2Nat.id by lia. transitivity (zm 1 (V p)); [symmetry; apply zmul_1|]. f_equal.
    symmetry. rewrite Z.pow_succ_r in Ls by lia. symmetry. pose proof (Z.pow_pos_nonneg 2 (Z.log2 (val bits)) ltac:(lia) ltac:(lia)).
    apply Z.div_unique with (r := val bits - 2 ^ Z.log2 (val bits)); lia.
Qed.
End Generic.

Lemma a_mul_spec p bits : wf bits -> on p -> a_mul o p bits = Some (zm (val bits) p).
Proof.
  intros Wb Op. unfold a_mul. destruct (op_mul_spec (fun p => p) (a_double o) (a_add o) AZero
    (fun r => ex_intro _ _ (conj (a_double_eq o L Two r) eq_refl)) (fun r q => ex_intro _ _ (conj (a_add_eq o L Two r q) eq_refl)) eq_refl p bits Wb Op) as (r & E & Er).
  rewrite <- Er. exact E.
Qed.
Lemma j_mul_spec p bits : wf bits -> on (aff p) -> exists r, j_mul o p bits = Some r /\ aff r = zm (val bits) (aff p).
Proof.
  intros Wb Op. apply op_mul_spec; try assumption.
  - intros r. eexists. split; [reflexivity|apply (aff_double o L Two)].
  - intros r q. eexists. split; [reflexivity|apply (aff_add o L Two)].
  - apply (aff_zero o L).
Qed.

(** *** Tables of odd multiples *)
Lemma table_from_spec {A} (V : A -> affine F) add (p : affine F) (Ha : forall r q, exists r', add r q = Some r' /\ V r' = V r ⊕ V q) p2 n : on p ->
  V p2 = zm 2 p -> forall prev c, V prev = zm c p ->
  exists t, table_from add p2 prev n = Some t /\ length t = n /\ forall i, (i < n)%nat -> exists x, get t i = Some x /\ V x = zm (c + 2 * Z.of_nat i + 2) p.
Proof.
  intros Op E2. induction n as [|n IH]; intros prev c E; cbn [table_from].
  - exists []. repeat split. intros i Hi. lia.
  - destruct (Ha prev p2) as (x & -> & Ex). cbn [bind]. rewrite E, E2, <- zmul_add with (b := b) in Ex by assumption.
    destruct (IH x (c + 2) Ex) as (t & -> & Lt & Ht). cbn [bind]. exists (x :: t). split; [reflexivity|]. split; [cbn; congruence|].
    intros [|i] Hi.
    + exists x. split; [reflexivity|]. rewrite Ex. f_equal. lia.
    + destruct (Ht i ltac:(lia)) as (y & G & Ey). exists y. split; [exact G|]. rewrite Ey. f_equal. lia.
Qed.
Definition odd_table {A} (V : A -> affine F) (p : affine F) (n : nat) (t : list A) : Prop :=
  length t = n /\ forall i, (i < n)%nat -> exists x, get t i = Some x /\ V x = zm (2 * Z.of_nat i + 1) p.
Lemma zmul_2 p : on p -> p ⊕ p = zm 2 p.
Proof. intros Op. change 2 with (1 + 1). rewrite zmul_add with (b := b) by assumption. rewrite zmul_1. reflexivity. Qed.
Lemma window_table_spec p n : (0 < n)%nat -> on p -> exists t, window_table o p n = Some t /\ odd_table aff p n t.
Proof.
  intros Hn Op. destruct n as [|n]; [lia|]. cbn [window_table]. pose proof (aff_from o L p) as E.
  destruct (table_from_spec aff (fun a b => Some (j_add o a b)) p) with (p2 := j_double o (j_from_affine o p)) (n := n) (prev := j_from_affine o p) (c := 1) as (t & -> & Lt & Ht); try assumption.
  - intros r q. eexists. split; [reflexivity|apply (aff_add o L Two)].
  - rewrite (aff_double o L Two), E. apply zmul_2, Op.
  - rewrite E. symmetry. apply zmul_1.
  - cbn [bind]. eexists. split; [reflexivity|]. split; [cbn; congruence|]. intros [|i] Hi.
    + eexists. split; [reflexivity|]. rewrite E. symmetry. apply zmul_1.
    + destruct (Ht i ltac:(lia)) as (x & G & Ex). exists x. split; [exact G|]. rewrite Ex. f_equal. lia.
Qed.
Lemma window_table_affine_spec p n : (0 < n)%nat -> on p -> exists t, window_table_affine o p n = Some t /\ odd_table (fun x => x) p n t.
Proof.
  intros Hn Op. destruct n as [|n]; [lia|]. cbn [window_table_affine]. rewrite (a_double_eq o L Two). cbn [bind].
  destruct (table_from_spec (fun x => x) (a_add o) p) with (p2 := p ⊕ p) (n := n) (prev := p) (c := 1) as (t & -> & Lt & Ht); try assumption.
  - intros r q. eexists. split; [apply (a_add_eq o L Two)|reflexivity].
  - apply zmul_2, Op.
  - symmetry. apply zmul_1.
  - cbn [bind]. eexists. split; [reflexivity|]. split; [cbn; congruence|]. intros [|i] Hi.
    + eexists. split; [reflexivity|]. symmetry. apply zmul_1.
    + destruct (Ht i ltac:(lia)) as (x & G & Ex). exists x. split; [exact G|]. rewrite Ex. f_equal. lia.
Qed.

(** *** One digit *)
Lemma table_index d n : 0 < d -> Z.odd d = true -> d < 2 * Z.of_nat n -> (Z.to_nat (Z.shiftr d 1) < n)%nat /\ 2 * Z.of_nat (Z.to_nat (Z.shiftr d 1)) + 1 = d.
Proof.
  intros P O B. rewrite Z.shiftr_div_pow2 by lia. change (2 ^ 1) with 2. pose proof (Zdiv.Zdiv2_div d). pose proof (Z.div2_odd d) as E. rewrite O in E. cbn [Z.b2z] in E.
  rewrite <- Zdiv.Zdiv2_div. lia.
Qed.
Lemma digit_step_spec {T} (V : T -> affine F) add sub t p n r d (Hok : Prop) :
  (forall x, V x = zm d p \/ V x = zm (- d) p -> Hok -> aff (add r x) = aff r ⊕ V x /\ aff (sub r x) = aff r ⊕ neg (V x)) -> Hok ->
  on p -> odd_table V p n t -> (d <> 0 -> Z.odd d = true /\ Z.abs d < 2 * Z.of_nat n) ->
  exists r', digit_step add sub t r d = Some r' /\ aff r' = aff r ⊕ zm d p.
Proof.
  intros H Ho Op [Lt Ht] Hd. unfold digit_step. destruct (Z.ltb_spec 0 d) as [P|P].
  - destruct (Hd ltac:(lia)) as [O B]. destruct (table_index d n P O ltac:(lia)) as [Hi Ei]. destruct (Ht _ Hi) as (x & -> & Ex). cbn [bind].
    rewrite Ei in Ex. eexists. split; [reflexivity|]. rewrite <- Ex. apply (H x (or_introl Ex) Ho).
  - destruct (Z.ltb_spec d 0) as [P2|P2].
    + destruct (Hd ltac:(lia)) as [O B]. destruct (table_index (- d) n ltac:(lia)) as [Hi Ei]; [rewrite Z.odd_opp; exact O|lia|]. destruct (Ht _ Hi) as (x & -> & Ex). cbn [bind].
      rewrite Ei in Ex. eexists. split; [reflexivity|]. rewrite (proj2 (H x (or_intror Ex) Ho)), Ex, (zmul_opp o L), (neg_neg o L). reflexivity.
    + replace d with 0 by lia. exists r. split; [reflexivity|]. symmetry. apply add_0_r.
Qed.
Definition digits_ok (n : nat) (l : list Z) : Prop := forall d, In d l -> d <> 0 -> Z.odd d = true /\ Z.abs d < 2 * Z.of_nat n.
Lemma wnaf_digits_ok w k l : wnaf_form w k l -> 1 < w -> forall n, Z.of_nat n = 2 ^ (w - 2) -> digits_ok n l.
Proof.
  intros Wf Hw n En d Hin Nd. apply (In_nth _ _ 0) in Hin as (i & Hi & <-). rewrite En. replace (2 * 2 ^ (w - 2)) with (2 ^ (w - 1)); [apply (wnaf_digit _ _ _ Wf _ Nd)|].
  rewrite <- Z.pow_succ_r by lia. f_equal. lia.
Qed.

(** *** wnaf::mul *)
Lemma j_digit p n t r d : on p -> odd_table aff p n t -> (d <> 0 -> Z.odd d = true /\ Z.abs d < 2 * Z.of_nat n) ->
  exists r', digit_step (j_add o) (j_sub o) t r d = Some r' /\ aff r' = aff r ⊕ zm d p.
Proof.
  intros Op Ht Hd. apply (digit_step_spec aff (j_add o) (j_sub o) t p n r d True); try assumption; [|exact I].
  intros x _ _. split; [apply (aff_add o L Two)|apply (aff_sub o L Two)].
Qed.
Lemma naf_run p n t l : on p -> odd_table aff p n t -> digits_ok n l ->
  exists r, for_each (rev l) (fun r d => digit_step (j_add o) (j_sub o) t (j_double o r) d) (j_zero o) = Some r /\ aff r = zm (digits_value l) p.
Proof.
  intros Op Ht. induction l as [|d l IH]; intros Hd.
  - exists (j_zero o). split; [reflexivity|]. apply (aff_zero o L).
  - destruct IH as (r & E & Er); [intros x Hx; apply Hd; right; exact Hx|]. cbn [rev]. rewrite for_each_app, E. cbn [bind for_each].
    destruct (j_digit p n t (j_double o r) d Op Ht) as (r' & -> & E'); [apply Hd; left; reflexivity|]. cbn [bind]. exists r'. split; [reflexivity|].
    rewrite E', (aff_double o L Two), Er. cbn [digits_value]. rewrite Z.add_comm, zmul_add with (b := b) by assumption. f_equal.
    rewrite <- zmul_add with (b := b) by assumption. f_equal. lia.
Qed.
Lemma wnaf_mul_spec p k : wf k -> on p -> exists r, wnaf_mul o p k = Some r /\ aff r = zm (val k) p.
Proof.
  intros Wk Op. unfold wnaf_mul. destruct (window_table_spec p 8 ltac:(lia) Op) as (t & -> & Ht). cbn [bind].
  destruct (naf_spec k 5 Wk ltac:(lia)) as (l & -> & Ll & Wf). cbn [bind].
  rewrite (rev_get l (fun r d => digit_step (j_add o) (j_sub o) t (j_double o r) d)).
  rewrite <- (wnaf_value _ _ _ Wf). apply naf_run with (n := 8%nat); try assumption. apply (wnaf_digits_ok 5 _ _ Wf); [lia|reflexivity].
Qed.

(** *** batch_convert *)
Lemma bc_snoc acc js j : bc_products o acc (js ++ [j]) = (fst (bc_products o acc js) ++ [snd (bc_products o acc js)], fmul o (snd (bc_products o acc js)) (jz j)).
Proof.
  revert acc. induction js as [|i js IH]; intros acc; [reflexivity|]. cbn [app bc_products]. rewrite IH.
  destruct (bc_products o (fmul o acc (jz i)) js) as [vals last]. reflexivity.
Qed.
Lemma bc_length acc js : length (fst (bc_products o acc js)) = length js.
Proof. revert acc. induction js as [|j js IH]; intros acc; [reflexivity|]. cbn [bc_products]. specialize (IH (fmul o acc (jz j))). destruct (bc_products o _ js). cbn in *. congruence. Qed.
Lemma combine_snoc {A C} (l : list A) (l' : list C) x y : length l = length l' -> combine (l ++ [x]) (l' ++ [y]) = combine l l' ++ [(x, y)].
Proof. revert l'. induction l as [|a l IH]; intros [|c l'] E; cbn in *; try discriminate; [reflexivity|]. rewrite IH by congruence. reflexivity. Qed.
Add Field Ffield : (law_field o L).
Lemma bc_back_spec js : (forall j, In j js -> jz j <> f0 o) -> forall acc, fmul o acc (snd (bc_products o (f1 o) js)) = f1 o ->
  bc_back o acc (rev (combine js (fst (bc_products o (f1 o) js)))) = rev (map aff js).
Proof.
  induction js as [|j js IH] using rev_ind; intros Hz acc E; [reflexivity|]. rewrite bc_snoc in *. cbn [fst snd] in *.
  rewrite combine_snoc by (rewrite bc_length; reflexivity). rewrite map_app, !rev_app_distr. cbn [rev app map bc_back].
  set (last := snd (bc_products o (f1 o) js)) in *. assert (Nz : jz j <> f0 o) by (apply Hz, in_or_app; right; left; reflexivity).
  assert (Ei : fmul o acc last = finv o (jz j)). { apply (finv_unique o L). rewrite <- E. ring. }
  f_equal.
  - unfold a_from_jacobian. rewrite (inv_opt_ne o L) by exact Nz. rewrite Ei. reflexivity.
  - apply IH; [intros i Hi; apply Hz, in_or_app; left; exact Hi|]. fold last. rewrite <- E. ring.
Qed.
Lemma bc_nonzero js : forall acc, acc <> f0 o -> (forall j, In j js -> jz j <> f0 o) -> snd (bc_products o acc js) <> f0 o.
Proof.
  induction js as [|j js IH]; intros acc Ha Hz; cbn [bc_products]; [exact Ha|].
  specialize (IH (fmul o acc (jz j)) (fmul_neq_0 o L _ _ Ha (Hz j (or_introl eq_refl))) (fun i Hi => Hz i (or_intror Hi))).
  destruct (bc_products o (fmul o acc (jz j)) js). exact IH.
Qed.
Lemma bc_zero js : forall acc, (acc = f0 o \/ exists j, In j js /\ jz j = f0 o) -> snd (bc_products o acc js) = f0 o.
Proof.
  induction js as [|j js IH]; intros acc H; cbn [bc_products].
  - destruct H as [H|(j & [] & _)]. exact H.
  - specialize (IH (fmul o acc (jz j))). destruct (bc_products o (fmul o acc (jz j)) js). apply IH.
    destruct H as [->|(i & [->|Hi] & Ei)]; [left; ring|left; rewrite Ei; ring|right; exists i; auto].
Qed.
Lemma batch_convert_spec js : (forall j, In j js -> aff j <> AZero) -> batch_convert o js = Some (map aff js).
Proof.
  intros H. assert (Hz : forall j, In j js -> jz j <> f0 o).
  { intros [x y z] Hj E. apply (H _ Hj). cbn in E. rewrite E. apply (aff_zero o L). }
  unfold batch_convert. pose proof (bc_nonzero js (f1 o) (F_1_neq_0 (law_field o L)) Hz) as N. pose proof (bc_back_spec js Hz) as Bk.
  destruct (bc_products o (f1 o) js) as [vals last]. cbn [fst snd] in *. rewrite (inv_opt_ne o L) by exact N. cbn [bind]. rewrite Bk by (apply (finv_l o L); exact N).
  rewrite rev_involutive. reflexivity.
Qed.
Lemma batch_convert_zero js j : In j js -> aff j = AZero -> batch_convert o js = None.
Proof.
  intros Hj E. unfold batch_convert. pose proof (bc_zero js (f1 o)) as Z0. destruct (bc_products o (f1 o) js) as [vals last]. cbn [snd] in Z0.
  rewrite Z0; [rewrite (proj2 (inv_opt_none o L _) eq_refl); reflexivity|]. right. exists j. split; [exact Hj|].
  destruct (feq_dec o L (jz j) (f0 o)) as [|N]; [assumption|]. destruct j as [x y z]. rewrite (aff_point o L) in E by exact N. discriminate.
Qed.

(** *** base_mul: the mixed addition is exact unless the x coordinates coincide *)
Definition clash (p q : affine F) : Prop := p <> AZero /\ q <> AZero /\ x_of p = x_of q.
Lemma x_of_neg p : x_of (neg p) = x_of p. Proof. destruct p; reflexivity. Qed.
Lemma neg_zero_iff p : neg p = AZero <-> p = AZero. Proof. destruct p; cbn; split; congruence. Qed.
Lemma affine_eq_dec (p q : affine F) : {p = q} + {p <> q}.
Proof. destruct p as [|x y], q as [|x' y']; try (right; congruence); [left; reflexivity|]. destruct (feq_dec o L x x'), (feq_dec o L y y'); first [left; congruence|right; congruence]. Qed.
Lemma clash_dec p q : {clash p q} + {~ clash p q}.
Proof.
  unfold clash. destruct p as [|x y]; [right; tauto|]. destruct q as [|x' y']; [right; tauto|]. cbn [x_of].
  destruct (feq_dec o L x x') as [->|N]; [left; repeat split; congruence|right; intros (_ & _ & E); congruence].
Qed.
Lemma no_clash p q : ~ clash p q -> p = AZero \/ q = AZero \/ x_of p <> x_of q.
Proof. intros H. destruct (affine_eq_dec p AZero); [auto|]. destruct (affine_eq_dec q AZero); [auto|]. right. right. intros E. apply H. repeat split; assumption. Qed.
Lemma a_digit p n t r d : on p -> odd_table (fun x => x) p n t -> (d <> 0 -> Z.odd d = true /\ Z.abs d < 2 * Z.of_nat n) ->
  (d <> 0 -> ~ clash (aff r) (zm d p)) ->
  exists r', digit_step (j_add_affine o) (j_sub_affine o) t r d = Some r' /\ aff r' = aff r ⊕ zm d p.
Proof.
  intros Op Ht Hd Hc. destruct (Z.eq_dec d 0) as [->|Nd]; [exists r; split; [reflexivity|symmetry; apply add_0_r]|].
  apply (digit_step_spec (fun x => x) (j_add_affine o) (j_sub_affine o) t p n r d True); try assumption; [|exact I].
  intros x Hx _. specialize (Hc Nd). assert (Cx : ~ clash (aff r) x).
  { destruct Hx as [->| ->]; [exact Hc|]. rewrite (zmul_opp o L). unfold clash in *. rewrite neg_zero_iff, x_of_neg. exact Hc. }
  split; [apply (aff_add_affine o L Two), no_clash; exact Cx|].
  unfold j_sub_affine. rewrite (a_neg_eq o x). apply (aff_add_affine o L Two), no_clash. unfold clash in *. rewrite neg_zero_iff, x_of_neg. exact Cx.
Qed.
(** no clash while the digits [l] (least significant first) are processed *)
Fixpoint clash_free (p : affine F) (l : list Z) : Prop :=
  match l with [] => True | d :: l => clash_free p l /\ (d <> 0 -> ~ clash (zm (2 * digits_value l) p) (zm d p)) end.
Lemma zmul_double p z : on p -> zm z p ⊕ zm z p = zm (2 * z) p.
Proof. intros Op. rewrite <- zmul_add with (b := b) by assumption. f_equal. lia. Qed.
Lemma base_run p n t l : on p -> odd_table (fun x => x) p n t -> digits_ok n l -> clash_free p l ->
  exists r, for_each (rev l) (fun r d => digit_step (j_add_affine o) (j_sub_affine o) t (j_double o r) d) (j_zero o) = Some r /\ aff r = zm (digits_value l) p.
Proof.
  intros Op Ht. induction l as [|d l IH]; intros Hd Hc.
  - exists (j_zero o). split; [reflexivity|]. apply (aff_zero o L).
  - destruct Hc as [Hc Hc1]. destruct IH as (r & E & Er); [intros x Hx; apply Hd; right; exact Hx|exact Hc|]. cbn [rev]. rewrite for_each_app, E. cbn [bind for_each].
    assert (E2 : aff (j_double o r) = zm (2 * digits_value l) p) by (rewrite (aff_double o L Two), Er; apply zmul_double; exact Op).
    destruct (a_digit p n t (j_double o r) d Op Ht) as (r' & -> & E'); [apply Hd; left; reflexivity|rewrite E2; exact Hc1|]. cbn [bind]. exists r'. split; [reflexivity|].
    rewrite E', E2. cbn [digits_value]. rewrite (Z.add_comm d), zmul_add with (b := b) by assumption. reflexivity.
Qed.

(** *** Points of prime order *)
Section Order.
Variables (p : affine F) (n : Z).
Hypothesis Op : on p.
Hypothesis Np : p <> AZero.
Hypothesis Pn : prime n.
Hypothesis On : zm n p = AZero.
Lemma n_pos : 1 < n. Proof. destruct Pn. lia. Qed.
Lemma zmul_n_mul z : zm (z * n) p = AZero.
Proof. rewrite zmul_mul with (b := b) by assumption. rewrite On. destruct z; cbn [zmul]; rewrite ?nmul_zero; reflexivity. Qed.
Lemma zmul_zero z : zm z p = AZero <-> (n | z).
Proof.
  split; [|intros [k ->]; apply zmul_n_mul]. intros E. destruct (Zdivide_dec n z) as [|N]; [assumption|]. exfalso. apply Np.
  assert (R : rel_prime n z) by (apply prime_rel_prime; assumption). destruct (rel_prime_bezout _ _ R) as [u v Huv].
  rewrite <- (zmul_1 o (f1 o) p), <- Huv, zmul_add with (b := b), zmul_n_mul by assumption. rewrite zmul_mul with (b := b), E by assumption.
  destruct v; cbn [zmul]; rewrite ?nmul_zero; reflexivity.
Qed.
Lemma zmul_eq z z' : zm z p = zm z' p <-> (n | z - z').
Proof.
  rewrite <- zmul_zero. replace (z - z') with (z + - z') by ring. rewrite zmul_add with (b := b) by assumption. rewrite (zmul_opp o L). split.
  - intros ->. apply (add_opp o L _ _ Sm).
  - intros E. assert (O1 : on (zm z p)) by (apply zmul_on; assumption). assert (O2 : on (zm z' p)) by (apply zmul_on; assumption).
    assert (E1 : zm z p ⊕ neg (zm z' p) ⊕ zm z' p = zm z' p) by (rewrite E; reflexivity).
    rewrite (add_assoc o L _ _ Sm), (add_opp_l o L _ _ Sm), add_0_r in E1 by (first [assumption | apply (neg_on o L); assumption]). exact E1.
Qed.
Lemma clash_iff z z' : clash (zm z p) (zm z' p) <-> ~ (n | z) /\ ~ (n | z') /\ ((n | z - z') \/ (n | z + z')).
Proof.
  unfold clash. rewrite !zmul_zero. assert (X : x_of (zm z p) = x_of (zm z' p) <-> zm z p = zm z' p \/ zm z p = zm (- z') p \/ (zm z p = AZero /\ zm z' p = AZero)).
  { rewrite (zmul_opp o L). pose proof (zmul_on o L _ _ Sm z p Op) as O1. pose proof (zmul_on o L _ _ Sm z' p Op) as O2.
    destruct (zm z p) as [|x y], (zm z' p) as [|x' y']; cbn [x_of opposite].
    - tauto. - split; [discriminate|]. intros [H|[H|[_ H]]]; discriminate. - split; [discriminate|]. intros [H|[H|[H _]]]; discriminate.
    - split; [|intros [H|[H|[H _]]]; congruence]. intros [= <-]. destruct (same_x o L _ _ _ _ _ O1 O2) as [<-| ->]; [left; reflexivity|].
      right. left. f_equal. ring. }
  rewrite X, !zmul_eq, Z.sub_opp_r, !zmul_zero. tauto.
Qed.

Lemma digits_range m l : (forall d, In d l -> Z.abs d <= m) -> Z.abs (digits_value l) <= m * (2 ^ Z.of_nat (length l) - 1).
Proof.
  induction l as [|d l IH]; intros H; [cbn; lia|]. cbn [digits_value length]. rewrite Nat2Z.inj_succ, Z.pow_succ_r by lia.
  specialize (IH (fun x Hx => H x (or_intror Hx))). specialize (H d (or_introl eq_refl)). lia.
Qed.
Lemma digits_app l l' : digits_value (l ++ l') = digits_value l + 2 ^ Z.of_nat (length l) * digits_value l'.
Proof. induction l as [|d l IH]; [cbn [app digits_value length]; change (2 ^ Z.of_nat 0) with 1; lia|]. cbn [app digits_value length]. rewrite IH, Nat2Z.inj_succ, Z.pow_succ_r by lia. ring. Qed.
(** The accumulator before a non-zero digit is a multiple of 2^w. *)
Lemma wnaf_high w k l1 d l2 : wnaf_form w k (l1 ++ d :: l2) -> 1 <= w -> d <> 0 -> exists c, 2 * digits_value l2 = c * 2 ^ w.
Proof.
  intros Wf Hw Nd. assert (Z1 : forall j, Z.of_nat j < w - 1 -> nth j l2 0 = 0).
  { intros j Hj. destruct (Z.eq_dec (nth j l2 0) 0) as [|N]; [assumption|]. exfalso.
    pose proof (wnaf_sparse _ _ _ Wf (length l1) (length l1 + S j)%nat ltac:(lia)) as Sp. rewrite !app_nth2 in Sp by lia. rewrite Nat.sub_diag in Sp.
    replace (length l1 + S j - length l1)%nat with (S j) in Sp by lia. cbn [nth] in Sp. specialize (Sp Nd N). lia. }
  assert (K : forall m l, (forall j, (j < m)%nat -> nth j l 0 = 0) -> exists c, digits_value l = c * 2 ^ Z.of_nat m).
  { clear. induction m as [|m IH]; intros l H; [exists (digits_value l); rewrite Z.pow_0_r; ring|]. destruct l as [|x l]; [exists 0; reflexivity|].
    destruct (IH l) as [c Ec]; [intros j Hj; apply (H (S j)); lia|]. exists c. cbn [digits_value]. rewrite Ec, (H 0%nat ltac:(lia) : x = 0), Nat2Z.inj_succ, Z.pow_succ_r by lia. ring. }
  destruct (K (Z.to_nat (w - 1)) l2) as [c Ec]; [intros j Hj; apply Z1; lia|]. exists c. rewrite Ec, Z2Nat.id by lia.
  replace w with (Z.succ (w - 1)) at 2 by lia. rewrite Z.pow_succ_r by lia. ring.
Qed.
(** Only the last digit can clash. *)
Lemma base_safe k l1 d l2 : wnaf_form 7 k (l1 ++ d :: l2) -> 0 <= k < n -> 1000 < n -> d <> 0 ->
  clash (zm (2 * digits_value l2) p) (zm d p) -> l1 = [] /\ k = n + 2 * d.
Proof.
  intros Wf Hk Hn Nd Cl. apply clash_iff in Cl as (_ & _ & Cl).
  destruct (wnaf_high _ _ _ _ _ Wf ltac:(lia) Nd) as [c Ec]. change (2 ^ 7) with 128 in Ec.
  assert (Dg : forall x, In x (l1 ++ d :: l2) -> Z.abs x <= 63).
  { intros x Hx. apply (In_nth _ _ 0) in Hx as (i & Hi & <-). destruct (Z.eq_dec (nth i (l1 ++ d :: l2) 0) 0) as [->|N]; [cbn; lia|].
    pose proof (proj2 (wnaf_digit _ _ _ Wf i N)) as H. change (2 ^ (7 - 1)) with 64 in H. lia. }
  assert (Od : Z.odd d = true). { pose proof (wnaf_digit _ _ _ Wf (length l1)) as H. rewrite app_nth2, Nat.sub_diag in H by lia. apply (H Nd). }
  assert (Ad : Z.abs d <= 63) by (apply Dg, in_or_app; right; left; reflexivity).
  pose proof (digits_range 63 l1 (fun x Hx => Dg x (in_or_app _ _ _ (or_introl Hx)))) as Lo.
  pose proof (wnaf_value _ _ _ Wf) as V. rewrite digits_app in V. cbn [digits_value] in V. rewrite Ec in *.
  assert (Nz : c * 128 - d <> 0 /\ c * 128 + d <> 0). { split; intros E; assert (Ed : d = 2 * (c * 64) \/ d = 2 * (- c * 64)) by lia; destruct Ed as [-> | ->]; rewrite Z.odd_mul in Od; discriminate. }
  set (m := d + c * 128) in *. set (P := 2 ^ Z.of_nat (length l1)) in *.
  destruct l1 as [|x l1].
  - split; [reflexivity|]. cbn [digits_value length] in V. change P with 1 in V. assert (m = k) by lia.
    destruct Cl as [[q Eq]|[q Eq]].
    + assert (q = 1 \/ q = 0 \/ q <= -1 \/ 2 <= q) as [->|[->|[Q|Q]]] by lia; nia.
    + assert (q = 0 \/ q <= -1 \/ 1 <= q) as [->|[Q|Q]] by lia; nia.
  - exfalso. assert (P2 : 2 <= P). { unfold P. cbn [length]. rewrite Nat2Z.inj_succ, Z.pow_succ_r by lia. pose proof (Z.pow_pos_nonneg 2 (Z.of_nat (length l1)) ltac:(lia) ltac:(lia)). lia. }
    assert (Hm : - 63 <= m /\ 2 * m <= n + 126).
    { split; [nia|]. assert (P * m <= k + 63 * P) by lia. assert (P * (m - 63) < n) by lia. destruct (Z_le_gt_dec m 63); nia. }
    destruct Cl as [[q Eq]|[q Eq]]; (assert (q = 0 \/ q <= -1 \/ 1 <= q) as [->|[Q|Q]] by lia); nia.
Qed.
Lemma base_clash_free k l : wnaf_form 7 k l -> 0 <= k < n -> 1000 < n -> (forall d, Z.odd d = true -> Z.abs d < 64 -> k = n + 2 * d -> (128 | n + d) -> False) ->
  clash_free p l.
Proof.
  intros Wf Hk Hn Hex. assert (K : forall l2 l1, l = l1 ++ l2 -> clash_free p l2).
  { induction l2 as [|d l2 IH]; intros l1 E; [exact I|]. split.
    - apply (IH (l1 ++ [d])). rewrite <- app_assoc. exact E.
    - intros Nd Cl. rewrite E in Wf. destruct (base_safe _ _ _ _ Wf Hk Hn Nd Cl) as [-> Ek]. cbn [app] in Wf.
      destruct (wnaf_digit _ _ _ Wf 0%nat Nd) as [O A]. cbn [nth] in *. apply (Hex d O A Ek).
      destruct (wnaf_high 7 k [] d l2 Wf ltac:(lia) Nd) as [c Ec]. pose proof (wnaf_value _ _ _ Wf) as V. cbn [digits_value] in V. exists (c - 0). change (2 ^ 7) with 128 in Ec. lia. }
  apply (K l []). reflexivity.
Qed.
(** [base_mul] with the table of odd multiples of a point of prime order [n] computes the multiple
    for every scalar below [n], except possibly n - 2 (n mod 128) when that residue is below 64, or
    n - 2 (n mod 128 - 128) -> above n otherwise. *)
Lemma base_mul_spec t k : wf k -> 0 <= val k < n -> 1000 < n -> odd_table (fun x => x) p 32 t -> val k <> n - 2 * (n mod 128) ->
  exists r, base_mul o t k = Some r /\ aff r = zm (val k) p.
Proof.
  intros Wk Hk Hn Ht Nk. unfold base_mul. destruct (naf_spec k 7 Wk ltac:(lia)) as (l & -> & Ll & Wf). cbn [bind].
  rewrite (rev_get l (fun r d => digit_step (j_add_affine o) (j_sub_affine o) t (j_double o r) d)).
  rewrite <- (wnaf_value _ _ _ Wf). apply base_run with (n := 32%nat); try assumption; [apply (wnaf_digits_ok 7 _ _ Wf); [lia|reflexivity]|].
  apply (base_clash_free (val k)); try assumption. intros d O A Ek [c Ec]. apply Nk. rewrite Ek.
  assert (d < 0) by lia. assert (n mod 128 = - d); [|lia]. symmetry. apply Z.mod_unique_pos with (q := c); lia.
Qed.
End Order.

(** *** double_base_mul *)
Fixpoint clash_free2 (p q : affine F) (l : list (Z * Z)) : Prop :=
  match l with
  | [] => True
  | (d, e) :: l => clash_free2 p q l /\
      let acc := zm (2 * digits_value (map fst l)) p ⊕ zm (2 * digits_value (map snd l)) q in
      (d <> 0 -> ~ clash acc (zm d p)) /\ (e <> 0 -> ~ clash (acc ⊕ zm d p) (zm e q))
  end.
Lemma double_base_run p q n m t u l : on p -> on q -> odd_table (fun x => x) p n t -> odd_table (fun x => x) q m u ->
  digits_ok n (map fst l) -> digits_ok m (map snd l) -> clash_free2 p q l ->
  exists r, for_each (rev l) (fun r '(d, e) => let? r := digit_step (j_add_affine o) (j_sub_affine o) t (j_double o r) d in
      digit_step (j_add_affine o) (j_sub_affine o) u r e) (j_zero o) = Some r /\
    aff r = zm (digits_value (map fst l)) p ⊕ zm (digits_value (map snd l)) q.
Proof.
  intros Op Oq Ht Hu. induction l as [|[d e] l IH]; intros Hd He Hc.
  - exists (j_zero o). split; [reflexivity|]. apply (aff_zero o L).
  - destruct Hc as [Hc [Hc1 Hc2]]. cbn [map fst snd] in *.
    destruct IH as (r & E & Er); [intros x Hx; apply Hd; right; exact Hx|intros x Hx; apply He; right; exact Hx|exact Hc|]. cbn [rev]. rewrite for_each_app, E. cbn [bind for_each].
    set (x := digits_value (map fst l)) in *. set (y := digits_value (map snd l)) in *.
    assert (Ox : forall z, on (zm z p)) by (intros z; apply zmul_on; assumption). assert (Oy : forall z, on (zm z q)) by (intros z; apply zmul_on; assumption).
    assert (E2 : aff (j_double o r) = zm (2 * x) p ⊕ zm (2 * y) q).
    { rewrite (aff_double o L Two), Er. rewrite <- !zmul_double by assumption.
      rewrite !(add_assoc o L _ _ Sm) by (repeat apply add_on; auto). f_equal. rewrite <- !(add_assoc o L _ _ Sm) by auto. f_equal. apply (add_comm o L _ _ Sm); auto. }
    destruct (a_digit p n t (j_double o r) d Op Ht) as (r' & -> & E'); [apply Hd; left; reflexivity|rewrite E2; exact Hc1|]. cbn [bind]. rewrite E2 in E'.
    destruct (a_digit q m u r' e Oq Hu) as (r'' & -> & E''); [apply He; left; reflexivity|rewrite E'; exact Hc2|]. cbn [bind]. exists r''. split; [reflexivity|].
    rewrite E'', E'. cbn [digits_value]. fold x y. rewrite (Z.add_comm d), (Z.add_comm e), !zmul_add with (b := b) by assumption.
    rewrite !(add_assoc o L _ _ Sm) by (repeat apply add_on; auto). f_equal. rewrite <- !(add_assoc o L _ _ Sm) by auto. f_equal. apply (add_comm o L _ _ Sm); auto.
Qed.
Lemma map_fst_combine {A C} (l : list A) (l' : list C) : length l = length l' -> map fst (combine l l') = l.
Proof. revert l'. induction l as [|a l IH]; intros [|c l'] E; cbn in *; try discriminate; [reflexivity|]. rewrite IH by congruence. reflexivity. Qed.
Lemma map_snd_combine {A C} (l : list A) (l' : list C) : length l = length l' -> map snd (combine l l') = l'.
Proof. revert l'. induction l as [|a l IH]; intros [|c l'] E; cbn in *; try discriminate; [reflexivity|]. rewrite IH by congruence. reflexivity. Qed.
Lemma double_base_mul_run q t k h da db : on q -> wf k -> wf h ->
  (forall i, (i < 8)%nat -> zm (2 * Z.of_nat i + 1) q <> AZero) ->
  non_adjacent_form k 7 = Some da -> non_adjacent_form h 5 = Some db ->
  exists u, odd_table (fun x => x) q 8 u /\ digits_ok 32 (map fst (combine da db)) /\ digits_ok 8 (map snd (combine da db)) /\
    digits_value (map fst (combine da db)) = val k /\ digits_value (map snd (combine da db)) = val h /\
    double_base_mul o t k q h = for_each (rev (combine da db)) (fun r '(d, e) => let? r := digit_step (j_add_affine o) (j_sub_affine o) t (j_double o r) d in
      digit_step (j_add_affine o) (j_sub_affine o) u r e) (j_zero o).
Proof.
  intros Oq Wk Wh Hq Ea Eb. unfold double_base_mul. destruct (window_table_spec q 8 ltac:(lia) Oq) as (u & -> & Lu & Hu). cbn [bind].
  rewrite batch_convert_spec.
  2:{ intros j Hj. apply In_nth_error in Hj as (i & Ei). assert (Hi : (i < 8)%nat) by (rewrite <- Lu; apply nth_error_Some; congruence).
      destruct (Hu i Hi) as (x & G & Ex). unfold get in G. assert (x = j) by congruence. subst x. rewrite Ex. apply Hq, Hi. }
  cbn [bind]. rewrite Ea, Eb. cbn [bind].
  destruct (naf_spec k 7 Wk ltac:(lia)) as (l & E1 & Ll & Wf). assert (l = da) by congruence. subst l.
  destruct (naf_spec h 5 Wh ltac:(lia)) as (l & E2 & Ll' & Wf'). assert (l = db) by congruence. subst l.
  rewrite (rev_get2 da db (fun r d e => let? r := digit_step (j_add_affine o) (j_sub_affine o) t (j_double o r) d in
      digit_step (j_add_affine o) (j_sub_affine o) (map aff u) r e)) by congruence.
  exists (map aff u). rewrite !map_fst_combine, !map_snd_combine by congruence. split; [|split; [|split; [|split; [|split]]]].
  - split; [rewrite map_length; exact Lu|]. intros i Hi. destruct (Hu i Hi) as (x & G & Ex). exists (aff x). split; [|exact Ex]. unfold get in *. rewrite nth_error_map, G. reflexivity.
  - apply (wnaf_digits_ok 7 _ _ Wf); [lia|reflexivity].
  - apply (wnaf_digits_ok 5 _ _ Wf'); [lia|reflexivity].
  - apply (wnaf_value _ _ _ Wf).
  - apply (wnaf_value _ _ _ Wf').
  - reflexivity.
Qed.
Lemma double_base_mul_spec p q t k h da db : on p -> on q -> odd_table (fun x => x) p 32 t -> wf k -> wf h ->
  (forall i, (i < 8)%nat -> zm (2 * Z.of_nat i + 1) q <> AZero) ->
  non_adjacent_form k 7 = Some da -> non_adjacent_form h 5 = Some db -> clash_free2 p q (combine da db) ->
  exists r, double_base_mul o t k q h = Some r /\ aff r = zm (val k) p ⊕ zm (val h) q.
Proof.
  intros Op Oq Ht Wk Wh Hq Ea Eb Hc. destruct (double_base_mul_run q t k h da db Oq Wk Wh Hq Ea Eb) as (u & Hu & Da & Db & Va & Vb & ->).
  rewrite <- Va, <- Vb. exact (double_base_run p q 32 8 t u (combine da db) Op Oq Ht Hu Da Db Hc).
Qed.
Lemma double_base_mul_zero t k h : wf h -> double_base_mul o t k AZero h = None.
Proof.
  intros Wh. unfold double_base_mul. destruct (window_table_spec AZero 8 ltac:(lia) I) as (u & -> & Lu & Hu). cbn [bind].
  destruct (Hu 0%nat ltac:(lia)) as (x & G & Ex). rewrite (batch_convert_zero u x); [reflexivity| |].
  - apply (nth_error_In _ 0). exact G.
  - rewrite Ex. cbn [zmul]. apply nmul_zero.
Qed.
(** *** double_mul: the digits of [a] that line 174 makes it use *)
Definition used_digit (de : Z * Z) : Z := let '(d, e) := de in if 0 <? d then d else if e <? 0 then (if d =? 0 then -1 else d) else 0.
Lemma used_step p n t r d e : (0 < n)%nat -> on p -> odd_table aff p n t -> (d <> 0 -> Z.odd d = true /\ Z.abs d < 2 * Z.of_nat n) ->
  exists r', (if 0 <? d then let? t := get t (Z.to_nat (Z.shiftr d 1)) in Some (j_add o r t)
       else if e <? 0 then let? t := get t (Z.to_nat (Z.shiftr (- d) 1)) in Some (j_sub o r t)
       else Some r) = Some r' /\ aff r' = aff r ⊕ zm (used_digit (d, e)) p.
Proof.
  intros Hn Op Ht Hd. destruct (j_digit p n t r (used_digit (d, e)) Op Ht) as (r' & E & Er).
  { unfold used_digit. destruct (0 <? d); [exact Hd|]. destruct (e <? 0); [|intros C; congruence]. destruct (Z.eqb_spec d 0) as [->|]; [|exact Hd]. intros _. split; [reflexivity|]. change (Z.abs (-1)) with 1. lia. }
  exists r'. split; [|exact Er]. rewrite <- E. unfold digit_step, used_digit. destruct (Z.ltb_spec 0 d) as [P|P].
  - destruct (Z.ltb_spec 0 d); [reflexivity|lia].
  - destruct (e <? 0).
    + destruct (Z.eqb_spec d 0) as [->|N]; [reflexivity|]. destruct (Z.ltb_spec 0 d); [lia|]. destruct (Z.ltb_spec d 0); [reflexivity|lia].
    + reflexivity.
Qed.
Lemma double_mul_run p q n m t u l : (0 < n)%nat -> on p -> on q -> odd_table aff p n t -> odd_table aff q m u -> digits_ok n (map fst l) -> digits_ok m (map snd l) ->
  exists r, for_each (rev l) (fun r '(d, e) => let r := j_double o r in
      let? r := (if 0 <? d then let? t := get t (Z.to_nat (Z.shiftr d 1)) in Some (j_add o r t)
       else if e <? 0 then let? t := get t (Z.to_nat (Z.shiftr (- d) 1)) in Some (j_sub o r t)
       else Some r) in digit_step (j_add o) (j_sub o) u r e) (j_zero o) = Some r /\
    aff r = zm (digits_value (map used_digit l)) p ⊕ zm (digits_value (map snd l)) q.
Proof.
  intros Hn Op Oq Ht Hu. induction l as [|[d e] l IH]; intros Hd He.
  - exists (j_zero o). split; [reflexivity|]. apply (aff_zero o L).
  - cbn [map fst snd] in *. destruct IH as (r & E & Er); [intros x Hx; apply Hd; right; exact Hx|intros x Hx; apply He; right; exact Hx|]. cbn [rev]. rewrite for_each_app, E. cbn [bind for_each].
    set (x := digits_value (map used_digit l)) in *. set (y := digits_value (map snd l)) in *.
    assert (Ox : forall z, on (zm z p)) by (intros z; apply zmul_on; assumption). assert (Oy : forall z, on (zm z q)) by (intros z; apply zmul_on; assumption).
    assert (E2 : aff (j_double o r) = zm (2 * x) p ⊕ zm (2 * y) q).
    { rewrite (aff_double o L Two), Er. rewrite <- !zmul_double by assumption.
      rewrite !(add_assoc o L _ _ Sm) by (repeat apply add_on; auto). f_equal. rewrite <- !(add_assoc o L _ _ Sm) by auto. f_equal. apply (add_comm o L _ _ Sm); auto. }
    destruct (used_step p n t (j_double o r) d e Hn Op Ht) as (r' & -> & E'); [apply Hd; left; reflexivity|]. cbn [bind]. rewrite E2 in E'.
    destruct (j_digit q m u r' e Oq Hu) as (r'' & -> & E''); [apply He; left; reflexivity|]. cbn [bind]. exists r''. split; [reflexivity|].
    rewrite E'', E'. cbn [digits_value]. fold x y. rewrite (Z.add_comm (used_digit (d, e))), (Z.add_comm e), !zmul_add with (b := b) by assumption.
    rewrite !(add_assoc o L _ _ Sm) by (repeat apply add_on; auto). f_equal. rewrite <- !(add_assoc o L _ _ Sm) by auto. f_equal. apply (add_comm o L _ _ Sm); auto.
Qed.
Lemma double_mul_spec p q k h : wf k -> wf h -> on p -> on q -> exists da db, non_adjacent_form k 5 = Some da /\ non_adjacent_form h 5 = Some db /\
  exists r, double_mul o p k q h = Some r /\ aff r = zm (digits_value (map used_digit (combine da db))) p ⊕ zm (val h) q.
Proof.
  intros Wk Wh Op Oq. unfold double_mul. destruct (window_table_spec p 8 ltac:(lia) Op) as (t & -> & Ht). destruct (window_table_spec q 8 ltac:(lia) Oq) as (u & -> & Hu). cbn [bind].
  destruct (naf_spec k 5 Wk ltac:(lia)) as (da & -> & La & Wa). destruct (naf_spec h 5 Wh ltac:(lia)) as (db & -> & Lb & Wb). cbn [bind].
  exists da, db. split; [reflexivity|]. split; [reflexivity|].
  rewrite (rev_get2 da db (fun r d e => let r := j_double o r in let? r := (if 0 <? d then let? t := get t (Z.to_nat (Z.shiftr d 1)) in Some (j_add o r t)
       else if e <? 0 then let? t := get t (Z.to_nat (Z.shiftr (- d) 1)) in Some (j_sub o r t) else Some r) in digit_step (j_add o) (j_sub o) u r e)) by congruence.
  destruct (double_mul_run p q 8 8 t u (combine da db) ltac:(lia) Op Oq Ht Hu) as (r & -> & Er).
  - rewrite map_fst_combine by congruence. apply (wnaf_digits_ok 5 _ _ Wa); [lia|reflexivity].
  - rewrite map_snd_combine by congruence. apply (wnaf_digits_ok 5 _ _ Wb); [lia|reflexivity].
  - exists r. split; [reflexivity|]. rewrite Er, map_snd_combine, (wnaf_value _ _ _ Wb) by congruence. reflexivity.
Qed.
End Mul.
