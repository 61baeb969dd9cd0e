(** Proofs about the field algorithms. *)
Require Import ZArith NArith Lia Bool List Znumtheory Field Ring.
From Verif Require Import Word U256Model U256Spec U256Proofs MontgomeryModel MontgomeryProofs MontgomeryProps
  KnuthModel KnuthProofs DivisionProps BinaryModel BinaryProofs EncodingProofs NumberTheory Primes FieldSig FieldSpec FieldModel FieldProofs FieldInstance FieldAlgModel.
Import ListNotations.
Open Scope Z_scope.

Lemma usize_msb_spec e : 0 <= e < B -> usize_msb e = if e =? 0 then None else Some (Z.log2 e).
Proof.
  intros H. unfold usize_msb, clz64. destruct (Z.eqb_spec e 0) as [->|N]; [reflexivity|].
  pose proof (Z.log2_nonneg e). destruct (Z.leb_spec (63 - Z.log2 e) 63); [f_equal; lia|lia].
Qed.
Lemma usize_bit_spec e i : 0 <= i -> usize_bit e i = Z.testbit e i.
Proof. apply land1_testbit. Qed.
Lemma u_msb_spec e : wf e -> u_most_significant_bit e = if val e =? 0 then None else Some (Z.log2 (val e)).
Proof.
  intros H. unfold u_most_significant_bit. rewrite u_leading_zeros_spec by exact H. destruct (Z.eqb_spec (val e) 0); [reflexivity|].
  pose proof (Z.log2_nonneg (val e)). destruct (Z.leb_spec (255 - Z.log2 (val e)) (256 - 1)); [f_equal; lia|lia].
Qed.

Section Alg.
Context {F : Type} (o : ops F) (L : lawful o).
Declare Scope f_scope. Delimit Scope f_scope with f.
Notation "0" := (f0 o) : f_scope. Notation "1" := (f1 o) : f_scope.
Notation "x + y" := (fadd o x y) : f_scope. Notation "x - y" := (fsub o x y) : f_scope.
Notation "x * y" := (fmul o x y) : f_scope. Notation "- x" := (fneg o x) : f_scope.
Add Field Ffield : (law_field o L).

Lemma pow_fold a m bit e : 0 <= m -> 0 <= e -> (forall i, 0 <= i -> bit i = Z.testbit e i) ->
  forall k, (Z.of_nat k <= m + 1) ->
  fold_left (pow_step o m bit) (map Z.of_nat (seq 0 k)) (f1 o, a) =
  (fexp o a (Z.to_N (e mod 2 ^ Z.of_nat k)), fexp o a (Z.to_N (2 ^ Z.min (Z.of_nat k) m))).
Proof.
  intros Hm He Hb. induction k as [|k IH]; intros Hk.
  - cbn [map seq fold_left]. rewrite Z.pow_0_r, Z.mod_1_r. rewrite Z.min_l by (cbn; lia). cbn. f_equal. symmetry. apply (fexp_1 o L).
  - rewrite seq_S, map_app, fold_left_app, IH by lia. cbn [map seq fold_left Nat.add pow_step].
    rewrite Z.min_l by lia. set (kz := Z.of_nat k) in *. assert (Hkz : 0 <= kz) by lia.
    replace (Z.of_nat (S k)) with (kz + 1) by lia.
    pose proof (Z.mod_pos_bound e (2 ^ kz) ltac:(apply Z.pow_pos_nonneg; lia)).
    pose proof (Z.pow_pos_nonneg 2 kz ltac:(lia) Hkz) as Hp.
    assert (E : e mod 2 ^ (kz + 1) = e mod 2 ^ kz + 2 ^ kz * Z.b2z (Z.testbit e kz)).
    { rewrite Z.testbit_spec' by assumption. rewrite Z.pow_add_r, Z.pow_1_r by lia. apply Z.rem_mul_r; lia. }
    f_equal.
    + rewrite Hb by assumption. rewrite E. destruct (Z.testbit e kz); cbn [Z.b2z].
      * rewrite Z.mul_1_r, Z2N.inj_add by lia. symmetry. apply (fexp_add o L).
      * rewrite Z.mul_0_r, Z.add_0_r. reflexivity.
    + destruct (Z.ltb_spec kz m).
      * rewrite Z.min_l by lia. rewrite Z.pow_add_r, Z.pow_1_r by lia. rewrite Z.mul_comm, Z2N.inj_mul by lia.
        change (Z.to_N 2) with 2%N. symmetry. apply (fexp_double o L).
      * f_equal. f_equal. f_equal. lia.
Qed.

Lemma pow_gen_spec a e msb bit : 0 <= e -> msb = (if e =? 0 then None else Some (Z.log2 e)) ->
  (forall i, 0 <= i -> bit i = Z.testbit e i) -> pow_gen o a msb bit = fexp o a (Z.to_N e).
Proof.
  intros He -> Hb. destruct (Z.eqb_spec e 0) as [->|N]; [reflexivity|]. cbn [pow_gen].
  pose proof (Z.log2_nonneg e) as H0. unfold range_incl. rewrite (pow_fold a _ bit e) by (try lia; assumption). cbn [fst].
  f_equal. f_equal. apply Z.mod_small. split; [lia|]. pose proof (Z.log2_spec e ltac:(lia)).
  replace (Z.of_nat (S (Z.to_nat (Z.log2 e)))) with (Z.succ (Z.log2 e)) by lia. lia.
Qed.
Lemma pow_usize_spec a e : 0 <= e < B -> pow_usize o a e = fexp o a (Z.to_N e).
Proof. intros H. apply pow_gen_spec; [lia|apply usize_msb_spec; assumption|intros; apply usize_bit_spec; assumption]. Qed.
Lemma pow_u256_spec a e : wf e -> pow_u256 o a e = fexp o a (Z.to_N (val e)).
Proof. intros H. apply pow_gen_spec; [apply val_range; assumption|apply u_msb_spec; assumption|intros; apply u_bit_spec; assumption]. Qed.

(** ** Batch inversion *)
Lemma batch_forward_len l : forall acc, length (fst (batch_forward o acc l)) = length l.
Proof. induction l; intros acc; cbn [batch_forward]; [reflexivity|]. specialize (IHl (fmul o acc a)). destruct (batch_forward o (fmul o acc a) l). cbn in *. lia. Qed.
Lemma batch_forward_total l : forall acc, snd (batch_forward o acc l) = fmul o acc (fprod o l).
Proof.
  induction l; intros acc; cbn [batch_forward]; [cbn; ring|]. specialize (IHl (fmul o acc a)).
  destruct (batch_forward o (fmul o acc a) l). cbn [snd] in *. rewrite IHl, fprod_cons. ring.
Qed.
Lemma batch_forward_app l x : forall acc,
  fst (batch_forward o acc (l ++ [x])) = fst (batch_forward o acc l) ++ [fmul o acc (fprod o l)].
Proof.
  induction l; intros acc; cbn [app batch_forward].
  - cbn [fst app]. rewrite fprod_nil. f_equal. ring.
  - specialize (IHl (fmul o acc a)). destruct (batch_forward o (fmul o acc a) (l ++ [x])), (batch_forward o (fmul o acc a) l).
    cbn [fst] in *. rewrite IHl, fprod_cons. cbn [app]. do 3 f_equal. ring.
Qed.
Lemma combine_app {X Y} (a a' : list X) (b b' : list Y) : length a = length b -> combine (a ++ a') (b ++ b') = combine a b ++ combine a' b'.
Proof. revert b. induction a; intros [|y b] H; cbn in *; try lia; [reflexivity|]. rewrite IHa by lia. reflexivity. Qed.
Lemma batch_backward_spec l : (forall a, In a l -> a <> f0 o) -> 
  rev (batch_backward o (finv o (fprod o l)) (rev (combine l (fst (batch_forward o (f1 o) l))))) = map (finv o) l.
Proof.
  induction l as [|x l IH] using rev_ind; intros H; [reflexivity|].
  assert (Hx : x <> f0 o) by (apply H, in_or_app; right; left; reflexivity).
  assert (Hl : forall a, In a l -> a <> f0 o) by (intros; apply H, in_or_app; left; assumption).
  assert (Hp : fprod o l <> f0 o) by (apply (fprod_neq_0 o L); assumption).
  rewrite batch_forward_app, combine_app by (symmetry; apply batch_forward_len).
  cbn [combine]. rewrite rev_app_distr. cbn [rev app batch_backward].
  rewrite (fprod_app o L), fprod_cons, fprod_nil. replace (fmul o x (f1 o)) with x by ring.
  rewrite map_app. cbn [map]. f_equal.
  - rewrite <- IH by assumption. f_equal. f_equal. rewrite (finv_mul o L) by assumption.
    transitivity ((finv o (fprod o l) * (finv o x * x)))%f; [ring|]. rewrite (finv_l o L) by assumption. ring.
  - f_equal. rewrite (finv_mul o L) by assumption.
    transitivity ((fprod o l * finv o (fprod o l)) * finv o x)%f; [ring|]. rewrite (finv_r o L) by assumption. ring.
Qed.
Lemma invert_batch_src_dst_spec l d : length l = length d -> invert_batch_src_dst o l d =
  if existsb (fun a => feqb o a (f0 o)) l then None else Some (map (finv o) l).
Proof.
  intros Hlen. unfold invert_batch_src_dst. rewrite Hlen, Nat.eqb_refl. cbn [negb].
  pose proof (batch_forward_total l (f1 o)) as T. pose proof (batch_backward_spec l) as S.
  destruct (batch_forward o (f1 o) l) as [dst acc]. cbn [fst snd] in *. subst acc.
  replace (fmul o (f1 o) (fprod o l)) with (fprod o l) by ring.
  destruct (existsb (fun a => feqb o a (f0 o)) l) eqn:E.
  - apply existsb_exists in E as (a & Ha & Ea). apply (law_eqb o L) in Ea. subst a.
    assert (Z0 : fprod o l = f0 o).
    { destruct (feq_dec o L (fprod o l) (f0 o)) as [|N]; [assumption|]. exfalso.
      apply (proj2 (fprod_neq_0 o L l) N (f0 o) Ha). reflexivity. }
    rewrite Z0, (proj2 (inv_opt_none o L (f0 o)) eq_refl). reflexivity.
  - assert (H : forall a, In a l -> a <> f0 o).
    { intros a Ha ->. assert (existsb (fun a => feqb o a (f0 o)) l = true); [|congruence].
      apply existsb_exists. exists (f0 o). split; [assumption|]. apply (law_eqb o L). reflexivity. }
    rewrite (inv_opt_ne o L) by (apply (fprod_neq_0 o L); assumption). cbn [bind]. rewrite S by assumption. reflexivity.
Qed.

(** ** Geometric series *)
(** The outcome of the i-th call of [next] (counting from 0). *)
Fixpoint g_nth (g : giter) (i : nat) : option F :=
  match i with O => fst (g_next o g) | S i' => g_nth (snd (g_next o g)) i' end.
Lemma g_nth_spec i : forall g, 0 <= glen g ->
  g_nth g i = if Z.of_nat i <? glen g then Some (fmul o (current g) (fpw o (step g) i)) else None.
Proof.
  induction i; intros g Hg; cbn [g_nth]; unfold g_next; destruct (Z.eqb_spec (glen g) 0) as [E|E]; cbn [fst snd].
  - rewrite E. reflexivity.
  - destruct (Z.ltb_spec (Z.of_nat 0) (glen g)); [|lia]. f_equal. cbn. ring.
  - rewrite IHi by assumption. rewrite E. destruct (Z.ltb_spec (Z.of_nat i) 0), (Z.ltb_spec (Z.of_nat (S i)) 0); try lia; reflexivity.
  - rewrite IHi by (cbn; lia). cbn [current step glen].
    destruct (Z.ltb_spec (Z.of_nat i) (glen g - 1)), (Z.ltb_spec (Z.of_nat (S i)) (glen g)); try lia; [|reflexivity].
    f_equal. cbn [fpw]. ring.
Qed.

(** ** Square roots *)
Section Sqrt.
Variables (modulus order : u256) (generator : F) (N : Z).
Hypothesis Hwm : wf modulus. Hypothesis Hwo : wf order.
Hypothesis HN : 0 < N. Hypothesis Heven : N mod 2 = 0.
Hypothesis Em : val modulus = N + 1. Hypothesis Eo : val order = N.
Hypothesis fermat_F : forall a, a <> f0 o -> fexp o a (Z.to_N N) = f1 o.
Hypothesis gen_nr : fexp o generator (Z.to_N (N / 2)) = fneg o (f1 o).
Hypothesis char2 : f1 o <> fneg o (f1 o).

Lemma half_pow a : fexp o a (Z.to_N N) = fmul o (fexp o a (Z.to_N (N / 2))) (fexp o a (Z.to_N (N / 2))).
Proof.
  rewrite <- (fexp_double o L). f_equal. pose proof (Z.div_mod N 2 ltac:(lia)). rewrite Heven in *. assert (0 <= N / 2) by (apply Z.div_pos; lia). lia.
Qed.
Lemma is_qr_pow a : is_qr o modulus a = negb (feqb o (fexp o a (Z.to_N (N / 2))) (fneg o (f1 o))).
Proof.
  unfold is_qr. destruct (u_shr_spec modulus 1 Hwm ltac:(lia)) as [H1 H2]. rewrite pow_u256_spec by assumption.
  rewrite H2, Em, Z.pow_1_r. do 4 f_equal.
  pose proof (Z.div_mod N 2 ltac:(lia)). symmetry. apply Z.div_unique with (r := 1); lia.
Qed.
Lemma is_qr_zero : is_qr o modulus (f0 o) = true.
Proof.
  rewrite is_qr_pow. pose proof (Z.div_mod N 2 ltac:(lia)). rewrite (fexp_zero o L) by lia.
  destruct (feqb_spec o L (f0 o) (fneg o (f1 o))) as [E|]; [|reflexivity]. exfalso.
  symmetry in E. apply (proj1 (fneg_0_iff o L _)) in E. exact (f_1_neq_0 o L E).
Qed.
Lemma is_qr_square r : is_qr o modulus (fmul o r r) = true.
Proof.
  destruct (feq_dec o L r (f0 o)) as [->|Nr]; [replace (fmul o (f0 o) (f0 o)) with (f0 o) by ring; apply is_qr_zero|].
  rewrite is_qr_pow, (fexp_mul_base o L), <- half_pow, fermat_F by assumption.
  destruct (feqb_spec o L (f1 o) (fneg o (f1 o))); [contradiction|reflexivity].
Qed.

Lemma sqrt_loop a inverse t s : fmul o a inverse = f1 o -> N = s * 2 ^ t -> 0 < s -> 0 < t < 256 ->
  forall k root c, (Z.of_nat k <= t - 1) ->
  c = fexp o generator (Z.to_N (s * 2 ^ (t - 1 - Z.of_nat k))) ->
  fexp o (fmul o (fmul o root root) inverse) (Z.to_N (2 ^ Z.of_nat k)) = f1 o ->
  let r := fst (fold_left (sqrt_step o t inverse) (map (fun j => (t - Z.of_nat k) + Z.of_nat j) (seq 0 k)) (root, c)) in
  fmul o r r = a.
Proof.
  intros Hi EN Hs Ht. induction k as [|k IH]; intros root c Hk Hc Hb r.
  - cbn in r. subst r. change (Z.to_N (2 ^ Z.of_nat 0)) with 1%N in Hb. rewrite (fexp_1 o L) in Hb.
    transitivity ((root * root * inverse) * a)%f; [|rewrite Hb; ring].
    transitivity ((root * root) * (a * inverse))%f; [rewrite Hi; ring|ring].
  - set (kz := Z.of_nat k) in *. assert (Hkz : 0 <= kz) by lia.
    pose proof (Z.pow_pos_nonneg 2 kz ltac:(lia) Hkz) as Hp.
    assert (EkS : Z.of_nat (S k) = kz + 1) by lia.
    subst r. cbn [seq map fold_left]. rewrite <- seq_shift, map_map.
    rewrite (map_ext (fun x => t - Z.of_nat (S k) + Z.of_nat (S x)) (fun j => (t - Z.of_nat k) + Z.of_nat j)) by (intros; lia).
    replace (t - Z.of_nat (S k) + Z.of_nat 0) with (t - kz - 1) by lia.
    set (st := sqrt_step o t inverse (root, c) (t - kz - 1)).
    assert (Est : st = (fst st, snd st)) by apply surjective_pairing. rewrite Est.
    assert (Eexp : wf (u_shl ONE (t - (t - kz - 1) - 1)) /\ val (u_shl ONE (t - (t - kz - 1) - 1)) = 2 ^ kz).
    { replace (t - (t - kz - 1) - 1) with kz by lia. destruct (u_shl_spec ONE kz wf_ONE Hkz) as [H1 H2]. split; [exact H1|].
      rewrite H2, val_ONE, Z.mul_1_l. apply Z.mod_small. change W with (2 ^ 256). split; [lia|]. apply Z.pow_lt_mono_r; lia. }
    destruct Eexp as [We Ve].
    set (b := fmul o (fmul o root root) inverse) in *.
    assert (Eb : fmul o (fexp o b (Z.to_N (2 ^ kz))) (fexp o b (Z.to_N (2 ^ kz))) = f1 o).
    { rewrite <- (fexp_double o L). rewrite <- Hb. f_equal. rewrite EkS, Z.pow_add_r, Z.pow_1_r by lia. lia. }
    apply IH; [lia| |].
    + subst st. cbn [sqrt_step snd]. rewrite Hc, <- (fexp_double o L). f_equal.
      replace (t - 1 - kz) with (t - 1 - Z.of_nat (S k) + 1) by lia. rewrite Z.pow_add_r, Z.pow_1_r by lia.
      pose proof (Z.pow_pos_nonneg 2 (t - 1 - Z.of_nat (S k)) ltac:(lia) ltac:(lia)). lia.
    + subst st. cbn [sqrt_step fst]. fold b. rewrite pow_u256_spec by assumption. rewrite Ve.
      destruct (feqb_spec o L (fexp o b (Z.to_N (2 ^ kz))) (fneg o (f1 o))) as [Em1|Np].
      * replace (root * c * (root * c) * inverse)%f with (b * (c * c))%f by (unfold b; ring).
        rewrite (fexp_mul_base o L), Em1.
        assert (Ec : fexp o (fmul o c c) (Z.to_N (2 ^ kz)) = fneg o (f1 o)).
        { rewrite Hc, <- (fexp_double o L), <- (fexp_mul o L). rewrite <- gen_nr. f_equal.
          pose proof (Z.pow_pos_nonneg 2 (t - 1 - Z.of_nat (S k)) ltac:(lia) ltac:(lia)).
          assert (E2 : N / 2 = s * 2 ^ (t - 1)).
          { rewrite EN. replace (2 ^ t) with (2 ^ (t - 1) * 2). 2: { replace t with (t - 1 + 1) at 2 by lia. rewrite Z.pow_add_r, Z.pow_1_r by lia. reflexivity. }
            rewrite Z.mul_assoc. apply Z.div_mul. lia. }
          rewrite E2. replace (t - 1) with ((t - 1 - Z.of_nat (S k)) + (1 + kz)) at 2 by lia.
          rewrite Z.pow_add_r by lia. rewrite (Z.pow_add_r 2 1 kz), Z.pow_1_r by lia.
          rewrite <- (N2Z.id 2), <- Z2N.inj_mul, <- Z2N.inj_mul by (cbn; lia). f_equal. cbn [Z.of_N]. ring. }
        rewrite Ec. ring.
      * destruct (fsquare_1 o L _ Eb) as [E1|E1]; [exact E1|contradiction].
Qed.

Lemma square_root_spec a : exists r, square_root o modulus order generator a = Some r /\
  (r = None <-> is_qr o modulus a = false) /\ (forall x, r = Some x -> fmul o x x = a).
Proof.
  unfold square_root. destruct (feqb_spec o L a (f0 o)) as [->|Na].
  { exists (Some (f0 o)). split; [reflexivity|]. rewrite is_qr_zero. split; [split; discriminate|]. intros x [= <-]. ring. }
  destruct (is_qr o modulus a) eqn:Q; cbn [negb].
  2: { exists None. split; [reflexivity|]. split; [split; reflexivity|discriminate]. }
  rewrite (inv_opt_ne o L) by assumption. cbn [bind]. eexists. split; [reflexivity|]. split; [split; discriminate|].
  intros x [= <-].
  destruct (u_trailing_zeros_spec order Hwo) as [_ T]. destruct T as (T1 & s & Es); [lia|]. set (t := u_trailing_zeros order) in *.
  rewrite Eo in Es.
  assert (Tpos : 0 < t).
  { destruct (Z.eq_dec t 0) as [E0|]; [|lia]. rewrite E0, Z.pow_0_r, Z.mul_1_r in Es. rewrite Es in Heven.
    rewrite Z.add_comm, Z.mul_comm, Z_mod_plus_full in Heven. discriminate. }
  pose proof (Z.pow_pos_nonneg 2 t ltac:(lia) ltac:(lia)) as Hp2.
  destruct (u_shr_spec order t Hwo ltac:(lia)) as [Ws Vs]. set (sg := u_shr order t) in *. rewrite Eo, Es, Z.div_mul in Vs by lia.
  assert (Hs : 0 <= s) by nia.
  pose proof (val_range order Hwo) as Ro. rewrite Eo in Ro.
  assert (Hsb : 2 * s + 2 < W).
  { assert (2 * (2 * s + 1) <= N). { rewrite Es. assert (2 <= 2 ^ t) by (change 2 with (2 ^ 1) at 1; apply Z.pow_le_mono_r; lia). nia. }
    change W with (2 ^ 256) in *. lia. }
  destruct (u_add_spec sg ONE Ws wf_ONE) as [Wa Va]. rewrite Vs, val_ONE in Va.
  rewrite Z.mod_small in Va by lia.
  destruct (u_shr_spec _ 1 Wa ltac:(lia)) as [Wr Vr]. rewrite Va, Z.pow_1_r in Vr.
  replace (2 * s + 1 + 1) with ((s + 1) * 2) in Vr by ring. rewrite Z.div_mul in Vr by lia.
  pose proof (sqrt_loop a (finv o a) t (2 * s + 1) (finv_r o L a Na) Es ltac:(lia) ltac:(lia) (Z.to_nat (t - 1))
    (pow_u256 o a (u_shr (u_add sg ONE) 1)) (pow_u256 o generator sg)) as S.
  cbv zeta in S.
  assert (E1 : Z.of_nat (Z.to_nat (t - 1)) = t - 1) by lia. rewrite !E1 in S.
  unfold range. replace (t - (t - 1)) with 1 in S by lia. apply S; clear S.
  - lia.
  - rewrite pow_u256_spec by assumption. rewrite Vs. replace (t - 1 - (t - 1)) with 0 by lia. rewrite Z.pow_0_r, Z.mul_1_r. reflexivity.
  - rewrite pow_u256_spec by assumption. rewrite Vr.
    assert (Eb : fmul o (fmul o (fexp o a (Z.to_N (s + 1))) (fexp o a (Z.to_N (s + 1)))) (finv o a) = fexp o a (Z.to_N (2 * s + 1))).
    { rewrite <- (fexp_double o L). replace (2 * Z.to_N (s + 1))%N with (N.succ (Z.to_N (2 * s + 1))) by lia. rewrite fexp_succ.
      transitivity (fexp o a (Z.to_N (2 * s + 1)) * (a * finv o a))%f; [ring|]. rewrite (finv_r o L) by assumption. ring. }
    rewrite Eb, <- (fexp_mul o L), <- Z2N.inj_mul by lia.
    replace ((2 * s + 1) * 2 ^ (t - 1)) with (N / 2).
    2: { rewrite Es. replace (2 ^ t) with (2 ^ (t - 1) * 2). 2: { replace t with (t - 1 + 1) at 2 by lia. rewrite Z.pow_add_r, Z.pow_1_r by lia. reflexivity. }
         rewrite Z.mul_assoc. apply Z.div_mul. lia. }
    rewrite is_qr_pow in Q. pose proof (fermat_F a Na) as Fa. rewrite half_pow in Fa.
    destruct (fsquare_1 o L _ Fa) as [E|E]; [exact E|]. apply (law_eqb o L) in E. rewrite E in Q. discriminate.
Qed.
End Sqrt.
End Alg.
