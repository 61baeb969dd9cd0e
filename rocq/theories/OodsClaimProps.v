(** C54: a trace that satisfies constraints with claim polynomials passes the out-of-domain check. *)
Require Import Field ZArith NArith Lia Bool List Sorted.
From Verif Require Import Word KnuthModel FieldSig FieldInstance FieldAlgModel FieldAlgProofs FieldProps Arr FftSpec FftModel PermuteProofs FftProofs FftProps StarkBase StarkInstance PolyModel PolyProps TraceModel TraceProps ExprModel ExprSpec ExprProofs ExprProps CheckProps PolyRoots OodsModel OodsProofs OodsProps OodsSatProps.
Import ListNotations.
Open Scope nat_scope.

Section Claims.
Context {F : Type} (o : ops F) (L : lawful o).
Add Field Ffield : (law_field o L).
Declare Scope ffC. Delimit Scope ffC with g.
Local Notation "0" := (f0 o) : ffC. Local Notation "1" := (f1 o) : ffC. Local Notation "x + y" := (fadd o x y) : ffC. Local Notation "x - y" := (fsub o x y) : ffC.
Local Notation "x * y" := (fmul o x y) : ffC. Local Notation "x ^ n" := (fpw o x n) : ffC.

(** ** The terms of the combined constraint *)
Fixpoint terms (es : list (rexpr F)) (ks : list Z) (cs : list F) : list (rexpr F) :=
  match es, ks, cs with
  | ex :: es, k :: ks, lo :: hi :: cs => EMul (EAdd (EConst lo) (EMul (EConst hi) (EExp EX k))) ex :: terms es ks cs
  | _, _, _ => []
  end.
Lemma terms_are dbg nrows target : forall es cs l, length cs = 2 * length es -> option_all (map (combine_term o dbg nrows target) (List.combine es (tuples cs))) = Some l ->
  exists ks, Forall2 (fun e k => adjustment_degree o dbg nrows target e = Some k) es ks /\ l = terms es ks cs.
Proof.
  induction es as [|e es IH]; intros cs l Lc E.
  - destruct cs; [|cbn in Lc; lia]. cbn in E. injection E as <-. exists []. split; [constructor|reflexivity].
  - destruct cs as [|c1 [|c2 cs]]; [cbn in Lc; lia|cbn in Lc; lia|]. cbn [tuples List.combine map option_all combine_term] in E. apply bind_some in E as (a & E1 & E). apply bind_some in E1 as (k & Ek & E1). injection E1 as <-. apply bind_some in E as (l' & E2 & E). injection E as <-.
    destruct (IH cs l' ltac:(cbn in Lc; lia) E2) as (ks & Hks & ->). exists (k :: ks). split; [constructor; assumption|reflexivity].
Qed.
Lemma terms_val x T : forall es ks cs, length ks = length es -> length cs = 2 * length es -> forall ts, Forall2 (value o x T) (terms es ks cs) ts <-> exists vs, Forall2 (value o x T) es vs /\
    ts = map (fun i => fmul o (fadd o (nth (2 * i) cs (f0 o)) (fmul o (nth (2 * i + 1) cs (f0 o)) (fexp o x (Z.to_N (nth i ks 0%Z))))) (nth i vs (f0 o))) (seq 0 (length es)).
Proof.
  induction es as [|e es IH]; intros ks cs Lk Lc ts.
  - cbn [terms length seq map]. split; [intros H; inversion H; subst; exists []; split; [constructor|reflexivity]|intros (vs & _ & ->); constructor].
  - destruct ks as [|k ks]; [cbn in Lk; lia|]. destruct cs as [|c1 [|c2 cs]]; [cbn in Lc; lia|cbn in Lc; lia|]. cbn [terms]. specialize (IH ks cs ltac:(cbn in Lk; lia) ltac:(cbn in Lc; lia)).
    assert (Sh : forall v vs, map (fun i => fmul o (fadd o (nth (2 * i) (c1 :: c2 :: cs) (f0 o)) (fmul o (nth (2 * i + 1) (c1 :: c2 :: cs) (f0 o)) (fexp o x (Z.to_N (nth i (k :: ks) 0%Z))))) (nth i (v :: vs) (f0 o))) (seq 0 (length (e :: es)))
      = fmul o (fadd o c1 (fmul o c2 (fexp o x (Z.to_N k)))) v :: map (fun i => fmul o (fadd o (nth (2 * i) cs (f0 o)) (fmul o (nth (2 * i + 1) cs (f0 o)) (fexp o x (Z.to_N (nth i ks 0%Z))))) (nth i vs (f0 o))) (seq 0 (length es))).
    { intros v vs. cbn [length seq map]. f_equal. rewrite <- seq_shift, map_map. apply map_ext. intros i. replace (2 * S i) with (S (S (2 * i))) by lia. replace (S (S (2 * i)) + 1) with (S (S (2 * i + 1))) by lia. reflexivity. }
    split.
    + intros Hf. inversion Hf as [|? t ? ts' Vt Ht]; subst. apply IH in Ht as (vs & Hvs & ->). inversion Vt as [| | | | | |a' b' u w Va Vb| |]; subst. inversion Va as [| | | |a' b' u1 u2 V1 V2| | | |]; subst. inversion V1; subst. inversion V2 as [| | | | | |a' b' u3 u4 V3 V4| |]; subst. inversion V3; subst. inversion V4 as [| | | | | | | |a' n' u5 V5]; subst. inversion V5; subst.
      exists (w :: vs). split; [constructor; assumption|]. symmetry. apply Sh.
    + intros (vs & Hvs & ->). inversion Hvs as [|? v ? vs' Vv Hv]; subst. rewrite Sh. constructor; [|apply IH; exists vs'; split; [exact Hv|reflexivity]]. repeat constructor. exact Vv.
Qed.
Lemma sub_add claims a b a' b' : substitute_claim o claims a = Some a' -> substitute_claim o claims b = Some b' -> substitute_claim o claims (EAdd a b) = Some (EAdd a' b').
Proof. unfold substitute_claim. intros Ea Eb. cbn [map_expr]. rewrite Ea. cbn [bind]. rewrite Eb. reflexivity. Qed.
Lemma terms_sub claims es es' : Forall2 (fun x y => substitute_claim o claims x = Some y) es es' -> forall ks cs, Forall2 (fun x y => substitute_claim o claims x = Some y) (terms es ks cs) (terms es' ks cs).
Proof.
  induction 1 as [|x y es es' H Hs IH]; intros ks cs; [constructor|]. destruct ks as [|k ks]; [constructor|]. destruct cs as [|c1 [|c2 cs]]; [constructor|constructor|]. cbn [terms]. constructor; [|apply IH].
  unfold substitute_claim in *. cbn [map_expr bind]. rewrite H. reflexivity.
Qed.
Lemma sum_sub claims l l' : Forall2 (fun x y => substitute_claim o claims x = Some y) l l' -> substitute_claim o claims (e_sum o l) = Some (e_sum o l').
Proof.
  destruct 1 as [|x y l l' H Hs]; [reflexivity|]. cbn [e_sum]. revert x y H. induction Hs as [|u v l l' H Hs IH]; intros x y Hx; cbn [fold_left]; [exact Hx|]. apply IH, sub_add; assumption.
Qed.
(** The constraints after the substitution *)
Lemma substituted claims (c c' : constraints (F := F)) : substitute o claims c = Some c' -> (forall ex, In ex (c_exprs c') -> no_claims ex) ->
  Forall2 (fun x y => substitute_claim o claims x = Some y) (c_exprs c) (c_exprs c') /\ c_nrows c' = c_nrows c.
Proof.
  unfold substitute. destruct claims as [|p claims].
  - intros E H. injection E as <-. split; [|reflexivity]. induction (c_exprs c) as [|x l IH]; constructor; [apply no_claims_sub, H; left; reflexivity|]. apply IH. intros ex Hin. apply H. right. exact Hin.
  - intros E _. apply bind_some in E as (l & El & E). injection E as <-. split; [exact (option_all_inv _ _ _ El)|reflexivity].
Qed.
Lemma claims_combine claims (c : constraints (F := F)) cs E0 es' : combine o true c cs = Some E0 -> Forall2 (fun x y => substitute_claim o claims x = Some y) (c_exprs c) es' ->
  exists E D ks, substitute_claim o claims E0 = Some E /\ c_degree o true c = Some D /\
  Forall2 (fun e k => exists num den, degree o true (Z.of_nat (c_nrows c) - 1) e = Some (num, den) /\ (0 <= k)%Z /\ (k + num = (D * Z.of_nat (c_nrows c) - 1) + den)%Z) (c_exprs c) ks /\
  forall x T v, value o x T E v <-> exists vs, Forall2 (value o x T) es' vs /\
    v = fsum o (map (fun i => fmul o (fadd o (nth (2 * i) cs (f0 o)) (fmul o (nth (2 * i + 1) cs (f0 o)) (fexp o x (Z.to_N (nth i ks 0%Z))))) (nth i vs (f0 o))) (seq 0 (length es'))).
Proof.
  intros E S. destruct (C49_combine F o L c cs E0 E) as (D & _ & ED & Lc & _). pose proof (Forall2_len _ _ _ S) as Ls.
  unfold combine in E. destruct (Nat.eqb_spec (2 * length (c_exprs c)) (length cs)) as [_|]; [|discriminate].
  apply bind_some in E as (target & Et & E). apply bind_some in E as (l & El & E). injection E as <-. unfold target_degree in Et. rewrite ED in Et. cbn [bind] in Et. apply bind_some in Et as (t & Ht & Et).
  apply umul_true in Ht as [-> _]. apply usub_true in Et as [-> Hpos]. destruct (terms_are true (c_nrows c) _ (c_exprs c) cs l Lc El) as (ks & Hks & ->).
  exists (e_sum o (terms es' ks cs)), D, ks. split; [apply sum_sub, terms_sub, S|]. split; [exact ED|]. pose proof (Forall2_len _ _ _ Hks) as Lk. split.
  - clear - Hks. induction Hks as [|e k es ks Hk Hks IH]; constructor; [|exact IH]. unfold adjustment_degree in Hk. apply bind_some in Hk as (t & Ht & Hk). apply usub_true in Ht as [-> _]. apply bind_some in Hk as ([num den] & Hd & Hk).
    apply bind_some in Hk as (s & Hs & Hk). apply uadd_true in Hs as [-> _]. apply usub_true in Hk as [-> Hk]. exists num, den. split; [exact Hd|]. lia.
  - intros x T v. pose proof (terms_val x T es' ks cs ltac:(lia) ltac:(lia)) as H. destruct es' as [|e0 es']; [cbn in Ls; unfold c_degree in ED; destruct (c_exprs c); [discriminate ED|cbn in Ls; lia]|].
    destruct ks as [|k ks]; [cbn in Ls, Lk; lia|]. destruct cs as [|c1 [|c2 cs]]; [cbn in Ls, Lc; lia|cbn in Ls, Lc; lia|]. cbn [terms] in H |- *. cbn [e_sum]. rewrite (sum_value o L). split.
    + intros (u & us & V & Hus & ->). destruct (proj1 (H (u :: us))) as (vs & Hvs & Eq); [constructor; assumption|]. exists vs. split; [exact Hvs|]. rewrite <- Eq. reflexivity.
    + intros (vs & Hvs & ->). match goal with |- exists u us, _ /\ _ /\ fsum o ?m = _ => assert (X : Forall2 (value o x T) (EMul (EAdd (EConst c1) (EMul (EConst c2) (EExp EX k))) e0 :: terms es' ks cs) m) by (apply H; exists vs; split; [exact Hvs|reflexivity]); revert X; generalize m; intros ts X; inversion X as [|? u ? us V Hus Q1 Q2] end. exists u, us. split; [exact V|]. split; [exact Hus|]. reflexivity.
Qed.
(** The degree of the denominator of a constraint without claims in the denominators does not change. *)
Lemma free_den claims td : forall e e' n d, substitute_claim o claims e = Some e' -> division_free e' -> degree o true td e = Some (n, d) -> d = 0%Z.
Proof.
  unfold substitute_claim, degree. induction e as [|c|i j|p a IH|i b a IH|a IHa b IHb|a IH|a IHa b IHb|a IH|a IH m]; intros e' n d E D Ed; cbn [map_expr bind degree_impl] in *; try (injection Ed as <- <-; reflexivity).
  all: apply bind_some in E as (x & Ex & E).
  - apply bind_some in Ex as (a' & Ea & Ex). injection Ex as <-. injection E as <-. cbn [division_free] in D. apply bind_some in Ed as ([n1 d1] & E1 & Ed). apply bind_some in Ed as (k & _ & Ed). apply scale_spec in Ed as [-> ->]. rewrite (IH a' n1 d1 Ea D E1). lia.
  - apply bind_some in Ex as (a' & Ea & Ex). injection Ex as <-. apply bind_some in E as (p & _ & E). apply bind_some in E as (dg & _ & E). destruct (_ <=? _)%Z; [|discriminate E]. injection E as <-. cbn [division_free] in D. apply bind_some in Ed as ([n1 d1] & E1 & Ed). apply scale_spec in Ed as [-> ->]. rewrite (IH a' n1 d1 Ea D E1). lia.
  - apply bind_some in Ex as (a' & Ea & Ex). apply bind_some in Ex as (b' & Eb & Ex). injection Ex as <-. injection E as <-. destruct D as [Da Db].
    apply bind_some in Ed as ([n1 d1] & E1 & Ed). apply bind_some in Ed as ([n2 d2] & E2 & Ed). apply bind_some in Ed as (s & _ & Ed). apply bind_some in Ed as (s' & _ & Ed). apply bind_some in Ed as (s2 & E5 & Ed). injection Ed as <- <-. apply uadd_true in E5 as [-> _]. rewrite (IHa a' n1 d1 Ea Da E1), (IHb b' n2 d2 Eb Db E2). reflexivity.
  - apply bind_some in Ex as (a' & Ea & Ex). injection Ex as <-. injection E as <-. apply (IH a' n d Ea D Ed).
  - apply bind_some in Ex as (a' & Ea & Ex). apply bind_some in Ex as (b' & Eb & Ex). injection Ex as <-. injection E as <-. destruct D as [Da Db].
    apply bind_some in Ed as ([n1 d1] & E1 & Ed). apply bind_some in Ed as ([n2 d2] & E2 & Ed). apply bind_some in Ed as (s & _ & Ed). apply bind_some in Ed as (s' & E5 & Ed). injection Ed as <- <-. apply uadd_true in E5 as [-> _]. rewrite (IHa a' n1 d1 Ea Da E1), (IHb b' n2 d2 Eb Db E2). reflexivity.
  - apply bind_some in Ex as (a' & Ea & Ex). injection Ex as <-. injection E as <-. contradiction.
  - apply bind_some in Ex as (a' & Ea & Ex). injection Ex as <-. injection E as <-. cbn [division_free] in D. apply bind_some in Ed as ([n1 d1] & E1 & Ed). apply scale_spec in Ed as [-> ->]. rewrite (IH a' n1 d1 Ea D E1). lia.
Qed.
Lemma claim_den claims td : (0 <= td)%Z -> forall e e' n d n' d', substitute_claim o claims e = Some e' -> usizes e' -> fraction e' -> Forall no_claims (denominators e) ->
  degree o true td e = Some (n, d) -> degree o true td e' = Some (n', d') -> d' = d.
Proof.
  intros Ht. assert (leaf : forall e e' n d n' d', substitute_claim o claims e = Some e' -> usizes e' -> numerators e' = [e'] -> fraction e' -> degree o true td e = Some (n, d) -> degree o true td e' = Some (n', d') -> d' = d).
  { intros e e' n d n' d' E U En [Fn _] E1 E2. rewrite En in Fn. inversion Fn as [|? ? D _]; subst. rewrite (free_den claims td e e' n d E D E1). apply (free_degree o td Ht e' n' d' U D E2). }
  induction e as [|c|i j|p a _|i b a _|a _ b _|a _|a IHa b IHb|a _|a _ m]; intros e' n d n' d' E U Fr NC E1 E2.
  1-7, 10: eapply leaf; [exact E|exact U| |exact Fr|exact E1|exact E2]; clear - E; unfold substitute_claim in E; cbn [map_expr bind] in E;
    repeat match goal with H : bind _ _ = Some _ |- _ => apply bind_some in H as (? & ? & H) end;
    repeat match goal with H : Some _ = Some _ |- _ => injection H as <- end; try reflexivity;
    repeat match goal with H : bind _ _ = Some _ |- _ => apply bind_some in H as (? & ? & H) end; try (destruct (_ <=? _)%Z; [|discriminate]);
    repeat match goal with H : Some _ = Some _ |- _ => injection H as <- end; reflexivity.
  - unfold substitute_claim in E. cbn [map_expr] in E. apply bind_some in E as (x & Ex & E). apply bind_some in Ex as (a' & Ea & Ex). apply bind_some in Ex as (b' & Eb & Ex). injection Ex as <-. injection E as <-.
    destruct Fr as [Fn Fd]. cbn [numerators denominators] in *. apply Forall_app in Fn as [Fna Fnb]. apply Forall_app in Fd as [Fda Fdb]. apply Forall_app in NC as [NCa NCb]. destruct U as [Ua Ub].
    unfold degree in E1, E2. cbn [degree_impl] in E1, E2. apply bind_some in E1 as ([n1 d1] & E11 & E1). apply bind_some in E1 as ([n2 d2] & E12 & E1). apply bind_some in E1 as (s & _ & E1). apply bind_some in E1 as (s' & E13 & E1). injection E1 as <- <-. apply uadd_true in E13 as [-> _].
    apply bind_some in E2 as ([n1' d1'] & E21 & E2). apply bind_some in E2 as ([n2' d2'] & E22 & E2). apply bind_some in E2 as (s2 & _ & E2). apply bind_some in E2 as (s' & E23 & E2). injection E2 as <- <-. apply uadd_true in E23 as [-> _].
    rewrite (IHa a' n1 d1 n1' d1' Ea Ua (conj Fna Fda) NCa E11 E21), (IHb b' n2 d2 n2' d2' Eb Ub (conj Fnb Fdb) NCb E12 E22). reflexivity.
  - cbn [denominators] in NC. inversion NC as [|? ? NCa _]; subst. assert (X : substitute_claim o claims (EInv a) = Some (EInv a)) by (apply no_claims_sub; exact NCa). rewrite X in E. injection E as <-. rewrite E1 in E2. injection E2 as _ <-. reflexivity.
Qed.

Context (e : engine F) (M : nat) (w : nat -> F) (SD : sound o e M w).
(** If every constraint is satisfied then the combined constraint is a polynomial, with a value off the trace domain. *)
Lemma claims_poly k a t tp claims c c' cs E0 Dg : k <= M -> interpolated o w k t tp -> c_nrows c = 2 ^ k -> substitute o claims c = Some c' ->
  (forall ex, In ex (c_exprs c) -> usizes ex /\ Forall no_claims (denominators ex)) ->
  (forall ex, In ex (c_exprs c') -> (forall i j, refers ex i j -> i < length tp) /\ exists rows, selects o (w k) k tp ex rows /\ forall r, In r rows -> ~ violated o (w k ^ r)%g (row_trace t r) ex) ->
  c_degree o true c = Some Dg -> (Dg <= 2 ^ Z.of_nat a)%Z -> combine o true c cs = Some E0 -> exists E, substitute_claim o claims E0 = Some E /\
  (exists C, length C = 2 ^ (k + a) /\ forall x v, value o x (poly_trace o (w k) (2 ^ k) tp x) E v -> v = peval o C x) /\
  forall x, (forall r, r < 2 ^ k -> x <> (w k ^ r)%g) -> exists v, value o x (poly_trace o (w k) (2 ^ k) tp x) E v.
Proof.
  intros Hk HI Hn Es HU Hc ED HD Ec.
  destruct (substituted claims c c' Es) as [S _]. { intros ex Hin. destruct (Hc ex Hin) as (_ & rows & (Fr & _) & _). apply frac_no_claims, Fr. }
  destruct (claims_combine claims c cs E0 (c_exprs c') Ec S) as (E & D' & ks & EE & ED' & Hks & HV). rewrite ED in ED'. injection ED' as <-. rewrite Hn in Hks. exists E. split; [exact EE|].
  assert (E2 : (Z.of_nat (2 ^ k) = 2 ^ Z.of_nat k)%Z) by (rewrite Nat2Z.inj_pow; reflexivity). rewrite E2 in Hks. assert (P : (0 < 2 ^ Z.of_nat k)%Z) by (apply Z.pow_pos_nonneg; lia).
  assert (Q : Forall2 (fun ex k0 => exists q, (length q = 0 \/ (0 <= k0 /\ k0 + Z.of_nat (length q) <= Z.of_nat (2 ^ (k + a)))%Z) /\ (forall x v, value o x (poly_trace o (w k) (2 ^ k) tp x) ex v -> v = peval o q x) /\
    forall x, (exists v, value o x (poly_trace o (w k) (2 ^ k) tp x) ex v) \/ exists r, r < 2 ^ k /\ x = (w k ^ r)%g) (c_exprs c') ks).
  { assert (G : forall es es' ks', (forall ex, In ex es -> In ex (c_exprs c)) -> (forall ex, In ex es' -> In ex (c_exprs c')) -> Forall2 (fun x y => substitute_claim o claims x = Some y) es es' ->
      Forall2 (fun (e0 : rexpr F) (k0 : Z) => exists num den : Z, degree o true (2 ^ Z.of_nat k - 1) e0 = Some (num, den) /\ (0 <= k0)%Z /\ (k0 + num)%Z = (Dg * 2 ^ Z.of_nat k - 1 + den)%Z) es ks' ->
      Forall2 (fun ex k0 => exists q, (length q = 0 \/ (0 <= k0 /\ k0 + Z.of_nat (length q) <= Z.of_nat (2 ^ (k + a)))%Z) /\ (forall x v, value o x (poly_trace o (w k) (2 ^ k) tp x) ex v -> v = peval o q x) /\
        forall x, (exists v, value o x (poly_trace o (w k) (2 ^ k) tp x) ex v) \/ exists r, r < 2 ^ k /\ x = (w k ^ r)%g) es' ks'); [|apply (G (c_exprs c)); auto].
    clear HV S Hks EE ks. intros es es' ks' I1 I2 S. revert ks' I1 I2. induction S as [|ex ex' es es' Se S IH]; intros ks' I1 I2 H; [inversion H; subst; constructor|]. inversion H as [|? k0 ? ks0 (num & den & Ed & K0 & Ek) H']; subst.
    constructor; [|apply IH; [intros y Hy; apply I1; right; exact Hy|intros y Hy; apply I2; right; exact Hy|exact H']].
    destruct (HU ex (I1 ex (or_introl eq_refl))) as [U NC]. destruct (Hc ex' (I2 ex' (or_introl eq_refl))) as (R & rows & Sel & Sat).
    destruct (substitute_degree o claims 1 (2 ^ Z.of_nat k - 1) ltac:(lia) ltac:(lia) ex ex' num den U Se Ed) as (num' & den' & Ed' & Hnum & _). pose proof (substitute_usizes o claims ex ex' Se U) as U'.
    assert (den' = den) by (apply (claim_den claims (2 ^ Z.of_nat k - 1) ltac:(lia) ex ex' num den num' den' Se U' (proj1 Sel) NC Ed Ed')). subst den'.
    destruct (satisfied_poly o L e M w SD k t tp ex' rows Hk HI U' R Sel Sat num' den Ed') as (q & L1 & H1 & H2). exists q. split; [|split; [exact H1|]].
    - destruct (length q) eqn:El; [left; reflexivity|]. right. split; [exact K0|]. rewrite <- El in *. rewrite Nat2Z.inj_pow, Nat2Z.inj_add, Z.pow_add_r by lia. change (Z.of_nat 2) with 2%Z. assert (Dg * 2 ^ Z.of_nat k <= 2 ^ Z.of_nat a * 2 ^ Z.of_nat k)%Z by (apply Z.mul_le_mono_nonneg_r; lia). lia.
    - intros x. destruct (H2 x) as [V|(r & Hr & ->)]; [left; exact V|]. right. exists r. split; [|reflexivity]. destruct Sel as (_ & _ & Hrows & _). apply Hrows, Hr. }
  split.
  - destruct (sum_polys o L (fun x => poly_trace o (w k) (2 ^ k) tp x) (2 ^ (k + a)) (c_exprs c') ks cs) as (C & LC & HC).
    { clear - Q. induction Q as [|ex k0 es ks (q & H1 & H2 & _) Q IH]; constructor; [|exact IH]. exists q. split; assumption. }
    exists (C ++ repeat (f0 o) (2 ^ (k + a) - length C)). split; [rewrite app_length, repeat_length; lia|]. intros x v V. apply HV in V as (vs & Hvs & ->). rewrite (HC x vs Hvs), (peval_app o L), (peval_zeros o L). ring.
  - intros x Hx. assert (X : exists vs, Forall2 (value o x (poly_trace o (w k) (2 ^ k) tp x)) (c_exprs c') vs).
    { clear - Q Hx. induction Q as [|ex k0 es ks (q & _ & _ & H) Q IH]; [exists []; constructor|]. destruct IH as (vs & Hvs). destruct (H x) as [(v & V)|(r & Hr & Ex)]; [|exfalso; exact (Hx r Hr Ex)]. exists (v :: vs). constructor; assumption. }
    destruct X as (vs & Hvs). eexists. apply HV. exists vs. split; [exact Hvs|reflexivity].
Qed.
End Claims.

(** As C54_completeness, for constraints that refer to claim polynomials: those the constraints become when the claim
    polynomials are put in are the quotients that the table satisfies. No claim polynomial is divided by. The degree,
    which depends on the declared degrees of the claim polynomials only, is that of the constraints as given. *)
Theorem C54_completeness_claims : forall F (o : ops F), lawful o -> forall e M w, sound o e M w -> forall dbg k b a t tp ldes claims (c c' : constraints (F := F)) cs E0 args Dg,
  k + b <= M -> a <= b -> shaped t -> t_rows t = 2 ^ k -> 0 < t_cols t -> c_nrows c = 2 ^ k -> fpw o (egen e) (2 ^ (k + a)) <> f1 o ->
  interpolate o e t = Some tp -> substitute o claims c = Some c' -> check_constraints o e (c_exprs c') t = Some None ->
  (forall ex, In ex (c_exprs c) -> usizes ex /\ Forall no_claims (denominators ex)) ->
  (forall ex, In ex (c_exprs c') -> refers_within t ex /\ (forall i j, refers ex i j -> (j < 2 ^ 63)%Z) /\ exists rows, selects o (w k) k tp ex rows) ->
  c_degree o true c = Some Dg -> (Dg <= 2 ^ Z.of_nat a)%Z -> combine o true c cs = Some E0 -> c_trace_arguments c' = Some args ->
  option_all (map (fun p => low_degree_extension o e p (2 ^ b)) tp) = Some ldes ->
  exists ct E values H, extract_trace_coset o e ldes (2 ^ (k + a)) = Some ct /\ substitute_claim o claims E0 = Some E /\ coset_values o e ct (2 ^ a) E = Some values /\ constraint_polynomials o e values (2 ^ a) (2 ^ k) = Some H /\ length H = 2 ^ a /\ Forall (fun p => length p = 2 ^ k) H /\
  forall z, (forall r, r < 2 ^ k -> z <> fpw o (w k) r) -> exists tv v, oods_trace_values o e tp args z = Some tv /\
    oods_value_from_trace_values o dbg c claims cs (claimed_trace_map args tv) z = Some v /\
    oods_value_from_constraint_values o (oods_constraint_values o H z) z = v.
Proof.
  intros F o L e M w SD dbg k b a t tp ldes claims c c' cs E0 args Dg Hm Hab Sh HR HC Hn Hg Ei Es Ek HU Hc ED HD Ec Ea El.
  destruct (C46_interpolate F o L e M w SD t k Sh ltac:(lia) HR) as (ps & Eps & Lps & _ & Hps). rewrite Ei in Eps. injection Eps as <-.
  assert (HI : interpolated o w k t tp).
  { split; [exact Sh|]. split; [exact HR|]. split; [symmetry; exact Lps|]. rewrite <- Lps in Hps. split.
    - apply Forall_forall. intros p Hp. apply In_nth_error in Hp as (j & Hj). assert (Hlt : j < length tp) by (apply nth_error_Some; congruence). destruct (Hps j Hlt) as (p' & Ep & Lp & _). rewrite Hj in Ep. injection Ep as <-. exact Lp.
    - intros r j Hr Hj. destruct (Hps j Hj) as (p & Ep & _ & Hp). rewrite (Hp r Hr), (evaluate_spec o L). erewrite nth_error_nth by exact Ep. reflexivity. }
  pose proof HI as (_ & _ & _ & Htp & _).
  assert (Nt : tp <> []) by (destruct tp; [cbn in Lps; lia|discriminate]).
  destruct (substituted o claims c c' Es) as [S _]. { intros ex Hin. destruct (Hc ex Hin) as (_ & _ & rows & Fr & _). apply frac_no_claims, Fr. }
  assert (Back : forall ex', In ex' (c_exprs c') -> exists ex, In ex (c_exprs c) /\ substitute_claim o claims ex = Some ex').
  { clear - S. induction S as [|x y l l' H S IH]; intros ex' []; [subst; exists x; split; [left; reflexivity|exact H]|]. destruct (IH ex' H0) as (ex & I1 & I2). exists ex. split; [right; exact I1|exact I2]. }
  assert (Forth : forall ex, In ex (c_exprs c) -> exists ex', In ex' (c_exprs c') /\ substitute_claim o claims ex = Some ex').
  { clear - S. induction S as [|x y l l' H S IH]; intros ex []; [subst; exists y; split; [left; reflexivity|exact H]|]. destruct (IH ex H0) as (ex' & I1 & I2). exists ex'. split; [right; exact I1|exact I2]. }
  assert (HU' : forall ex, In ex (c_exprs c') -> usizes ex). { intros ex' Hin. destruct (Back ex' Hin) as (ex & I1 & I2). apply (substitute_usizes o claims ex ex' I2), (HU ex I1). }
  assert (Sat : forall ex, In ex (c_exprs c') -> forall r, r < 2 ^ k -> ~ violated o (fpw o (w k) r) (row_trace t r) ex).
  { destruct (C53_check_constraints F o L e M w SD t k (c_exprs c') Sh ltac:(lia) HR) as (res & Er & Hres).
    - intros ex Hin. destruct (Hc ex Hin) as (W & _ & rows & Fr & _). split; [apply HU', Hin|]. split; [exact Fr|exact W].
    - rewrite Ek in Er. injection Er as <-. intros ex Hin r Hr V. apply In_nth_error in Hin as (n & Hnth). apply (Hres r n Hr). exists ex. split; assumption. }
  destruct (claims_poly o L e M w SD k a t tp claims c c' cs E0 Dg ltac:(lia) HI Hn Es HU) as (E & EE & (C & LC & HCv) & HV); [|exact ED|exact HD|exact Ec|].
  { intros ex Hin. destruct (Hc ex Hin) as (W & _ & rows & Sel). split; [intros i j R; rewrite Lps; apply (W i j R)|]. exists rows. split; [exact Sel|]. intros r Hr. apply (Sat ex Hin). destruct Sel as (_ & _ & Hrows & _). apply Hrows, Hr. }
  assert (UC : forall ex, In ex (c_exprs c) -> usizes ex) by (intros ex Hin; apply (HU ex Hin)).
  assert (RO : references_ok (length tp) (c_exprs c)).
  { intros ex i j Hin R. destruct (Forth ex Hin) as (ex' & I1 & I2). apply (substitute_refers o claims i j ex ex' I2) in R. destruct (Hc ex' I1) as (W & J & _). specialize (W i j R). specialize (J i j R). lia. }
  destruct (extract_spec o L e M w SD k b a tp ldes Hm Hab Nt Htp El) as (ct & Et & ERc & ECc & HT).
  assert (UE : usizes E) by apply (substitute_usizes o claims E0 E EE), (combine_usizes o c cs E0 Ec UC).
  assert (RE : forall i j, refers E i j -> i < length tp). { intros i j R. apply (substitute_refers o claims i j E0 E EE) in R. destruct (combine_refers o true c cs E0 i j Ec R) as (ex & H1 & H2). apply (RO ex i j H1 H2). }
  assert (Ev : exists values, coset_values o e ct (2 ^ a) E = Some values).
  { unfold coset_values. rewrite ERc, (s_root _ _ _ _ SD (k + a) ltac:(lia)). cbn [bind].
    destruct (option_all_ok (fun row => eval_expr o (fmul o (egen e) (pow_usize o (w (k + a)) (Z.of_nat row))) (coset_trace ct (2 ^ a) row) E) (fun _ _ => True) (2 ^ (k + a)) 0) as (l & El' & _); [|exists l; exact El'].
    intros row [_ Hrow]. cbn [Nat.add] in Hrow. pose proof (s_max _ _ _ _ SD) as HM. rewrite (e_pow o L e M w SD) by (pose proof (Nat.pow_le_mono_r 2 (k + a) M); lia). set (x := fmul o (egen e) (fpw o (w (k + a)) row)).
    destruct (HV x) as (v & V).
    - intros r Hr Ex. apply Hg. rewrite <- (w_pow o L e M w SD k a) in Ex by lia. rewrite <- (fpw_mul o L) in Ex. unfold x in Ex. pose proof (f_equal (fun y => fpw o y (2 ^ (k + a))) Ex) as Ex'. cbv beta in Ex'. rewrite (fpw_mul_base o L), <- !(fpw_mul o L) in Ex'.
      rewrite (Nat.mul_comm row), (Nat.mul_comm (2 ^ a * r)), !(fpw_mul o L), (w_one o e M w SD (k + a)) in Ex' by lia. rewrite !(fpw_one o L) in Ex'. rewrite (oods_comm o L) in Ex'. rewrite (oods_one o L) in Ex'. exact Ex'.
    - exists v. split; [|exact I]. apply (eval_value o L _ _ _ _ UE). revert V. apply (value_ext_on o). intros i j R. unfold coset_trace, poly_trace. rewrite ERc. pose proof (pow2_pos (k + a)). symmetry. rewrite HT; [|apply Nat2Z.inj_lt; rewrite Z2Nat.id; apply Z.mod_pos_bound; lia|apply (RE i j R)]. f_equal. f_equal.
      rewrite (coset_index o L e M w SD k a row j ltac:(lia)). unfold x. apply (oods_assoc o L). }
  destruct Ev as (values & Ev).
  destruct (C54_consistency F o L e M w SD dbg k b a tp ldes ct c claims cs E0 E c' args values C Hm Hab Nt Htp RO UC El Et Ec EE Es Ea Ev LC HCv) as (H & EH & LH & FH & HH).
  exists ct, E, values, H. split; [exact Et|]. split; [exact EE|]. split; [exact Ev|]. split; [exact EH|]. split; [exact LH|]. split; [exact FH|]. intros z Hz. destruct (HH z) as (tv & Etv & Hv). destruct (HV z Hz) as (v & V). destruct (Hv v V) as [H1 H2]. exists tv, v. split; [exact Etv|]. split; assumption.
Qed.
Print Assumptions C54_completeness_claims.
(* A concrete system with a claim polynomial that meets the hypotheses is in StarkTotalProps: cl_c, cl_p and cl_table, with cl_proves; C57_claims_ex runs the whole prover on it. *)
