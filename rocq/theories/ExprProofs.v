(** Polynomial arithmetic and the semantics of rational expressions. *)
Require Import Field ZArith NArith Lia Bool List.
From Verif Require Import Word KnuthModel FieldSig FieldInstance FieldAlgModel FieldAlgProofs Arr FftModel PermuteProofs FftProofs StarkBase PolyModel PolyProps TraceModel ExprModel ExprSpec.
Import ListNotations.
Open Scope nat_scope.

Lemma bind_some {A C} (x : option A) (f : A -> option C) c : bind x f = Some c -> exists a, x = Some a /\ f a = Some c.
Proof. destruct x as [a|]; [|discriminate]. intros H. exists a. split; [reflexivity|exact H]. Qed.
Lemma umul_true a b c : umul true a b = Some c -> c = (a * b)%Z /\ (a * b < B)%Z.
Proof. unfold umul. destruct (Z.ltb_spec (a * b) B); [|discriminate]. intros E. injection E as <-. split; [reflexivity|assumption]. Qed.
Lemma uadd_true a b c : uadd true a b = Some c -> c = (a + b)%Z /\ (a + b < B)%Z.
Proof. unfold uadd. destruct (Z.ltb_spec (a + b) B); [|discriminate]. intros E. injection E as <-. split; [reflexivity|assumption]. Qed.
Lemma usub_true a b c : usub true a b = Some c -> c = (a - b)%Z /\ (b <= a)%Z.
Proof. unfold usub. destruct (Z.leb_spec b a); [|discriminate]. intros E. injection E as <-. split; [reflexivity|assumption]. Qed.
Lemma umul_rel dbg a b c : umul true a b = Some c -> umul dbg a b = Some c.
Proof. unfold umul. destruct (a * b <? B)%Z; [trivial|discriminate]. Qed.
Lemma uadd_rel dbg a b c : uadd true a b = Some c -> uadd dbg a b = Some c.
Proof. unfold uadd. destruct (a + b <? B)%Z; [trivial|discriminate]. Qed.
Lemma usub_rel dbg a b c : usub true a b = Some c -> usub dbg a b = Some c.
Proof. unfold usub. destruct (b <=? a)%Z; [trivial|discriminate]. Qed.

Section Proofs.
Context {F : Type} (o : ops F) (L : lawful o).
Add Field Ffield : (law_field o L).
Declare Scope ff4. Delimit Scope ff4 with g.
Notation "0" := (f0 o) : ff4. Notation "1" := (f1 o) : ff4. Notation "x + y" := (fadd o x y) : ff4. Notation "x - y" := (fsub o x y) : ff4.
Notation "x * y" := (fmul o x y) : ff4. Notation "x ^ n" := (fpw o x n) : ff4. Notation "- x" := (fneg o x) : ff4.
Local Notation peval := (peval o).

Fixpoint padd (p q : list F) : list F := match p, q with a :: p, b :: q => (a + b)%g :: padd p q | [], q => q | p, [] => p end.
Definition pscale (c : F) (p : list F) : list F := map (fmul o c) p.
Fixpoint pmul (p q : list F) : list F := match p with [] => [] | a :: p => padd (pscale a q) (f0 o :: pmul p q) end.
Fixpoint ppow (p : list F) (n : nat) : list F := match n with O => [f1 o] | S n => pmul p (ppow p n) end.
Lemma padd_eval x : forall p q, peval (padd p q) x = (peval p x + peval q x)%g.
Proof.
  induction p as [|a p IH]; intros [|b q]; cbn [padd]; rewrite ?(peval_cons o L), ?peval_nil, ?IH; try ring.
Qed.
Lemma padd_len : forall p q, length (padd p q) = Nat.max (length p) (length q).
Proof. induction p as [|a p IH]; intros [|b q]; cbn [padd length]; rewrite ?IH; lia. Qed.
Lemma pscale_eval c x : forall p, peval (pscale c p) x = (c * peval p x)%g.
Proof. induction p as [|a p IH]; [cbn [pscale map]; rewrite !peval_nil; ring|]. cbn [pscale map]. rewrite !(peval_cons o L). fold (pscale c p). rewrite IH. ring. Qed.
Lemma pscale_len c p : length (pscale c p) = length p. Proof. apply map_length. Qed.
Lemma pmul_eval x : forall p q, peval (pmul p q) x = (peval p x * peval q x)%g.
Proof. induction p as [|a p IH]; intros q; cbn [pmul]; [rewrite !peval_nil; ring|]. rewrite padd_eval, pscale_eval, !(peval_cons o L), IH. ring. Qed.
Lemma pmul_len : forall p q, length (pmul p q) <= length p + (length q - 1).
Proof. induction p as [|a p IH]; intros q; cbn [pmul length]; [lia|]. rewrite padd_len, pscale_len. cbn [length]. specialize (IH q). lia. Qed.
Lemma ppow_eval x p : forall n, peval (ppow p n) x = (peval p x ^ n)%g.
Proof. induction n as [|n IH]; cbn [ppow fpw]; [rewrite (peval_cons o L), peval_nil; ring|]. rewrite pmul_eval, IH. reflexivity. Qed.
Lemma ppow_len p k : length p <= k + 1 -> forall n, length (ppow p n) <= n * k + 1.
Proof. intros H. induction n as [|n IH]; cbn [ppow length]; [lia|]. pose proof (pmul_len p (ppow p n)). destruct (length p) eqn:E; [destruct p; [cbn; lia|discriminate]|]. rewrite Nat.mul_succ_l. lia. Qed.
(** The numerator of p(N/D): the sum of p_i N^i D^(m-i). *)
Fixpoint hom (p N D : list F) : list F := match p with [] => [] | c :: p => padd (pscale c (ppow D (length p))) (match p with [] => [] | _ => pmul N (hom p N D) end) end.
Lemma hom_eval x N D u : (u * peval D x = peval N x)%g -> forall p, p <> [] -> peval (hom p N D) x = (peval p u * peval D x ^ (length p - 1))%g.
Proof.
  intros E. induction p as [|c p IH]; intros Np; [contradiction|]. destruct p as [|d p]; cbn [hom length].
  - rewrite padd_eval, pscale_eval, ppow_eval, (peval_cons o L), !peval_nil. cbn [Nat.sub fpw]. ring.
  - cbn [hom length] in IH. rewrite padd_eval, pscale_eval, pmul_eval, ppow_eval, (peval_cons o L c). rewrite IH by discriminate. rewrite <- E. replace (S (length p) - 1) with (length p) by lia. replace (S (S (length p)) - 1) with (S (length p)) by lia. cbn [fpw]. ring.
Qed.
Lemma hom_len N D n d : length N <= n + 1 -> length D <= d + 1 -> d <= n -> forall p, length (hom p N D) <= (length p - 1) * n + 1.
Proof.
  intros HN HD Hd. induction p as [|c p IH]; [cbn; lia|]. destruct p as [|c' p].
  - cbn [hom length]. rewrite padd_len, pscale_len. cbn. lia.
  - cbn [hom length] in *. rewrite padd_len, pscale_len. replace (S (S (length p)) - 1) with (S (length p)) by lia. replace (S (length p) - 1) with (length p) in IH by lia.
    pose proof (ppow_len D d HD (S (length p))) as P1. rewrite Nat.mul_succ_l in *. assert (length p * d <= length p * n) by (apply Nat.mul_le_mono_l; exact Hd).
    match goal with |- Nat.max _ (length (pmul N ?q)) <= _ => pose proof (pmul_len N q) end. lia.
Qed.
(** p has no coefficient beyond its degree *)
Lemma peval_degree p d x : (forall i, d < i -> nth i p (f0 o) = f0 o) -> d < length p -> peval p x = peval (firstn (d + 1) p) x.
Proof.
  intros Hz Hd. rewrite <- (firstn_skipn (d + 1) p) at 1. rewrite (peval_app o L). 
  assert (E : peval (skipn (d + 1) p) x = f0 o). { transitivity (peval (repeat (f0 o) (length (skipn (d + 1) p))) x); [|apply (peval_zeros o L)]. apply (peval_ext o); [rewrite repeat_length; reflexivity|]. intros i Hi. rewrite nth_skipn, nth_repeat. apply Hz. lia. }
  rewrite E. ring.
Qed.
Lemma shift_eval (s : F) (p : list F) : exists q, length q = length p /\ forall x, peval q x = peval p (s * x)%g.
Proof.
  induction p as [|a p (q & Lq & Eq)]; [exists []; split; [reflexivity|]; intros; rewrite !peval_nil; reflexivity|].
  exists (a :: pscale s q). split; [cbn [length]; rewrite pscale_len, Lq; reflexivity|]. intros x. rewrite !(peval_cons o L), pscale_eval, Eq. ring.
Qed.

(** ** Values *)
Lemma eval_value x T : forall e v, usizes e -> (eval_expr o x T e = Some v <-> value o x T e v).
Proof.
  induction e as [|c|i j|p a IH|i n a IH|a IHa b IHb|a IH|a IHa b IHb|a IH|a IH n]; intros v U; cbn [eval_expr usizes] in *.
  - split; [intros E; injection E as <-; constructor|intros V; inversion V; subst; reflexivity].
  - split; [intros E; injection E as <-; constructor|intros V; inversion V; subst; reflexivity].
  - split; [intros E; constructor; exact E|intros V; inversion V; subst; assumption].
  - destruct U as [Np U]. split.
    + intros E. apply bind_some in E as (u & E1 & E2). injection E2 as <-. rewrite (evaluate_spec o L). constructor. apply IH; assumption.
    + intros V. inversion V as [| | |p' a' u V'| | | | |]; subst. apply IH in V'; [|assumption]. rewrite V'. cbn [bind]. rewrite (evaluate_spec o L). reflexivity.
  - split; [discriminate|intros V; inversion V].
  - destruct U as [Ua Ub]. split.
    + intros E. apply bind_some in E as (u & E1 & E). apply bind_some in E as (w & E2 & E3). injection E3 as <-. constructor; [apply IHa|apply IHb]; assumption.
    + intros V. inversion V as [| | | |a' b' u w Va Vb| | | |]; subst. apply IHa in Va; [|assumption]. apply IHb in Vb; [|assumption]. rewrite Va, Vb. reflexivity.
  - split.
    + intros E. apply bind_some in E as (u & E1 & E2). injection E2 as <-. constructor. apply IH; assumption.
    + intros V. inversion V as [| | | | |a' u Va| | |]; subst. apply IH in Va; [|assumption]. rewrite Va. reflexivity.
  - destruct U as [Ua Ub]. split.
    + intros E. apply bind_some in E as (u & E1 & E). apply bind_some in E as (w & E2 & E3). injection E3 as <-. constructor; [apply IHa|apply IHb]; assumption.
    + intros V. inversion V as [| | | | | |a' b' u w Va Vb| |]; subst. apply IHa in Va; [|assumption]. apply IHb in Vb; [|assumption]. rewrite Va, Vb. reflexivity.
  - split.
    + intros E. apply bind_some in E as (u & E1 & E2). unfold inv_opt in E2. destruct (feqb_spec o L u (f0 o)) as [|N]; [discriminate|]. injection E2 as <-. constructor; [apply IH; assumption|exact N].
    + intros V. inversion V as [| | | | | | |a' u Va N|]; subst. apply IH in Va; [|assumption]. rewrite Va. cbn [bind]. unfold inv_opt. destruct (feqb_spec o L u (f0 o)); [contradiction|reflexivity].
  - destruct U as [Hn U]. split.
    + intros E. apply bind_some in E as (u & E1 & E2). injection E2 as <-. rewrite (pow_usize_spec o L) by (unfold B; lia). constructor. apply IH; assumption.
    + intros V. inversion V as [| | | | | | | |a' n' u Va]; subst. apply IH in Va; [|assumption]. rewrite Va. cbn [bind]. rewrite (pow_usize_spec o L) by (unfold B; lia). reflexivity.
Qed.
Lemma value_fun x T e u v : value o x T e u -> value o x T e v -> u = v.
Proof.
  intros V. revert v. induction V; intros w W; inversion W; subst; try reflexivity; try congruence; repeat match goal with H : forall v, value o x T ?e v -> _ = v, H' : value o x T ?e _ |- _ => apply H in H'; subst; clear H end; reflexivity.
Qed.

(** ** Degrees *)
Lemma scale_spec k n d n' d' : (let? n := umul true k n in let? d := umul true k d in Some (n, d)) = Some (n', d') -> n' = (k * n)%Z /\ d' = (k * d)%Z.
Proof. intros E. apply bind_some in E as (a & E1 & E). apply bind_some in E as (b & E2 & E). injection E as <- <-. apply umul_true in E1 as [-> _]. apply umul_true in E2 as [-> _]. split; reflexivity. Qed.
Lemma degree_nonneg xd td : (0 <= xd)%Z -> (0 <= td)%Z -> forall e n d, usizes e -> degree_impl o true xd td e = Some (n, d) -> (0 <= n /\ 0 <= d)%Z.
Proof.
  intros Hx Ht. induction e as [|c|i j|p a IH|i b a IH|a IHa b IHb|a IH|a IHa b IHb|a IH|a IH m]; intros n d U E; cbn [degree_impl usizes] in *; try (injection E as <- <-; lia).
  - apply bind_some in E as ([n1 d1] & E1 & E). apply bind_some in E as (k & E2 & E). apply scale_spec in E as [-> ->]. destruct (IH n1 d1 (proj2 U) E1). split; apply Z.mul_nonneg_nonneg; lia.
  - apply bind_some in E as ([n1 d1] & E1 & E). apply scale_spec in E as [-> ->]. destruct (IH n1 d1 (proj2 U) E1). split; apply Z.mul_nonneg_nonneg; lia.
  - apply bind_some in E as ([n1 d1] & E1 & E). apply bind_some in E as ([n2 d2] & E2 & E). destruct (IHa n1 d1 (proj1 U) E1), (IHb n2 d2 (proj2 U) E2).
    apply bind_some in E as (x1 & X1 & E). apply bind_some in E as (x2 & X2 & E). apply bind_some in E as (x3 & X3 & E). apply uadd_true in X1 as [-> _]. apply uadd_true in X2 as [-> _]. apply uadd_true in X3 as [-> _]. injection E as <- <-. lia.
  - exact (IH n d U E).
  - apply bind_some in E as ([n1 d1] & E1 & E). apply bind_some in E as ([n2 d2] & E2 & E). destruct (IHa n1 d1 (proj1 U) E1), (IHb n2 d2 (proj2 U) E2).
    apply bind_some in E as (x1 & X1 & E). apply bind_some in E as (x2 & X2 & E). apply uadd_true in X1 as [-> _]. apply uadd_true in X2 as [-> _]. injection E as <- <-. lia.
  - apply bind_some in E as ([n1 d1] & E1 & E). injection E as <- <-. destruct (IH n1 d1 U E1). lia.
  - apply bind_some in E as ([n1 d1] & E1 & E). apply scale_spec in E as [-> ->]. destruct (IH n1 d1 (proj2 U) E1). split; apply Z.mul_nonneg_nonneg; lia.
Qed.
Lemma degree_sound td (tp : nat -> list F) (s : Z -> F) : (0 <= td)%Z -> (forall i, (Z.of_nat (length (tp i)) <= td + 1)%Z) ->
  forall e n d, usizes e -> poly_safe o td e -> degree o true td e = Some (n, d) -> rational_function o (fun x i j => Some (peval (tp i) (s j * x)%g)) e n d.
Proof.
  intros Ht Htp. unfold degree. induction e as [|c|i j|p a IH|i b a IH|a IHa b IHb|a IH|a IHa b IHb|a IH|a IH m]; intros n d U S E.
  - cbn in E. injection E as <- <-. exists [f0 o; f1 o], [f1 o]. split; [cbn; lia|]. split; [cbn; lia|]. intros x v V. inversion V; subst. rewrite !(peval_cons o L), !peval_nil. split; [|ring]. intros C. apply (f_1_neq_0 o L). rewrite <- C. ring.
  - cbn in E. injection E as <- <-. exists [c], [f1 o]. split; [cbn; lia|]. split; [cbn; lia|]. intros x v V. inversion V; subst. rewrite !(peval_cons o L), !peval_nil. split; [|ring]. intros C. apply (f_1_neq_0 o L). rewrite <- C. ring.
  - cbn in E. injection E as <- <-. destruct (shift_eval (s j) (tp i)) as (q & Lq & Eq). exists q, [f1 o]. split; [rewrite Lq; apply Htp|]. split; [cbn; lia|]. intros x v V. inversion V as [| |i' j' v' H| | | | | |]; subst. injection H as <-.
    rewrite !(peval_cons o L), !peval_nil, Eq. split; [|ring]. intros C. apply (f_1_neq_0 o L). rewrite <- C. ring.
  - cbn [degree_impl usizes poly_safe] in *. destruct U as [Np U]. destruct S as [Sa Sp]. apply bind_some in E as ([n1 d1] & E1 & E). apply bind_some in E as (k & Ek & E). apply scale_spec in E as [-> ->].
    destruct (IH n1 d1 U Sa E1) as (N & D & HN & HD & H). destruct (degree_nonneg 1 td ltac:(lia) Ht a n1 d1 U E1) as [Hn1 Hd1].
    destruct (C42_degree F o L p Np) as (k' & Ek' & Lk & Zk & _). rewrite Ek in Ek'. injection Ek' as <-.
    destruct (Nat.eq_dec k 0) as [->|Nk].
    + exists [nth 0 p (f0 o)], [f1 o]. split; [cbn; lia|]. split; [cbn; lia|]. intros x v V. inversion V as [| | |p' a' u V'| | | | |]; subst. rewrite (peval_degree p 0 u Zk Lk).
      destruct p as [|c p]; [contradiction|]. cbn [Nat.add firstn nth]. rewrite !(peval_cons o L), !peval_nil. split; [|ring]. intros C. apply (f_1_neq_0 o L). rewrite <- C. ring.
    + assert (Hdn : (d1 <= n1)%Z) by (destruct Sp as [Sp|Sp]; [congruence|apply Sp, E1]).
      exists (hom (firstn (k + 1) p) N D), (ppow D k). assert (Lf : length (firstn (k + 1) p) = k + 1) by (rewrite firstn_length; lia).
      split; [|split].
      * pose proof (hom_len N D (Z.to_nat n1) (Z.to_nat d1) ltac:(lia) ltac:(lia) ltac:(lia) (firstn (k + 1) p)) as HL. rewrite Lf in HL. replace (k + 1 - 1) with k in HL by lia. nia.
      * pose proof (ppow_len D (Z.to_nat d1) ltac:(lia) k). nia.
      * intros x v V. inversion V as [| | |p' a' u V'| | | | |]; subst. destruct (H x u V') as [H1 H2]. rewrite ppow_eval. split; [apply (fpw_neq_0 o L), H1|].
        rewrite (hom_eval x N D u H2) by (intros C; rewrite C in Lf; cbn in Lf; lia). rewrite Lf. replace (k + 1 - 1) with k by lia. rewrite <- (peval_degree p k u Zk Lk). reflexivity.
  - cbn [degree_impl usizes poly_safe] in *. apply bind_some in E as ([n1 d1] & E1 & E). apply scale_spec in E as [-> ->]. destruct (degree_nonneg 1 td ltac:(lia) Ht a n1 d1 (proj2 U) E1) as [Hn1 Hd1].
    exists [], []. assert (0 <= b * n1)%Z by (apply Z.mul_nonneg_nonneg; lia). assert (0 <= b * d1)%Z by (apply Z.mul_nonneg_nonneg; lia). split; [cbn; lia|]. split; [cbn; lia|]. intros x v V. inversion V.
  - cbn [degree_impl usizes poly_safe] in *. apply bind_some in E as ([n1 d1] & E1 & E). apply bind_some in E as ([n2 d2] & E2 & E).
    apply bind_some in E as (x1 & X1 & E). apply bind_some in E as (x2 & X2 & E). apply bind_some in E as (x3 & X3 & E). apply uadd_true in X1 as [-> _]. apply uadd_true in X2 as [-> _]. apply uadd_true in X3 as [-> _]. injection E as <- <-.
    destruct (degree_nonneg 1 td ltac:(lia) Ht a n1 d1 (proj1 U) E1) as [Hn1 Hd1]. destruct (degree_nonneg 1 td ltac:(lia) Ht b n2 d2 (proj2 U) E2) as [Hn2 Hd2].
    destruct (IHa n1 d1 (proj1 U) (proj1 S) E1) as (N & D & HN & HD & H). destruct (IHb n2 d2 (proj2 U) (proj2 S) E2) as (N' & D' & HN' & HD' & H').
    exists (padd (pmul N D') (pmul N' D)), (pmul D D'). rewrite padd_len. pose proof (pmul_len N D') as M1. pose proof (pmul_len N' D) as M2. pose proof (pmul_len D D') as M3.
    assert (LD : 1 <= length D -> (Z.of_nat (length D) - 1 <= d1)%Z) by lia.
    split; [lia|]. split; [lia|]. intros x v V. inversion V as [| | | |a' b' u w Va Vb| | | |]; subst. destruct (H x u Va) as [H1 H2]. destruct (H' x w Vb) as [H1' H2']. rewrite padd_eval, !pmul_eval, <- H2, <- H2'. split; [apply (fmul_neq_0 o L); assumption|ring].
  - cbn [degree_impl usizes poly_safe] in *. destruct (IH n d U S E) as (N & D & HN & HD & H). exists (pscale (fneg o (f1 o)) N), D. rewrite pscale_len. split; [exact HN|]. split; [exact HD|]. intros x v V. inversion V as [| | | | |a' u Va| | |]; subst.
    destruct (H x u Va) as [H1 H2]. split; [exact H1|]. rewrite pscale_eval, <- H2. ring.
  - cbn [degree_impl usizes poly_safe] in *. apply bind_some in E as ([n1 d1] & E1 & E). apply bind_some in E as ([n2 d2] & E2 & E).
    apply bind_some in E as (x1 & X1 & E). apply bind_some in E as (x2 & X2 & E). apply uadd_true in X1 as [-> _]. apply uadd_true in X2 as [-> _]. injection E as <- <-.
    destruct (degree_nonneg 1 td ltac:(lia) Ht a n1 d1 (proj1 U) E1) as [Hn1 Hd1]. destruct (degree_nonneg 1 td ltac:(lia) Ht b n2 d2 (proj2 U) E2) as [Hn2 Hd2].
    destruct (IHa n1 d1 (proj1 U) (proj1 S) E1) as (N & D & HN & HD & H). destruct (IHb n2 d2 (proj2 U) (proj2 S) E2) as (N' & D' & HN' & HD' & H').
    exists (pmul N N'), (pmul D D'). pose proof (pmul_len N N') as M1. pose proof (pmul_len D D') as M2. split; [lia|]. split; [lia|]. intros x v V. inversion V as [| | | | | |a' b' u w Va Vb| |]; subst.
    destruct (H x u Va) as [H1 H2]. destruct (H' x w Vb) as [H1' H2']. rewrite !pmul_eval, <- H2, <- H2'. split; [apply (fmul_neq_0 o L); assumption|ring].
  - cbn [degree_impl usizes poly_safe] in *. apply bind_some in E as ([n1 d1] & E1 & E). injection E as <- <-. destruct (IH n1 d1 U S E1) as (N & D & HN & HD & H). exists D, N. split; [exact HD|]. split; [exact HN|].
    intros x v V. inversion V as [| | | | | | |a' u Va Nu|]; subst. destruct (H x u Va) as [H1 H2]. rewrite <- H2. split; [apply (fmul_neq_0 o L); assumption|].
    transitivity ((finv o u * u) * peval D x)%g; [ring|]. rewrite (finv_l o L u Nu). ring.
  - cbn [degree_impl usizes poly_safe] in *. destruct U as [Hm U]. apply bind_some in E as ([n1 d1] & E1 & E). apply scale_spec in E as [-> ->]. destruct (degree_nonneg 1 td ltac:(lia) Ht a n1 d1 U E1) as [Hn1 Hd1].
    destruct (IH n1 d1 U S E1) as (N & D & HN & HD & H). exists (ppow N (Z.to_nat m)), (ppow D (Z.to_nat m)).
    pose proof (ppow_len N (Z.to_nat n1) ltac:(lia) (Z.to_nat m)) as P1. pose proof (ppow_len D (Z.to_nat d1) ltac:(lia) (Z.to_nat m)) as P2. apply Nat2Z.inj_le in P1, P2. rewrite Nat2Z.inj_add, Nat2Z.inj_mul, !Z2Nat.id in P1, P2 by lia.
    split; [lia|]. split; [lia|]. intros x v V. inversion V as [| | | | | | | |a' n' u Va]; subst. destruct (H x u Va) as [H1 H2]. rewrite !ppow_eval, <- H2. split; [apply (fpw_neq_0 o L), H1|].
    rewrite (fpw_mul_base o L). f_equal. rewrite <- (fexp_nat o u (Z.to_nat m)). f_equal. lia.
Qed.
End Proofs.
