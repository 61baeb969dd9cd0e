(** The generator returns a contract (C68). *)
Require Import ZArith NArith Lia Bool List Permutation.
From Verif Require Import Word KnuthModel FieldSig FieldAlgModel StarkBase PolyModel TraceModel ExprModel ExprSpec ExprProofs ContractModel ContractSpec.
Import ListNotations.
Open Scope Z_scope.

Section Total.
Context {F : Type} (o : ops F) (num : F -> Z) (hasher : list (token (F := F)) -> Z) (fixed_point : F).
Notation expr := (rexpr F).
Notation hash := (get_hash o hasher fixed_point). Notation get := (get o hasher fixed_point). Notation encode := (soldity_encode o true num hasher fixed_point).
Definition has (l : layout (F := F)) (e : expr) : Prop := exists y, get l e = Some y.
Lemma has_cons l e d y : has l e -> has ((d, y) :: l) e.
Proof. unfold has, ContractModel.get. cbn [find fst]. destruct (hash d =? hash e); intros (z & H); [eexists; reflexivity|exists z; exact H]. Qed.
Lemma has_head l e d y : hash d = hash e -> has ((d, y) :: l) e.
Proof. intros E. unfold has, ContractModel.get. cbn [find fst]. rewrite E, Z.eqb_refl. eexists. reflexivity. Qed.
Fixpoint ready (l : layout (F := F)) (e : expr) : Prop :=
  match e with
  | EX | ETrace _ _ | EPoly _ _ | EClaim _ _ _ | EInv _ => has l e
  | EConst _ => True
  | EAdd a b | EMul a b => ready l a /\ ready l b
  | ENeg a | EExp a _ => ready l a
  end.
Lemma ready_mono l l' : (forall e, has l e -> has l' e) -> forall e, ready l e -> ready l' e.
Proof. intros M. induction e; cbn [ready]; try (apply M); try tauto. Qed.
Section Encode.
Context (l : layout (F := F)).
Fixpoint collapse_t (a : expr) (n : Z) : option yul :=
  match a with
  | EExp a' f => let? n := umul true n f in match get l (EExp a' n) with Some s => Some s | None => collapse_t a' n end
  | _ => encode_power (encode l a) n
  end.
Lemma encode_exp_t a n : encode l (EExp a n) = match get l (EExp a n) with Some s => Some s | None => collapse_t a n end.
Proof. reflexivity. Qed.
Context (S : expr -> Prop) (S_add : forall a b, S (EAdd a b) -> S a /\ S b) (S_mul : forall a b, S (EMul a b) -> S a /\ S b) (S_neg : forall a, S (ENeg a) -> S a)
  (S_exp : forall a n, S (EExp a n) -> S a) (S_collapse : forall a f n, S (EExp (EExp a f) n) -> S (EExp a (n * f)) /\ n * f < B).
Lemma power_total s n : exists y, encode_power (Some s) n = Some y.
Proof. unfold encode_power. destruct (n =? 0); eexists; reflexivity. Qed.
Lemma encode_total_both : forall e, (S e -> ready l e -> exists y, encode l e = Some y) /\ (forall n, S (EExp e n) -> ready l e -> exists y, collapse_t e n = Some y).
Proof.
  assert (Base : forall e n, (S e -> ready l e -> exists y, encode l e = Some y) -> S (EExp e n) -> ready l e -> exists y, encode_power (encode l e) n = Some y).
  { intros e n IH HS R. destruct (IH (S_exp _ _ HS) R) as (y & ->). apply power_total. }
  induction e as [|q|i j|q a IH|i n a IH|a IHa b IHb|a IH|a IHa b IHb|a IH|a IH n];
    (match goal with |- ?A /\ _ => assert (HA : A); [intros HS R; cbn [ready] in R; try (destruct R as (z & R); cbn [soldity_encode]; rewrite R; eexists; reflexivity)|] end);
    try (split; [exact HA|]; intros n0 HS R; apply Base; assumption).
  - cbn [soldity_encode]. destruct (get l _); eexists; reflexivity.
  - destruct (S_add _ _ HS) as [Sa Sb]. destruct R as [Ra Rb]. destruct (proj1 IHa Sa Ra) as (ya & Ea). destruct (proj1 IHb Sb Rb) as (yb & Eb). cbn [soldity_encode]. destruct (get l _); [eexists; reflexivity|]. rewrite Ea, Eb. eexists. reflexivity.
  - destruct (proj1 IH (S_neg _ HS) R) as (ya & Ea). cbn [soldity_encode]. destruct (get l _); [eexists; reflexivity|]. rewrite Ea. eexists. reflexivity.
  - destruct (S_mul _ _ HS) as [Sa Sb]. destruct R as [Ra Rb]. destruct (proj1 IHa Sa Ra) as (ya & Ea). destruct (proj1 IHb Sb Rb) as (yb & Eb). cbn [soldity_encode]. destruct (get l _); [eexists; reflexivity|]. rewrite Ea, Eb. eexists. reflexivity.
  - rewrite encode_exp_t. destruct (get l _); [eexists; reflexivity|]. apply (proj2 IH n HS R).
  - split; [exact HA|]. intros n0 HS R. cbn [ready] in R. cbn [collapse_t]. destruct (S_collapse _ _ _ HS) as [Sc Hb]. unfold umul. replace (n0 * n <? B) with true by (symmetry; apply Z.ltb_lt; exact Hb). cbn [bind].
    destruct (get l (EExp a (n0 * n))); [eexists; reflexivity|]. apply (proj2 IH _ Sc R).
Qed.
Lemma encode_total e : S e -> ready l e -> exists y, encode l e = Some y.
Proof. apply encode_total_both. Qed.
End Encode.
Lemma inputs_mono : forall keys i (l : layout (F := F)) e, has l e -> has (place_inputs keys i l) e.
Proof. induction keys as [|d keys IH]; intros i l e H; cbn [place_inputs]; [exact H|]. apply IH, has_cons, H. Qed.
Lemma inputs_has : forall keys i (l : layout (F := F)) d e, In d keys -> hash d = hash e -> has (place_inputs keys i l) e.
Proof. induction keys as [|k keys IH]; intros i l d e [] E; cbn [place_inputs]; [subst; apply inputs_mono, has_head, E|eapply IH; eassumption]. Qed.
Lemma collect_has : forall l e, In e l -> exists e', In e' (collect o hasher fixed_point l) /\ hash e' = hash e.
Proof.
  induction l as [|a l IH]; intros e []; cbn [collect]; [exists a; split; [left; reflexivity|congruence]|]. destruct (IH e H) as (e' & Hi & E).
  destruct (Z.eqb_spec (hash e') (hash a)) as [Ea|Na]; [exists a; split; [left; reflexivity|congruence]|]. exists e'. split; [|exact E]. right. apply filter_In. split; [exact Hi|]. apply negb_true_iff, Z.eqb_neq. exact Na.
Qed.
Lemma collect_sub l e : In e (collect o hasher fixed_point l) -> In e l.
Proof. induction l as [|a l IH]; [intros []|]. cbn [collect]. intros [->|H]; [left; reflexivity|]. apply filter_In in H as [H _]. right. apply IH. exact H. Qed.
Lemma adjustments_has : forall degrees i l das i' l', place_adjustments o hasher fixed_point degrees i l = (das, i', l') -> (forall e, has l e -> has l' e) /\ (forall d, In d degrees -> has l' (EExp EX d)).
Proof.
  induction degrees as [|d degrees IH]; intros i l das i' l' E; cbn [place_adjustments] in E; [injection E as <- <- <-; split; [auto|intros d []]|].
  destruct (get l (EExp EX d)) as [y|] eqn:Eg.
  - destruct (IH _ _ _ _ _ E) as [M H]. split; [exact M|]. intros d' [<-|Hd]; [apply M; exists y; exact Eg|apply H; exact Hd].
  - destruct (place_adjustments _ _ _ degrees (i + 1) _) as [[das1 i1] l1] eqn:E1. injection E as <- <- <-. destruct (IH _ _ _ _ _ E1) as [M H].
    split; [intros e He; apply M, has_cons, He|]. intros d' [<-|Hd]; [apply M, has_head; reflexivity|apply H; exact Hd].
Qed.
Section Rest.
Context (c : constraints (F := F)) (Fit : exponents_fit o c) (Xa : x_arguments o c) (Un : unnested o c) (order trace_order : list expr -> list expr).
Context (Po : forall l, Permutation (order l) l) (Pt : forall l, Permutation (trace_order l) l).
Let S := occurs o c.
Local Lemma S_add a b : S (EAdd a b) -> S a /\ S b. Proof. intros H. split; [eapply oc_add1|eapply oc_add2]; exact H. Qed.
Local Lemma S_mul a b : S (EMul a b) -> S a /\ S b. Proof. intros H. split; [eapply oc_mul1|eapply oc_mul2]; exact H. Qed.
Local Lemma S_neg a : S (ENeg a) -> S a. Proof. intros H. eapply oc_neg; exact H. Qed.
Local Lemma S_exp a n : S (EExp a n) -> S a. Proof. intros H. eapply oc_exp; exact H. Qed.
Local Lemma S_collapse a f n : S (EExp (EExp a f) n) -> S (EExp a (n * f)) /\ n * f < B. Proof. intros H. split; [apply oc_collapse; exact H|exact (Fit _ _ _ H)]. Qed.
Local Lemma inverses_total : forall keys i j l, (forall b, In b keys -> exists a, b = EInv a /\ S a /\ ready l a) ->
  exists bs l', place_inverses o true num hasher fixed_point keys i j l = Some (bs, l') /\ (forall e, has l e -> has l' e) /\ (forall b e, In b keys -> hash b = hash e -> has l' e).
Proof.
  induction keys as [|b keys IH]; intros i j l H; cbn [place_inverses]; [exists [], l; split; [reflexivity|]; split; [auto|intros b e []]|].
  destruct (H b (or_introl eq_refl)) as (a & -> & Sa & Ra). destruct (encode_total l S S_add S_mul S_neg S_exp S_collapse a Sa Ra) as (y & ->). cbn [bind].
  destruct (IH (i + 1) (j + 1) ((EInv a, YMload (YNum (j * 32))) :: l)) as (bs & l' & -> & M & Hk).
  { intros b Hb. destruct (H b (or_intror Hb)) as (a' & E & Sa' & Ra'). exists a'. split; [exact E|]. split; [exact Sa'|]. eapply ready_mono; [|exact Ra']. intros e. apply has_cons. }
  cbn [bind fst snd]. eexists _, _. split; [reflexivity|]. split; [intros e He; apply M, has_cons, He|]. intros b e [<-|Hb] E; [apply M, has_head, E|eapply Hk; eassumption].
Qed.
Local Lemma sums_total l : forall exprs degrees ci, (forall e, In e exprs -> S e /\ ready l e) -> (forall d, In d degrees -> has l (EExp EX d)) -> exists r, place_sums o true num hasher fixed_point l exprs degrees ci = Some r.
Proof.
  induction exprs as [|e exprs IH]; intros degrees ci He Hd; cbn [place_sums]; [eexists; reflexivity|]. destruct degrees as [|d degrees]; [eexists; reflexivity|].
  destruct (Hd d (or_introl eq_refl)) as (y & ->). cbn [bind]. destruct (He e (or_introl eq_refl)) as [Se Re]. destruct (encode_total l S S_add S_mul S_neg S_exp S_collapse e Se Re) as (z & ->). cbn [bind].
  destruct (IH degrees (ci + 2)) as (r & ->); [intros e' H; apply He; right; exact H|intros d' H; apply Hd; right; exact H|]. eexists. reflexivity.
Qed.
Local Lemma power_no_inv : forall a : expr, x_power a -> inv_search a = []. Proof. induction a; cbn; intros H; try contradiction; auto. Qed.
(** All leaves are found, with or without the inverses. *)
Local Lemma leaves_ready l : has l EX -> forall e, S e -> (forall b, In b (claim_polynomial_search e) -> has l b) -> (forall b, In b (periodic_search e) -> has l b) -> (forall b, In b (trace_search e) -> has l b) ->
  (no_inverse e \/ forall b, In b (inv_search e) -> has l b) -> ready l e.
Proof.
  intros Hx. induction e as [|q|i j|q a IH|i n a IH|a IHa b IHb|a IH|a IHa b IHb|a IH|a IH n]; intros HS Hc Hp Ht Hi; cbn [ready claim_polynomial_search periodic_search trace_search inv_search no_inverse] in *; auto.
  - apply Ht. left. reflexivity.
  - apply Hp. left. reflexivity.
  - apply Hc. left. reflexivity.
  - destruct (S_add _ _ HS). split; [apply IHa|apply IHb]; try assumption; try solve [intros d Hd; apply Hc, in_or_app; tauto|intros d Hd; apply Hp, in_or_app; tauto|intros d Hd; apply Ht, in_or_app; tauto]; (destruct Hi as [[? ?]|Hi]; [left; assumption|right; intros d Hd; apply Hi, in_or_app; tauto]).
  - apply IH; try assumption. apply S_neg, HS.
  - destruct (S_mul _ _ HS). split; [apply IHa|apply IHb]; try assumption; try solve [intros d Hd; apply Hc, in_or_app; tauto|intros d Hd; apply Hp, in_or_app; tauto|intros d Hd; apply Ht, in_or_app; tauto]; (destruct Hi as [[? ?]|Hi]; [left; assumption|right; intros d Hd; apply Hi, in_or_app; tauto]).
  - destruct Hi as [[]|Hi]. apply Hi. left. reflexivity.
  - apply IH; try assumption. eapply S_exp, HS.
Qed.
(** A divisor and its leaves are parts of the expression. *)
Local Lemma divisor_found : forall e, S e -> forall b, In b (inv_search e) -> exists a, b = EInv a /\ S b
  /\ (forall d, In d (claim_polynomial_search a) -> In d (claim_polynomial_search e)) /\ (forall d, In d (periodic_search a) -> In d (periodic_search e)) /\ (forall d, In d (trace_search a) -> In d (trace_search e)).
Proof.
  induction e as [|q|i j|q a IH|i n a IH|a IHa b IHb|a IH|a IHa b IHb|a IH|a IH n]; intros HS d Hin; cbn [inv_search claim_polynomial_search periodic_search trace_search] in *; try contradiction.
  - rewrite (power_no_inv a) in Hin by (eapply (proj1 Xa); exact HS). destruct Hin.
  - rewrite (power_no_inv a) in Hin by (eapply (proj2 Xa); exact HS). destruct Hin.
  - destruct (S_add _ _ HS) as [Sa Sb]. apply in_app_or in Hin as [Hin|Hin]; [destruct (IHa Sa d Hin) as (z & E & Sd & A1 & A2 & A3)|destruct (IHb Sb d Hin) as (z & E & Sd & A1 & A2 & A3)]; exists z; (split; [exact E|]; split; [exact Sd|]); repeat split; intros; apply in_or_app; auto.
  - apply (IH (S_neg _ HS) d Hin).
  - destruct (S_mul _ _ HS) as [Sa Sb]. apply in_app_or in Hin as [Hin|Hin]; [destruct (IHa Sa d Hin) as (z & E & Sd & A1 & A2 & A3)|destruct (IHb Sb d Hin) as (z & E & Sd & A1 & A2 & A3)]; exists z; (split; [exact E|]; split; [exact Sd|]); repeat split; intros; apply in_or_app; auto.
  - destruct Hin as [<-|[]]. exists a. split; [reflexivity|]. split; [exact HS|]. auto.
  - apply (IH (S_exp _ _ HS) d Hin).
Qed.
Lemma generate_total target degrees : target_degree o true c = Some target -> option_all (map (adjustment_degree o true (c_nrows c) target) (c_exprs c)) = Some degrees ->
  exists r, generate o true num hasher fixed_point order trace_order c = Some r.
Proof.
  intros Et Ed. unfold generate. rewrite Et. cbn [bind]. rewrite Ed. cbn [bind].
  set (ck := order _). set (pk := order (collect o hasher fixed_point (flat_map periodic_search (c_exprs c)))). set (tk := trace_order _). set (ik := order (collect o hasher fixed_point (flat_map inv_search (c_exprs c)))).
  assert (Key : forall ord f, (forall l, Permutation (ord l) l) -> forall e b, In e (c_exprs c) -> In b (f e) -> exists b', In b' (ord (collect o hasher fixed_point (flat_map f (c_exprs c)))) /\ hash b' = hash b).
  { intros ord f Pm e b He Hb. destruct (collect_has (flat_map f (c_exprs c)) b) as (b' & Hi & E); [apply in_flat_map; eauto|]. exists b'. split; [|exact E]. apply (Permutation_in _ (Permutation_sym (Pm _))). exact Hi. }
  unfold write_oods_poly. set (l0 := place_inputs tk _ _).
  assert (Hx0 : has l0 EX) by (unfold l0; apply inputs_mono, inputs_mono, inputs_mono, has_head; reflexivity).
  assert (Hc0 : forall e b, In e (c_exprs c) -> In b (claim_polynomial_search e) -> has l0 b) by (intros e b He Hb; destruct (Key order claim_polynomial_search Po e b He Hb) as (b' & Hi & E); unfold l0; apply inputs_mono, inputs_mono; eapply inputs_has; eassumption).
  assert (Hp0 : forall e b, In e (c_exprs c) -> In b (periodic_search e) -> has l0 b) by (intros e b He Hb; destruct (Key order periodic_search Po e b He Hb) as (b' & Hi & E); unfold l0; apply inputs_mono; eapply inputs_has; eassumption).
  assert (Ht0 : forall e b, In e (c_exprs c) -> In b (trace_search e) -> has l0 b) by (intros e b He Hb; destruct (Key trace_order trace_search Pt e b He Hb) as (b' & Hi & E); unfold l0; eapply inputs_has; eassumption).
  clearbody l0. destruct (place_adjustments o hasher fixed_point degrees 1 l0) as [[das s0] l1] eqn:Ea. destruct (adjustments_has _ _ _ _ _ _ Ea) as [M1 Hd1].
  destruct (inverses_total ik (s0 + Z.of_nat (length ik)) s0 l1) as (bs & l2 & E2 & M2 & Hk2).
  { intros b Hb. unfold ik in Hb. apply (Permutation_in _ (Po _)) in Hb. apply collect_sub in Hb. apply in_flat_map in Hb as (e & He & Hb). destruct (divisor_found e (oc_expr _ _ _ He) b Hb) as (a & -> & Sb & A1 & A2 & A3).
    exists a. split; [reflexivity|]. split; [eapply oc_inv; exact Sb|]. apply leaves_ready; [apply M1, Hx0|eapply oc_inv; exact Sb| | | |left; apply Un; exact Sb]; intros d Hd; apply M1; [eapply Hc0|eapply Hp0|eapply Ht0]; eauto. }
  rewrite E2. cbn [bind fst snd].
  edestruct (sums_total l2 (c_exprs c) degrees) as (r & Er); [| |rewrite Er; cbn [bind]; eexists; reflexivity].
  - intros e He. split; [apply oc_expr; exact He|]. apply leaves_ready; [apply M2, M1, Hx0|apply oc_expr; exact He| | | |right]; intros d Hd; [apply M2, M1; eapply Hc0; eassumption|apply M2, M1; eapply Hp0; eassumption|apply M2, M1; eapply Ht0; eassumption|].
    destruct (Key order inv_search Po e d He Hd) as (b' & Hi & E). eapply Hk2; [exact Hi|exact E].
  - intros d Hd. apply M2, Hd1, Hd.
Qed.
End Rest.
End Total.
