(** From an accepting run of the verifier to [AcceptSpec.accepted]. *)
Require Import Field ZArith Lia Bool List Sorted Permutation.
From Verif Require Import Word Primes U256Model U256Spec U256Proofs BinaryModel BinaryProofs BinaryProps EncodingSpec EncodingProofs KnuthModel FieldSig FieldModel FieldInstance FieldAlgModel FieldAlgProofs Arr FftSpec FftModel PermuteProofs StarkBase PolyModel PolyProps TraceModel ExprModel ExprSpec ExprProofs ExprProps
  HashModel MerkleModel MerkleSpec MerkleProofs MerkleTreeProofs MerkleProps ChannelModel ChannelSpec ChannelProps PowModel PowProps QueryModel QueryProps FriModel FriProps OodsModel OodsProofs OodsProps StarkModel StarkSpec StarkProofs StarkOpen StarkFri StarkNum AcceptSpec AcceptProofs.
Import ListNotations.
Open Scope nat_scope.

(** ** The combined constraint *)
Section Claims.
Context {F : Type} (o : ops F) (L : lawful o).
Add Field Ffield : (law_field o L).
Lemma claim_subst claims x T : forall E E' v, substitute_claim o claims E = Some E' -> value o x T E' v -> claim_value o claims x T E v.
Proof.
  unfold substitute_claim. induction E as [|c|i0 j0|p a IH|i0 n a IH|a IHa b IHb|a IH|a IHa b IHb|a IH|a IH n]; intros E' v E V; cbn [map_expr bind] in E;
    try (apply bind_some in E as (E1 & E0 & E); repeat match goal with H : bind _ _ = Some _ |- _ => apply bind_some in H as (? & ? & H) end; injection E0 as <-).
  5: { repeat match goal with H : bind _ _ = Some _ |- _ => apply bind_some in H as (? & ? & H) end. destruct (_ <=? _)%Z; [|discriminate E]. injection E as <-. inversion V; subst. apply cv_claim; eauto. }
  all: injection E as <-; inversion V; subst; constructor; eauto.
Qed.
Lemma claim_sum claims x T : forall l e v, claim_value o claims x T (fold_left EAdd l e) v -> exists u us, claim_value o claims x T e u /\ Forall2 (claim_value o claims x T) l us /\ v = fadd o u (fsum o us).
Proof.
  induction l as [|a l IH]; intros e v V; cbn [fold_left] in V.
  - exists v, []. split; [exact V|]. split; [constructor|]. unfold fsum; cbn [fold_right]; ring.
  - destruct (IH _ _ V) as (u & us & Vu & H & ->). inversion Vu as [| | | | |a' b' u1 u2 Va Vb| | | |]; subst. exists u1, (u2 :: us). split; [exact Va|]. split; [constructor; assumption|]. unfold fsum; cbn [fold_right]; ring.
Qed.
Lemma claim_terms claims dbg nrows target : forall es cs l, length cs = 2 * length es -> option_all (map (combine_term o dbg nrows target) (List.combine es (tuples cs))) = Some l ->
  exists ks, Forall2 (fun e k => adjustment_degree o dbg nrows target e = Some k) es ks /\
  forall x T ts, Forall2 (claim_value o claims x T) l ts -> exists vs, Forall2 (claim_value o claims x T) es vs /\
    ts = map (fun i => fmul o (fadd o (nth (2 * i) cs (f0 o)) (fmul o (nth (2 * i + 1) cs (f0 o)) (fexp o x (Z.to_N (nth i ks 0%Z))))) (nth i vs (f0 o))) (seq 0 (length es)).
Proof.
  induction es as [|e es IH]; intros cs l Lc E.
  - destruct cs; [|cbn in Lc; lia]. cbn in E. injection E as <-. exists []. split; [constructor|]. intros x T ts H. inversion H; subst. exists []. split; [constructor|reflexivity].
  - destruct cs as [|c1 [|c2 cs]]; [cbn in Lc; lia|cbn in Lc; lia|]. cbn [tuples List.combine map option_all combine_term] in E. apply bind_some in E as (a & E1 & E). apply bind_some in E1 as (k & Ek & E1). injection E1 as <-. apply bind_some in E as (l' & E2 & E). injection E as <-.
    destruct (IH cs l' ltac:(cbn in Lc; lia) E2) as (ks & Hks & H). exists (k :: ks). split; [constructor; assumption|]. intros x T ts Hf.
    assert (Sh : forall v vs, map (fun i => fmul o (fadd o (nth (2 * i) (c1 :: c2 :: cs) (f0 o)) (fmul o (nth (2 * i + 1) (c1 :: c2 :: cs) (f0 o)) (fexp o x (Z.to_N (nth i (k :: ks) 0%Z))))) (nth i (v :: vs) (f0 o))) (seq 0 (length (e :: es)))
      = fmul o (fadd o c1 (fmul o c2 (fexp o x (Z.to_N k)))) v :: map (fun i => fmul o (fadd o (nth (2 * i) cs (f0 o)) (fmul o (nth (2 * i + 1) cs (f0 o)) (fexp o x (Z.to_N (nth i ks 0%Z))))) (nth i vs (f0 o))) (seq 0 (length es))).
    { intros v vs. cbn [length seq map]. f_equal. rewrite <- seq_shift, map_map. apply map_ext. intros i. replace (2 * S i) with (S (S (2 * i))) by lia. replace (S (S (2 * i)) + 1) with (S (S (2 * i + 1))) by lia. reflexivity. }
    inversion Hf as [|? t ? ts' Vt Ht]; subst. apply H in Ht as (vs & Hvs & ->). inversion Vt as [| | | | | | |a' b' u w Va Vb| |]; subst. inversion Va as [| | | | |a' b' u1 u2 V1 V2| | | |]; subst. inversion V1; subst. inversion V2 as [| | | | | | |a' b' u3 u4 V3 V4| |]; subst. inversion V3; subst. inversion V4 as [| | | | | | | | |a' n' u5 V5]; subst. inversion V5; subst.
    exists (w :: vs). split; [constructor; assumption|]. symmetry. apply Sh.
Qed.
Lemma claim_combine claims (c : constraints (F := F)) cs E0 : combine o true c cs = Some E0 ->
  exists D ks, c_degree o true c = Some D /\ length cs = 2 * length (c_exprs c) /\
  Forall2 (fun e k => exists num den, degree o true (Z.of_nat (c_nrows c) - 1) e = Some (num, den) /\ (0 <= k)%Z /\ (k + num = (D * Z.of_nat (c_nrows c) - 1) + den)%Z) (c_exprs c) ks /\
  forall x T v, claim_value o claims x T E0 v -> exists vs, Forall2 (claim_value o claims x T) (c_exprs c) vs /\
    v = fsum o (map (fun i => fmul o (fadd o (nth (2 * i) cs (f0 o)) (fmul o (nth (2 * i + 1) cs (f0 o)) (fexp o x (Z.to_N (nth i ks 0%Z))))) (nth i vs (f0 o))) (seq 0 (length (c_exprs c)))).
Proof.
  intros E. unfold combine in E. destruct (Nat.eqb_spec (2 * length (c_exprs c)) (length cs)) as [Lc|]; [|discriminate].
  apply bind_some in E as (target & Et & E). apply bind_some in E as (l & El & E). injection E as <-. unfold target_degree in Et. apply bind_some in Et as (D & ED & Et). apply bind_some in Et as (t & Ht & Et).
  apply umul_true in Ht as [-> _]. apply usub_true in Et as [-> Hpos]. destruct (claim_terms claims true (c_nrows c) _ (c_exprs c) cs l (eq_sym Lc) El) as (ks & Hks & H).
  exists D, ks. split; [exact ED|]. split; [symmetry; exact Lc|]. split.
  - clear - Hks. induction Hks as [|e k es ks Hk Hks IH]; constructor; [|exact IH]. unfold adjustment_degree in Hk. apply bind_some in Hk as (t & Ht & Hk). apply usub_true in Ht as [-> _]. apply bind_some in Hk as ([num den] & Hd & Hk).
    apply bind_some in Hk as (s & Hs & Hk). apply uadd_true in Hs as [-> _]. apply usub_true in Hk as [-> Hk]. exists num, den. split; [exact Hd|]. lia.
  - intros x T v V. destruct l as [|e0 l].
    + apply option_all_inv in El. destruct (c_exprs c) as [|e es] eqn:Ees; [unfold c_degree in ED; rewrite Ees in ED; discriminate ED|]. destruct cs as [|c1 [|c2 cs]]; [cbn in Lc; lia|cbn in Lc; lia|]. inversion El.
    + unfold e_sum in V. apply claim_sum in V as (u & us & V & Hus & ->). destruct (H x T (u :: us)) as (vs & Hvs & Eq); [constructor; assumption|]. exists vs. split; [exact Hvs|]. rewrite <- Eq. reflexivity.
Qed.
End Claims.

(** ** The quotient *)
Section Deep.
Context {F : Type} (o : ops F) (L : lawful o) (e : engine F) (M : nat) (w : nat -> F) (SD : sound o e M w).
Add Field Ffield2 : (law_field o L).
Lemma option_all_split {A} : forall (a b : list (option A)) r, option_all (a ++ b) = Some r -> exists x y, option_all a = Some x /\ option_all b = Some y /\ r = x ++ y.
Proof.
  induction a as [|[u|] a IH]; intros b r E; cbn [app option_all bind] in E; [|apply bind_some in E as (x & E1 & [= <-])|discriminate E].
  - exists [], r. auto.
  - destruct (IH b x E1) as (y & z & Ey & Ez & ->). exists (u :: y), z. cbn [option_all bind]. rewrite Ey. auto.
Qed.
Lemma fsum_app a b : fsum o (a ++ b) = fadd o (fsum o a) (fsum o b).
Proof. unfold fsum. induction a as [|x a IH]; cbn [app fold_right]; [ring|rewrite IH; ring]. Qed.
Lemma f_div_good a d y : f_div o a d = Some y -> d <> f0 o /\ y = fmul o a (finv o d).
Proof. unfold f_div, inv_opt. destruct (feqb_spec o L d (f0 o)); [discriminate|]. cbn [bind]. intros [= <-]. auto. Qed.
Lemma weighted {A} (d : A) (f : A -> option F) (g : A -> F) : forall l cs r, (forall a t, In a l -> f a = Some t -> t = g a) -> length cs = length l ->
  option_all (map (fun tc => let? t := fst tc in Some (fmul o t (snd tc))) (List.combine (map f l) cs)) = Some r ->
  (forall a, In a l -> f a = Some (g a)) /\ fsum o r = fsum o (map (fun n => fmul o (nth n cs (f0 o)) (g (nth n l d))) (seq 0 (length l))).
Proof.
  induction l as [|a l IH]; intros cs r G Lc E.
  - cbn in E. injection E as <-. split; [intros a []|reflexivity].
  - destruct cs as [|c cs]; [discriminate Lc|]. cbn [map List.combine option_all fst snd] in E. destruct (f a) as [t|] eqn:Et; cbn [bind] in E; [|discriminate E]. apply bind_some in E as (r' & E1 & [= <-]).
    destruct (IH cs r' (fun a t I => G a t (or_intror I)) ltac:(cbn in Lc; lia) E1) as (H1 & H2). pose proof (G a t (or_introl eq_refl) Et) as ->. split.
    + intros b [<-|I]; [exact Et|apply H1, I].
    + cbn [length seq map]. rewrite <- seq_shift, map_map. unfold fsum in *. cbn [fold_right nth]. rewrite H2. f_equal. ring.
Qed.
Lemma upow a n : (Z.of_nat n < 2 ^ 64)%Z -> pow_usize o a (Z.of_nat n) = fpw o a n.
Proof. intros H. rewrite (pow_usize_spec o L) by (change B with (2 ^ 64)%Z; lia). replace (Z.to_N (Z.of_nat n)) with (N.of_nat n) by lia. apply (fexp_nat o). Qed.
Lemma deep_element k z args tv cv coefs x row quot y : k <= M -> (forall i j, In (i, j) args -> (- 2 ^ 63 < j < 2 ^ 63)%Z) -> (Z.of_nat (length cv) < 2 ^ 64)%Z ->
  length tv = length args -> length quot = length cv -> length coefs = length args + length cv -> cv <> [] ->
  out_of_domain_element o e x row quot z (List.combine args tv) cv coefs (2 ^ k) = Some (Some y) ->
  let X := fmul o (egen e) x in
  y = quotient o w k z args tv cv coefs X row quot /\ X <> fpw o z (length cv) /\ forall a, In a args -> X <> sampled o w k z a.
Proof.
  intros Hk Hj Hcv Ltv Lq Lc Nc E X. unfold out_of_domain_element in E. rewrite (s_root _ _ _ _ SD) in E by lia. cbn [bind] in E. apply bind_some in E as (terms & E & [= <-]).
  rewrite Lq in E. assert (Xe : fmul o x (egen e) = X) by (unfold X; ring). rewrite Xe in E. clear Xe. rewrite <- (firstn_skipn (length args) coefs) in E.
  rewrite combine_app in E by (rewrite map_length, combine_length, firstn_length; lia). rewrite map_app in E. apply option_all_split in E as (t1 & t2 & E1 & E2 & ->). rewrite fsum_app.
  apply (weighted ((0, 0%Z), f0 o) _ (fun kv => fmul o (fsub o (nth (fst (fst kv)) row (f0 o)) (snd kv)) (finv o (fsub o X (sampled o w k z (fst kv)))))) in E1.
  2: { intros [[i j] v] t I Et. cbn [fst snd] in *. destruct (nth_error row i) as [q|] eqn:Eq; cbn [bind] in Et; [|discriminate Et]. apply in_combine_l in I. rewrite (pow_offset_spec o L e M w SD) in Et by (try lia; eapply Hj, I). cbn [bind] in Et.
       apply f_div_good in Et as [_ ->]. rewrite (nth_error_nth _ _ _ Eq). reflexivity. }
  2: { rewrite combine_length, firstn_length. lia. }
  apply (weighted (f0 o, f0 o) _ (fun qv => fmul o (fsub o (fst qv) (snd qv)) (finv o (fsub o X (fpw o z (length cv)))))) in E2.
  2: { intros [q v] t I Et. cbn [fst snd] in *. rewrite upow in Et by lia. apply f_div_good in Et as [_ ->]. reflexivity. }
  2: { rewrite combine_length, skipn_length. lia. }
  destruct E1 as [G1 S1]. destruct E2 as [G2 S2]. split; [|split].
  - rewrite S1, S2. unfold quotient. rewrite !combine_length, Ltv, Lq, !Nat.min_id. f_equal; f_equal; apply map_ext_in; intros n In_; apply in_seq in In_.
    + rewrite combine_nth by lia. cbn [fst snd]. rewrite nth_firstn by lia. reflexivity.
    + rewrite combine_nth by lia. cbn [fst snd]. rewrite nth_skipn. reflexivity.
  - destruct cv as [|c0 cv]; [contradiction|]. destruct quot as [|q0 quot]; [discriminate Lq|]. pose proof (G2 (q0, c0) (or_introl eq_refl)) as G. cbn [fst snd] in G. rewrite upow in G by exact Hcv. apply f_div_good in G as [G _]. intros Ex. apply G. rewrite Ex. ring.
  - intros a Ia. destruct (In_nth args a (0, 0%Z) Ia) as (n & Hn & En). assert (I : In (a, nth n tv (f0 o)) (List.combine args tv)) by (rewrite <- En, <- combine_nth by lia; apply nth_In; rewrite combine_length; lia).
    pose proof (G1 _ I) as G. cbn [fst snd] in G. apply bind_some in G as (q & _ & G). apply bind_some in G as (s & Es & G). destruct a as [i j]. cbn [fst snd] in *. rewrite (pow_offset_spec o L e M w SD) in Es by (try lia; eapply Hj, Ia). injection Es as <-.
    apply f_div_good in G as [G _]. intros Ex. apply G. unfold sampled in Ex. cbn [snd] in Ex. rewrite Ex. ring.
Qed.
End Deep.

(** ** The openings *)
Lemma act_map_good {S E A C} (f : A -> act S E C) : forall l s ys s', act_map f l s = Some (Good (ys, s')) -> Forall2 (fun x y => exists s1 s2, f x s1 = Some (Good (y, s2))) l ys.
Proof.
  induction l as [|x l IH]; intros s ys s' E0; cbn [act_map] in E0.
  - injection E0 as <- _. constructor.
  - apply bind_good in E0 as (y & s1 & E1 & E0). apply bind_good in E0 as (ys' & s2 & E2 & E0). injection E0 as <- _. constructor; [exists s, s1; exact E1|eapply IH, E2].
Qed.
Lemma act_iter_good {S E A} (f : A -> act S E unit) : forall l s s', act_iter f l s = Some (Good (tt, s')) -> forall x, In x l -> exists s1 s2, f x s1 = Some (Good (tt, s2)).
Proof.
  induction l as [|x l IH]; intros s s' E0 y Iy; [destruct Iy|]. cbn [act_iter] in E0. apply bind_good in E0 as ([] & s1 & E1 & E0). destruct Iy as [<-|Iy]; [exists s, s1; exact E1|eapply IH; eassumption].
Qed.
Lemma Forall2_in {A C} (R : A -> C -> Prop) l r : Forall2 R l r -> forall y, In y r -> exists x, In x l /\ R x y.
Proof. induction 1 as [|x y l r H H2 IH]; intros b [].
  - subst. exists x. split; [left; reflexivity|exact H].
  - destruct (IH b H0) as (a & Ia & Ra). exists a. split; [right; exact Ia|exact Ra].
Qed.
Lemma Forall2_in_l {A C} (R : A -> C -> Prop) l r : Forall2 R l r -> forall x, In x l -> exists y, In y r /\ R x y.
Proof. induction 1 as [|x y l r H H2 IH]; intros b [].
  - subst. exists y. split; [left; reflexivity|exact H].
  - destruct (IH b H0) as (a & Ia & Ra). exists a. split; [right; exact Ia|exact Ra].
Qed.
Lemma Forall2_seq {C} (R : nat -> C -> Prop) : forall n s r, Forall2 R (seq s n) r -> forall j, j < n -> exists y, nth_error r j = Some y /\ R (s + j) y.
Proof.
  induction n as [|n IH]; intros s r H j Hj; [lia|]. cbn [seq] in H. inversion H as [|? y ? r' Hy Hr]; subst. destruct j as [|j].
  - exists y. rewrite Nat.add_0_r. auto.
  - destruct (IH (S s) r' Hr j ltac:(lia)) as (y' & E & H'). exists y'. replace (s + S j) with (S s + j) by lia. auto.
Qed.
Lemma Forall2_weak {A C} (R S : A -> C -> Prop) l r : (forall x y, R x y -> S x y) -> Forall2 R l r -> Forall2 S l r.
Proof. intros H. induction 1; constructor; auto. Qed.
Section Openings.
Context {F : Type} (keccak : list Z -> list Z) (enc : F -> u256) (sort_idx : list Z -> list Z) (sort_nodes : list (Z * hash) -> list (Z * hash)) (Hs : sorts fst sort_nodes).
Lemma decommit_commitment c indices v p v' : decommit keccak sort_idx c indices v = Some (Good (p, v')) -> exists hashes, p = P c indices hashes.
Proof.
  intros E. unfold decommit in E. apply bind_good in E as (r1 & v1 & _ & E). apply bind_good in E as (n & v2 & _ & E). apply bind_good in E as (hashes & v3 & _ & E). apply bind_good in E as (r2 & v4 & E1 & E).
  apply lift_good in E1 as [E1 ->]. apply merkle_good in E as [-> _]. unfold from_hashes in E1. destruct (sort_indices sort_idx c indices); [|discriminate]. apply bind_some in E1 as (s & _ & E1). injection E1 as E1.
  destruct s as [s|]; cbn [rbind] in E1; [|discriminate]. destruct (negb _); [discriminate|]. injection E1 as <-. exists hashes. reflexivity.
Qed.
Lemma opened D root indices v p v1 leafs err v2 v3 : D < 64 -> Forall (fun il : Z * list F => 0 <= fst il < 2 ^ Z.of_nat D)%Z leafs ->
  decommit keccak sort_idx (C (2 ^ Z.of_nat D) root) indices v = Some (Good (p, v1)) -> check_leaves keccak enc sort_nodes p leafs err v2 = Some (Good (tt, v3)) ->
  forall i l, In (i, l) leafs -> authentic keccak enc root D i l.
Proof.
  intros HD HR E1 E2 i l I. destruct (decommit_commitment _ _ _ _ _ E1) as (hashes & ->). unfold check_leaves in E2. apply bind_good in E2 as (r & v4 & E2 & E3). apply lift_good in E2 as [E2 ->].
  destruct r as [[]|]; [|discriminate E3]. exact (verify_climb hash_eqb (node_of keccak) (leaf_of keccak enc) hash_eqb_spec sort_nodes D root indices hashes leafs Hs HD HR E2 i l I).
Qed.
End Openings.

(** ** The layers *)
Lemma one_one : 1 <= 1 <= 1. Proof. lia. Qed.
(** A list of entries with distinct keys as a function *)
Definition entry {A} (d : A) (l : list (Z * A)) (i : Z) : A := match find (fun kv => (fst kv =? i)%Z) l with Some kv => snd kv | None => d end.
Lemma entry_in {A} (d : A) l i : In i (map fst l) -> In (i, entry d l i) l.
Proof.
  intros I. unfold entry. destruct (find (fun kv => (fst kv =? i)%Z) l) as [[k a]|] eqn:E.
  - apply find_some in E as [E1 E2]. cbn [fst] in E2. apply Z.eqb_eq in E2 as ->. exact E1.
  - exfalso. apply in_map_iff in I as ([k a] & <- & I). apply (find_none _ _ E) in I. cbn [fst] in I. rewrite Z.eqb_refl in I. discriminate I.
Qed.
Lemma entry_get {F} (d : F) l i : In i (map fst l) -> folds_get l i = Some (entry d l i).
Proof.
  intros I. unfold folds_get, entry. destruct (find (fun kv => (fst kv =? i)%Z) l) as [[k a]|] eqn:E; [reflexivity|].
  exfalso. apply in_map_iff in I as ([k a] & <- & I). apply (find_none _ _ E) in I. cbn [fst] in I. rewrite Z.eqb_refl in I. discriminate I.
Qed.
Lemma keys_fun {A} : forall (l : list (Z * A)) i a b, NoDup (map fst l) -> In (i, a) l -> In (i, b) l -> a = b.
Proof.
  induction l as [|[k x] l IH]; intros i a b N I1 I2; [destruct I1|]. cbn [map fst] in N. inversion N as [|? ? N1 N2]; subst. destruct I1 as [I1|I1]; destruct I2 as [I2|I2].
  - congruence.
  - exfalso. apply N1, in_map_iff. exists (i, b). split; [cbn [fst]; congruence|exact I2].
  - exfalso. apply N1, in_map_iff. exists (i, a). split; [cbn [fst]; congruence|exact I1].
  - eapply IH; eassumption.
Qed.
Lemma sub_consistent {F} (o : ops F) w keccak enc last : forall layers K v (J J' : Z -> Prop), (forall i, J' i -> J i) -> fri_consistent o w keccak enc layers K v J last -> fri_consistent o w keccak enc layers K v J' last.
Proof.
  induction layers as [|[[root c] m] layers IH]; intros K v J J' S H; cbn [fri_consistent] in *.
  - intros i Hi. apply H, S, Hi.
  - destruct H as (coset & v' & H1 & H2). exists coset, v'. split; [intros q Hq; apply H1, S, Hq|]. refine (IH _ _ _ _ _ H2). intros i (q & Hq & E). exists q. split; [apply S, Hq|exact E].
Qed.
Section Layers.
Context {F : Type} (o : ops F) (L : lawful o) (e : engine F) (M : nat) (w : nat -> F) (SD : sound o e M w).
Context (keccak : list Z -> list Z) (enc : F -> u256) (dec : u256 -> option F) (sort_idx : list Z -> list Z) (sort_nodes : list (Z * hash) -> list (Z * hash)) (search : list Z -> Z -> option nat).
Context (Hs : sorts fst sort_nodes) (Hsearch : searches search) (K0 : nat) (HK0 : K0 <= M) (eval_x : list F) (Ee : eval_points o w K0 eval_x).
Fixpoint commits (K : nat) (lays : list (hash * F * nat)) : list ((commitment (H := hash) * F) * nat) :=
  match lays with [] => [] | ((r, c), m) :: lays => ((C (2 ^ Z.of_nat (K - m))%Z r, c), m) :: commits (K - m) lays end.
Definition halvings (lays : list (hash * F * nat)) : nat := list_sum (map snd lays).
Lemma layers_good : forall lays K known first idx prev folds v vf r v',
  halvings lays <= K -> K <= K0 -> (lays = [] -> first = false \/ prev = []) -> StronglySorted Z.le prev -> Forall (fun i => 0 <= i < 2 ^ Z.of_nat K)%Z prev ->
  (first = true -> forall z n, search prev n = Some z -> forall u y u', known z u = Some (Good (y, u')) -> y = vf n) ->
  (first = false -> forall n, In n prev -> folds_get folds n = Some (vf n)) ->
  match lays with [] => True | (_, m) :: _ => idx = map (fun x => x / 2 ^ Z.of_nat m)%Z prev end ->
  fri_layers o e keccak enc dec sort_idx sort_nodes search eval_x known (commits K lays) first idx prev folds (2 ^ Z.of_nat (K0 - K)) (2 ^ Z.of_nat K) v = Some (Good (r, v')) ->
  snd r = (2 ^ Z.of_nat (K - halvings lays))%Z /\ (first = true -> forall n, In n prev -> exists z u y u', search prev n = Some z /\ known z u = Some (Good (y, u'))) /\
  Forall (fun i => 0 <= i < 2 ^ Z.of_nat (K - halvings lays))%Z (snd (fst r)) /\
  forall last, (forall i, In i (snd (fst r)) -> folds_get (fst (fst r)) i = Some (peval o last (point o w (K - halvings lays) i))) ->
    fri_consistent o w keccak enc lays K vf (fun q => In q prev) last.
Proof.
  pose proof (s_max _ _ _ _ SD) as HM. induction lays as [|[[root c] m] lays IH]; intros K known first idx prev folds v vf r v' HS HK Hf Sp Rp Hknown Hfolds Hidx E.
  - cbn [commits fri_layers] in E. injection E as <- <-. cbn [fst snd]. unfold halvings. cbn [map list_sum fold_right]. rewrite Nat.sub_0_r. split; [reflexivity|]. split.
    { intros -> n In_. destruct (Hf eq_refl) as [X| ->]; [discriminate X|destruct In_]. }
    split; [exact Rp|]. intros last H. cbn [fri_consistent]. intros i Ii. destruct (Hf eq_refl) as [->| ->]; [|destruct Ii]. specialize (H i Ii). rewrite (Hfolds eq_refl i Ii) in H. congruence.
  - unfold halvings in HS |- *. cbn [map snd] in *. change (list_sum (m :: map snd lays)) with (m + list_sum (map snd lays)) in *. fold (halvings lays) in *. subst idx. cbn [commits fri_layers] in E.
    set (di := dedup_by (fun x => x) (map (fun x => (x / 2 ^ Z.of_nat m)%Z) prev)) in *. assert (Pm : (0 < 2 ^ Z.of_nat m)%Z) by (apply Z.pow_pos_nonneg; lia).
    destruct (dedup_props (map (fun x => (x / 2 ^ Z.of_nat m)%Z) prev) (div_sorted _ _ Pm Sp)) as (Sd & Nd & Id & _). fold di in Sd, Nd, Id. clearbody di.
    apply bind_good in E as (cs & v1 & E1 & E). apply lift_good in E1 as [E1 ->]. rewrite (ushl1_small e 1 1 one_one) in E1 by lia. injection E1 as <-.
    apply bind_good in E as (flv & v2 & E1 & E). apply act_map_good in E1. apply bind_good in E as (lf & v3 & E2 & E). apply lift_good in E2 as [E2 ->]. apply option_all_inv in E2.
    apply bind_good in E as (mp & v4 & E3 & E). apply bind_good in E as (step' & v5 & E4 & E). apply lift_good in E4 as [E4 ->]. rewrite (double_pow e 1 1 one_one) in E4 by lia. injection E4 as <-.
    apply bind_good in E as (len' & v6 & E4 & E). apply lift_good in E4 as [E4 ->]. replace K with (m + (K - m)) in E4 at 1 by lia. rewrite (udiv_pow 1 1 one_one) in E4. injection E4 as <-.
    apply bind_good in E as ([] & v7 & E4 & E). apply bind_good in E as (next & v8 & E5 & E).
    assert (Ri : forall i, In i di -> (0 <= i < 2 ^ Z.of_nat (K - m))%Z).
    { intros i Ii. apply Id, in_map_iff in Ii as (q & <- & Iq). rewrite Forall_forall in Rp. specialize (Rp q Iq). split; [apply Z.div_pos; lia|]. apply Z.div_lt_upper_bound; [lia|]. rewrite <- Z.pow_add_r by lia. replace (Z.of_nat m + Z.of_nat (K - m))%Z with (Z.of_nat K) by lia. lia. }
    (* the cosets *)
    assert (Hc : Forall2 (fun i ic => fst ic = i /\ length (snd ic) = 2 ^ m /\ forall j, j < 2 ^ m -> In (i * 2 ^ Z.of_nat m + Z.of_nat j)%Z prev -> nth_error (snd ic) j = Some (vf (i * 2 ^ Z.of_nat m + Z.of_nat j)%Z) /\
        (first = true -> exists z u y u', search prev (i * 2 ^ Z.of_nat m + Z.of_nat j)%Z = Some z /\ known z u = Some (Good (y, u')))) di flv).
    { refine (Forall2_weak _ _ _ _ _ E1). intros i ic (s1 & s2 & Ei). apply bind_good in Ei as (coset & s3 & Ec & Ei). injection Ei as <- _. cbn [fst snd]. split; [reflexivity|]. apply act_map_good in Ec. rewrite pow_nat in Ec. pose proof (Forall2_len _ _ _ Ec) as Lc. rewrite seq_length in Lc. split; [symmetry; exact Lc|].
      intros j Hj Hin. set (n := (i * 2 ^ Z.of_nat m + Z.of_nat j)%Z) in *.
      assert (Ej : exists y s1 s2, nth_error coset j = Some y /\ match search prev n with Some z => if first then known z else match folds_get folds n with Some x => ret x | None => fail HashMapFailure end | None => chan (replay_elem e keccak dec) end s1 = Some (Good (y, s2))).
      { destruct (Forall2_seq _ _ _ _ Ec j Hj) as (y & Ey & s4 & s5 & Es). exists y, s4, s5. split; [exact Ey|exact Es]. }
      destruct Ej as (y & s4 & s5 & Ey & Es). pose proof (Hsearch prev n Sp) as Hn. destruct (search prev n) as [z|] eqn:Esz; [|contradiction]. destruct first.
      - rewrite Ey, (Hknown eq_refl z n Esz _ _ _ Es). split; [reflexivity|]. intros _. exists z, s4, y, s5. split; [reflexivity|exact Es].
      - rewrite (Hfolds eq_refl n Hin) in Es. injection Es as <- _. split; [exact Ey|discriminate]. }
    assert (Kf : map fst flv = di) by (clear - Hc; induction Hc as [|i ic di flv (H & _) Hc IH]; cbn [map]; [reflexivity|congruence]).
    assert (Hl : Forall2 (fun ic iy => fst iy = fst ic /\ fri_fold o (edbg e) (snd ic) c (2 ^ (K0 - K)) (2 ^ m / 2 * Z.to_nat (fst ic)) (2 ^ K) eval_x = Some (snd iy)) flv lf).
    { assert (Rf : forall ic, In ic flv -> (0 <= fst ic)%Z) by (intros ic I; apply Ri; rewrite <- Kf; apply in_map, I). clear - E2 Rf. induction E2 as [|ic iy flv lf H H2 IH]; constructor.
      - apply bind_some in H as (y & H & [= <-]). cbn [fst snd]. split; [reflexivity|]. rewrite <- H. rewrite !pow_nat. f_equal. specialize (Rf ic (or_introl eq_refl)). rewrite pow_Z'. change 2%Z with (Z.of_nat 2). rewrite <- Nat2Z.inj_div. rewrite Z2Nat.inj_mul, Nat2Z.id by lia. reflexivity.
      - apply IH. intros ic' I. apply Rf. right. exact I. }
    assert (Kl : map fst lf = di) by (rewrite <- Kf; clear - Hl; induction Hl as [|ic iy flv lf (H & _) Hl IH]; cbn [map]; [reflexivity|congruence]).
    set (coset := entry [] flv). set (v'' := entry (f0 o) lf).
    assert (En : next = match lays with [] => di | (_, n) :: _ => map (fun x => (x / 2 ^ Z.of_nat n)%Z) di end /\ v8 = v7).
    { destruct lays as [|[[r2 c2] n] lays]; cbn [commits] in E5; [injection E5 as <- <-; auto|]. unfold halvings in HS. cbn [map snd] in HS. change (list_sum (n :: map snd lays)) with (n + list_sum (map snd lays)) in HS.
      apply bind_good in E5 as (s & v9 & E5 & E6). apply lift_good in E5 as [E5 ->]. rewrite (ushl1_small e 1 1 one_one) in E5 by lia. injection E5 as <-. apply lift_good in E6 as [E6 ->]. rewrite (udiv_all 1 1 one_one) in E6. injection E6 as <-. auto. }
    destruct En as [-> ->]. replace (m + (K0 - K)) with (K0 - (K - m)) in E by lia.
    apply (IH (K - m) known false _ di lf v7 v'') in E; clear IH.
    2, 3: lia. 2: auto. 2: exact Sd. 2: apply Forall_forall; exact Ri. 2: discriminate.
    2: { intros _ n In_. apply entry_get. rewrite Kl. exact In_. }
    2: { destruct lays as [|[? n] lays]; auto. }
    destruct E as (Elen & _ & Hr & Hcons). replace (K - (m + halvings lays)) with (K - m - halvings lays) by lia. split; [exact Elen|].
    assert (Hq : forall q, In q prev -> let i := (q / 2 ^ Z.of_nat m)%Z in In i di /\ (i * 2 ^ Z.of_nat m + Z.of_nat (Z.to_nat (q mod 2 ^ Z.of_nat m)) = q)%Z /\ Z.to_nat (q mod 2 ^ Z.of_nat m) < 2 ^ m /\ In (i, coset i) flv).
    { intros q Iq i. assert (Ii : In i di) by (apply Id, in_map_iff; exists q; auto). pose proof (Z.mod_pos_bound q _ Pm) as Hm. split; [exact Ii|]. split; [rewrite Z2Nat.id by lia; unfold i; rewrite (Z.div_mod q (2 ^ Z.of_nat m)) at 3 by lia; ring|]. split; [rewrite <- pow_nat; apply Z2Nat.inj_lt; lia|].
      apply entry_in. rewrite Kf. exact Ii. }
    assert (Hcell : forall i, In (i, coset i) flv -> In i di -> length (coset i) = 2 ^ m /\ forall j, j < 2 ^ m -> In (i * 2 ^ Z.of_nat m + Z.of_nat j)%Z prev -> nth_error (coset i) j = Some (vf (i * 2 ^ Z.of_nat m + Z.of_nat j)%Z) /\
        (first = true -> exists z u y u', search prev (i * 2 ^ Z.of_nat m + Z.of_nat j)%Z = Some z /\ known z u = Some (Good (y, u')))).
    { intros i I _. destruct (Forall2_in _ _ _ Hc _ I) as (i' & _ & Ei & H1 & H2). cbn [fst snd] in *. subst i'. auto. }
    split; [|split; [exact Hr|]].
    + intros Ht q Iq. destruct (Hq q Iq) as (Ii & Eq & Hj & Ic). destruct (Hcell _ Ic Ii) as (_ & H). specialize (H _ Hj). rewrite Eq in H. apply (H Iq), Ht.
    + intros last HL. specialize (Hcons last HL). cbn [fri_consistent]. exists coset, v''. split.
      * intros q Iq. destruct (Hq q Iq) as (Ii & Eq & Hj & Ic). destruct (Hcell _ Ic Ii) as (Hlen & H). specialize (H _ Hj). rewrite Eq in H. destruct (H Iq) as [H' _]. split; [exact Hlen|]. split; [exact H'|]. split.
        -- refine (opened keccak enc sort_idx sort_nodes Hs (K - m) root di v2 mp v4 flv _ v4 v7 ltac:(lia) _ E3 E4 _ _ Ic). apply Forall_forall. intros ic I. apply Ri. rewrite <- Kf. apply in_map, I.
        -- destruct (Forall2_in_l _ _ _ Hl _ Ic) as ([i' y] & Iy & Ei & Hy). cbn [fst snd] in *. subst i'.
           assert (y = v'' (q / 2 ^ Z.of_nat m)%Z) as ->. { eapply (keys_fun lf); [rewrite Kl; exact Nd|exact Iy|]. apply entry_in. rewrite Kl. exact Ii. }
           specialize (Ri _ Ii). set (i := (q / 2 ^ Z.of_nat m)%Z) in *. replace K with (m + (K - m)) at 1 by lia. rewrite <- (Z2Nat.id i) at 1 by lia. eapply (fri_fold_folded o L e M w SD K0 eval_x m (K - m)).
           ++ lia.
           ++ exact HK0.
           ++ exact Ee.
           ++ rewrite <- pow_nat. apply Z2Nat.inj_lt; lia.
           ++ exact Hlen.
           ++ replace (m + (K - m)) with K by lia. exact Hy.
      * revert Hcons. apply sub_consistent. intros i (q & Iq & ->). apply (Hq q Iq).
Qed.
End Layers.

(** ** The run *)
Lemma nonce_bytes b : length b = 8 -> Forall (digit 256) b -> u64_to_be (u64_from_be b) = b.
Proof.
  intros Lb Db. assert (R : (0 <= num 256 b < B)%Z). { pose proof (num_range 256 b ltac:(lia) Db) as R. rewrite Lb in R. exact R. }
  destruct (u64_to_be_spec (u64_from_be b) R) as (L1 & D1 & E1). apply (num_inj 256); try assumption; [lia|congruence].
Qed.
Section Run.
Context {F : Type} (o : ops F) (L : lawful o) (e : engine F) (M : nat) (w : nat -> F) (SD : sound o e M w).
Context (keccak : list Z -> list Z) (enc : F -> u256) (dec : u256 -> option F) (sort_idx : list Z -> list Z) (sort_nodes : list (Z * hash) -> list (Z * hash)) (search : list Z -> Z -> option nat) (fuel : nat).
Context (Hk : forall y, is_hash (keccak y)) (Si : sorts (fun x => x) sort_idx) (Hs : sorts fst sort_nodes) (Hsearch : searches search) (seed pf : list Z).
Lemma size_ok K root : from_size_hash (H := hash) (2 ^ Z.of_nat K) root = Ok (C (2 ^ Z.of_nat K)%Z root).
Proof. unfold from_size_hash. rewrite z_is_pow2_pow, orb_true_r. reflexivity. Qed.
Lemma replay_fri_good : forall layout K msgs kk v r v', list_sum layout <= K -> K < 64 -> stands keccak seed pf msgs kk v -> replay_fri e keccak dec fuel layout (2 ^ Z.of_nat K) v = Some (Good (r, v')) ->
  exists roots points, length roots = length layout /\ length points = length layout /\ Forall (fun h => length h = 32) roots /\
    List.combine (fst r) layout = commits K (List.combine (List.combine roots points) layout) /\ snd r = (2 ^ Z.of_nat (K - list_sum layout))%Z /\ (exists kk', stands keccak seed pf (msgs ++ roots) kk' v') /\
    forall i, i < length layout -> drawn keccak dec (absorb keccak seed (msgs ++ firstn (S i) roots)) 0 [nth i points (f0 o)].
Proof.
  induction layout as [|m layout IH]; intros K msgs kk v r v' HS HK S E; cbn [replay_fri] in E.
  - injection E as <- <-. exists [], []. cbn [length fst snd List.combine commits list_sum fold_right]. rewrite Nat.sub_0_r, app_nil_r. split; [reflexivity|]. split; [reflexivity|]. split; [constructor|]. split; [reflexivity|]. split; [reflexivity|]. split; [exists kk; exact S|intros i Hi; lia].
  - change (list_sum (m :: layout)) with (m + list_sum layout) in *. apply bind_good in E as (size & v1 & E1 & E). apply lift_good in E1 as [E1 ->]. replace K with (m + (K - m)) in E1 by lia. rewrite (ushr_small e 1 1 one_one) in E1 by lia. injection E1 as <-.
    apply bind_good in E as (root & v2 & E1 & E). apply chan_good in E1. destruct (stands_hash _ _ _ _ _ _ _ _ S E1) as (L1 & S1). apply bind_good in E as (cm & v3 & E2 & E). rewrite size_ok in E2. apply merkle_good in E2 as [E2 ->]. injection E2 as <-.
    apply bind_good in E as (pt & v4 & E2 & E). apply chan_good in E2. destruct (stands_elem_draw e keccak dec fuel Hk _ _ _ _ _ _ _ S1 E2) as (D1 & k1 & S2). apply bind_good in E as (r' & v5 & E3 & E). injection E as <- <-.
    destruct (IH (K - m) _ _ _ _ _ ltac:(lia) ltac:(lia) S2 E3) as (roots & points & H1 & H2 & H3 & H4 & H5 & (kk' & H6) & H7). exists (root :: roots), (pt :: points). cbn [length fst snd List.combine commits].
    split; [congruence|]. split; [congruence|]. split; [constructor; assumption|]. split; [rewrite H4; reflexivity|]. split; [rewrite H5; f_equal; lia|]. rewrite <- app_assoc in H6. split; [exists kk'; exact H6|].
    intros [|i] Hi; [exact D1|]. specialize (H7 i ltac:(lia)). rewrite <- app_assoc in H7. exact H7.
Qed.
Lemma halvings_layout : forall (roots : list hash) (points : list F) layout, length roots = length layout -> length points = length layout -> halvings (List.combine (List.combine roots points) layout) = list_sum layout.
Proof.
  unfold halvings. induction roots as [|r roots IH]; intros points layout E1 E2; destruct layout as [|m layout]; try discriminate E1; [reflexivity|]. destruct points as [|p points]; [discriminate E2|]. cbn [List.combine map snd].
  change (list_sum (m :: map snd (List.combine (List.combine roots points) layout)) = m + list_sum layout). cbn [list_sum fold_right] in *. change (m + list_sum (map snd (List.combine (List.combine roots points) layout)) = m + list_sum layout). rewrite IH by (cbn in *; lia). reflexivity.
Qed.
Lemma least_power_of D : (D <= 2 ^ 63)%Z -> exists a, a < 64 /\ (D <= 2 ^ Z.of_nat a)%Z /\ forall a', (D <= 2 ^ Z.of_nat a')%Z -> a <= a'.
Proof.
  intros HD. destruct (Z.leb_spec D 1) as [H|H]; [exists 0; split; [lia|]; split; [exact H|intros; lia]|]. destruct (Z.log2_up_spec D H) as [U1 U2]. pose proof (Z.log2_up_nonneg D) as U0.
  exists (Z.to_nat (Z.log2_up D)). rewrite Z2Nat.id by lia. split; [|split; [exact U2|]].
  - assert (Z.log2_up D <= 63)%Z by (apply Z.log2_up_le_pow2; lia). lia.
  - intros a' Ha. assert (Z.log2_up D <= Z.of_nat a')%Z by (apply Z.log2_up_le_pow2; lia). lia.
Qed.
Lemma read_leaves n (l : list Z) v ys v' : act_map (E := verror) (fun index => do x <- chan (replay_layer e keccak dec n); ret (index, x)) l v = Some (Good (ys, v')) -> Forall2 (fun i y => fst y = i /\ length (snd y) = n) l ys.
Proof.
  intros E. apply act_map_good in E. refine (Forall2_weak _ _ _ _ _ E). intros i y (s1 & s2 & Ei). apply bind_good in Ei as (x & s3 & E1 & Ei). injection Ei as <- _. apply chan_good in E1. cbn [fst snd]. split; [reflexivity|].
  destruct (layer_take e keccak dec _ _ _ _ E1) as (? & ? & _ & _ & _ & _ & Lx). exact Lx.
Qed.
Lemma read_in n (l : list Z) (ys : list (Z * list F)) : Forall2 (fun i y => fst y = i /\ length (snd y) = n) l ys -> forall z q, nth_error l z = Some q -> exists x, nth_error ys z = Some (q, x) /\ length x = n.
Proof. induction 1 as [|i [j x] l ys (E1 & E2) H IH]; intros [|z] q Hz; try discriminate Hz. - injection Hz as <-. cbn [fst snd] in *. subst j. exists x. auto. - apply IH, Hz. Qed.
(** The values read for the query [q]. *)
Definition read_for (queries : list Z) (ys : list (Z * list F)) (q : Z) : list F := match search queries q with Some z => snd (nth z ys (0%Z, [])) | None => [] end.

Theorem acceptance k b (c : constraints (F := F)) claims : c_nrows c = 2 ^ k -> c_blowup c = (2 ^ Z.of_nat b)%Z -> k + b <= M -> list_sum (c_fri c) <= k -> (0 <= c_queries c < 2 ^ 64)%Z ->
  (forall ex, In ex (c_exprs c) -> usizes ex /\ forall i j, refers ex i j -> (- 2 ^ 63 < j < 2 ^ 63)%Z) ->
  (forall D, c_degree o true c = Some D -> (D <= 2 ^ 63)%Z) -> (forall cs, length cs = 2 * length (c_exprs c) -> combine o true c cs <> None) ->
  Forall (digit 256) pf ->
  stark_verify o e keccak enc dec sort_idx sort_nodes search fuel c claims seed pf = Some (Good tt) ->
  exists args ks ev, accepted o (egen e) w keccak enc dec k b c claims seed pf args ks ev.
Proof.
  intros Hrows Hblow HkM Hfri Hq Hex Hdeg Hcomb Hpf V. pose proof (s_max _ _ _ _ SD) as HM. unfold stark_verify in V. destruct (verify_channel _ _ _ _ _ _ _ _ _ c claims (verifier_new keccak pf seed)) as [[[[] vend]|]|] eqn:E; try discriminate V. clear V.
  unfold verify_channel in E. rewrite Hrows, Hblow, <- (pow_ZN b) in E. apply bind_good in E as (size & v1 & E1 & E). apply lift_good in E1 as [E1 ->]. rewrite (umul_pow e) in E1 by lia. injection E1 as <-. rewrite pow_NZ in E. rewrite (pow_ZN b) in E.
  apply bind_good in E as (r & v1 & E1 & E). apply lift_good in E1 as [E1 ->]. rewrite (s_root _ _ _ _ SD) in E1 by lia. injection E1 as <-. apply bind_good in E as (root & v1 & E1 & E). apply lift_good in E1 as [E1 ->]. injection E1 as <-.
  set (eval_x := powers_from o (f1 o) (w (k + b)) (2 ^ (k + b))) in *.
  assert (Ee : eval_points o w (k + b) eval_x). { split; [apply powers_from_length|]. intros i Hi. unfold eval_x. rewrite (powers_from_spec o L) by exact Hi. apply (oods_one o L). }
  pose proof (stands_new keccak seed pf) as S0.
  apply bind_good in E as (troot & v1 & E1 & E). apply chan_good in E1. destruct (stands_hash _ _ _ _ _ _ _ _ S0 E1) as (Ltr & S1). clear S0 E1. apply bind_good in E as (tcm & v2 & E1 & E). rewrite size_ok in E1. apply merkle_good in E1 as [E1 ->]. injection E1 as <-.
  apply bind_good in E as (cs & v2 & E1 & E). apply chan_good in E1. destruct (stands_elems_draw e keccak dec fuel Hk _ _ _ _ _ _ _ _ S1 E1) as (Dcs & Lcs & k1 & S2). clear S1 E1.
  apply bind_good in E as (croot & v3 & E1 & E). apply chan_good in E1. destruct (stands_hash _ _ _ _ _ _ _ _ S2 E1) as (Lcr & S3). clear S2 E1. apply bind_good in E as (ccm & v4 & E1 & E). rewrite size_ok in E1. apply merkle_good in E1 as [E1 ->]. injection E1 as <-.
  apply bind_good in E as (z & v4 & E1 & E). apply chan_good in E1. destruct (stands_elem_draw e keccak dec fuel Hk _ _ _ _ _ _ _ S3 E1) as (Dz & k2 & S4). clear S3 E1.
  apply bind_good in E as (c' & v5 & E1 & E). apply lift_good in E1 as [Esub ->]. apply bind_good in E as (args & v5 & E1 & E). apply lift_good in E1 as [Eargs ->].
  pose proof (c_trace_arguments_spec c' args Eargs) as [Sargs _]. assert (Hargs : forall i j, (exists ex, In ex (c_exprs c) /\ refers ex i j) <-> In (i, j) args) by (intros i j; apply (substitute_args o claims c c' args i j Esub Eargs)).
  apply bind_good in E as (tv & v5 & E1 & E). apply chan_good in E1. destruct (stands_elems e keccak dec _ _ _ _ _ _ _ _ S4 E1) as (Ltv & tvb & Htv & S5). clear S4 E1.
  rewrite (claimed_map_spec args tv Sargs Ltv) in E. assert (Lmap : length (List.combine args tv) = length args) by (rewrite combine_length; lia). rewrite Lmap in E.
  destruct (combine o true c cs) as [E0|] eqn:Ecomb; [|exfalso; apply (Hcomb cs Lcs Ecomb)]. destruct (claim_combine o L claims c cs E0 Ecomb) as (D & ks & ED & _ & Hks & Hval).
  assert (ED' : c_degree o (edbg e) c = Some D) by (destruct (edbg e); [exact ED|apply (c_degree_rel o), ED]). rewrite ED' in E. apply bind_good in E as (D' & v6 & E1 & E). apply lift_good in E1 as [E1 ->]. injection E1 as <-.
  destruct (least_power_of D (Hdeg D ED)) as (a & Ha & HDa & Hleast). rewrite (least_power e a D Ha HDa Hleast) in E. apply bind_good in E as (n & v6 & E1 & E). apply lift_good in E1 as [E1 ->]. injection E1 as <-. rewrite pow_NZ in E.
  apply bind_good in E as (cv & v6 & E1 & E). apply chan_good in E1. destruct (stands_elems e keccak dec _ _ _ _ _ _ _ _ S5 E1) as (Lcv & cvb & Hcv & S6). clear S5 E1. assert (Pa : 0 < 2 ^ a) by apply pow2_pos. destruct (Nat.eqb_spec (2 ^ a) 0) as [|_]; [lia|].
  apply bind_good in E as (coefs & v7 & E1 & E). apply chan_good in E1. destruct (stands_elems_draw e keccak dec fuel Hk _ _ _ _ _ _ _ _ S6 E1) as (Dco & Lco & k3 & S7). clear S6 E1.
  apply bind_good in E as (fri & v8 & E1 & E). destruct (replay_fri_good (c_fri c) (k + b) _ _ _ _ _ ltac:(lia) ltac:(lia) S7 E1) as (roots & points & Lro & Lpt & Hro & Ecommits & Esize & (k4 & S8) & Dpt). clear S7 E1. rewrite Ecommits in E. clear Ecommits.
  rewrite Esize in E. apply bind_good in E as (ls & v9 & E1 & E). apply lift_good in E1 as [E1 ->]. replace (k + b - list_sum (c_fri c)) with (b + (k - list_sum (c_fri c))) in E1 by lia. rewrite (udiv_pow 1 1 one_one) in E1. injection E1 as <-. rewrite pow_NZ in E.
  apply bind_good in E as (last & v9 & E1 & E). apply chan_good in E1. destruct (stands_layer e keccak dec _ _ _ _ _ _ _ _ S8 E1) as (lb & Hlast & Llast & S9). clear S8 E1.
  apply bind_good in E as (ps & v10 & E1 & E). apply chan_good in E1. destruct (stands_seed e keccak _ _ _ _ _ _ _ S9 E1) as (-> & k5 & S10). clear S9 E1.
  apply bind_good in E as (pc & v11 & E1 & E). apply lift_good in E1 as [Epc ->]. apply bind_good in E as (nn & v11 & E1 & E). apply chan_good in E1. destruct (stands_nonce keccak _ _ _ _ _ _ _ S10 E1) as (nb & Lnb & -> & S11). clear S10 E1.
  destruct (pow_verify keccak pc (u64_from_be nb)) eqn:Epow; [|discriminate E]. cbn [negb] in E.
  (* proof of work *)
  assert (Hwork : (0 <= c_pow_bits c < 256)%Z /\ seed_ pc = keccak ([0x01; 0x23; 0x45; 0x67; 0x89; 0xab; 0xcd; 0xed]%Z ++ absorb keccak seed ((((((([] ++ [troot]) ++ [croot]) ++ tvb) ++ cvb) ++ roots) ++ [concat lb])) ++ [c_pow_bits c]) /\ difficulty pc = c_pow_bits c).
  { unfold with_difficulty in Epc. destruct (Z.leb_spec 0 (c_pow_bits c)); cbn [andb] in Epc; [|discriminate Epc]. destruct (Z.ltb_spec (c_pow_bits c) 256); [|discriminate Epc]. injection Epc as <-. cbn [seed_ difficulty]. split; [lia|]. split; reflexivity. }
  destruct Hwork as (Hbits & Hseed & Hdiff). apply (C41_verify keccak pc _ Hk ltac:(lia)) in Epow. unfold solution in Epow. rewrite Hseed, Hdiff in Epow.
  assert (Dnb : Forall (digit 256) nb). { destruct S11 as (_ & rest & Ep). rewrite Ep in Hpf. apply Forall_app in Hpf as [Hpf _]. rewrite concat_app in Hpf. apply Forall_app in Hpf as [_ Hpf]. cbn [concat] in Hpf. rewrite app_nil_r in Hpf. exact Hpf. }
  rewrite (nonce_bytes nb Lnb Dnb) in Epow.
  (* queries *)
  apply bind_good in E as (queries & v12 & E1 & E). apply chan_good in E1. unfold v_coin in E1. pose proof S11 as (Ev & rest & Ep). rewrite Ev in E1. cbn [vcoin vproof proof_index] in E1. change (0 mod B)%Z with 0%Z in E1.
  set (d := absorb keccak seed _) in E1.
  destruct (C45_indices (edbg e) keccak sort_idx sort_idx (2 ^ Z.of_nat (k + b)) d 0 (Z.to_nat (c_queries c)) (Z.of_nat (k + b)) Hk Si Si ltac:(lia) eq_refl ltac:(lia)) as (_ & Ebits & l & _ & Eind & _ & Sq & Rq & Pq).
  { rewrite Nat2Z.inj_div, Nat2Z.inj_add, Z2Nat.id by lia. change (Z.of_nat 3) with 3%Z. change (Z.of_nat 4) with 4%Z. pose proof (Z.div_le_upper_bound (c_queries c + 3) 4 (c_queries c + 3) ltac:(lia) ltac:(lia)). assert (((c_queries c + 3) / 4 < 2 ^ 64)%Z) by (apply Z.div_lt_upper_bound; lia). lia. }
  rewrite Ebits in E1. rewrite Eind in E1. injection E1 as <- <-. rename l into queries.
  clear Eind Ebits.
  apply bind_good in E as (lv & v13 & E1 & E). apply read_leaves in E1. rename E1 into Rlv. apply bind_good in E as (lp & v14 & Elp & E). apply bind_good in E as ([] & v15 & Elc & E).
  apply bind_good in E as (qv & v16 & E1 & E). apply read_leaves in E1. rename E1 into Rqv. apply bind_good in E as (qp & v17 & Eqp & E). apply bind_good in E as ([] & v18 & Eqc & E).
  assert (Alv : forall i x, In (i, x) lv -> authentic keccak enc troot (k + b) i x).
  { refine (opened keccak enc sort_idx sort_nodes Hs (k + b) troot queries _ lp _ lv _ _ _ ltac:(lia) _ Elp Elc). apply Forall_forall. intros y Iy. destruct (Forall2_in _ _ _ Rlv y Iy) as (i & Ii & -> & _). rewrite Forall_forall in Rq. apply Rq, Ii. }
  assert (Aqv : forall i x, In (i, x) qv -> authentic keccak enc croot (k + b) i x).
  { refine (opened keccak enc sort_idx sort_nodes Hs (k + b) croot queries _ qp _ qv _ _ _ ltac:(lia) _ Eqp Eqc). apply Forall_forall. intros y Iy. destruct (Forall2_in _ _ _ Rqv y Iy) as (i & Ii & -> & _). rewrite Forall_forall in Rq. apply Rq, Ii. }
  clear Elp Elc Eqp Eqc.
  assert (Hrow : forall q, In q queries -> exists z, search queries q = Some z /\ nth_error queries z = Some q /\ nth_error lv z = Some (q, read_for queries lv q) /\ length (read_for queries lv q) = c_ncolumns c /\ nth_error qv z = Some (q, read_for queries qv q) /\ length (read_for queries qv q) = 2 ^ a).
  { intros q Iq. pose proof (Hsearch queries q Sq) as Hz. unfold read_for. destruct (search queries q) as [zz|]; [|contradiction]. exists zz. destruct (read_in _ _ _ Rlv zz q Hz) as (x & Ex & Lx). destruct (read_in _ _ _ Rqv zz q Hz) as (y & Ey & Ly).
    rewrite (nth_error_nth _ _ _ Ex), (nth_error_nth _ _ _ Ey). cbn [snd]. auto 10. }
  apply bind_good in E as (css & v19 & E1 & E). apply lift_good in E1 as [Ecss ->]. apply bind_good in E as (idx & v19 & E1 & E). apply lift_good in E1 as [Eidx ->].
  set (known := fun zz : nat => _) in E.
  set (vf := fun q => quotient o w k z args tv cv coefs (fmul o (egen e) (point o w (k + b) q)) (read_for queries lv q) (read_for queries qv q)).
  assert (Hj : forall i j, In (i, j) args -> (- 2 ^ 63 < j < 2 ^ 63)%Z) by (intros i j I; apply Hargs in I as (ex & Iex & Rex); apply (proj2 (Hex ex Iex) i j Rex)).
  assert (Hknown : forall zz n, search queries n = Some zz -> forall u y u', known zz u = Some (Good (y, u')) -> y = vf n /\ let X := fmul o (egen e) (point o w (k + b) n) in X <> fpw o z (length cv) /\ forall ar, In ar args -> X <> sampled o w k z ar).
  { intros zz n Hz u y u' Ek. assert (Iq : In n queries) by (pose proof (Hsearch queries n Sq) as Hn; rewrite Hz in Hn; eapply nth_error_In, Hn). destruct (Hrow n Iq) as (zz' & Hz' & Hn & Hl & Ll & Hqq & Lq). assert (zz' = zz) by congruence. subst zz'.
    unfold known in Ek. rewrite Hn, Hl, Hqq in Ek. cbn [snd] in Ek. apply bind_good in Ek as (n' & u1 & E1 & Ek). apply lift_good in E1 as [E1 ->]. injection E1 as <-. rewrite Forall_forall in Rq. pose proof (Rq n Iq) as Rn.
    assert (Hn' : Z.to_nat n < 2 ^ (k + b)) by (rewrite <- pow_NZ; apply Z2Nat.inj_lt; lia). apply bind_good in Ek as (rv & u2 & E1 & Ek). apply lift_good in E1 as [E1 ->]. rewrite permute_index_spec in E1 by lia. injection E1 as <-.
    apply bind_good in Ek as (x & u3 & E1 & Ek). apply lift_good in E1 as [E1 ->]. assert (x = point o w (k + b) n) as ->. { unfold point. rewrite <- (proj2 Ee) by apply rev_lt. symmetry. apply nth_error_nth, E1. }
    apply bind_good in Ek as (t & u4 & E2 & Ek). apply lift_good in E2 as [E2 ->]. injection E2 as <-. apply bind_good in Ek as (t & u5 & E2 & Ek). apply lift_good in E2 as [E2 ->]. injection E2 as <-. cbn [snd] in Ek.
    apply bind_good in Ek as (r & u6 & E2 & Ek). apply lift_good in E2 as [E2 ->]. destruct r as [y'|]; [|discriminate Ek]. injection Ek as <- _.
    apply (deep_element o L e M w SD k z args tv cv coefs _ _ _ y') in E2; [exact E2|lia|exact Hj| |exact Ltv|rewrite Lcv; exact Lq|rewrite Lcv in Lco; rewrite Lcv; exact Lco|intros ->; cbn in Lcv; lia].
    rewrite Lcv, pow_ZN. apply Z.pow_lt_mono_r; lia. }
  pose proof (halvings_layout roots points (c_fri c) Lro Lpt) as Eh.
  apply bind_good in E as (r & v20 & E1 & E).
  change 1%Z with (2 ^ Z.of_nat 0)%Z in E1 at 1. replace 0 with (k + b - (k + b)) in E1 by lia.
  apply (layers_good o L e M w SD keccak enc dec sort_idx sort_nodes search Hs Hsearch (k + b) HkM eval_x Ee _ _ known true idx queries [] _ vf) in E1.
  2: { eapply Nat.le_trans; [apply Nat.eq_le_incl, Eh|lia]. } 2: lia.
  2: { intros El. right. destruct (c_fri c) as [|m fl]; [|destruct roots; [discriminate Lro|]; destruct points; [discriminate Lpt|discriminate El]]. cbn in Ecss. injection Ecss as <-. destruct queries as [|q queries]; [reflexivity|]. discriminate Eidx. }
  2: exact Sq. 2: exact Rq. 2: { intros _ zz n Hz u y u' Ek. apply (Hknown zz n Hz u y u' Ek). } 2: discriminate.
  2: { destruct (c_fri c) as [|m fl]; [destruct roots; [|discriminate Lro]; exact I|]. destruct roots as [|r0 roots]; [discriminate Lro|]. destruct points as [|p0 points]; [discriminate Lpt|]. cbn [List.combine].
       change (list_sum (m :: fl)) with (m + list_sum fl) in Hfri. cbn [map option_all] in Ecss. rewrite (ushl1_small e 1 1 one_one) in Ecss by lia. cbn [bind] in Ecss. apply bind_some in Ecss as (css' & _ & [= <-]). cbn [nth_error bind] in Eidx. rewrite (udiv_all 1 1 one_one) in Eidx. injection Eidx as <-. reflexivity. }
  destruct E1 as (Elen & Hall & Rprev & Hfin). destruct r as [[folds prev] len]. cbn [fst snd] in *. subst len.
  match type of Hfin with context [halvings ?l] => assert (Eh' : halvings l = list_sum (c_fri c)) by exact Eh; rewrite Eh' in * end.
  apply bind_good in E as (ended & v21 & _ & E). destruct ended; [|discriminate E]. cbn [negb] in E. apply bind_good in E as (r & v22 & E1 & E). apply lift_good in E1 as [E1 ->]. rewrite pow_NZ, (s_root _ _ _ _ SD) in E1 by lia. injection E1 as <-.
  apply bind_good in E as ([] & v23 & Elast & E). apply bind_good in E as (ft & v24 & E1 & E). apply lift_good in E1 as [Eft ->].
  destruct (feqb_spec o L ft (oods_value_from_constraint_values o cv z)) as [Eoods|]; [|discriminate E]. clear E.
  assert (Hlastv : forall i, In i prev -> folds_get folds i = Some (peval o last (point o w (k + b - list_sum (c_fri c)) i))).
  { intros i Ii. destruct (act_iter_good _ _ _ _ Elast i Ii) as (s1 & s2 & Ei). unfold check_last in Ei. apply bind_good in Ei as (y & s3 & E1 & Ei). apply lift_good in E1 as [E1 ->]. rewrite E1. f_equal.
    apply bind_good in Ei as (same & s4 & E2 & Ei). apply lift_good in E2 as [E2 ->]. destruct same; [|discriminate Ei]. unfold last_check in E2. rewrite pow_NZ in E2. rewrite Forall_forall in Rprev. pose proof (Rprev i Ii) as Ri.
    assert (Hi' : Z.to_nat i < 2 ^ (k + b - list_sum (c_fri c))) by (rewrite <- pow_NZ; apply Z2Nat.inj_lt; lia). rewrite permute_index_spec in E2 by lia. cbn [bind] in E2. unfold poly_new in E2. rewrite Llast, is_pow2 in E2. cbn [bind] in E2. injection E2 as E2.
    pose proof (rev_lt (k + b - list_sum (c_fri c)) (Z.to_nat i)) as Hrl. assert (2 ^ (k + b - list_sum (c_fri c)) <= 2 ^ M) by (apply Nat.pow_le_mono_r; lia). rewrite (e_pow o L e M w SD), (evaluate_spec o L) in E2 by lia.
    destruct (feqb_spec o L (peval o last (fpw o (w (k + b - list_sum (c_fri c))) (rev_bits (k + b - list_sum (c_fri c)) (Z.to_nat i)))) y) as [E3|]; [|discriminate E2]. symmetry. exact E3. }
  specialize (Hfin last Hlastv).
  (* the combined constraint *)
  assert (Ho : exists vs, Forall2 (claim_value o claims z (map_get (List.combine args tv))) (c_exprs c) vs /\
     fsum o (map (fun i => fmul o (fadd o (nth (2 * i) cs (f0 o)) (fmul o (nth (2 * i + 1) cs (f0 o)) (fexp o z (Z.to_N (nth i ks 0%Z))))) (nth i vs (f0 o))) (seq 0 (length (c_exprs c)))) = peval o cv z).
  { unfold oods_value_from_trace_values in Eft. assert (Ecomb' : combine o (edbg e) c cs = Some E0) by (destruct (edbg e); [exact Ecomb|apply (combine_rel o), Ecomb]). rewrite Ecomb' in Eft. cbn [bind] in Eft. apply bind_some in Eft as (E' & Esb & Eev).
    apply (eval_value o L) in Eev; [|apply (substitute_usizes o claims E0 E' Esb), (combine_usizes o c cs E0 Ecomb); intros ex Iex; apply (Hex ex Iex)].
    destruct (Hval _ _ _ (claim_subst o claims z _ E0 E' ft Esb Eev)) as (vs & Hvs & Eq). exists vs. split; [exact Hvs|]. rewrite <- Eq, Eoods. unfold oods_value_from_constraint_values. rewrite (from_constraint_values_spec o L), (oods_ring1 o L), (oods_one o L). reflexivity. }
  destruct Ho as (vs & Hvs & Ho).
  exists args, ks, {| trace_root := troot; constraint_root := croot; trace_values_b := tvb; constraint_values_b := cvb; fri_roots := roots; last_b := lb; nonce := nb; openings := rest; alphas := cs; z := z;
    trace_values := tv; constraint_values := cv; coefs := coefs; fri_points := points; last := last; queries := queries; rows := read_for queries lv; quots := read_for queries qv |}.
  assert (Msgs : forall (x : hash) (y z1 z2 : list (list Z)), (((([] ++ [x]) ++ y) ++ z1) ++ z2) = ([x] ++ y) ++ z1 ++ z2) by (intros; rewrite !app_assoc; reflexivity). rewrite Msgs in *.
  constructor; unfold after_nonce, after_last, after_layers, after_values, after_constraints, after_trace; cbn [trace_root constraint_root trace_values_b constraint_values_b fri_roots last_b nonce openings alphas AcceptSpec.z trace_values constraint_values AcceptSpec.coefs fri_points AcceptSpec.last AcceptSpec.queries rows quots].
  - rewrite firstn_all. exact Ep.
  - auto.
  - auto.
  - auto.
  - split; [exact Sargs|]. split; [intros i j; symmetry; apply Hargs|exact Ltv].
  - exists D, a. split; [exact ED|]. split; [exact Lcv|]. split; [exact HDa|]. split; [exact Hleast|]. rewrite Hrows, pow_ZN in Hks. exact Hks.
  - exact Llast.
  - split; [exact Lcs|exact Dcs].
  - exact Dz.
  - split; [exact Lco|exact Dco].
  - intros i Hi. apply Dpt, Hi.
  - rewrite firstn_all. split; [exact Hbits|exact Epow].
  - rewrite firstn_all. split; [exact Sq|exact Pq].
  - exists (map_get (List.combine args tv)), vs. split; [|split; [exact Hvs|exact Ho]]. intros n i j En. pose proof (map_get_spec (0, 0%Z) args tv n Sargs Ltv ltac:(apply nth_error_Some; congruence)) as Hm. rewrite (nth_error_nth _ _ _ En) in Hm. exact Hm.
  - intros q Iq. destruct (Hrow q Iq) as (zz & _ & _ & E1 & E2 & _). split; [exact E2|]. apply Alv. eapply nth_error_In, E1.
  - intros q Iq. destruct (Hrow q Iq) as (zz & _ & _ & _ & _ & E1 & E2). split; [rewrite Lcv; exact E2|]. apply Aqv. eapply nth_error_In, E1.
  - intros q Iq. destruct (Hall eq_refl q Iq) as (zz & u & y & u' & Hz & Ek). apply (Hknown zz q Hz u y u' Ek).
  - exact Hfin.
Qed.
End Run.
