(** Proofs about the Merkle tree: layer-by-layer view of [open] and [verify]. *)
Require Import ZArith Arith Lia Bool List Permutation Sorted.
From Verif Require Import Word U256Proofs KnuthModel BinaryModel BinaryProofs Arr MerkleModel MerkleSpec MerkleIndexProofs.
Import ListNotations.
Open Scope Z_scope.

(** * Sorted lists *)
Definition strict (l : list Z) : Prop := StronglySorted Z.lt l.
Lemma strict_ext l l' : strict l -> strict l' -> (forall k, In k l <-> In k l') -> l = l'.
Proof.
  revert l'. induction l as [|x l IH]; intros [|y l'] S1 S2 E; auto.
  - exfalso. apply (E y). left. reflexivity.
  - exfalso. apply (E x). left. reflexivity.
  - inversion S1 as [|? ? S1' F1]; subst. inversion S2 as [|? ? S2' F2]; subst.
    rewrite Forall_forall in F1, F2.
    assert (x = y).
    { destruct (proj1 (E x) (or_introl eq_refl)) as [->|I1]; [reflexivity|].
      destruct (proj2 (E y) (or_introl eq_refl)) as [->|I2]; [reflexivity|].
      apply F1 in I2. apply F2 in I1. lia. }
    subst y. f_equal. apply IH; auto. intros k. split; intros I.
    + destruct (proj1 (E k) (or_intror I)) as [<-|]; [|assumption]. apply F1 in I. lia.
    + destruct (proj2 (E k) (or_intror I)) as [<-|]; [|assumption]. apply F2 in I. lia.
Qed.
Section Dedup.
Context {A : Type} (key : A -> Z).
Lemma dedup_cons x l : dedup_by key (x :: l) =
  match dedup_by key l with y :: d' => if key x =? key y then x :: d' else x :: dedup_by key l | [] => [x] end.
Proof. destruct l as [|y l]; [reflexivity|]. cbn [dedup_by]. fold (dedup_by key (y :: l)). destruct (dedup_by key (y :: l)); reflexivity. Qed.
Lemma dedup_In l x : In x (dedup_by key l) -> In x l.
Proof.
  induction l as [|a l IH]; [auto|]. rewrite dedup_cons. destruct (dedup_by key l) as [|y d].
  - cbn. tauto.
  - destruct (key a =? key y); cbn in *; tauto.
Qed.
Lemma dedup_keys l k : In k (map key (dedup_by key l)) <-> In k (map key l).
Proof.
  induction l as [|a l IH]; [tauto|]. rewrite dedup_cons. destruct (dedup_by key l) as [|y d].
  - cbn in *. tauto.
  - destruct (Z.eqb_spec (key a) (key y)) as [E|E]; cbn in *; rewrite <- IH; intuition congruence.
Qed.
Lemma dedup_strict l : StronglySorted (fun a b => key a <= key b) l -> strict (map key (dedup_by key l)).
Proof.
  unfold strict. induction l as [|a l IH]; intros S; [constructor|]. inversion S as [|? ? S' F]; subst. specialize (IH S').
  rewrite Forall_forall in F. rewrite dedup_cons.
  assert (K : forall k, In k (map key (dedup_by key l)) -> key a <= k).
  { intros k I. apply (proj1 (dedup_keys l k)) in I. apply in_map_iff in I as (b & <- & I). apply F. exact I. }
  destruct (dedup_by key l) as [|y d]; [repeat constructor|].
  cbn [map] in *. inversion IH as [|? ? IH' F']; subst. rewrite Forall_forall in F'.
  destruct (Z.eqb_spec (key a) (key y)) as [E|E]; cbn [map].
  - rewrite E. constructor; [assumption|]. apply Forall_forall. assumption.
  - pose proof (K (key y) (or_introl eq_refl)). constructor; [assumption|]. apply Forall_forall.
    intros k [<-|I]; [lia|]. apply F' in I. lia.
Qed.
End Dedup.
Lemma collect_ok {A C} (f : A -> res C) (g : A -> C) l : (forall x, In x l -> f x = Ok (g x)) -> collect f l = Ok (map g l).
Proof.
  induction l as [|x l IH]; intros E; [reflexivity|]. cbn. rewrite (E x) by (left; reflexivity). cbn.
  rewrite IH by (intros; apply E; right; assumption). reflexivity.
Qed.
Lemma collect_err {A C} (f : A -> res C) (g : A -> C) l e x : In x l -> (forall x, In x l -> f x = Ok (g x) \/ f x = Err e) -> f x = Err e -> collect f l = Err e.
Proof.
  induction l as [|y l IH]; intros I E X; [contradiction|]. cbn.
  destruct (E y (or_introl eq_refl)) as [Ey|Ey]; rewrite Ey; [|reflexivity]. cbn.
  destruct I as [->|I]; [congruence|]. rewrite IH; auto. intros z Iz. apply E. right. exact Iz.
Qed.
Lemma collect_inv {A C} (f : A -> res C) l r : collect f l = Ok r -> forall x, In x l -> exists y, f x = Ok y /\ In y r.
Proof.
  revert r. induction l as [|a l IH]; intros r E x I; [contradiction|]. cbn in E. destruct (f a) as [y|] eqn:Ea; [|discriminate].
  cbn in E. destruct (collect f l) as [ys|] eqn:El; [|discriminate]. cbn in E. injection E as <-.
  destruct I as [<-|I]; [exists y; split; [assumption|left; reflexivity]|].
  destruct (IH ys eq_refl x I) as (z & Hz & Iz). exists z. split; [assumption|right; assumption].
Qed.

(** * Offsets within a layer *)
Definition sib (k : Z) : Z := if k mod 2 =? 0 then k + 1 else k - 1.
Definition in_layer (e : Z) (L : list Z) : Prop := Forall (fun k => 0 <= k < 2 ^ e) L.
Definition idx (e : Z) (k : Z) : Z := 2 ^ e + k.

Lemma half2 k : k = 2 * (k / 2) + k mod 2 /\ 0 <= k mod 2 < 2.
Proof. pose proof (Z.div_mod k 2 ltac:(lia)). pose proof (Z.mod_pos_bound k 2 ltac:(lia)). lia. Qed.

(** one layer of [open]: the siblings to emit and the parents *)
Fixpoint opass (L : list Z) : list Z * list Z :=
  match L with
  | [] => ([], [])
  | x :: L' =>
      match L' with
      | y :: L'' => if y =? sib x then let '(em, ps) := opass L'' in (em, x / 2 :: ps)
                    else let '(em, ps) := opass L' in (sib x :: em, x / 2 :: ps)
      | [] => ([sib x], [x / 2])
      end
  end.
Lemma pair_ind {A} (P : list A -> Prop) : P [] -> (forall x, P [x]) -> (forall x y L, P L -> P (y :: L) -> P (x :: y :: L)) -> forall L, P L.
Proof.
  intros P0 P1 P2 L. enough (P L /\ forall x, P (x :: L)) by tauto. induction L as [|y L [IH1 IH2]]; [auto|]. split; auto.
Qed.
Lemma opass_cons2 x y L : opass (x :: y :: L) =
  if y =? sib x then (fst (opass L), x / 2 :: snd (opass L)) else (sib x :: fst (opass (y :: L)), x / 2 :: snd (opass (y :: L))).
Proof.
  change (opass (x :: y :: L)) with (if y =? sib x then let '(em, ps) := opass L in (em, x / 2 :: ps)
    else let '(em, ps) := opass (y :: L) in (sib x :: em, x / 2 :: ps)).
  destruct (y =? sib x); [destruct (opass L)|destruct (opass (y :: L))]; reflexivity.
Qed.
Lemma opass_in_layer e L : 0 <= e -> in_layer (e + 1) L -> in_layer e (snd (opass L)) /\ in_layer (e + 1) (fst (opass L)).
Proof.
  intros He. assert (P : forall x, 0 <= x < 2 ^ (e + 1) -> 0 <= x / 2 < 2 ^ e /\ 0 <= sib x < 2 ^ (e + 1)).
  { intros x Hx. rewrite pow_S in * by lia. unfold sib. pose proof (half2 x).
    destruct (Z.eqb_spec (x mod 2) 0); lia. }
  induction L as [|x|x y L IH1 IH2] using pair_ind; intros F.
  - split; constructor.
  - inversion F; subst. specialize (P x ltac:(assumption)). split; repeat constructor; apply P.
  - rewrite opass_cons2. inversion F as [|? ? Fx F']; subst. inversion F' as [|? ? Fy F'']; subst.
    specialize (P x Fx). destruct (y =? sib x); cbn [fst snd].
    + destruct (IH1 F''). split; [constructor; [apply P|assumption]|assumption].
    + destruct (IH2 F'). split; constructor; try assumption; apply P.
Qed.
Lemma opass_parents L : (forall k, In k (snd (opass L)) -> exists x, In x L /\ k = x / 2).
Proof.
  induction L as [|x|x y L IH1 IH2] using pair_ind; intros k I.
  - contradiction.
  - destruct I as [<-|[]]. exists x. split; [left|]; reflexivity.
  - rewrite opass_cons2 in I. destruct (y =? sib x); destruct I as [<-|I].
    + exists x. split; [left|]; reflexivity.
    + destruct (IH1 k I) as (z & Iz & ->). exists z. split; [right; right; assumption|reflexivity].
    + exists x. split; [left|]; reflexivity.
    + destruct (IH2 k I) as (z & Iz & ->). exists z. split; [right; assumption|reflexivity].
Qed.
Lemma strict_inv x L : strict (x :: L) -> strict L /\ forall y, In y L -> x < y.
Proof. intros S. inversion S as [|? ? S' F]; subst. rewrite Forall_forall in F. auto. Qed.
Lemma strict_cons x L : strict L -> (forall y, In y L -> x < y) -> strict (x :: L).
Proof. intros S F. constructor; [assumption|]. apply Forall_forall. assumption. Qed.
Lemma opass_strict L : strict L -> strict (snd (opass L)).
Proof.
  induction L as [|x|x y L IH1 IH2] using pair_ind; intros S.
  - constructor.
  - repeat constructor.
  - apply strict_inv in S as [S Fx]. pose proof (Fx y (or_introl eq_refl)). rewrite opass_cons2.
    destruct (strict_inv _ _ S) as [S' Fy]. destruct (Z.eqb_spec y (sib x)) as [E|E]; cbn [snd]; apply strict_cons; auto.
    + intros k I. apply opass_parents in I as (z & Iz & ->). apply Fy in Iz. unfold sib in E.
      pose proof (half2 x). pose proof (half2 z). destruct (Z.eqb_spec (x mod 2) 0); lia.
    + intros k I. apply opass_parents in I as (z & Iz & ->).
      assert (y <= z) by (destruct Iz as [->|Iz]; [lia|apply Fy in Iz; lia]). unfold sib in E.
      pose proof (half2 x). pose proof (half2 z). pose proof (half2 y). destruct (Z.eqb_spec (x mod 2) 0); lia.
Qed.
Lemma opass_length L : (length (snd (opass L)) <= length L)%nat.
Proof.
  induction L as [|x|x y L IH1 IH2] using pair_ind; [reflexivity|reflexivity|]. rewrite opass_cons2.
  destruct (y =? sib x); cbn [snd length] in *; lia.
Qed.

(** all layers: the emitted (depth, offset) pairs *)
Fixpoint olayers (e : nat) (L : list Z) : list (Z * Z) :=
  match e with
  | O => []
  | S e' => map (pair (Z.of_nat e)) (fst (opass L)) ++ olayers e' (snd (opass L))
  end.

Lemma sib_idx e k : 0 <= e -> 0 <= k < 2 ^ (e + 1) -> i_sibling (idx (e + 1) k) = Some (idx (e + 1) (sib k)).
Proof. intros. unfold idx, sib. apply sibling_node; assumption. Qed.
Lemma parent_idx e k : 0 <= e -> 0 <= k < 2 ^ (e + 1) -> i_parent (idx (e + 1) k) = Some (idx e (k / 2)).
Proof. intros. unfold idx. apply parent_node; assumption. Qed.
Lemma is_left_idx e k : 0 <= e -> is_left (idx (e + 1) k) = (k mod 2 =? 0).
Proof. apply is_left_node. Qed.
Lemma sib_range e k : 0 <= e -> 0 <= k < 2 ^ (e + 1) -> 0 <= sib k < 2 ^ (e + 1).
Proof. intros. rewrite pow_S in * by lia. unfold sib. pose proof (half2 k). destruct (Z.eqb_spec (k mod 2) 0); lia. Qed.

(** ** proof_size *)
Fixpoint adj (e : Z) (L : list Z) : Z :=
  match L with
  | x :: ((y :: _) as r) => (e - 1 - Z.log2 (Z.lxor x y) + 2) + adj e r
  | _ => 0
  end.
Lemma lxor_half x y : Z.lxor (x / 2) (y / 2) = Z.lxor x y / 2.
Proof. rewrite <- !Z.div2_div, !Z.div2_spec. symmetry. apply Z.shiftr_lxor. Qed.
Lemma log2_half n : 2 <= n -> Z.log2 (n / 2) = Z.log2 n - 1.
Proof. intros. rewrite <- Z.div2_div, Z.div2_spec, Z.log2_shiftr by lia. pose proof (Z.log2_le_mono 2 n ltac:(lia)). change (Z.log2 2) with 1 in *. lia. Qed.
Lemma sib_lxor k : 0 <= k -> sib k = Z.lxor k 1.
Proof. intros. symmetry. apply lxor1. assumption. Qed.
Lemma lxor_ge2 x y : 0 <= x -> 0 <= y -> y <> x -> y <> sib x -> 2 <= Z.lxor x y.
Proof.
  intros Hx Hy N1 N2. assert (0 <= Z.lxor x y) by (apply Z.lxor_nonneg; lia).
  destruct (Z.eq_dec (Z.lxor x y) 0) as [E|]; [apply Z.lxor_eq in E; congruence|].
  destruct (Z.eq_dec (Z.lxor x y) 1) as [E|]; [|lia]. exfalso. apply N2. rewrite sib_lxor by assumption. rewrite <- E.
  rewrite <- Z.lxor_assoc, Z.lxor_nilpotent, Z.lxor_0_l. reflexivity.
Qed.
(** head of the parents *)
Lemma opass_head y L : exists r, snd (opass (y :: L)) = y / 2 :: r.
Proof. destruct L as [|z L]; [eexists; reflexivity|]. rewrite opass_cons2. destruct (z =? sib y); eexists; reflexivity. Qed.
Lemma adj_cons2 e x y L : adj e (x :: y :: L) = (e - 1 - Z.log2 (Z.lxor x y) + 2) + adj e (y :: L).
Proof. reflexivity. Qed.
Lemma opass_count e L : 0 <= e -> Forall (fun k => 0 <= k) L -> strict L ->
  (e + 1) * Z.of_nat (length L) - adj (e + 1) L =
  Z.of_nat (length (fst (opass L))) + (e * Z.of_nat (length (snd (opass L))) - adj e (snd (opass L))).
Proof.
  intros He. induction L as [|x|x y L IH1 IH2] using pair_ind; intros P S.
  - cbn [opass fst snd length adj]; lia.
  - cbn [opass fst snd length adj]; lia.
  - inversion P as [|? ? Px P']; subst. inversion P' as [|? ? Py P'']; subst.
    apply strict_inv in S as [S Fx]. pose proof (Fx y (or_introl eq_refl)) as Lxy. destruct (strict_inv _ _ S) as [S' Fy].
    rewrite opass_cons2, adj_cons2. destruct (Z.eqb_spec y (sib x)) as [E|E].
    + assert (X : Z.lxor x y = 1). { rewrite E, sib_lxor by assumption. rewrite <- Z.lxor_assoc, Z.lxor_nilpotent. reflexivity. }
      rewrite X. change (Z.log2 1) with 0. cbn [fst snd]. specialize (IH1 P'' S').
      destruct L as [|z L].
      * cbn. lia.
      * rewrite adj_cons2. destruct (opass_head z L) as (r & Er). rewrite Er in *. rewrite adj_cons2.
        assert (z <> sib y). { pose proof (Fy z (or_introl eq_refl)). unfold sib in *. destruct (Z.eqb_spec (x mod 2) 0); [|lia].
          assert (y mod 2 = 1) by (pose proof (half2 x); pose proof (half2 y); lia).
          destruct (Z.eqb_spec (y mod 2) 0); lia. }
        assert (Hh : y / 2 = x / 2). { unfold sib in *. pose proof (half2 x); pose proof (half2 y). destruct (Z.eqb_spec (x mod 2) 0); lia. }
        pose proof (Fy z (or_introl eq_refl)). pose proof (Forall_inv P'') as Pz. cbv beta in Pz.
        pose proof (lxor_ge2 y z ltac:(lia) ltac:(lia) ltac:(lia) ltac:(assumption)) as G.
        rewrite <- Hh. rewrite lxor_half, log2_half by assumption.
        cbn [length] in *. lia.
    + cbn [fst snd]. specialize (IH2 P' S). destruct (opass_head y L) as (r & Er). rewrite Er in *. rewrite adj_cons2.
      pose proof (lxor_ge2 x y ltac:(lia) ltac:(lia) ltac:(lia) ltac:(assumption)) as G.
      rewrite lxor_half, log2_half by assumption. cbn [length] in *. lia.
Qed.
Lemma olayers_count e L : in_layer (Z.of_nat e) L -> strict L ->
  Z.of_nat (length (olayers e L)) = Z.of_nat e * Z.of_nat (length L) - adj (Z.of_nat e) L.
Proof.
  revert L. induction e as [|e IH]; intros L F St.
  - cbn [olayers length]. destruct L as [|x [|y L]]; [reflexivity|cbn; lia|].
    exfalso. inversion F as [|? ? Fx F']; subst. inversion F'; subst. cbn in *. apply strict_inv in St as [_ St]. specialize (St y (or_introl eq_refl)). lia.
  - cbn [olayers]. rewrite app_length, map_length, Nat2Z.inj_add.
    replace (Z.of_nat (S e)) with (Z.of_nat e + 1) in * by lia.
    destruct (opass_in_layer (Z.of_nat e) L ltac:(lia) F) as [F1 F2].
    rewrite IH by (auto using opass_strict). rewrite opass_count; auto; [lia|].
    eapply Forall_impl; [|exact F]. cbn. lia.
Qed.
Lemma lxor_idx e x y : 0 <= e -> 0 <= x < 2 ^ e -> 0 <= y < 2 ^ e -> Z.lxor (idx e x) (idx e y) = Z.lxor x y.
Proof.
  intros He Hx Hy. unfold idx. rewrite <- !lor_node by assumption.
  assert (X : forall k, 0 <= k < 2 ^ e -> Z.lor (2 ^ e) k = Z.lxor (2 ^ e) k).
  { intros k Hk. rewrite lor_node by assumption. rewrite Z.add_nocarry_lxor; [reflexivity|].
    rewrite Z.land_comm. rewrite <- (Z.mod_small k (2 ^ e)) by assumption.
    apply Z.bits_inj'. intros i Hi. rewrite Z.land_spec, Z.bits_0.
    destruct (Z_lt_ge_dec i e); [rewrite Z.pow2_bits_false by lia; apply andb_false_r|].
    rewrite Z.mod_pow2_bits_high by lia. reflexivity. }
  rewrite !X by assumption.
  rewrite (Z.lxor_comm (2 ^ e) x), Z.lxor_assoc, <- (Z.lxor_assoc (2 ^ e)), Z.lxor_nilpotent, Z.lxor_0_l. reflexivity.
Qed.
Lemma lca_depth e x y : 0 <= e < 64 -> 0 <= x < 2 ^ e -> 0 <= y < 2 ^ e -> x <> y ->
  i_depth (last_common_ancestor (idx e x) (idx e y)) = e - 1 - Z.log2 (Z.lxor x y) /\ 0 <= Z.log2 (Z.lxor x y) < e.
Proof.
  intros He Hx Hy N.
  destruct (lca_val (idx e x) (idx e y)) as [A1 A2].
  - apply node_valid; assumption.
  - apply node_valid; assumption.
  - unfold idx. rewrite !depth_node by assumption. reflexivity.
  - unfold idx. lia.
  - cbv zeta in *. rewrite lxor_idx in * by (assumption || lia). set (t := Z.log2 (Z.lxor x y)) in *. clearbody t. rewrite A2.
    unfold idx in A1. rewrite depth_node in A1 by assumption. split; [|exact A1].
    unfold idx. pose proof (pow_pos' (t + 1) ltac:(lia)).
    replace (2 ^ e) with (2 ^ (e - 1 - t) * 2 ^ (t + 1)) by (rewrite <- Z.pow_add_r by lia; f_equal; lia).
    rewrite Z.div_add_l by lia. apply depth_node; [lia|].
    assert (E : 2 ^ e = 2 ^ (e - 1 - t) * 2 ^ (t + 1)) by (rewrite <- Z.pow_add_r by lia; f_equal; lia).
    split; [apply Z.div_pos; lia|]. apply Z.div_lt_upper_bound; [lia|]. lia.
Qed.
Lemma adj_nonneg e L : 0 <= e < 64 -> in_layer e L -> strict L -> 0 <= adj e L.
Proof.
  intros He. induction L as [|x|x y L _ IH] using pair_ind; intros F S; [cbn; lia|cbn; lia|].
  rewrite adj_cons2. inversion F as [|? ? Fx F']; subst. inversion F' as [|? ? Fy ?]; subst.
  apply strict_inv in S as [S Fs]. pose proof (Fs y (or_introl eq_refl)).
  destruct (lca_depth e x y He Fx Fy ltac:(lia)). specialize (IH F' S). lia.
Qed.
Lemma proof_size_loop_spec e L s : 0 <= e < 64 -> in_layer e L -> strict L -> adj e L <= s ->
  proof_size_loop s (map (idx e) L) = Some (s - adj e L).
Proof.
  intros He. revert s. induction L as [|x|x y L _ IH] using pair_ind; intros s F S Hs; [cbn; f_equal; lia|cbn; f_equal; lia|].
  change (proof_size_loop s (map (idx e) (x :: y :: L))) with
    (let? s := sub64 s (i_depth (last_common_ancestor (idx e x) (idx e y)) + 2) in proof_size_loop s (map (idx e) (y :: L))).
  inversion F as [|? ? Fx F']; subst. inversion F' as [|? ? Fy ?]; subst.
  apply strict_inv in S as [S Fs]. pose proof (Fs y (or_introl eq_refl)). rewrite adj_cons2 in *.
  destruct (lca_depth e x y He Fx Fy ltac:(lia)) as [E1 E2]. rewrite E1. pose proof (adj_nonneg e _ He F' S).
  unfold sub64. destruct (Z.leb_spec (e - 1 - Z.log2 (Z.lxor x y) + 2) s); [|lia]. cbn [bind].
  rewrite IH by (auto; lia). f_equal. lia.
Qed.

(** * Loops of [open] and [verify], layer by layer *)
Section Hashes.
Context {H Leaf : Type} (heqb : H -> H -> bool) (node : H -> H -> H) (leaf_hash : Leaf -> H) (hdefault : H).
Hypothesis heqb_spec : forall a b, heqb a b = true <-> a = b.
Variables (D : nat) (f : Z -> H).
Hypothesis HD : (D < 64)%nat.
Notation hat := (hash_at node D f).

Lemma hash_at_node e k : 0 <= e < Z.of_nat D -> hat e k = node (hat (e + 1) (2 * k)) (hat (e + 1) (2 * k + 1)).
Proof.
  intros He. unfold hash_at. replace (D - Z.to_nat e)%nat with (S (D - Z.to_nat (e + 1))) by lia.
  cbn [merkle_root]. set (c := (D - Z.to_nat (e + 1))%nat).
  assert (Ec : Z.of_nat c = Z.of_nat D - (e + 1)) by (unfold c; lia).
  replace (Z.of_nat D - e) with (Z.of_nat D - (e + 1) + 1) by lia. rewrite pow_S by lia. rewrite Ec.
  f_equal; f_equal; ring.
Qed.

Section Open.
Variables (t : @tree H Leaf).
Hypothesis node_hash_ok : forall e k, 0 <= e <= Z.of_nat D -> 0 <= k < 2 ^ e ->
  node_hash node leaf_hash 64 t (idx e k) = Some (hat e k).

Lemma idx_ne e k x : 0 <= e -> 0 <= k < 2 ^ (e + 1) -> x < 2 ^ (e + 1) -> x =? idx (e + 1) k = false.
Proof. intros. apply Z.eqb_neq. unfold idx. lia. Qed.

Lemma open_layer e L A hs fuel : 0 <= e < Z.of_nat D -> in_layer (e + 1) L -> Forall (fun x => x < 2 ^ (e + 1)) A ->
  (length L <= fuel)%nat ->
  exists fuel', (fuel <= fuel' + length L)%nat /\
  open_loop node leaf_hash fuel t (map (idx (e + 1)) L ++ A) hs =
  open_loop node leaf_hash fuel' t (A ++ map (idx e) (snd (opass L))) (hs ++ map (hat (e + 1)) (fst (opass L))).
Proof.
  intros He. revert A hs fuel. induction L as [|x|x y L IH1 IH2] using pair_ind; intros A hs fuel F FA Hf.
  - exists fuel. split; [cbn; lia|]. cbn [map opass fst snd app]. rewrite !app_nil_r. reflexivity.
  - inversion F as [|? ? Fx _]; subst. destruct fuel as [|fuel]; [cbn in Hf; lia|]. exists fuel. split; [cbn; lia|].
    cbn [map app open_loop opass fst snd]. rewrite parent_idx, sib_idx by (assumption || lia). cbn [bind].
    rewrite node_hash_ok by (first [lia | apply sib_range; [lia|assumption]]). cbn [bind].
    destruct A as [|a A]; cbn [app].
    + rewrite idx_ne; [reflexivity|lia|apply sib_range; [lia|assumption]|].
      unfold idx. rewrite pow_S in Fx |- * by lia. pose proof (half2 x). lia.
    + rewrite idx_ne; [reflexivity|lia|apply sib_range; [lia|assumption]|]. inversion FA; subst. assumption.
  - inversion F as [|? ? Fx F']; subst. inversion F' as [|? ? Fy F'']; subst. destruct fuel as [|fuel]; [cbn in Hf; lia|].
    cbn [map app open_loop]. rewrite parent_idx, sib_idx by (assumption || lia). cbn [bind].
    assert (P : idx e (x / 2) < 2 ^ (e + 1)). { unfold idx. rewrite pow_S in Fx |- * by lia. pose proof (half2 x). lia. }
    assert (FA' : Forall (fun z => z < 2 ^ (e + 1)) (A ++ [idx e (x / 2)])) by (apply Forall_app; split; [assumption|repeat constructor; exact P]).
    rewrite opass_cons2. destruct (Z.eqb_spec (idx (e + 1) y) (idx (e + 1) (sib x))) as [E|E].
    + assert (y = sib x) by (unfold idx in E; lia). destruct (Z.eqb_spec y (sib x)); [|contradiction]. cbn [fst snd].
      destruct (IH1 (A ++ [idx e (x / 2)]) hs fuel F'' FA' ltac:(cbn [length] in Hf; lia)) as (f' & Hf' & Ef).
      exists f'. split; [cbn [length]; lia|]. rewrite <- app_assoc. rewrite Ef. rewrite <- app_assoc. reflexivity.
    + destruct (Z.eqb_spec y (sib x)); [unfold idx in E; lia|]. cbn [fst snd map].
      rewrite node_hash_ok by (first [lia | apply sib_range; [lia|assumption]]). cbn [bind].
      destruct (IH2 (A ++ [idx e (x / 2)]) (hs ++ [hat (e + 1) (sib x)]) fuel F' FA' ltac:(cbn [length] in *; lia)) as (f' & Hf' & Ef).
      exists f'. split; [cbn [length] in *; lia|]. rewrite <- app_assoc. cbn [map app] in Ef. rewrite Ef. rewrite <- !app_assoc. reflexivity.
Qed.
Lemma open_layers e L hs fuel : (e <= D)%nat -> in_layer (Z.of_nat e) L -> strict L -> (length L * (e + 1) <= fuel)%nat ->
  open_loop node leaf_hash fuel t (map (idx (Z.of_nat e)) L) hs =
  Some (hs ++ map (fun dk => hat (fst dk) (snd dk)) (olayers e L)).
Proof.
  revert L hs fuel. induction e as [|e IH]; intros L hs fuel He F St Hf.
  - cbn [olayers map]. rewrite app_nil_r. destruct L as [|x [|y L]].
    + destruct fuel; reflexivity.
    + inversion F as [|? ? Fx _]; subst. change (2 ^ Z.of_nat 0) with 1 in Fx. assert (x = 0) by lia. subst x.
      destruct fuel as [|fuel]; [cbn in Hf; lia|].
      change (open_loop node leaf_hash (S fuel) t (map (idx (Z.of_nat 0)) [0]) hs) with (open_loop node leaf_hash fuel t [] hs).
      destruct fuel; reflexivity.
    + exfalso. inversion F as [|? ? Fx F']; subst. inversion F'; subst. change (2 ^ Z.of_nat 0) with 1 in *. apply strict_inv in St as [_ St].
      specialize (St y (or_introl eq_refl)). lia.
  - replace (Z.of_nat (S e)) with (Z.of_nat e + 1) in * by lia.
    destruct (open_layer (Z.of_nat e) L [] hs fuel ltac:(lia) F ltac:(constructor) ltac:(nia)) as (f' & Hf' & Ef).
    rewrite app_nil_r in Ef. rewrite Ef. cbn [app]. clear Ef.
    destruct (opass_in_layer (Z.of_nat e) L ltac:(lia) F) as [F1 F2]. pose proof (opass_length L).
    rewrite IH; [|lia|assumption|apply opass_strict; assumption|nia].
    cbn [olayers]. rewrite map_app, map_map, <- app_assoc. cbn [fst snd].
    replace (Z.of_nat (S e)) with (Z.of_nat e + 1) by lia. reflexivity.
Qed.
End Open.

(** one layer of [verify] *)
Definition vstep (x : Z) (l r : H) (rest : res (list (Z * H) * list H) * list (H * H)) : res (list (Z * H) * list H) * list (H * H) :=
  (rbind (fst rest) (fun p => Ok ((x / 2, node l r) :: fst p, snd p)), (l, r) :: snd rest).
Fixpoint vpass (L : list (Z * H)) (hs : list H) : res (list (Z * H) * list H) * list (H * H) :=
  match L with
  | [] => (Ok ([], hs), [])
  | (x, h) :: L' =>
      let pop k := match hs with [] => (Err NotEnoughHashes, []) | g :: hs' => k g hs' end in
      if x mod 2 =? 0 then
        match L' with
        | (y, g) :: L'' => if sib x =? y then vstep x h g (vpass L'' hs) else pop (fun g hs' => vstep x h g (vpass L' hs'))
        | [] => pop (fun g hs' => vstep x h g (vpass L' hs'))
        end
      else pop (fun g hs' => vstep x g h (vpass L' hs'))
  end.
Definition kidx (e : Z) (kh : Z * H) : Z * H := (idx e (fst kh), snd kh).

Lemma verify_layer R e L A hs log fuel : 0 <= e -> in_layer (e + 1) (map fst L) -> Forall (fun x => fst x < 2 ^ (e + 1)) A ->
  (length L <= fuel)%nat ->
  match vpass L hs with
  | (Err er, lg) => verify_loop heqb node fuel R (map (kidx (e + 1)) L ++ A) hs log = Some (Err er, log ++ lg)
  | (Ok (ps, hs'), lg) => exists fuel', (fuel <= fuel' + length L)%nat /\
      verify_loop heqb node fuel R (map (kidx (e + 1)) L ++ A) hs log =
      verify_loop heqb node fuel' R (A ++ map (kidx e) ps) hs' (log ++ lg)
  end.
Proof.
  intros He. revert A hs log fuel. induction L as [|[x h]|[x h] [y g] L IH1 IH2] using pair_ind; intros A hs log fuel F FA Hf.
  - cbn. exists fuel. split; [lia|]. rewrite !app_nil_r. reflexivity.
  - inversion F as [|? ? Fx _]; subst. cbn [fst] in Fx. destruct fuel as [|fuel]; [cbn in Hf; lia|].
    cbn [map app vpass verify_loop kidx fst snd]. rewrite parent_idx by (assumption || lia). rewrite sib_idx by (assumption || lia).
    rewrite is_left_idx by lia. cbn [bind].
    destruct (x mod 2 =? 0).
    + destruct A as [|[a ha] A]; cbn [app].
      * destruct hs as [|h0 hs]; [rewrite app_nil_r; reflexivity|]. cbn. exists fuel. split; [lia|]. reflexivity.
      * destruct (Z.eqb_spec (idx (e + 1) (sib x)) a) as [E|E].
        { exfalso. inversion FA; subst. cbn [fst] in *. pose proof (sib_range e x He Fx). unfold idx in *. lia. }
        destruct hs as [|h0 hs]; [rewrite app_nil_r; reflexivity|]. cbn. exists fuel. split; [lia|]. reflexivity.
    + destruct hs as [|h0 hs]; [rewrite app_nil_r; reflexivity|]. cbn. exists fuel. split; [lia|]. reflexivity.
  - inversion F as [|? ? Fx F']; subst. inversion F' as [|? ? Fy F'']; subst. cbn [fst] in Fx, Fy.
    destruct fuel as [|fuel]; [cbn in Hf; lia|].
    assert (P : idx e (x / 2) < 2 ^ (e + 1)). { unfold idx. rewrite pow_S in Fx |- * by lia. pose proof (half2 x). lia. }
    assert (FA' : forall l r, Forall (fun z : Z * H => fst z < 2 ^ (e + 1)) (A ++ [(idx e (x / 2), node l r)])).
    { intros l r. apply Forall_app. split; [assumption|]. repeat constructor. exact P. }
    assert (Pop : forall l r hs', match vstep x l r (vpass ((y, g) :: L) hs') with
      | (Err er, lg) => verify_loop heqb node fuel R (map (kidx (e + 1)) ((y, g) :: L) ++ A ++ [(idx e (x / 2), node l r)]) hs' (log ++ [(l, r)]) = Some (Err er, log ++ lg)
      | (Ok (ps, hs''), lg) => exists fuel', (S fuel <= fuel' + length ((x, h) :: (y, g) :: L))%nat /\
          verify_loop heqb node fuel R (map (kidx (e + 1)) ((y, g) :: L) ++ A ++ [(idx e (x / 2), node l r)]) hs' (log ++ [(l, r)]) =
          verify_loop heqb node fuel' R (A ++ map (kidx e) ps) hs'' (log ++ lg) end).
    { intros l r hs'. specialize (IH2 (A ++ [(idx e (x / 2), node l r)]) hs' (log ++ [(l, r)]) fuel F' (FA' l r) ltac:(cbn [length] in *; lia)).
      unfold vstep. destruct (vpass ((y, g) :: L) hs') as [[[ps hs'']|er] lg]; cbn [fst snd rbind].
      - destruct IH2 as (f' & Hf' & Ef). exists f'. split; [cbn [length] in *; lia|]. rewrite Ef. rewrite <- !app_assoc. reflexivity.
      - rewrite IH2. rewrite <- app_assoc. reflexivity. }
    assert (Q : forall l r hs', verify_loop heqb node fuel R ((map (kidx (e + 1)) ((y, g) :: L) ++ A) ++ [(idx e (x / 2), node l r)]) hs' (log ++ [(l, r)])
      = verify_loop heqb node fuel R (map (kidx (e + 1)) ((y, g) :: L) ++ A ++ [(idx e (x / 2), node l r)]) hs' (log ++ [(l, r)])) by (intros; rewrite <- app_assoc; reflexivity).
    change (verify_loop heqb node (S fuel) R (map (kidx (e + 1)) ((x, h) :: (y, g) :: L) ++ A) hs log) with
      (match i_parent (idx (e + 1) x) with
       | Some parent =>
           if is_left (idx (e + 1) x) then
             let? sibling := i_sibling (idx (e + 1) x) in
             if sibling =? idx (e + 1) y then verify_loop heqb node fuel R ((map (kidx (e + 1)) L ++ A) ++ [(parent, node h g)]) hs (log ++ [(h, g)])
             else match hs with [] => Some (Err NotEnoughHashes, log)
                  | h0 :: hs' => verify_loop heqb node fuel R ((map (kidx (e + 1)) ((y, g) :: L) ++ A) ++ [(parent, node h h0)]) hs' (log ++ [(h, h0)]) end
           else match hs with [] => Some (Err NotEnoughHashes, log)
                | h0 :: hs' => verify_loop heqb node fuel R ((map (kidx (e + 1)) ((y, g) :: L) ++ A) ++ [(parent, node h0 h)]) hs' (log ++ [(h0, h)]) end
       | None => if negb (heqb h R) then Some (Err RootHashMismatch, log)
                 else verify_loop heqb node fuel R (map (kidx (e + 1)) ((y, g) :: L) ++ A) hs log
       end).
    rewrite parent_idx by (assumption || lia). rewrite sib_idx by (assumption || lia). cbn [bind].
    rewrite is_left_idx by lia.
    change (vpass ((x, h) :: (y, g) :: L) hs) with
      (let pop k := match hs with [] => (Err NotEnoughHashes, []) | g :: hs' => k g hs' end in
       if x mod 2 =? 0 then
         if sib x =? y then vstep x h g (vpass L hs) else pop (fun g0 hs' => vstep x h g0 (vpass ((y, g) :: L) hs'))
       else pop (fun g0 hs' => vstep x g0 h (vpass ((y, g) :: L) hs'))). cbv zeta.
    destruct (x mod 2 =? 0).
    + destruct (Z.eqb_spec (idx (e + 1) (sib x)) (idx (e + 1) y)) as [E|E]; (destruct (Z.eqb_spec (sib x) y); [|try (unfold idx in E; lia)]); try (unfold idx in E; lia).
      * specialize (IH1 (A ++ [(idx e (x / 2), node h g)]) hs (log ++ [(h, g)]) fuel F'' (FA' h g) ltac:(cbn [length] in *; lia)).
        unfold vstep. rewrite <- app_assoc. destruct (vpass L hs) as [[[ps hs'']|er] lg]; cbn [fst snd rbind].
        -- destruct IH1 as (f' & Hf' & Ef). exists f'. split; [cbn [length] in *; lia|]. rewrite Ef. rewrite <- !app_assoc. reflexivity.
        -- rewrite IH1. rewrite <- app_assoc. reflexivity.
      * destruct hs as [|h0 hs]; [rewrite app_nil_r; reflexivity|]. rewrite Q. apply Pop.
    + destruct hs as [|h0 hs]; [rewrite app_nil_r; reflexivity|]. rewrite Q. apply Pop.
Qed.

Lemma vpass_cons2 x h y g L hs : vpass ((x, h) :: (y, g) :: L) hs =
  if x mod 2 =? 0 then
    if sib x =? y then vstep x h g (vpass L hs)
    else match hs with [] => (Err NotEnoughHashes, []) | g0 :: hs' => vstep x h g0 (vpass ((y, g) :: L) hs') end
  else match hs with [] => (Err NotEnoughHashes, []) | g0 :: hs' => vstep x g0 h (vpass ((y, g) :: L) hs') end.
Proof. reflexivity. Qed.
Lemma vpass_one x h hs : vpass [(x, h)] hs =
  match hs with [] => (Err NotEnoughHashes, [])
  | g :: hs' => (Ok ([(x / 2, if x mod 2 =? 0 then node h g else node g h)], hs'), [if x mod 2 =? 0 then (h, g) else (g, h)]) end.
Proof. cbn [vpass]. destruct hs; destruct (x mod 2 =? 0); reflexivity. Qed.
Lemma vstep_ok x l r p ps hs' lg : vstep x l r p = (Ok (ps, hs'), lg) ->
  exists ps' lg', p = (Ok (ps', hs'), lg') /\ ps = (x / 2, node l r) :: ps' /\ lg = (l, r) :: lg'.
Proof.
  destruct p as [[[ps' h']|] lg']; cbn; intros E; [|discriminate]. injection E as <- <- <-. exists ps', lg'. auto.
Qed.
Lemma sib_odd x y : x mod 2 =? 0 = false -> x < y -> y =? sib x = false.
Proof. intros E L. unfold sib. rewrite E. apply Z.eqb_neq. lia. Qed.
Lemma vpass_parents L hs ps hs' lg : strict (map fst L) -> vpass L hs = (Ok (ps, hs'), lg) -> map fst ps = snd (opass (map fst L)).
Proof.
  revert hs ps hs' lg. induction L as [|[x h]|[x h] [y g] L IH1 IH2] using pair_ind; intros hs ps hs' lg St E.
  - cbn in E. injection E as <- <- <-. reflexivity.
  - rewrite vpass_one in E. destruct hs; [discriminate|]. injection E as <- <- <-. reflexivity.
  - cbn [map fst] in St. destruct (strict_inv _ _ St) as [St' Fx]. destruct (strict_inv _ _ St') as [St'' _].
    specialize (Fx y (or_introl eq_refl)).
    rewrite vpass_cons2 in E. cbn [map fst]. rewrite opass_cons2. destruct (x mod 2 =? 0) eqn:Ex.
    + rewrite (Z.eqb_sym y). destruct (sib x =? y).
      * apply vstep_ok in E as (ps' & lg' & E & -> & ->). cbn [map fst snd]. rewrite (IH1 _ _ _ _ St'' E). reflexivity.
      * destruct hs as [|h0 hs]; [discriminate|]. apply vstep_ok in E as (ps' & lg' & E & -> & ->).
        cbn [map fst snd]. rewrite (IH2 _ _ _ _ St' E). reflexivity.
    + rewrite sib_odd by assumption. destruct hs as [|h0 hs]; [discriminate|]. apply vstep_ok in E as (ps' & lg' & E & -> & ->).
      cbn [map fst snd]. rewrite (IH2 _ _ _ _ St' E). reflexivity.
Qed.

(** all layers of [verify] *)
Fixpoint vlayers (R : H) (e : nat) (L : list (Z * H)) (hs : list H) : res unit * list (H * H) :=
  match e with
  | O => match L with [] => (Ok tt, []) | (_, h) :: _ => (if negb (heqb h R) then Err RootHashMismatch else Ok tt, []) end
  | S e' =>
      match vpass L hs with
      | (Err er, lg) => (Err er, lg)
      | (Ok (ps, hs'), lg) => (fst (vlayers R e' ps hs'), lg ++ snd (vlayers R e' ps hs'))
      end
  end.
Lemma verify_layers R e L hs log fuel : in_layer (Z.of_nat e) (map fst L) -> strict (map fst L) -> (length L * (e + 1) <= fuel)%nat ->
  verify_loop heqb node fuel R (map (kidx (Z.of_nat e)) L) hs log = Some (fst (vlayers R e L hs), log ++ snd (vlayers R e L hs)).
Proof.
  revert L hs log fuel. induction e as [|e IH]; intros L hs log fuel F St Hf.
  - cbn [vlayers]. destruct L as [|[x h] [|[y g] L]].
    + destruct fuel; cbn; rewrite app_nil_r; reflexivity.
    + inversion F as [|? ? Fx _]; subst. change (2 ^ Z.of_nat 0) with 1 in Fx. cbn [fst] in Fx. assert (x = 0) by lia. subst x.
      destruct fuel as [|fuel]; [cbn in Hf; lia|].
      change (verify_loop heqb node (S fuel) R (map (kidx (Z.of_nat 0)) [(0, h)]) hs log) with
        (if negb (heqb h R) then Some (Err RootHashMismatch, log) else verify_loop heqb node fuel R [] hs log).
      destruct (negb (heqb h R)); cbn [fst snd]; rewrite app_nil_r; [reflexivity|]. destruct fuel; reflexivity.
    + exfalso. inversion F as [|? ? Fx F']; subst. inversion F'; subst. change (2 ^ Z.of_nat 0) with 1 in *. apply strict_inv in St as [_ St].
      specialize (St y (or_introl eq_refl)). cbn [fst] in *. lia.
  - replace (Z.of_nat (S e)) with (Z.of_nat e + 1) in * by lia.
    pose proof (verify_layer R (Z.of_nat e) L [] hs log fuel ltac:(lia) F ltac:(constructor) ltac:(nia)) as V.
    rewrite app_nil_r in V. cbn [vlayers]. destruct (vpass L hs) as [[[ps hs']|er] lg] eqn:Ev.
    + destruct V as (f' & Hf' & Ef). cbn [app] in Ef. rewrite Ef. pose proof (vpass_parents _ _ _ _ _ St Ev) as Ep.
      destruct (opass_in_layer (Z.of_nat e) _ ltac:(lia) F) as [F1 _]. pose proof (opass_length (map fst L)) as Hl.
      rewrite <- Ep in F1, Hl. rewrite !map_length in Hl. rewrite IH; [|assumption|rewrite Ep; apply opass_strict; assumption|nia].
      cbn [fst snd]. rewrite app_assoc. reflexivity.
    + exact V.
Qed.

Definition hon (e : Z) (k : Z) : Z * H := (k, hat e k).
Lemma vpass_complete e K rest : 0 <= e < Z.of_nat D -> strict K ->
  exists lg, vpass (map (hon (e + 1)) K) (map (hat (e + 1)) (fst (opass K)) ++ rest) = (Ok (map (hon e) (snd (opass K)), rest), lg).
Proof.
  intros He.
  assert (Ne : forall x, x mod 2 =? 0 = true -> node (hat (e + 1) x) (hat (e + 1) (sib x)) = hat e (x / 2)).
  { intros x Ex. rewrite (hash_at_node e) by assumption. unfold sib. rewrite Ex. apply Z.eqb_eq in Ex. pose proof (half2 x).
    f_equal; f_equal; lia. }
  assert (No : forall x, x mod 2 =? 0 = false -> node (hat (e + 1) (sib x)) (hat (e + 1) x) = hat e (x / 2)).
  { intros x Ex. rewrite (hash_at_node e) by assumption. unfold sib. rewrite Ex. apply Z.eqb_neq in Ex. pose proof (half2 x).
    f_equal; f_equal; lia. }
  induction K as [|x|x y K IH1 IH2] using pair_ind; intros St.
  - eexists. reflexivity.
  - cbn [map opass fst snd app]. unfold hon at 1. rewrite vpass_one. unfold hon.
    destruct (x mod 2 =? 0) eqn:Ex; [rewrite Ne by assumption|rewrite No by assumption]; eexists; reflexivity.
  - destruct (strict_inv _ _ St) as [St' Fx]. destruct (strict_inv _ _ St') as [St'' _]. specialize (Fx y (or_introl eq_refl)).
    rewrite opass_cons2. cbn [map]. unfold hon at 1 2. rewrite vpass_cons2. destruct (x mod 2 =? 0) eqn:Ex.
    + rewrite (Z.eqb_sym y). destruct (Z.eqb_spec (sib x) y) as [E|E].
      * cbn [fst snd map]. destruct (IH1 St'') as (lg & ->). eexists. unfold vstep. cbn [fst snd rbind]. rewrite <- E, Ne by assumption. reflexivity.
      * cbn [fst snd map app]. destruct (IH2 St') as (lg & E2). cbn [map] in E2. unfold hon at 1 in E2. rewrite E2.
        eexists. unfold vstep. cbn [fst snd rbind]. rewrite Ne by assumption. reflexivity.
    + rewrite sib_odd by assumption. cbn [fst snd map app]. destruct (IH2 St') as (lg & E2). cbn [map] in E2. unfold hon at 1 in E2. rewrite E2.
      eexists. unfold vstep. cbn [fst snd rbind]. rewrite No by assumption. reflexivity.
Qed.
Lemma vlayers_complete e K rest : (e <= D)%nat -> strict K -> in_layer (Z.of_nat e) K ->
  fst (vlayers (hat 0 0) e (map (hon (Z.of_nat e)) K) (map (fun dk => hat (fst dk) (snd dk)) (olayers e K) ++ rest)) = Ok tt.
Proof.
  revert K. induction e as [|e IH]; intros K He St F.
  - cbn [vlayers olayers map app]. destruct K as [|x K]; [reflexivity|]. cbn [map]. unfold hon at 1.
    inversion F as [|? ? Fx _]; subst. change (2 ^ Z.of_nat 0) with 1 in Fx. assert (x = 0) by lia. subst x.
    cbn [fst]. change (Z.of_nat 0) with 0. rewrite (proj2 (heqb_spec _ _) eq_refl). reflexivity.
  - replace (Z.of_nat (S e)) with (Z.of_nat e + 1) in * by lia. cbn [vlayers olayers]. rewrite map_app, map_map, <- app_assoc. cbn [fst snd].
    replace (Z.of_nat (S e)) with (Z.of_nat e + 1) in * by lia.
    destruct (vpass_complete (Z.of_nat e) K (map (fun dk => hat (fst dk) (snd dk)) (olayers e (snd (opass K))) ++ rest) ltac:(lia) St) as (lg & V).
    change (fun x : Z => hat (Z.of_nat e + 1) x) with (hat (Z.of_nat e + 1)).
    rewrite V. cbn [fst]. apply IH; [lia|apply opass_strict; assumption|]. apply opass_in_layer; [lia|assumption].
Qed.

Definition good (e : Z) (kh : Z * H) : Prop := snd kh = hat e (fst kh).
Definition bad_pair (e : Z) (lg : list (H * H)) : Prop :=
  exists p k, In p lg /\ 0 <= k < 2 ^ e /\ collision node p (hat (e + 1) (2 * k), hat (e + 1) (2 * k + 1)).
Lemma heq_dec (a b : H) : {a = b} + {a <> b}.
Proof.
  destruct (heqb a b) eqn:E; [left; apply heqb_spec; assumption|right; intros X; apply heqb_spec in X; congruence].
Qed.
Lemma bad_cons e p lg : bad_pair e lg -> bad_pair e (p :: lg).
Proof. intros (q & k & I & R). exists q, k. split; [right; assumption|assumption]. Qed.
Lemma step_sound e x l r : 0 <= e < Z.of_nat D -> 0 <= x < 2 ^ (e + 1) -> node l r = hat e (x / 2) ->
  (l = hat (e + 1) (2 * (x / 2)) /\ r = hat (e + 1) (2 * (x / 2) + 1)) \/ forall lg, bad_pair e ((l, r) :: lg).
Proof.
  intros He Hx E. rewrite hash_at_node in E by assumption.
  destruct (heq_dec l (hat (e + 1) (2 * (x / 2)))) as [E1|N1]; [destruct (heq_dec r (hat (e + 1) (2 * (x / 2) + 1))) as [E2|N2]|]; [left; auto| |];
    right; intros lg; exists (l, r), (x / 2); (split; [left; reflexivity|]); (split; [rewrite pow_S in Hx by lia; pose proof (half2 x); lia|]);
    (split; [intros X; injection X; intros; contradiction|exact E]).
Qed.
Lemma vpass_sound e L hs ps hs' lg : 0 <= e < Z.of_nat D -> in_layer (e + 1) (map fst L) ->
  vpass L hs = (Ok (ps, hs'), lg) -> Forall (good e) ps -> Forall (good (e + 1)) L \/ bad_pair e lg.
Proof.
  intros He. revert hs ps hs' lg. induction L as [|[x h]|[x h] [y g] L IH1 IH2] using pair_ind; intros hs ps hs' lg F E G.
  - left. constructor.
  - rewrite vpass_one in E. destruct hs as [|h0 hs]; [discriminate|]. injection E as <- <- <-.
    inversion F as [|? ? Fx _]; subst. cbn [fst] in Fx. inversion G as [|? ? Gx _]; subst. unfold good in Gx. cbn [fst snd] in Gx.
    pose proof (half2 x) as Hh. destruct (Z.eqb_spec (x mod 2) 0) as [Ex|Ex].
    + destruct (step_sound e x h h0 He Fx Gx) as [[E1 _]|Bd]; [left|right; apply Bd]. constructor; [|constructor].
      unfold good. cbn [fst snd]. rewrite E1. f_equal. lia.
    + destruct (step_sound e x h0 h He Fx Gx) as [[_ E1]|Bd]; [left|right; apply Bd]. constructor; [|constructor].
      unfold good. cbn [fst snd]. rewrite E1. f_equal. lia.
  - inversion F as [|? ? Fx F']; subst. inversion F' as [|? ? Fy F'']; subst. cbn [fst] in Fx, Fy. rewrite vpass_cons2 in E.
    pose proof (half2 x) as Hh. destruct (Z.eqb_spec (x mod 2) 0) as [Ex|Ex].
    + destruct (Z.eqb_spec (sib x) y) as [Es|Es].
      * apply vstep_ok in E as (ps' & lg' & E & -> & ->). inversion G as [|? ? Gx G']; subst. unfold good in Gx. cbn [fst snd] in Gx.
        destruct (step_sound e x h g He Fx Gx) as [[E1 E2]|Bd]; [|right; apply Bd].
        destruct (IH1 _ _ _ _ F'' E G') as [IH|Bd]; [left|right; apply bad_cons; exact Bd].
        assert (sib x = x + 1) by (unfold sib; destruct (Z.eqb_spec (x mod 2) 0); [reflexivity|contradiction]).
        constructor; [|constructor; [|exact IH]]; unfold good; cbn [fst snd]; [rewrite E1|rewrite E2]; f_equal; lia.
      * destruct hs as [|h0 hs]; [discriminate|]. apply vstep_ok in E as (ps' & lg' & E & -> & ->).
        inversion G as [|? ? Gx G']; subst. unfold good in Gx. cbn [fst snd] in Gx.
        destruct (step_sound e x h h0 He Fx Gx) as [[E1 E2]|Bd]; [|right; apply Bd].
        destruct (IH2 _ _ _ _ F' E G') as [IH|Bd]; [left|right; apply bad_cons; exact Bd].
        constructor; [|exact IH]. unfold good. cbn [fst snd]. rewrite E1. f_equal. lia.
    + destruct hs as [|h0 hs]; [discriminate|]. apply vstep_ok in E as (ps' & lg' & E & -> & ->).
      inversion G as [|? ? Gx G']; subst. unfold good in Gx. cbn [fst snd] in Gx.
      destruct (step_sound e x h0 h He Fx Gx) as [[E1 E2]|Bd]; [|right; apply Bd].
      destruct (IH2 _ _ _ _ F' E G') as [IH|Bd]; [left|right; apply bad_cons; exact Bd].
      constructor; [|exact IH]. unfold good. cbn [fst snd]. rewrite E2. f_equal. lia.
Qed.
Lemma vlayers_sound e L hs : (e <= D)%nat -> in_layer (Z.of_nat e) (map fst L) -> strict (map fst L) ->
  fst (vlayers (hat 0 0) e L hs) = Ok tt ->
  Forall (good (Z.of_nat e)) L \/ exists e', 0 <= e' < Z.of_nat e /\ bad_pair e' (snd (vlayers (hat 0 0) e L hs)).
Proof.
  revert L hs. induction e as [|e IH]; intros L hs He F St E.
  - left. cbn [vlayers] in E. destruct L as [|[x h] [|[y g] L]]; [constructor| |].
    + inversion F as [|? ? Fx _]; subst. change (2 ^ Z.of_nat 0) with 1 in Fx. cbn [fst] in Fx. assert (x = 0) by lia. subst x.
      cbn [fst] in E. constructor; [|constructor]. unfold good. cbn [fst snd]. destruct (heqb h (hat 0 0)) eqn:Eh; [|discriminate].
      apply heqb_spec in Eh. exact Eh.
    + exfalso. inversion F as [|? ? Fx F']; subst. inversion F'; subst. change (2 ^ Z.of_nat 0) with 1 in *. apply strict_inv in St as [_ St].
      specialize (St y (or_introl eq_refl)). cbn [fst] in *. lia.
  - replace (Z.of_nat (S e)) with (Z.of_nat e + 1) in * by lia. cbn [vlayers] in *.
    destruct (vpass L hs) as [[[ps hs']|er] lg] eqn:Ev; [|discriminate]. cbn [fst snd] in *.
    pose proof (vpass_parents _ _ _ _ _ St Ev) as Ep. destruct (opass_in_layer (Z.of_nat e) _ ltac:(lia) F) as [F1 _].
    assert (St1 : strict (map fst ps)) by (rewrite Ep; apply opass_strict; assumption). rewrite <- Ep in F1.
    destruct (IH ps hs' ltac:(lia) F1 St1 E) as [G|(e' & He' & q & k & Iq & R)].
    + destruct (vpass_sound (Z.of_nat e) L hs ps hs' lg ltac:(lia) F Ev G) as [G'|(q & k & Iq & R)]; [left; exact G'|right].
      exists (Z.of_nat e). split; [lia|]. exists q, k. split; [apply in_or_app; left; exact Iq|exact R].
    + right. exists e'. split; [lia|]. exists q, k. split; [apply in_or_app; right; exact Iq|exact R].
Qed.
End Hashes.
