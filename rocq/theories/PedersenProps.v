(** C64: the tables that the Pedersen Merkle tree of the examples accepts. *)
Require Import Ring Field ZArith NArith Lia Bool List.
From Verif Require Import Word KnuthModel FieldSig FieldInstance FieldAlgModel FieldAlgProofs Arr FftModel FftSpec PermuteProofs FftProofs FftProps StarkBase StarkInstance PolyModel PolyProps TraceModel TraceProps ExprModel ExprSpec ExprProofs ExprProps CheckProps OodsProofs OodsSatProps LayoutProps StarkSpec ClaimModel ClaimSpec ClaimProofs ClaimProps ExampleProofs ExampleProps MimcProps VdfProps ComponentModel CurveModel CurveSpec PedersenModel PedersenSpec PedersenProofs.
Import ListNotations.
Open Scope nat_scope.

Section Check.
Context {F : Type} (o : ops F) (L : lawful o) (e : engine F) (M : nat) (w : nat -> F) (SD : sound o e M w).
Lemma accepts_spotted k m Y t free cs : k + m <= M -> (Y = EX /\ m = 0) \/ Y = EExp EX (2 ^ Z.of_nat m) -> size t (2 ^ (k + m)) 8 -> free <= 8 ->
  Forall (fun c => condition t (fst c) /\ spot_ok k m (snd c)) cs ->
  (check_constraints o e (map (fun i => ETrace i 0) (seq 0 free) ++ map (spotted o w k m Y) cs) t = Some None <-> Forall (holds o w k m t) cs).
Proof using L SD.
  intros Hk HY S8 Hfree Hc. rewrite Forall_forall in *. pose proof S8 as (Sh & HR & HC). pose proof (pow2_pos (k + m)). rewrite (accepts_iff o L e M w SD t (k + m)); [|exact Sh|exact Hk|exact HR|].
  - split.
    + intros A c Hin row Hr Sp. destruct (Hc c Hin) as [(U & D & Rf) Sc]. specialize (A (spotted o w k m Y c) ltac:(apply in_or_app; right; apply in_map; exact Hin) row Hr).
      rewrite (violated_spotted o L e M w SD k m Y Hk HY t row c Sh HR Hr (conj U (conj D Rf)) Sc) in A. destruct (check_free o L (fpw o (w (k + m)) row) (row_trace t row) (fst c) U D) as (v & _ & V).
      { intros i j R. destruct (Rf i j R) as (Hi & _). unfold row_trace. rewrite (t_get_ok o); [discriminate|exact Sh| |exact Hi]. pose proof (Z.mod_pos_bound (Z.of_nat row + j) (Z.of_nat (t_rows t)) ltac:(lia)). lia. }
      destruct (feq_dec o L v (f0 o)) as [->|Nv]; [exact V|]. exfalso. apply A. split; [exact Sp|]. intros V0. apply Nv. exact (value_fun o _ _ _ _ _ V V0).
    + intros A c Hin row Hr V. apply in_app_or in Hin as [Hin|Hin]; apply in_map_iff in Hin as (x & <- & Hin).
      * destruct V as ((d & [] & _) & _).
      * destruct (Hc x Hin) as [Cc Sc]. apply (violated_spotted o L e M w SD k m Y Hk HY t row x Sh HR Hr Cc Sc) in V as [Sp V]. apply V, (A x Hin row Hr Sp).
  - intros c Hin. apply in_app_or in Hin as [Hin|Hin]; apply in_map_iff in Hin as (x & <- & Hin).
    + apply in_seq in Hin. split; [exact I|]. split; [split; repeat constructor|]. intros i j [-> ->]. lia.
    + destruct (Hc x Hin) as [Cc _]. destruct (spotted_ok o e M w SD k m Y Hk HY t x HR Cc) as (H1 & H2 & H3 & _). auto.
Qed.
End Check.

Lemma poly_ok {F} (l : list F) k : length l = 2 ^ k -> poly_new l = Some l /\ l <> [].
Proof. intros H. unfold poly_new. rewrite H, is_pow2. split; [reflexivity|]. intros ->. pose proof (pow2_pos k). cbn in H. lia. Qed.

(** A single layer: the table must hold the additions of the points selected by the bits of its two inputs, one after the other. *)
Theorem C64_layer_check : forall F (o : ops F), lawful o -> forall e M w, sound o e M w -> forall sx sy points lx ly rx ry k bits to_uint from_uint P Q t,
  k <= M -> length lx = 2 ^ k -> length ly = 2 ^ k -> length rx = 2 ^ k -> length ry = 2 ^ k -> bits < 2 ^ k ->
  (forall r, r < 2 ^ k -> let z := fpw o (w k) r in (peval o lx z, peval o ly z) = P r /\ (peval o rx z, peval o ry z) = Q r) -> size t (2 ^ k) 8 ->
  let c := merkle_layer o e (APoint sx sy) points lx ly rx ry (2 ^ k) bits to_uint from_uint in
  k_polynomials c = 8 /\ k_size c = Some (2 ^ k) /\
  exists cs, k_constraints c tt = Some cs /\ (check_constraints o e cs t = Some None <-> layer_rows o (2 ^ k) bits (sx, sy) P Q (cell o t)).
Proof.
  intros F o L e M w SD sx sy points lx ly rx ry k bits to_uint from_uint P Q t Hk L1 L2 L3 L4 Hb HPQ S8. split; [reflexivity|]. split; [reflexivity|].
  destruct (poly_ok lx k L1) as [E1 N1]. destruct (poly_ok ly k L2) as [E2 N2]. destruct (poly_ok rx k L3) as [E3 N3]. destruct (poly_ok ry k L4) as [E4 N4]. cbn [k_constraints merkle_layer]. unfold layer_constraints. rewrite E1, E2, E3, E4. cbn [bind]. rewrite (s_root _ _ _ _ SD k Hk). cbn [bind]. eexists. split; [reflexivity|].
  rewrite pow_ZN, (layer_spotted o w k 0). assert (HK : k + 0 <= M) by lia. rewrite <- (Nat.add_0_r k) in S8 at 1. assert (HY : (@EX F = EX /\ 0 = 0) \/ @EX F = EExp EX (2 ^ Z.of_nat 0)) by (left; auto).
  rewrite (accepts_spotted o L e M w SD k 0 EX t 0 _ HK HY S8 ltac:(lia)
    (conds_ok o L e M w SD k 0 t EX lx ly rx ry P Q bits sx sy HK HY S8 (fun r Hr => proj1 (HPQ r Hr)) (fun r Hr => proj2 (HPQ r Hr)) Hb (conj N1 (conj N2 (conj N3 N4))))).
  rewrite (layer_holds o L e M w SD k 0 t EX lx ly rx ry P Q bits sx sy HK HY S8 (fun r Hr => proj1 (HPQ r Hr)) (fun r Hr => proj2 (HPQ r Hr)) Hb (conj N1 (conj N2 (conj N3 N4)))). cbn [Nat.pow].
  split; [intros H; exact (H 0 ltac:(lia))|]. intros H b Hb'. replace b with 0 by lia. exact H.
Qed.
Print Assumptions C64_layer_check.

(** The tree: the layers one below the other, the leaf is an input of the first one, the abscissa that a layer ends with is an
    input of the next one, and the last one is the root. *)
Theorem C64_tree_check : forall F (o : ops F), lawful o -> forall e M w, sound o e M w -> forall dbg sx sy points lx ly rx ry k m bits to_uint from_uint P Q leaf root t,
  k + m <= M -> length lx = 2 ^ k -> length ly = 2 ^ k -> length rx = 2 ^ k -> length ry = 2 ^ k -> bits < 2 ^ k ->
  (forall r, r < 2 ^ k -> let z := fpw o (w k) r in (peval o lx z, peval o ly z) = P r /\ (peval o rx z, peval o ry z) = Q r) -> size t (2 ^ k * 2 ^ m) 8 ->
  exists c cs, merkle_tree o e (APoint sx sy) points lx ly rx ry (2 ^ k) bits to_uint from_uint dbg (2 ^ m) = Some c /\
  k_polynomials c = 8 /\ k_size c = Some (2 ^ k * 2 ^ m) /\ k_constraints c (leaf, root) = Some cs /\
  let T b r i := cell o t (b * 2 ^ k + r) i in
  (check_constraints o e cs t = Some None <->
   (forall b, b < 2 ^ m -> layer_rows o (2 ^ k) bits (sx, sy) P Q (T b)) /\
   (leaf = T 0 0 0 \/ leaf = T 0 0 4) /\ root = T (2 ^ m - 1) (2 ^ k - 1) 6 /\
   (forall b, b + 1 < 2 ^ m -> T b (2 ^ k - 1) 6 = T (b + 1) 0 0 \/ T b (2 ^ k - 1) 6 = T (b + 1) 0 4)).
Proof.
  intros F o L e M w SD dbg sx sy points lx ly rx ry k m bits to_uint from_uint P Q leaf root t HK L1 L2 L3 L4 Hb HPQ S8'. assert (S8 : size t (2 ^ (k + m)) 8) by (rewrite Nat.pow_add_r; exact S8').
  destruct (poly_ok lx k L1) as [E1 N1]. destruct (poly_ok ly k L2) as [E2 N2]. destruct (poly_ok rx k L3) as [E3 N3]. destruct (poly_ok ry k L4) as [E4 N4]. pose proof (pow2_pos k) as Pk. pose proof (pow2_pos m) as Pm. pose proof (pow2_pos (k + m)) as PK.
  unfold merkle_tree, k_vertical. rewrite is_pow2. cbn [bind]. do 2 eexists. split; [reflexivity|]. cbn [k_polynomials k_size k_constraints merkle_layer bind fst snd]. split; [reflexivity|]. split; [reflexivity|].
  destruct (2 ^ m) as [|m'] eqn:Em in |- * at 1; [lia|]. cbn [repeat]. unfold layer_constraints. rewrite E1, E2, E3, E4. cbn [bind]. rewrite (s_root _ _ _ _ SD k ltac:(lia)). cbn [bind]. rewrite (pow_ZN k), power_spotted. cbn [bind]. rewrite <- Nat.pow_add_r, (s_root _ _ _ _ SD (k + m) HK). cbn [bind]. split; [reflexivity|]. cbv zeta.
  set (Y := EExp EX (2 ^ Z.of_nat m)). assert (HY : (Y = EX /\ m = 0) \/ Y = EExp EX (2 ^ Z.of_nat m)) by (right; reflexivity).
  set (conds := (EMul (e_sub (EConst leaf) (ETrace 0 0)) (e_sub (EConst leaf) (ETrace 4 0)), At 0) :: (e_sub (EConst root) (ETrace 6 0), At (Z.of_nat (2 ^ (k + m) - 1))) ::
    (EMul (e_sub (ETrace 6 0) (ETrace 0 1)) (e_sub (ETrace 6 0) (ETrace 4 1)), Links) :: layer_conds o (2 ^ Z.of_nat k) (Z.of_nat bits) sx sy (EPoly lx Y) (EPoly ly Y) (EPoly rx Y) (EPoly ry Y)).
  assert (Ee : tree_exprs o (2 ^ k) (w (k + m)) (Z.of_nat (2 ^ (k + m))) (Z.of_nat (2 ^ m)) leaf root (map (spotted o w k m Y) (layer_conds o (2 ^ Z.of_nat k) (Z.of_nat bits) sx sy (EPoly lx Y) (EPoly ly Y) (EPoly rx Y) (EPoly ry Y))) = map (fun i => ETrace i 0) (seq 0 8) ++ map (spotted o w k m Y) conds).
  { unfold tree_exprs, conds. rewrite <- !pow_ZN. f_equal. cbn [app map]. f_equal. f_equal; [|f_equal].
    - unfold spotted, on_layer_row, row_at. cbn [fst snd]. do 5 f_equal. rewrite Nat.pow_add_r. nia.
    - unfold spotted, row_at. cbn [fst snd]. rewrite <- !pow_ZN. reflexivity. }
  rewrite Ee. assert (CO : Forall (fun c => condition t (fst c) /\ spot_ok k m (snd c)) conds).
  { apply Forall_cons; [split|apply Forall_cons; [split|apply Forall_cons; [split|]]]; cbn [fst snd spot_ok]; try (rewrite <- pow_ZN; lia); try exact I; try (apply (cond_refl _ _ _ _ S8 ltac:(lia)); [cbn; tauto|cbn; tauto|intros i j; cbn; lia]).
    apply (conds_ok o L e M w SD k m t Y lx ly rx ry P Q bits sx sy HK HY S8 (fun r Hr => proj1 (HPQ r Hr)) (fun r Hr => proj2 (HPQ r Hr)) Hb (conj N1 (conj N2 (conj N3 N4)))). }
  rewrite (accepts_spotted o L e M w SD k m Y t 8 conds HK HY S8 ltac:(lia) CO). unfold conds. rewrite !Forall_cons_iff. rewrite (layer_holds o L e M w SD k m t Y lx ly rx ry P Q bits sx sy HK HY S8 (fun r Hr => proj1 (HPQ r Hr)) (fun r Hr => proj2 (HPQ r Hr)) Hb (conj N1 (conj N2 (conj N3 N4)))).
  assert (A1 : holds o w k m t (EMul (e_sub (EConst leaf) (ETrace 0 0)) (e_sub (EConst leaf) (ETrace 4 0)), At 0) <-> leaf = cell o t 0 0 \/ leaf = cell o t 0 4).
  { unfold holds. cbn [fst snd]. rewrite (at_iff k m 0 (fun row => satisfied o (w (k + m)) t row _) PK). unfold e_sub. rewrite sat_iff; [|valo o S8]. rewrite (fmul_0_iff o L), !(sub_zero o L). reflexivity. }
  assert (A2 : holds o w k m t (e_sub (EConst root) (ETrace 6 0), At (Z.of_nat (2 ^ (k + m) - 1))) <-> root = cell o t (2 ^ (k + m) - 1) 6).
  { unfold holds. cbn [fst snd]. rewrite (at_iff k m (2 ^ (k + m) - 1) (fun row => satisfied o (w (k + m)) t row _) ltac:(lia)). eapply (sub_iff o L); valo o S8. }
  assert (A3 : holds o w k m t (EMul (e_sub (ETrace 6 0) (ETrace 0 1)) (e_sub (ETrace 6 0) (ETrace 4 1)), Links) <-> forall b, b + 1 < 2 ^ m -> cell o t (b * 2 ^ k + (2 ^ k - 1)) 6 = cell o t ((b + 1) * 2 ^ k) 0 \/ cell o t (b * 2 ^ k + (2 ^ k - 1)) 6 = cell o t ((b + 1) * 2 ^ k) 4).
  { unfold holds. cbn [fst snd]. rewrite (links_iff k m (fun row => satisfied o (w (k + m)) t row _)). apply all_iff. intros b Hb'. assert (b * 2 ^ k + (2 ^ k - 1) + 1 < 2 ^ (k + m)) by (rewrite Nat.pow_add_r; nia). unfold e_sub. rewrite sat_iff; [|valo o S8]. rewrite (fmul_0_iff o L), !(sub_zero o L). replace (b * 2 ^ k + (2 ^ k - 1) + 1) with ((b + 1) * 2 ^ k) by nia. reflexivity. }
  rewrite A1, A2, A3. replace (2 ^ (k + m) - 1) with ((2 ^ m - 1) * 2 ^ k + (2 ^ k - 1)) by (rewrite Nat.pow_add_r; nia). rewrite Nat.mul_0_l, Nat.add_0_l.
  assert (A4 : forall b, (b + 1) * 2 ^ k + 0 = (b + 1) * 2 ^ k) by (intros; lia). split.
  - intros (H1 & H2 & H3 & H4). split; [exact H4|]. split; [exact H1|]. split; [exact H2|]. intros b. rewrite A4. apply H3.
  - intros (H1 & H2 & H3 & H4). split; [exact H2|]. split; [exact H3|]. split; [|exact H1]. intros b. rewrite <- A4. apply H4.
Qed.
Print Assumptions C64_tree_check.
