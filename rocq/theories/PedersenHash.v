(** Lemmas for C64: the sums that the rows of a layer hold. *)
Require Import Ring Field ZArith NArith Lia Bool List.
From Verif Require Import Word FieldSig FieldAlgModel Arr CurveModel CurveSpec CurveGroup CurveProofs CurveProps PedersenSpec.
Import ListNotations.
Open Scope nat_scope.

Section Sums.
Context {F : Type} (o : ops F) (L : lawful o) (b : F) (Sm : good_curve o b).
Add Field Hfield : (law_field o L).
Notation "p ⊕ q" := (padd o (f1 o) p q) (at level 50, left associativity).
Notation on := (curve o b).
(** If the abscissas differ, the conditions on a row determine the slope and the point. *)
Lemma advance_sum bit s q p r : (bit = true -> apart (point q) (point p)) -> advance o bit s q p r -> point r = add_if o bit (point p) (point q).
Proof using L.
  intros A V. destruct q as [q0 q1], p as [p0 p1], r as [r0 r1]. destruct bit; cbn [advance add_if point fst snd] in *; [|destruct V as [_ ->]; reflexivity]. specialize (A eq_refl). cbn in A. destruct V as (V1 & V2 & V3). cbn [fst snd] in *.
  unfold point. cbn [fst snd]. rewrite (add_chord o L (f1 o)) by exact A. unfold third, slope. assert (fsub o q0 p0 <> f0 o) by (intros E; apply A, (fsub_0_iff o L), E).
  assert (Es : fmul o (fsub o q1 p1) (finv o (fsub o q0 p0)) = s) by (rewrite <- V1; field; assumption). rewrite Es.
  assert (Er : r0 = fsub o (fsub o (fmul o s s) q0) p0) by (rewrite V2; ring). rewrite <- Er. f_equal. rewrite V3. ring.
Qed.
Lemma advance_exists bit q p : (bit = true -> apart (point q) (point p)) -> exists s r, advance o bit s q p r.
Proof using L.
  intros A. destruct q as [q0 q1], p as [p0 p1]. destruct bit; cbn [advance]; [|exists (f0 o), (q0, q1); split; reflexivity]. specialize (A eq_refl). cbn in A. assert (fsub o q0 p0 <> f0 o) by (intros E; apply A, (fsub_0_iff o L), E).
  set (s := fmul o (fsub o q1 p1) (finv o (fsub o q0 p0))). exists s, (fsub o (fsub o (fmul o s s) q0) p0, fsub o (fmul o s (fsub o q0 (fsub o (fsub o (fmul o s s) q0) p0))) q1). unfold chord. cbn [fst snd]. split; [unfold s; field; assumption|]. clearbody s. split; ring.
Qed.
(** If they do not, any slope will do for a point added to itself, and none for a point added to another one of the same abscissa. *)
Lemma chord_same s q : chord o s q q (fsub o (fsub o (fmul o s s) (fst q)) (fst q), fsub o (fmul o s (fsub o (fst q) (fsub o (fsub o (fmul o s s) (fst q)) (fst q)))) (snd q)).
Proof using L. unfold chord. cbn [fst snd]. split; [|split]; ring. Qed.
Lemma chord_opposite s q p r : fst q = fst p -> snd q <> snd p -> ~ chord o s q p r.
Proof using L. intros E N (H & _). rewrite E in H. apply N, (fsub_0_iff o L). rewrite <- H. ring. Qed.

Lemma rows_sum n bits shift P Q T : layer_rows o n bits shift P Q T -> 0 < n -> exists lb rb : nat -> bool,
  T 0 0 = num o (first_bits (n - 1) lb) /\ T 0 4 = num o (first_bits (n - 1) rb) /\
  T bits 0 = f0 o /\ T bits 4 = f0 o /\ (bits < n -> T bits 0 = num o (map lb (seq bits (n - 1 - bits))) /\ T bits 4 = num o (map rb (seq bits (n - 1 - bits)))) /\
  (generic o (point shift) (fun r => point (P r)) (fun r => point (Q r)) lb rb (n - 1) ->
   forall r, r < n -> point (T r 6, T r 7) = partial_sum o (point shift) (fun r => point (P r)) (fun r => point (Q r)) lb rb r).
Proof using L.
  intros (lb & rb & E0 & E1 & E2 & E3 & E4) Hn. exists lb, rb. destruct (E1 0 Hn) as [A B]. rewrite Nat.sub_0_r in A, B. split; [exact A|]. split; [exact B|]. split; [exact E2|]. split; [exact E3|]. split; [intros Hb; apply E1, Hb|].
  intros G r. induction r as [|r IH]; intros Hr; [rewrite E0; reflexivity|]. cbn [partial_sum]. destruct (E4 r Hr) as [V1 V2]. destruct (G r ltac:(lia)) as [G1 G2]. specialize (IH ltac:(lia)). rewrite <- IH in *.
  pose proof (advance_sum _ _ _ _ _ G1 V1) as S1. rewrite <- S1 in *. exact (advance_sum _ _ _ _ _ G2 V2).
Qed.

(** The order of the additions does not matter. *)
Lemma add_if_on bit p q : on p -> on q -> on (add_if o bit p q).
Proof using L Sm. intros Hp Hq. destruct bit; cbn; [apply (add_on o L (f1 o) b Sm); assumption|exact Hq]. Qed.
Lemma selected_on bs : forall ps, Forall on ps -> on (selected o bs ps).
Proof using L Sm. induction bs as [|[] bs IH]; intros [|p ps] H; try exact I; inversion H; subst; cbn [selected]; [apply (add_on o L (f1 o) b Sm); [assumption|apply IH; assumption]|apply IH; assumption]. Qed.
Lemma selected_snoc bs : forall ps x p, length bs = length ps -> Forall on ps -> on p -> selected o (bs ++ [x]) (ps ++ [p]) = add_if o x p (selected o bs ps).
Proof using L Sm.
  induction bs as [|y bs IH]; intros [|q ps] x p El Hps Hp; try discriminate El; [destruct x; cbn; [apply (add_0_r o (f1 o))|reflexivity]|]. inversion Hps as [|? ? Hq Hps']; subst. cbn [app selected]. rewrite IH by (auto; cbn in El; lia).
  destruct y; [|reflexivity]. destruct x; cbn [add_if]; [|reflexivity]. symmetry. apply (add_assoc o L (f1 o) b Sm); [exact Hq|apply selected_on, Hps'|exact Hp].
Qed.
Lemma partial_pedersen shift P Q lb rb n : on shift -> (forall r, r < n -> on (P r) /\ on (Q r)) ->
  partial_sum o shift P Q lb rb n = pedersen o shift (map P (seq 0 n)) (map Q (seq 0 n)) (first_bits n lb) (first_bits n rb) /\ on (partial_sum o shift P Q lb rb n).
Proof using L Sm.
  intros Hs. induction n as [|n IH]; intros H; [split; [|exact Hs]; unfold pedersen; cbn [partial_sum seq map first_bits selected]; rewrite !(add_0_r o (f1 o)); reflexivity|]. destruct IH as [IH On]; [intros r Hr; apply H; lia|]. destruct (H n ltac:(lia)) as [Hp Hq].
  assert (HP : Forall on (map P (seq 0 n))) by (rewrite Forall_map, Forall_forall; intros r Hr; apply in_seq in Hr; apply H; lia). assert (HQ : Forall on (map Q (seq 0 n))) by (rewrite Forall_map, Forall_forall; intros r Hr; apply in_seq in Hr; apply H; lia).
  cbn [partial_sum]. split; [|apply add_if_on; [exact Hq|]; apply add_if_on; assumption].
  unfold first_bits in *. rewrite seq_S, !map_app. cbn [map Nat.add]. unfold pedersen in *. rewrite !selected_snoc by (rewrite ?map_length; auto). rewrite IH.
  set (A := selected o (map lb (seq 0 n)) (map P (seq 0 n))) in *. set (B := selected o (map rb (seq 0 n)) (map Q (seq 0 n))) in *. assert (OA : on A) by apply selected_on, HP. assert (OB : on B) by apply selected_on, HQ. clearbody A B. clear IH On.
  pose proof (add_assoc o L (f1 o) b Sm) as AS. pose proof (add_comm o L (f1 o) b Sm) as CM. pose proof (add_on o L (f1 o) b Sm) as ON.
  destruct (lb n), (rb n); cbn [add_if].
  - rewrite <- (AS shift A (P n)) by auto. rewrite (AS (shift ⊕ A) B (P n)), (CM B (P n)), <- (AS (shift ⊕ A) (P n) B) by auto. apply AS; auto.
  - rewrite <- (AS shift A (P n)) by auto. rewrite (AS (shift ⊕ A) B (P n)), (CM B (P n)) by auto. symmetry. apply AS; auto.
  - apply AS; auto.
  - reflexivity.
Qed.
End Sums.
