(** Correctness of the fast Fourier transforms. *)
Require Import ZArith Arith Lia Bool List Permutation.
Require Import Ring Field Field_theory Ring_theory.
From Verif Require Import Word KnuthModel BinaryModel BinaryProofs FieldSig FieldAlgModel FieldAlgProofs Arr FftSpec FftModel PermuteProofs.
Import ListNotations.
Open Scope nat_scope.

Section Fft.
Context {F : Type} (o : ops F) (L : lawful o).
Add Field Ffield : (law_field o L).
Declare Scope ff_scope.
Delimit Scope ff_scope with ff.
Notation "a + b" := (fadd o a b) : ff_scope.
Notation "a - b" := (fsub o a b) : ff_scope.
Notation "a * b" := (fmul o a b) : ff_scope.
Notation "- a" := (fneg o a) : ff_scope.
Notation "a ^ n" := (fpw o a n%nat) : ff_scope.
Notation "1" := (f1 o) : ff_scope.
Notation "0" := (f0 o) : ff_scope.
Notation at_ v i := (nth i v (f0 o)).

(** ** The transform as a sum *)
Lemma dft_ext n w x y i : (forall j, j < n -> x j = y j) -> dft o n w x i = dft o n w y i.
Proof. intros H. apply (fsum_map_ext o). intros j Hj. apply in_seq in Hj. rewrite H by lia. reflexivity. Qed.
Lemma fsum_even_odd (f : nat -> F) n :
  fsum o (map f (seq 0 (2 * n))) = (fsum o (map (fun j => f (2 * j)%nat) (seq 0 n)) + fsum o (map (fun j => f (2 * j + 1)%nat) (seq 0 n)))%ff.
Proof.
  induction n as [|n IH].
  - cbn [Nat.mul Nat.add seq map]. rewrite !fsum_nil. ring.
  - replace (2 * S n) with (S (S (2 * n))) by lia. rewrite !(fsum_seq_S o L), IH. rewrite Nat.add_1_r. ring.
Qed.
Lemma dft_split n w x i :
  dft o (2 * n) w x i = (dft o n (w ^ 2) (fun j => x (2 * j)%nat) i + w ^ i * dft o n (w ^ 2) (fun j => x (2 * j + 1)%nat) i)%ff.
Proof.
  unfold dft. rewrite fsum_even_odd. f_equal.
  - apply (fsum_map_ext o). intros j _. rewrite <- (fpw_mul o L). do 2 f_equal. lia.
  - rewrite <- (fsum_map_mul o L). apply (fsum_map_ext o). intros j _. rewrite <- (fpw_mul o L).
    replace (i * (2 * j + 1)) with (i + 2 * (i * j)) by lia. rewrite (fpw_add o L). ring.
Qed.
Lemma fpw_wrap w n i k : (w ^ n = 1)%ff -> (w ^ (i + k * n) = w ^ i)%ff.
Proof. intros H. rewrite (fpw_add o L). rewrite (Nat.mul_comm k n), (fpw_mul o L), H, (fpw_one o L). ring. Qed.
Lemma dft_period n w x i : (w ^ n = 1)%ff -> dft o n w x (n + i) = dft o n w x i.
Proof.
  intros H. apply (fsum_map_ext o). intros j _. replace ((n + i) * j) with (i * j + j * n) by lia. rewrite fpw_wrap by assumption. reflexivity.
Qed.
Lemma dft_double k w x p : (w ^ (2 ^ k) = - (1))%ff ->
  let E := dft o (2 ^ k) (fpw o w 2) (fun j => x (2 * j)) (rev_bits k p) in
  let O := dft o (2 ^ k) (fpw o w 2) (fun j => x (2 * j + 1)) (rev_bits k p) in
  let t := fpw o w (rev_bits k p) in
  dft o (2 ^ S k) w x (rev_bits (S k) (2 * p)) = (E + O * t)%ff /\ dft o (2 ^ S k) w x (rev_bits (S k) (2 * p + 1)) = (E - O * t)%ff.
Proof.
  intros H. cbv zeta. rewrite rev_even, rev_odd, pow2_S, !dft_split.
  assert (H2 : (fpw o w 2 ^ (2 ^ k) = 1)%ff).
  { rewrite <- (fpw_mul o L). rewrite (Nat.mul_comm 2), (fpw_mul o L), H. cbn. ring. }
  rewrite !dft_period by assumption. rewrite (fpw_add o L), H. split; ring.
Qed.

(** ** Butterflies *)
Lemma radix_2_twiddle_spec v t i s : 0 < s -> i + s < length v ->
  exists v', radix_2_twiddle o v t i s = Some v' /\ length v' = length v /\
  forall q, at_ v' q = if q =? i then (at_ v i + at_ v (i + s)%nat * t)%ff
                      else if q =? i + s then (at_ v i - at_ v (i + s)%nat * t)%ff else at_ v q.
Proof.
  intros Hs Hi. unfold radix_2_twiddle. rewrite (get_nth v i (f0 o)), (get_nth v (i + s) (f0 o)) by lia. cbn [bind].
  rewrite set_ok by lia. cbn [bind]. rewrite (get_nth _ (i + s) (f0 o)) by (rewrite upd_length; lia). cbn [bind].
  rewrite nth_upd by lia. rewrite Nat.eqb_refl. rewrite set_ok by (rewrite upd_length; lia). cbn [bind].
  rewrite (get_nth _ (i + s) (f0 o)) by (rewrite !upd_length; lia). cbn [bind].
  rewrite !nth_upd by (rewrite ?upd_length; lia). rewrite Nat.eqb_refl. destruct (Nat.eqb_spec (i + s) i); [lia|].
  rewrite set_ok by (rewrite !upd_length; lia). eexists. split; [reflexivity|]. split; [rewrite !upd_length; reflexivity|].
  intros q. rewrite !nth_upd by (rewrite ?upd_length; lia).
  destruct (Nat.eqb_spec q i) as [->|]; [destruct (Nat.eqb_spec i (i + s)); [lia|reflexivity]|].
  destruct (Nat.eqb_spec q (i + s)); reflexivity.
Qed.
Lemma radix_2_spec v i s : 0 < s -> i + s < length v ->
  exists v', radix_2 o v i s = Some v' /\ length v' = length v /\
  forall q, at_ v' q = if q =? i then (at_ v i + at_ v (i + s)%nat * 1)%ff
                      else if q =? i + s then (at_ v i - at_ v (i + s)%nat * 1)%ff else at_ v q.
Proof.
  intros Hs Hi. unfold radix_2. rewrite (get_nth v i (f0 o)), (get_nth v (i + s) (f0 o)) by lia. cbn [bind].
  rewrite set_ok by lia. cbn [bind]. rewrite (get_nth _ (i + s) (f0 o)) by (rewrite upd_length; lia). cbn [bind].
  rewrite nth_upd by lia. destruct (Nat.eqb_spec (i + s) i); [lia|]. rewrite set_ok by (rewrite upd_length; lia).
  eexists. split; [reflexivity|]. split; [rewrite !upd_length; reflexivity|].
  intros q. rewrite !nth_upd by (rewrite ?upd_length; lia).
  destruct (Nat.eqb_spec q i) as [->|]; [destruct (Nat.eqb_spec i (i + s)); [lia|ring]|].
  destruct (Nat.eqb_spec q (i + s)); [ring|reflexivity].
Qed.

(** [cnt] adjacent butterflies. *)
Definition bfly (v : list F) (t : F) (base cnt s q : nat) : F :=
  if (base <=? q) && (q <? base + cnt) then (at_ v q + at_ v (q + s)%nat * t)%ff
  else if (base + s <=? q) && (q <? base + s + cnt) then (at_ v (q - s)%nat - at_ v q * t)%ff else at_ v q.
Ltac cases := repeat match goal with
  | |- context [?a <=? ?b] => destruct (Nat.leb_spec a b)
  | |- context [?a <? ?b] => destruct (Nat.ltb_spec a b)
  | |- context [?a =? ?b] => destruct (Nat.eqb_spec a b) end; cbn [andb orb].
Ltac pcases := repeat (match goal with
  | |- context [?a <=? ?b] => destruct (Nat.leb_spec a b)
  | |- context [?a <? ?b] => destruct (Nat.ltb_spec a b)
  | |- context [?a =? ?b] => destruct (Nat.eqb_spec a b) end; cbn [andb orb]; try (exfalso; lia)).
Lemma block_spec (radix : list F -> nat -> option (list F)) v t base cnt s :
  (forall v i, i + s < length v -> exists v', radix v i = Some v' /\ length v' = length v /\
    forall q, at_ v' q = if q =? i then (at_ v i + at_ v (i + s)%nat * t)%ff
                        else if q =? i + s then (at_ v i - at_ v (i + s)%nat * t)%ff else at_ v q) ->
  0 < s -> cnt <= s -> base + s + cnt <= length v ->
  exists v', for_each (seq base cnt) radix v = Some v' /\ length v' = length v /\ forall q, at_ v' q = bfly v t base cnt s q.
Proof.
  intros HR Hs Hc Hl.
  destruct (for_range (fun i w => length w = length v /\ forall q, at_ w q = bfly v t base (i - base) s q) radix base cnt v) as (v' & E & H).
  - split; [reflexivity|]. intros q. unfold bfly. rewrite Nat.sub_diag. cases; try lia; reflexivity.
  - intros i w Hi [Lw Hw]. destruct (HR w i ltac:(lia)) as (w' & E & L' & H'). exists w'. split; [exact E|]. split; [lia|].
    intros q. rewrite H'. rewrite !Hw. unfold bfly. replace (i + 1 - base) with (i - base + 1) by lia.
    destruct (Nat.eqb_spec q i) as [->|N1]; [|destruct (Nat.eqb_spec q (i + s)) as [->|N2]].
    + pcases; reflexivity.
    + replace (i + s - s) with i by lia. pcases; reflexivity.
    + pcases; reflexivity.
  - exists v'. split; [exact E|]. replace (base + cnt - base) with cnt in H by lia. exact H.
Qed.

Lemma combine_map_seq {A C} (f : nat -> A) (tw : list C) d n : n <= length tw ->
  combine (map f (seq 0 n)) tw = map (fun k => (f k, nth k tw d)) (seq 0 n).
Proof.
  intros H. revert f tw H. induction n as [|n IH]; intros f tw H; [reflexivity|].
  destruct tw as [|a tw]; [cbn in H; lia|]. cbn [seq map combine nth]. f_equal.
  rewrite <- seq_shift, !map_map. rewrite (IH (fun k => f (S k)) tw) by (cbn in H; lia). reflexivity.
Qed.

(** All the butterflies of one level: blocks of width 2s, block [p] with factor [t p]. *)
Definition level (v : list F) (t : nat -> F) (off cnt s p r : nat) : F :=
  if (off <=? r) && (r <? off + cnt) then (at_ v (p * (2 * s) + r)%nat + at_ v (p * (2 * s) + r + s)%nat * t p)%ff
  else if (off + s <=? r) && (r <? off + s + cnt) then (at_ v (p * (2 * s) + r - s)%nat - at_ v (p * (2 * s) + r)%nat * t p)%ff
  else at_ v (p * (2 * s) + r).
Lemma level_spec v tw N off cnt s : 0 < s -> off + cnt <= s -> length v = N * (2 * s) -> 0 < N -> N <= length tw -> at_ tw 0 = f1 o ->
  exists v', (let? v := for_each (seq off cnt) (fun v i => radix_2 o v i s) v in
    for_each (skipn 1 (combine (range_step off (off + (2 * N) * s) (2 * s)) tw))
      (fun v ot => let '(off, t) := ot in for_each (seq off cnt) (fun v i => radix_2_twiddle o v t i s) v) v) = Some v' /\
  length v' = length v /\
  forall p r, p < N -> r < 2 * s -> at_ v' (p * (2 * s) + r) = level v (fun p => at_ tw p) off cnt s p r.
Proof.
  intros Hs Ho Lv HN Htw H1.
  set (P := fun n w => length w = length v /\ forall p r, p < N -> r < 2 * s ->
    at_ w (p * (2 * s) + r) = if p <? n then level v (fun p => at_ tw p) off cnt s p r else at_ v (p * (2 * s) + r)).
  assert (Step : forall n w w', n < N -> P n w -> length w' = length w ->
    (forall q, at_ w' q = bfly w (at_ tw n) (off + n * (2 * s)) cnt s q) -> P (n + 1) w').
  { intros n w w' Hn [Lw Hw] Lw' Hw'. split; [lia|]. intros p r Hp Hr. rewrite Hw'. unfold bfly.
    destruct (Nat.ltb_spec p (n + 1)) as [L1|L1].
    - destruct (Nat.eq_dec p n) as [->|Ne].
      + unfold level. destruct (Nat.leb_spec (off + n * (2 * s)) (n * (2 * s) + r)); destruct (Nat.leb_spec off r); try lia; cbn [andb].
        * destruct (Nat.ltb_spec (n * (2 * s) + r) (off + n * (2 * s) + cnt)); destruct (Nat.ltb_spec r (off + cnt)); try lia.
          -- replace (n * (2 * s) + r + s) with (n * (2 * s) + (r + s)) by lia. rewrite !Hw by lia. rewrite Nat.ltb_irrefl. reflexivity.
          -- destruct (Nat.leb_spec (off + n * (2 * s) + s) (n * (2 * s) + r)); destruct (Nat.leb_spec (off + s) r); try lia; cbn [andb].
             ++ destruct (Nat.ltb_spec (n * (2 * s) + r) (off + n * (2 * s) + s + cnt)); destruct (Nat.ltb_spec r (off + s + cnt)); try lia.
                ** replace (n * (2 * s) + r - s) with (n * (2 * s) + (r - s)) by lia. rewrite !Hw by lia. rewrite Nat.ltb_irrefl. reflexivity.
                ** rewrite Hw by lia. rewrite Nat.ltb_irrefl. reflexivity.
             ++ rewrite Hw by lia. rewrite Nat.ltb_irrefl. reflexivity.
        * destruct (Nat.leb_spec (off + n * (2 * s) + s) (n * (2 * s) + r)); destruct (Nat.leb_spec (off + s) r); try lia; cbn [andb].
          rewrite Hw by lia. rewrite Nat.ltb_irrefl. reflexivity.
      + assert (Lt : p < n) by lia. assert (B : (p + 1) * (2 * s) <= n * (2 * s)) by (apply Nat.mul_le_mono_r; lia).
        destruct (Nat.leb_spec (off + n * (2 * s)) (p * (2 * s) + r)); [lia|].
        destruct (Nat.leb_spec (off + n * (2 * s) + s) (p * (2 * s) + r)); [lia|]. cbn [andb].
        rewrite Hw by assumption. rewrite (proj2 (Nat.ltb_lt p n) Lt). reflexivity.
    - assert (B : (n + 1) * (2 * s) <= p * (2 * s)) by (apply Nat.mul_le_mono_r; lia).
      destruct (Nat.ltb_spec (p * (2 * s) + r) (off + n * (2 * s) + cnt)); [lia|]. rewrite andb_false_r.
      destruct (Nat.ltb_spec (p * (2 * s) + r) (off + n * (2 * s) + s + cnt)); [lia|]. rewrite andb_false_r.
      rewrite Hw by assumption. destruct (Nat.ltb_spec p n); [lia|reflexivity]. }
  assert (P0 : P 0 v) by (split; [reflexivity|]; intros; reflexivity).
  destruct (block_spec (fun v i => radix_2 o v i s) v (f1 o) off cnt s) as (v1 & E1 & Lv1 & Hv1);
    [intros; apply radix_2_spec; assumption|assumption|lia|nia|]. rewrite E1. cbn [bind].
  assert (P1 : P 1 v1) by (apply (Step 0 v v1); [assumption|assumption|assumption|]; rewrite H1, Nat.mul_0_l, Nat.add_0_r; assumption).
  replace (off + 2 * N * s) with (off + N * (2 * s)) by lia. rewrite range_step_exact by lia.
  rewrite (combine_map_seq _ tw (f0 o)) by assumption. rewrite skipn_map, skipn1_seq, for_each_map.
  destruct (for_range P (fun v p => for_each (seq (off + p * (2 * s)) cnt) (fun v i => radix_2_twiddle o v (at_ tw p) i s) v) 1 (N - 1) v1 P1) as (v' & E' & Hv').
  - intros n w Hn Hw. destruct (block_spec (fun v i => radix_2_twiddle o v (at_ tw n) i s) w (at_ tw n) (off + n * (2 * s)) cnt s) as (w' & E & L' & H');
      [intros; apply radix_2_twiddle_spec; assumption|assumption|lia|destruct Hw as [Lw _]; rewrite Lw, Lv; nia|].
    exists w'. split; [exact E|]. apply (Step n w w'); [lia|assumption|assumption|assumption].
  - exists v'. split; [exact E'|]. replace (1 + (N - 1)) with N in Hv' by lia. destruct Hv' as [Lv' Hv']. split; [exact Lv'|].
    intros p r Hp Hr. rewrite Hv' by assumption. rewrite (proj2 (Nat.ltb_lt p N) Hp). reflexivity.
Qed.

(** ** The recursive transform *)
Definition good_twiddles (k : nat) (w : F) (tw : list F) : Prop :=
  2 ^ (k - 1) <= length tw /\ forall j, j < 2 ^ (k - 1) -> at_ tw j = fpw o w (rev_bits (k - 1) j).
(** [w] behaves like a primitive 2^k-th root of unity. *)
Definition root_like (k : nat) (w : F) : Prop := 0 < k -> (w ^ (2 ^ (k - 1)) = - (1))%ff.

Lemma fft_rec_spec ml dbg tw : forall k fuel v w off cnt s, k <= fuel -> length v = 2 ^ k * s -> 0 < s -> off < s -> off + cnt <= s ->
  (0 < k -> good_twiddles k w tw) -> root_like k w ->
  exists v', fft_vec_recursive o fuel ml dbg v tw off cnt s = Some v' /\ length v' = length v /\
  forall i c, i < 2 ^ k -> c < s -> at_ v' (c + i * s) =
    if (off <=? c) && (c <? off + cnt) then dft o (2 ^ k) w (fun j => at_ v (c + j * s)) (rev_bits k i) else at_ v (c + i * s).
Proof.
  induction k as [|k IH]; intros fuel v w off cnt s Hf Lv Hs Ho Hc Tw Rt.
  - rewrite Nat.pow_0_r, Nat.mul_1_l in Lv.
    assert (E : fft_vec_recursive o fuel ml dbg v tw off cnt s = Some v).
    { destruct fuel; cbn [fft_vec_recursive]; destruct (Nat.eqb_spec s 0); try lia; rewrite Lv, Nat.div_same by lia;
      rewrite (dassert_ok _ (is_power_of_two 1)) by reflexivity; cbn [bind];
      rewrite dassert_ok by (apply Nat.ltb_lt; assumption); cbn [bind]; rewrite dassert_ok by (apply Nat.eqb_eq; apply Nat.mod_1_r); reflexivity. }
    exists v. split; [exact E|]. split; [reflexivity|]. intros i c Hi Hcc. cbn in Hi. replace i with 0 by lia.
    destruct (_ && _); [|reflexivity]. unfold dft. cbn [Nat.pow seq map rev_bits]. rewrite fsum_cons, fsum_nil. cbn [Nat.mul Nat.add fpw].
    ring.
  - destruct fuel as [|fuel]; [lia|]. specialize (Tw ltac:(lia)). destruct Tw as [Ltw Htw]. specialize (Rt ltac:(lia)).
    replace (S k - 1) with k in * by lia.
    cbn [fft_vec_recursive]. destruct (Nat.eqb_spec s 0); [lia|].
    assert (Sz : length v / s = 2 ^ S k) by (rewrite Lv; apply Nat.div_mul; lia). rewrite Sz.
    rewrite dassert_ok by apply is_pow2. cbn [bind]. rewrite dassert_ok by (apply Nat.ltb_lt; assumption). cbn [bind].
    rewrite dassert_ok by (apply Nat.eqb_eq; rewrite Lv, Nat.mul_comm; apply Nat.mod_mul; apply Nat.pow_nonzero; lia). cbn [bind].
    pose proof (pow2_pos k) as P2. destruct (Nat.ltb_spec 1 (2 ^ S k)) as [_|C]; [|rewrite pow2_S in C; lia].
    assert (Lv2 : length v = 2 ^ k * (2 * s)) by (rewrite Lv, pow2_S; lia).
    assert (Tw2 : 0 < k -> good_twiddles k (fpw o w 2) tw).
    { intros Hk. assert (Hk2 : 2 ^ k = 2 * 2 ^ (k - 1)) by (rewrite <- pow2_S; f_equal; lia). split; [lia|].
      intros j Hj. rewrite Htw by lia. rewrite <- (fpw_mul o L). f_equal.
      replace k with (S (k - 1)) at 1 by lia. apply rev_low. assumption. }
    assert (Rt2 : root_like k (fpw o w 2)).
    { intros Hk. rewrite <- (fpw_mul o L). rewrite <- Rt. f_equal. rewrite <- pow2_S. f_equal. lia. }
    (* the recursive calls *)
    assert (Rec : exists v1, (if (s =? cnt) && (cnt <? ml) then fft_vec_recursive o fuel ml dbg v tw off (2 * cnt) (2 * s)
        else let? v := fft_vec_recursive o fuel ml dbg v tw off cnt (2 * s) in fft_vec_recursive o fuel ml dbg v tw (off + s) cnt (2 * s)) = Some v1 /\
      length v1 = length v /\ forall i c, i < 2 ^ k -> c < 2 * s -> at_ v1 (c + i * (2 * s)) =
        if (off <=? c) && (c <? off + cnt) || (off + s <=? c) && (c <? off + s + cnt)
        then dft o (2 ^ k) (fpw o w 2) (fun j => at_ v (c + j * (2 * s))) (rev_bits k i) else at_ v (c + i * (2 * s))).
    { destruct (Nat.eqb_spec s cnt) as [Ec|Ec]; [destruct (Nat.ltb_spec cnt ml)|]; cbn [andb].
      1: { destruct (IH fuel v (fpw o w 2) off (2 * cnt) (2 * s)) as (v1 & E & L1 & H1); try assumption; try lia.
           exists v1. split; [exact E|]. split; [exact L1|]. intros i c Hi Hcc. rewrite H1 by assumption. cases; try lia; reflexivity. }
      all: destruct (IH fuel v (fpw o w 2) off cnt (2 * s)) as (v1 & E & L1 & H1); try assumption; try lia; rewrite E; cbn [bind];
        destruct (IH fuel v1 (fpw o w 2) (off + s) cnt (2 * s)) as (v2 & E2 & L2 & H2); try assumption; try lia;
        exists v2; split; [exact E2|]; split; [lia|]; intros i c Hi Hcc; rewrite H2 by assumption;
        assert (D : off + s <= c -> dft o (2 ^ k) (fpw o w 2) (fun j => at_ v1 (c + j * (2 * s))) (rev_bits k i) =
                   dft o (2 ^ k) (fpw o w 2) (fun j => at_ v (c + j * (2 * s))) (rev_bits k i))
          by (intros G; apply dft_ext; intros j Hj; rewrite H1 by assumption; cases; try lia; reflexivity);
        rewrite H1 by assumption; cases; try lia; try reflexivity; apply D; assumption. }
    destruct Rec as (v1 & -> & L1 & H1). cbn [bind].
    destruct (level_spec v1 tw (2 ^ k) off cnt s) as (v' & E & L' & H'); [assumption|assumption|lia|assumption|assumption| |].
    { rewrite Htw by assumption. rewrite rev_zero. reflexivity. }
    exists v'. split; [exact E|]. split; [lia|]. intros i c Hi Hcc.
    destruct (half i) as (p & b & -> & Hb & _). assert (Hp : p < 2 ^ k) by (rewrite pow2_S in Hi; lia).
    destruct (dft_double k w (fun j => at_ v (c + j * s)) p Rt) as [De Do].
    assert (B : b = 0 \/ b = 1) by lia. destruct B as [-> | ->].
    + rewrite Nat.add_0_r. replace (c + 2 * p * s) with (p * (2 * s) + c) by lia. rewrite H' by lia. unfold level.
      replace (p * (2 * s) + c) with (c + p * (2 * s)) by lia. replace (c + p * (2 * s) + s) with ((c + s) + p * (2 * s)) by lia.
      rewrite !H1 by lia. destruct (Nat.leb_spec off c); cbn [andb]; [destruct (Nat.ltb_spec c (off + cnt))|].
      * cbn [orb]. destruct (Nat.leb_spec off (c + s)); [|lia]. destruct (Nat.ltb_spec (c + s) (off + cnt)); [lia|]. cbn [andb orb].
        destruct (Nat.leb_spec (off + s) (c + s)); [|lia]. destruct (Nat.ltb_spec (c + s) (off + s + cnt)); [|lia]. cbn [andb].
        rewrite De. rewrite Htw by assumption. f_equal; [|f_equal]; apply dft_ext; intros j Hj; f_equal; lia.
      * destruct (Nat.leb_spec (off + s) c); [lia|]. reflexivity.
      * destruct (Nat.leb_spec (off + s) c); [lia|]. reflexivity.
    + replace (c + (2 * p + 1) * s) with (p * (2 * s) + (c + s)) by lia. rewrite H' by lia. unfold level.
      replace (p * (2 * s) + (c + s) - s) with (c + p * (2 * s)) by lia. replace (p * (2 * s) + (c + s)) with ((c + s) + p * (2 * s)) by lia.
      rewrite !H1 by lia.
      destruct (Nat.leb_spec off (c + s)) as [I1|I1]; destruct (Nat.ltb_spec (c + s) (off + cnt)) as [I2|I2]; try lia; cbn [andb orb];
      destruct (Nat.leb_spec off c) as [I3|I3]; destruct (Nat.leb_spec (off + s) (c + s)) as [I4|I4]; try lia; cbn [andb orb]; try reflexivity.
      destruct (Nat.ltb_spec c (off + cnt)) as [I5|I5]; destruct (Nat.ltb_spec (c + s) (off + s + cnt)) as [I6|I6]; try lia; cbn [andb orb]; [|reflexivity].
      rewrite Do. rewrite Htw by assumption. f_equal; [|f_equal]; apply dft_ext; intros j Hj; f_equal; lia.
Qed.

(** ** Twiddle factors *)
Lemma pow2_bound k n : k < 64 -> n <= 2 ^ k -> (0 <= Z.of_nat n < B)%Z.
Proof.
  intros Hk Hn. split; [lia|]. apply Nat2Z.inj_le in Hn. rewrite Nat2Z.inj_pow in Hn. change (Z.of_nat 2) with 2%Z in Hn.
  pose proof (Z.pow_lt_mono_r 2 (Z.of_nat k) 64 ltac:(lia) ltac:(lia) ltac:(lia)). unfold B. lia.
Qed.
Lemma pow_nat k a n : k < 64 -> n <= 2 ^ k -> pow_usize o a (Z.of_nat n) = fpw o a n.
Proof.
  intros Hk Hn. rewrite (pow_usize_spec o L) by (apply (pow2_bound k); assumption). rewrite <- (fexp_nat o a n). f_equal. lia.
Qed.
Lemma feqb_refl a : feqb o a a = true.
Proof. destruct (feqb_spec o L a a); congruence. Qed.
Lemma get_twiddles_spec dbg K w : K < 64 -> (w ^ (2 ^ K) = 1)%ff ->
  exists tw, get_twiddles o dbg w (2 ^ K) = Some tw /\ (0 < K -> good_twiddles K w tw).
Proof.
  intros HK Hw. unfold get_twiddles. rewrite dassert_ok by apply is_pow2. cbn [bind].
  rewrite (pow_nat K) by lia. rewrite Hw. rewrite dassert_ok by apply feqb_refl. cbn [bind].
  destruct K as [|k].
  - exists []. split; [reflexivity|lia].
  - assert (E : 2 ^ S k / 2 = 2 ^ k) by (rewrite pow2_S, Nat.mul_comm; apply Nat.div_mul; lia). rewrite E.
    destruct (permute_spec (f0 o) dbg k (map (fun i => pow_usize o w (Z.of_nat i)) (seq 0 (2 ^ k)))) as (tw & Et & Lt & Ht);
      [lia|rewrite map_length, seq_length; reflexivity|].
    exists tw. split; [exact Et|]. intros _. unfold good_twiddles. replace (S k - 1) with k by lia. split; [lia|].
    intros j Hj. rewrite Ht by assumption. pose proof (rev_lt k j). rewrite nth_map_seq by assumption.
    rewrite (pow_nat k) by lia. reflexivity.
Qed.

(** ** Running products *)
Lemma run_fold c : forall l acc t,
  fold_left (fun (st : list F * F) e => let '(acc, t) := st in (acc ++ [fmul o e t], fmul o t c)) l (acc, t)
  = (acc ++ map (fun i => (at_ l i * (t * c ^ i))%ff) (seq 0 (length l)), (t * c ^ length l)%ff).
Proof.
  induction l as [|a l IH]; intros acc t.
  - cbn. rewrite app_nil_r. f_equal. ring.
  - cbn [fold_left length seq map nth]. rewrite IH. rewrite <- app_assoc. cbn [app]. rewrite <- seq_shift, map_map. f_equal.
    + do 2 f_equal; [cbn; ring|]. apply map_ext. intros i. cbn [nth fpw]. ring.
    + cbn [fpw]. ring.
Qed.
Lemma shift_by_eq c v : shift_by o c v = map (fun i => (at_ v i * c ^ i)%ff) (seq 0 (length v)).
Proof. unfold shift_by. rewrite run_fold. cbn [fst app]. apply map_ext. intros i. ring. Qed.
Lemma shift_by_spec c v : length (shift_by o c v) = length v /\ forall i, i < length v -> at_ (shift_by o c v) i = (at_ v i * c ^ i)%ff.
Proof.
  rewrite shift_by_eq. split; [rewrite map_length, seq_length; reflexivity|]. intros i Hi. rewrite nth_map_seq by exact Hi. reflexivity.
Qed.
Lemma scale_row_spec t row : length (scale_row o t row) = length row /\
  forall i, i < length row -> at_ (scale_row o t row) i = (at_ row i * t ^ i)%ff.
Proof.
  destruct row as [|x r]; [split; [reflexivity|cbn; lia]|]. unfold scale_row. rewrite run_fold. cbn [fst app].
  split; [cbn; rewrite map_length, seq_length; reflexivity|]. intros [|i] Hi; cbn [nth fpw]; [ring|].
  rewrite nth_map_seq by (cbn in Hi; lia). reflexivity.
Qed.

(** ** The square-root decomposition *)
Lemma seq_offset a : forall n b, seq (a + b) n = map (fun i => a + i) (seq b n).
Proof. induction n as [|n IH]; intros b; [reflexivity|]. cbn [seq map]. f_equal. rewrite <- IH. f_equal. lia. Qed.
Lemma fsum_grid (f : nat -> F) M : forall N,
  fsum o (map f (seq 0 (N * M))) = fsum o (map (fun r => fsum o (map (fun c => f (r * M + c)%nat) (seq 0 M))) (seq 0 N)).
Proof.
  induction N as [|N IH]; [reflexivity|]. rewrite (fsum_seq_S o L), <- IH. replace (S N * M) with (N * M + M) by lia.
  rewrite seq_app, map_app, (fsum_app o L). f_equal. cbn [Nat.add].
  rewrite <- (Nat.add_0_r (N * M)) at 1. rewrite seq_offset, map_map. reflexivity.
Qed.

Lemma four_step N M w x i1 d : (w ^ (N * M) = 1)%ff ->
  dft o (N * M) w x (d * N + i1) =
  dft o M (fpw o w N) (fun C => (dft o N (w ^ M) (fun r => x (r * M + C)%nat) i1 * w ^ (i1 * C))%ff) d.
Proof.
  intros H. unfold dft at 1 2. rewrite fsum_grid. rewrite (fsum_swap o L). apply (fsum_map_ext o). intros C _.
  unfold dft. rewrite <- !(fsum_map_mul_r o L). apply (fsum_map_ext o). intros r _.
  replace ((d * N + i1) * (r * M + C)) with ((M * (i1 * r) + i1 * C + N * (d * C)) + (d * r) * (N * M)) by nia.
  rewrite fpw_wrap by assumption. rewrite !(fpw_add o L), !(fpw_mul o L). ring.
Qed.

Lemma radix_sqrt_spec ml dbg K order1 order2 v w : 0 < K -> K < 64 -> length v = 2 ^ K -> (w ^ (2 ^ K) = 1)%ff -> root_like K w ->
  Permutation order1 (seq 0 (2 ^ (K / 2))) -> Permutation order2 (seq 0 (2 ^ (K / 2))) ->
  exists v', radix_sqrt o ml dbg order1 order2 v w = Some v' /\ length v' = 2 ^ K /\
  forall i, i < 2 ^ K -> at_ v' i = dft o (2 ^ K) w (fun j => at_ v j) (rev_bits K i).
Proof.
  intros K0 K64 Lv Hw Rt O1 O2. unfold radix_sqrt. rewrite Lv.
  assert (2 <= 2 ^ K) as K2. { replace K with (S (K - 1)) by lia. rewrite pow2_S. pose proof (pow2_pos (K - 1)). lia. }
  destruct (Nat.leb_spec (2 ^ K) 1); [lia|]. rewrite ctz64_pow2, Nat2Z.id.
  set (a := K / 2) in *. assert (Ha : K = 2 * a \/ K = 2 * a + 1).
  { unfold a. pose proof (Nat.div_mod K 2 ltac:(lia)). pose proof (Nat.mod_upper_bound K 2 ltac:(lia)). lia. }
  clearbody a. set (b := K - a). assert (Kab : K = b + a) by lia.
  set (st := 2 ^ (b - a)). assert (Hst : st = 1 /\ 1 <= a /\ b = a \/ st = 2 /\ b = a + 1).
  { unfold st. destruct Ha as [E|E]; [left|right]; [replace (b - a) with 0 by lia; change (2 ^ 0) with 1|replace (b - a) with 1 by lia; change (2 ^ 1) with 2]; clearbody b; lia. }
  set (N := 2 ^ a). assert (NM : 2 ^ K = 2 ^ b * N) by (unfold N; rewrite Kab; apply Nat.pow_add_r).
  assert (MN : 2 ^ b = N * st) by (unfold N, st; rewrite <- Nat.pow_add_r; f_equal; lia).
  pose proof (pow2_pos a) as HN. fold N in HN. pose proof (pow2_pos b) as HM.
  assert (Eo : 2 ^ K / N = 2 ^ b) by (rewrite NM; apply Nat.div_mul; lia). rewrite Eo.
  assert (Es : 2 ^ b / N = st) by (rewrite MN, Nat.mul_comm; apply Nat.div_mul; lia). rewrite Es.
  rewrite (pow_nat K) by lia. rewrite Hw. rewrite dassert_ok by apply feqb_refl. cbn [bind].
  rewrite dassert_ok by (rewrite MN; destruct Hst as [(-> & _)|(-> & _)];
    [rewrite Nat.mul_1_r, Nat.eqb_refl; reflexivity|rewrite (Nat.mul_comm 2), Nat.eqb_refl; apply orb_true_r]). cbn [bind].
  rewrite dassert_ok by (apply Nat.eqb_eq; lia). cbn [bind].
  assert (aK : a <= K) by lia. assert (NK : N <= 2 ^ K) by (apply Nat.pow_le_mono_r; lia).
  rewrite (pow_nat K) by lia. set (wN := fpw o w N).
  destruct (get_twiddles_spec dbg b wN ltac:(lia)) as (tw & -> & Gtw).
  { unfold wN. rewrite <- (fpw_mul o L). rewrite Nat.mul_comm, <- NM. exact Hw. }
  cbn [bind]. specialize (Gtw ltac:(lia)).
  set (wM := fpw o w (2 ^ b)).
  assert (Ra : root_like a wM).
  { intros Pa. unfold wM. rewrite <- (fpw_mul o L). rewrite <- (Rt K0). f_equal. rewrite <- Nat.pow_add_r. f_equal. lia. }
  assert (Rb : root_like b wN).
  { intros Pa. unfold wN, N. rewrite <- (fpw_mul o L). rewrite <- (Rt K0). f_equal. rewrite <- Nat.pow_add_r. f_equal. lia. }
  assert (Ga : 0 < a -> good_twiddles a wM tw).
  { intros Pa. destruct Gtw as [Ltw Htw]. destruct Hst as [(E1 & _ & Eb)|(E2 & Eb)].
    - assert (wM = wN) as -> by (unfold wM, wN, N; rewrite Eb; reflexivity). rewrite Eb in *. split; assumption.
    - replace (b - 1) with (S (a - 1)) in Ltw, Htw by lia. rewrite pow2_S in Ltw. split; [lia|]. intros j Hj. rewrite Htw by (rewrite pow2_S; lia).
      rewrite rev_low by assumption. unfold wM, wN. rewrite <- !(fpw_mul o L). f_equal. rewrite MN, E2. lia. }
  assert (Sq : length v = N * N * st) by (rewrite Lv, NM, MN; lia).
  assert (Ev : st = 1 /\ N mod 2 = 0 \/ st = 2).
  { destruct Hst as [(E & Ea & _)|(E & _)]; [left|right; exact E]. split; [exact E|]. unfold N. replace a with (S (a - 1)) by lia.
    rewrite pow2_S, Nat.mul_comm. apply Nat.mod_mul. lia. }
  (* first transposition *)
  destruct (transpose_spec (f0 o) dbg v N st Sq Ev) as (v1 & -> & L1 & H1). cbn [bind].
  assert (St0 : 0 < st) by (destruct Ev; lia).
  (* inner transforms *)
  assert (Len : forall (u : list F) i, length u = 2 ^ K -> i < N -> length (chunk (2 ^ b) i u) = 2 ^ b).
  { intros u i Lu Hi. rewrite chunk_length, Lu, NM. assert ((i + 1) * 2 ^ b <= N * 2 ^ b) by (apply Nat.mul_le_mono_r; lia). lia. }
  assert (InO : forall ord i, Permutation ord (seq 0 N) -> (In i ord <-> i < N)).
  { intros ord i P. split; intros Hi.
    - apply (Permutation_in _ P) in Hi. apply in_seq in Hi. lia.
    - apply (Permutation_in _ (Permutation_sym P)). apply in_seq. lia. }
  assert (ND : forall ord, Permutation ord (seq 0 N) -> NoDup ord).
  { intros ord P. apply (Permutation_NoDup (Permutation_sym P)). apply seq_NoDup. }
  assert (J1 : forall row, length row = 2 ^ b -> exists row', fft_vec_recursive o 64 ml dbg row tw 0 st st = Some row' /\ length row' = length row /\
    forall i c, i < N -> c < st -> at_ row' (c + i * st) = dft o N wM (fun j => at_ row (c + j * st)) (rev_bits a i)).
  { intros row Lr. destruct (fft_rec_spec ml dbg tw a 64 row wM 0 st st) as (row' & E & Lr' & Hr); try assumption; try lia.
    exists row'. split; [exact E|]. split; [exact Lr'|]. intros i c Hi Hc. rewrite Hr by assumption.
      destruct (Nat.ltb_spec c (0 + st)); [reflexivity|lia]. }
  rewrite <- Lv in Len.
  destruct (par_chunks_spec (2 ^ b) (fun _ row => fft_vec_recursive o 64 ml dbg row tw 0 st st) order1 v1 (ND _ O1)) as (v2 & -> & L2 & H2).
  { intros i Hi. apply (InO order1 i O1) in Hi. destruct (J1 (chunk (2 ^ b) i v1)) as (r & E & Lr & _); [apply Len; [congruence|assumption]|].
    exists r. split; assumption. }
  cbn [bind].
  (* second transposition *)
  destruct (transpose_spec (f0 o) dbg v2 N st ltac:(congruence) Ev) as (v3 & -> & L3 & H3). cbn [bind].
  (* outer transforms *)
  assert (J2 : forall i row, i < N -> length row = 2 ^ b -> exists row', outer_job o ml dbg w N tw i row = Some row' /\ length row' = length row /\
    forall d, d < 2 ^ b -> at_ row' d = dft o (2 ^ b) wN (fun C => (at_ row C * w ^ (rev_bits a i * C))%ff) (rev_bits b d)).
  { intros i row Hi Lr. unfold outer_job.
    assert (exists row1, (if 0 <? i then let? i0 := permute_index dbg N i in Some (scale_row o (pow_usize o w (Z.of_nat i0)) row) else Some row) = Some row1
      /\ length row1 = length row /\ forall C, C < 2 ^ b -> at_ row1 C = (at_ row C * w ^ (rev_bits a i * C))%ff) as (row1 & -> & Lr1 & Hr1).
    { destruct (Nat.ltb_spec 0 i) as [Pi|Zi].
      - unfold N. rewrite permute_index_spec by (assumption || lia). cbn [bind]. eexists. split; [reflexivity|].
        pose proof (rev_lt a i) as Rl. fold N in Rl. rewrite (pow_nat K) by lia.
        destruct (scale_row_spec (fpw o w (rev_bits a i)) row) as [Ls Hs]. split; [exact Ls|]. intros C HC. rewrite Hs by lia.
        rewrite (fpw_mul o L). reflexivity.
      - exists row. split; [reflexivity|]. split; [reflexivity|]. intros C _. replace i with 0 by lia. rewrite rev_zero. cbn [Nat.mul fpw]. ring. }
    cbn [bind]. destruct (fft_rec_spec ml dbg tw b 64 row1 wN 0 1 1) as (row' & E & Lr' & Hr'); try assumption; try lia.
    - intros _. exact Gtw.
    - exists row'. split; [exact E|]. split; [congruence|]. intros d Hd. specialize (Hr' d 0 Hd ltac:(lia)).
      rewrite Nat.add_0_l, Nat.mul_1_r in Hr'. rewrite Hr'. cbn [Nat.leb Nat.ltb andb Nat.add]. apply dft_ext. intros j Hj.
      rewrite Nat.mul_1_r. apply Hr1. assumption. }
  destruct (par_chunks_spec (2 ^ b) (outer_job o ml dbg w N tw) order2 v3 (ND _ O2)) as (v4 & -> & L4 & H4).
  { intros i Hi. apply (InO order2 i O2) in Hi. destruct (J2 i (chunk (2 ^ b) i v3)) as (r & E & Lr & _); [assumption|apply Len; [congruence|assumption]|].
    exists r. split; assumption. }
  exists v4. split; [reflexivity|]. split; [congruence|]. intros p Hp.
  (* coordinates of the output *)
  assert (exists i d, p = i * 2 ^ b + d /\ i < N /\ d < 2 ^ b) as (i & d & -> & Hi & Hd).
  { exists (p / 2 ^ b), (p mod 2 ^ b). pose proof (Nat.div_mod p (2 ^ b) ltac:(lia)). pose proof (Nat.mod_upper_bound p (2 ^ b) ltac:(lia)).
    split; [lia|]. split; [|assumption]. apply Nat.div_lt_upper_bound; lia. }
  rewrite <- chunk_nth by assumption.
  destruct (J2 i (chunk (2 ^ b) i v3)) as (r4 & E4 & _ & R4); [assumption|apply Len; [congruence|assumption]|].
  destruct (H4 i) as [H4' _]. rewrite (H4' (proj2 (InO order2 i O2) Hi)) in E4. injection E4 as <-. rewrite R4 by assumption.
  rewrite Kab. rewrite rev_split by assumption. fold N. replace (2 ^ (b + a)) with (N * 2 ^ b) by (rewrite <- Kab; lia).
  rewrite four_step by (rewrite Nat.mul_comm, <- NM; exact Hw). apply dft_ext. intros C HC. f_equal.
  rewrite chunk_nth by assumption.
  (* coordinates of the column *)
  assert (exists c k, C = c * st + k /\ c < N /\ k < st) as (c & k & -> & Hc & Hk).
  { exists (C / st), (C mod st). pose proof (Nat.div_mod C st ltac:(lia)). pose proof (Nat.mod_upper_bound C st ltac:(lia)).
    split; [lia|]. split; [|assumption]. apply Nat.div_lt_upper_bound; lia. }
  replace (i * 2 ^ b + (c * st + k)) with (ix N st i c k) by (unfold ix; rewrite MN; lia).
  rewrite H3 by (unfold inr; auto).
  replace (ix N st c i k) with (c * 2 ^ b + (k + i * st)) by (unfold ix; rewrite MN; lia).
  assert (IM : forall i k, i < N -> k < st -> k + i * st < 2 ^ b).
  { intros i' k' Hi' Hk'. rewrite MN. assert ((i' + 1) * st <= N * st) by (apply Nat.mul_le_mono_r; lia). lia. }
  rewrite <- chunk_nth by (apply IM; assumption).
  destruct (J1 (chunk (2 ^ b) c v1)) as (r2 & E2 & _ & R2); [apply Len; [congruence|assumption]|].
  destruct (H2 c) as [H2' _]. rewrite (H2' (proj2 (InO order1 c O1) Hc)) in E2. injection E2 as <-. rewrite R2 by assumption.
  apply dft_ext. intros r Hr. rewrite chunk_nth by (apply IM; assumption).
  replace (c * 2 ^ b + (k + r * st)) with (ix N st c r k) by (unfold ix; rewrite MN; lia).
  rewrite H1 by (unfold inr; auto). f_equal. unfold ix. rewrite MN. lia.
Qed.

Lemma fft_root_spec ml dbg std K order1 order2 v w : K < 64 -> length v = 2 ^ K -> (w ^ (2 ^ K) = 1)%ff -> root_like K w ->
  Permutation order1 (seq 0 (2 ^ (K / 2))) -> Permutation order2 (seq 0 (2 ^ (K / 2))) ->
  exists v', fft_root o ml dbg std order1 order2 v w = Some v' /\ length v' = 2 ^ K /\
  forall i, i < 2 ^ K -> at_ v' i = dft o (2 ^ K) w (fun j => at_ v j) (rev_bits K i).
Proof.
  intros HK Lv Hw Rt O1 O2. unfold fft_root. rewrite Lv.
  destruct (std && (1024 <=? 2 ^ K)) eqn:Big.
  - apply radix_sqrt_spec; try assumption. destruct K; [|lia]. apply andb_prop in Big as [_ C]. discriminate C.
  - destruct (get_twiddles_spec dbg K w HK Hw) as (tw & -> & Gtw). cbn [bind].
    destruct (fft_rec_spec ml dbg tw K 64 v w 0 1 1) as (v' & E & L' & H'); try assumption; try lia.
    exists v'. split; [exact E|]. split; [lia|]. intros i Hi. specialize (H' i 0 Hi ltac:(lia)).
    rewrite Nat.add_0_l, Nat.mul_1_r in H'. rewrite H'. cbn [Nat.leb Nat.ltb andb Nat.add]. apply dft_ext. intros j Hj.
    rewrite Nat.mul_1_r. reflexivity.
Qed.

(** A primitive root is root-like. *)
Lemma primitive_root_like K w : primitive o w (2 ^ K) -> root_like K w.
Proof.
  intros [H1 H2] HK. pose proof (pow2_pos (K - 1)). assert (E : 2 ^ K = 2 * 2 ^ (K - 1)) by (rewrite <- pow2_S; f_equal; lia).
  destruct (fsquare_1 o L (fpw o w (2 ^ (K - 1)))) as [C|C]; [|exfalso; apply (H2 (2 ^ (K - 1))); [lia|exact C]|exact C].
  rewrite <- (fpw_add o L). rewrite <- H1. f_equal. lia.
Qed.
Lemma primitive_neq_0 n w : 0 < n -> primitive o w n -> w <> f0 o.
Proof. intros Hn [H1 _] ->. rewrite (fpw_zero o L) in H1 by assumption. apply (f_1_neq_0 o L). congruence. Qed.
Lemma primitive_inv n w : 0 < n -> primitive o w n -> primitive o (fpw o w (n - 1)) n.
Proof.
  intros Hn Pw. pose proof (primitive_neq_0 n w Hn Pw) as Nw. destruct Pw as [H1 H2]. split.
  - rewrite <- (fpw_mul o L), Nat.mul_comm, (fpw_mul o L), H1. apply (fpw_one o L).
  - intros k Hk E. apply (H2 k Hk). rewrite <- (fpw_mul o L) in E.
    assert (E2 : (fpw o w ((n - 1) * k) * fpw o w k = 1)%ff).
    { rewrite <- (fpw_add o L). replace ((n - 1) * k + k) with (n * k) by nia. rewrite (fpw_mul o L), H1. apply (fpw_one o L). }
    rewrite E in E2. rewrite <- E2. ring.
Qed.
(** Orthogonality: transforming with w and then with its inverse multiplies by n. *)
Lemma dft_inverse n w x i : 0 < n -> primitive o w n -> i < n ->
  dft o n (fpw o w (n - 1)) (fun j => dft o n w x j) i = (fnat o n * x i)%ff.
Proof.
  intros Hn Pw Hi. pose proof (primitive_neq_0 n w Hn Pw) as Nw. pose proof Pw as [H1 H2]. unfold dft.
  rewrite (fsum_map_ext o _ (fun j => fsum o (map (fun m => (x m * (fpw o w m * fpw o (fpw o w (n - 1)) i) ^ j)%ff) (seq 0 n)))).
  2: { intros j _. rewrite <- (fsum_map_mul_r o L). apply (fsum_map_ext o). intros m _.
       rewrite (fpw_mul_base o L), <- !(fpw_mul o L). replace (m * j) with (j * m) by lia. replace ((n - 1) * i * j) with ((n - 1) * (i * j)) by lia. ring. }
  rewrite (fsum_swap o L).
  rewrite (fsum_map_ext o _ (fun m => if m =? i then (fnat o n * x i)%ff else f0 o)).
  - clear - Hi L. assert (G : forall k, fsum o (map (fun m => if m =? i then (fnat o n * x i)%ff else f0 o) (seq 0 k)) = if i <? k then (fnat o n * x i)%ff else f0 o).
    { induction k as [|k IH]; [reflexivity|]. rewrite (fsum_seq_S o L), IH. destruct (Nat.ltb_spec i k), (Nat.eqb_spec k i), (Nat.ltb_spec i (S k)); try lia; ring. }
    rewrite G. rewrite (proj2 (Nat.ltb_lt i n) Hi). reflexivity.
  - intros m Hm. apply in_seq in Hm. rewrite (fsum_map_mul o L). destruct (Nat.eqb_spec m i) as [->|Ne].
    + assert (U : (fpw o w i * fpw o (fpw o w (n - 1)) i = 1)%ff).
      { rewrite <- (fpw_mul o L), <- (fpw_add o L). replace (i + (n - 1) * i) with (n * i) by nia. rewrite (fpw_mul o L), H1. apply (fpw_one o L). }
      rewrite U. rewrite (fsum_map_ext o _ (fun _ => f1 o)) by (intros; apply (fpw_one o L)). rewrite (fsum_map_1 o), seq_length. ring.
    + rewrite (geometric_sum_0 o L); [ring| |].
      * rewrite <- (fpw_mul o L), <- (fpw_add o L). intros C.
        assert (exists k, 0 < k < n /\ (fpw o w k = 1)%ff) as (k & Hk & Ek); [|exact (H2 k Hk Ek)].
        destruct (Nat.lt_ge_cases i m) as [Lt|Ge].
        -- exists (m - i). split; [lia|]. rewrite <- C. rewrite <- (fpw_wrap w n (m - i) i H1). f_equal. nia.
        -- exists (n + m - i). split; [lia|]. replace (m + (n - 1) * i) with (n + m - i + (i - 1) * n) in C by nia.
           rewrite fpw_wrap in C by assumption. exact C.
      * rewrite (fpw_mul_base o L), <- !(fpw_mul o L), <- (fpw_add o L). replace (m * n + (n - 1) * (i * n)) with (n * (m + (n - 1) * i)) by lia.
        rewrite (fpw_mul o L), H1. apply (fpw_one o L).
Qed.

(** ** clone_shifted *)
Lemma zip_fold c : forall l acc t,
  fold_left (fun (st : list F * F) (ds : F * F) => let '(acc, t) := st in (acc ++ [fmul o (snd ds) t], fmul o t c)) l (acc, t)
  = (acc ++ map (fun i => (at_ (map snd l) i * (t * c ^ i))%ff) (seq 0 (length l)), (t * c ^ length l)%ff).
Proof.
  induction l as [|a l IH]; intros acc t.
  - cbn. rewrite app_nil_r. f_equal. ring.
  - cbn [fold_left length seq map nth]. rewrite IH. rewrite <- app_assoc. cbn [app]. rewrite <- seq_shift, map_map. f_equal.
    + do 2 f_equal; [cbn; ring|]. apply map_ext. intros i. cbn [nth fpw]. ring.
    + cbn [fpw]. ring.
Qed.
Lemma zip_scale_spec t c dst src : length (zip_scale o t c dst src) = length dst /\
  forall i, i < length dst -> at_ (zip_scale o t c dst src) i = if i <? length src then (at_ src i * (t * c ^ i))%ff else at_ dst i.
Proof.
  unfold zip_scale. rewrite zip_fold. cbn [fst app]. rewrite combine_length.
  assert (Ln : length (map (fun i => (at_ (map snd (combine dst src)) i * (t * c ^ i))%ff) (seq 0 (Nat.min (length dst) (length src)))) = Nat.min (length dst) (length src))
    by (rewrite map_length, seq_length; reflexivity).
  split; [rewrite app_length, Ln, skipn_length; lia|]. intros i Hi. destruct (Nat.ltb_spec i (length src)).
  - rewrite app_nth1 by lia. rewrite nth_map_seq by lia. cbn [Nat.add]. f_equal.
    rewrite (nth_map snd _ i (f0 o, f0 o)) by (rewrite combine_length; lia).
    clear - Hi H. revert src i Hi H. induction dst as [|a dst IH]; intros [|b src] [|i] Hi H; cbn in *; try lia; [reflexivity|]. apply IH; lia.
  - rewrite app_nth2 by lia. rewrite Ln. rewrite nth_skipn. f_equal. lia.
Qed.
End Fft.
