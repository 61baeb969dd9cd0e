(** Bit reversal, transposition and chunked loops. *)
Require Import ZArith Arith Lia Bool List Permutation.
From Verif Require Import Word KnuthModel BinaryModel BinaryProofs FieldSig Arr FftSpec FftModel.
Import ListNotations.
Open Scope nat_scope.

(** ** Bit reversal *)
Lemma pow2_pos k : 0 < 2 ^ k. Proof. apply Nat.neq_0_lt_0, Nat.pow_nonzero. discriminate. Qed.
Lemma pow2_S k : 2 ^ S k = 2 * 2 ^ k. Proof. reflexivity. Qed.
Lemma rev_lt k i : rev_bits k i < 2 ^ k.
Proof.
  revert i. induction k as [|k IH]; intros i; [cbn; lia|]. cbn [rev_bits]. rewrite pow2_S. specialize (IH (i / 2)).
  pose proof (Nat.mod_upper_bound i 2 ltac:(lia)). nia.
Qed.
Lemma rev_zero k : rev_bits k 0 = 0.
Proof. induction k; [reflexivity|]. cbn [rev_bits]. change (0 mod 2) with 0. change (0 / 2) with 0. lia. Qed.
(** Splitting the expansion into a high and a low part exchanges their reversals. *)
Lemma rev_split a b h l : l < 2 ^ b -> rev_bits (b + a) (h * 2 ^ b + l) = rev_bits b l * 2 ^ a + rev_bits a h.
Proof.
  revert h l. induction b as [|b IH]; intros h l Hl.
  - cbn in Hl |- *. replace (h * 1 + l) with h by lia. reflexivity.
  - cbn [rev_bits Nat.add]. rewrite pow2_S in *.
    replace (h * (2 * 2 ^ b) + l) with (l + (h * 2 ^ b) * 2) by lia.
    rewrite Nat.mod_add by lia. rewrite Nat.div_add by lia. rewrite Nat.add_comm with (n := l / 2).
    rewrite IH by (apply Nat.div_lt_upper_bound; lia). rewrite Nat.pow_add_r. lia.
Qed.
Lemma rev_low k i : i < 2 ^ k -> rev_bits (S k) i = 2 * rev_bits k i.
Proof.
  intros H. pose proof (rev_split 1 k 0 i H) as E. rewrite Nat.add_1_r in E. cbn [Nat.mul Nat.add] in E. rewrite E.
  change (2 ^ 1) with 2. change (rev_bits 1 0) with 0. lia.
Qed.
Lemma rev_high k i : i < 2 ^ k -> rev_bits (S k) (2 ^ k + i) = 2 * rev_bits k i + 1.
Proof.
  intros H. pose proof (rev_split 1 k 1 i H) as E. rewrite Nat.add_1_r, Nat.mul_1_l in E. rewrite E.
  change (2 ^ 1) with 2. change (rev_bits 1 1) with 1. lia.
Qed.
Lemma rev_even k i : rev_bits (S k) (2 * i) = rev_bits k i.
Proof.
  cbn [rev_bits]. replace (2 * i) with (i * 2) by lia. rewrite Nat.mod_mul by lia. rewrite Nat.div_mul by lia. lia.
Qed.
Lemma rev_odd k i : rev_bits (S k) (2 * i + 1) = 2 ^ k + rev_bits k i.
Proof.
  cbn [rev_bits]. replace (2 * i + 1) with (1 + i * 2) by lia. rewrite Nat.mod_add by lia. rewrite Nat.div_add by lia.
  change (1 mod 2) with 1. change (1 / 2) with 0. cbn [Nat.add]. lia.
Qed.
Lemma rev_rev k i : i < 2 ^ k -> rev_bits k (rev_bits k i) = i.
Proof.
  revert i. induction k as [|k IH]; intros i H; [cbn in *; lia|]. cbn [rev_bits] in *.
  change ((rev_bits (S k) ((i mod 2) * 2 ^ k + rev_bits k (i / 2))) = i). rewrite pow2_S in H.
  pose proof (rev_lt k (i / 2)). pose proof (Nat.div_mod i 2 ltac:(lia)) as D.
  assert (I : i / 2 < 2 ^ k) by (apply Nat.div_lt_upper_bound; lia). specialize (IH _ I).
  assert (M : i mod 2 = 0 \/ i mod 2 = 1) by (pose proof (Nat.mod_upper_bound i 2); lia).
  destruct M as [M|M]; rewrite M.
  - cbn [Nat.mul Nat.add]. rewrite rev_low by assumption. lia.
  - rewrite Nat.mul_1_l. rewrite rev_high by assumption. lia.
Qed.

Lemma is_pow2 k : is_power_of_two (2 ^ k) = true.
Proof.
  unfold is_power_of_two. rewrite Nat.log2_pow2 by lia. rewrite Nat.eqb_refl.
  destruct (Nat.ltb_spec 0 (2 ^ k)); [reflexivity|]. pose proof (pow2_pos k). lia.
Qed.
Lemma is_pow2_inv n : is_power_of_two n = true -> n = 2 ^ Nat.log2 n.
Proof. unfold is_power_of_two. intros H. apply andb_prop in H as [_ H]. apply Nat.eqb_eq in H. auto. Qed.

Lemma testbit_nat x a : Z.b2z (Z.testbit (Z.of_nat x) (Z.of_nat a)) = Z.of_nat ((x / 2 ^ a) mod 2).
Proof.
  rewrite Z.testbit_spec' by lia. rewrite Nat2Z.inj_mod, Nat2Z.inj_div, Nat2Z.inj_pow. reflexivity.
Qed.
Lemma reverse_fold x n : forall a acc, (0 <= acc)%Z ->
  fold_left (fun acc i => Z.lor (Z.shiftl acc 1) (Z.b2z (Z.testbit (Z.of_nat x) (Z.of_nat i)))) (seq a n) acc
  = (acc * 2 ^ Z.of_nat n + Z.of_nat (rev_bits n (x / 2 ^ a)))%Z.
Proof.
  induction n as [|n IH]; intros a acc Ha.
  - cbn. change (2 ^ Z.of_nat 0)%Z with 1%Z. change (Z.of_nat 0) with 0%Z. lia.
  - cbn [seq fold_left].
    assert (E : Z.lor (Z.shiftl acc 1) (Z.b2z (Z.testbit (Z.of_nat x) (Z.of_nat a))) = (2 * acc + Z.of_nat ((x / 2 ^ a) mod 2))%Z).
    { rewrite testbit_nat. rewrite Z.shiftl_mul_pow2 by lia. change (2 ^ 1)%Z with 2%Z.
      pose proof (Nat.mod_upper_bound (x / 2 ^ a) 2 ltac:(lia)).
      assert (M : (x / 2 ^ a) mod 2 = 0 \/ (x / 2 ^ a) mod 2 = 1) by lia. destruct M as [-> | ->].
      - change (Z.of_nat 0) with 0%Z. rewrite Z.lor_0_r. lia.
      - change (Z.of_nat 1) with 1%Z. rewrite Z.mul_comm. destruct acc; [reflexivity|reflexivity|lia]. }
    rewrite E, IH by lia. cbn [rev_bits].
    replace (x / 2 ^ S a) with (x / 2 ^ a / 2) by (rewrite Nat.div_div by (try apply Nat.pow_nonzero; lia); f_equal; cbn; lia).
    replace (Z.of_nat (S n)) with (Z.succ (Z.of_nat n)) by lia. rewrite Z.pow_succ_r by lia.
    rewrite Nat2Z.inj_add, Nat2Z.inj_mul, Nat2Z.inj_pow. change (Z.of_nat 2) with 2%Z. lia.
Qed.
Lemma reverse_bits64_spec x : reverse_bits64 (Z.of_nat x) = Z.of_nat (rev_bits 64 x).
Proof.
  unfold reverse_bits64. rewrite reverse_fold by lia. change (2 ^ 0) with 1. rewrite Nat.div_1_r. rewrite Z.mul_0_l. reflexivity.
Qed.
Lemma ctz64_pow2 k : ctz64 (Z.of_nat (2 ^ k)) = Z.of_nat k.
Proof.
  pose proof (pow2_pos k). destruct (ctz64_spec (Z.of_nat (2 ^ k)) ltac:(lia)) as (H1 & x & H2).
  set (c := ctz64 (Z.of_nat (2 ^ k))) in *. rewrite Nat2Z.inj_pow in H2. change (Z.of_nat 2) with 2%Z in H2.
  destruct (Z.lt_trichotomy c (Z.of_nat k)) as [L|[E|L]]; [exfalso|exact E|exfalso].
  - replace (Z.of_nat k) with (c + (Z.of_nat k - c - 1 + 1))%Z in H2 by lia. rewrite !Z.pow_add_r in H2 by lia.
    change (2 ^ 1)%Z with 2%Z in H2. pose proof (Z.pow_pos_nonneg 2 c ltac:(lia) H1).
    set (t := (2 ^ (Z.of_nat k - c - 1))%Z) in *. assert ((2 * t = 2 * x + 1)%Z) by nia. lia.
  - replace c with (Z.of_nat k + (c - Z.of_nat k - 1 + 1))%Z in H2 by lia. rewrite !Z.pow_add_r in H2 by lia.
    change (2 ^ 1)%Z with 2%Z in H2. pose proof (Z.pow_pos_nonneg 2 (Z.of_nat k) ltac:(lia) ltac:(lia)).
    set (t := (2 ^ (c - Z.of_nat k - 1))%Z) in *. assert ((1 = (2 * x + 1) * (t * 2))%Z) by nia. lia.
Qed.

Lemma permute_index_spec dbg k i : k < 64 -> i < 2 ^ k -> permute_index dbg (2 ^ k) i = Some (rev_bits k i).
Proof.
  intros Hk Hi. unfold permute_index. rewrite (proj2 (Nat.ltb_lt _ _) Hi).
  replace (dassert dbg true) with (Some tt) by (destruct dbg; reflexivity). cbn [bind].
  destruct (Nat.eqb_spec (2 ^ k) 1) as [E|N].
  - rewrite E in Hi. replace i with 0 by lia. rewrite rev_zero. reflexivity.
  - rewrite is_pow2. replace (dassert dbg true) with (Some tt) by (destruct dbg; reflexivity). cbn [bind].
    rewrite ctz64_pow2. destruct (Z.eqb_spec (Z.of_nat k) 0) as [E|_]; [exfalso; apply N; replace k with 0 by lia; reflexivity|].
    f_equal. rewrite reverse_bits64_spec.
    assert (R : rev_bits 64 i = rev_bits k i * 2 ^ (64 - k)).
    { replace 64 with (k + (64 - k)) at 1 by lia. pose proof (rev_split (64 - k) k 0 i Hi) as S0.
      rewrite Nat.mul_0_l, Nat.add_0_l, rev_zero, Nat.add_0_r in S0. exact S0. }
    rewrite R. rewrite Z.shiftr_div_pow2 by lia. rewrite Nat2Z.inj_mul, Nat2Z.inj_pow. change (Z.of_nat 2) with 2%Z.
    rewrite Nat2Z.inj_sub by lia. change (Z.of_nat 64) with 64%Z. rewrite Z.div_mul by (apply Z.pow_nonzero; lia). lia.
Qed.

Lemma permute_spec {A} (d : A) dbg k v : k < 64 -> length v = 2 ^ k ->
  exists v', permute dbg v = Some v' /\ length v' = 2 ^ k /\ forall i, i < 2 ^ k -> nth i v' d = nth (rev_bits k i) v d.
Proof.
  intros Hk L. unfold permute. rewrite L.
  destruct (for_range (fun n w => swapped d (rev_bits k) v (fun p => p < n \/ rev_bits k p < n) w)
    (fun v i => let? j := permute_index dbg (2 ^ k) i in if i <? j then swap v i j else Some v) 0 (2 ^ k) v) as (v' & E & H).
  - apply swapped_start. lia.
  - intros i w Hi H. rewrite permute_index_spec by lia. cbn [bind].
    pose proof (rev_rev k i ltac:(lia)) as RR. pose proof (rev_lt k i) as RL. set (j := rev_bits k i) in *.
    assert (Inj : forall p, p < 2 ^ k -> rev_bits k p = i -> p = j).
    { intros p Hp <-. unfold j. rewrite rev_rev by assumption. reflexivity. }
    destruct (Nat.ltb_spec i j) as [Lt|Ge].
    + apply (swapped_step d (rev_bits k) v _ _ w i j H); [lia|lia|reflexivity|auto|fold j; lia|lia|].
      intros p Hp. rewrite L in Hp. split.
      * intros [C|C].
        -- destruct (Nat.eq_dec p i); [tauto|left; lia].
        -- destruct (Nat.eq_dec (rev_bits k p) i); [right; right; auto|left; lia].
      * intros [[C|C]|[-> | ->]]; [lia|lia|lia|right; lia].
    + exists w. split; [reflexivity|]. eapply swapped_ext; [exact H| |intros p; cbv beta; lia].
      intros p Hp. rewrite L in Hp. destruct (Nat.eq_dec j i) as [Ej|Nj].
      * destruct (Nat.eq_dec p i) as [->|Np]; [left; exact Ej|]. right.
        assert (rev_bits k p <> i) by (intros C; apply Inj in C; [congruence|assumption]). lia.
      * right. assert (j < i) by lia. split; [lia|]. intros [C|C].
        -- destruct (Nat.eq_dec p i) as [->|]; [right; exact H0|lia].
        -- destruct (Nat.eq_dec (rev_bits k p) i) as [Ep|]; [apply Inj in Ep; [left; lia|assumption]|lia].
  - exists v'. split; [exact E|]. apply swapped_end in H; [|intros p Hp; lia]. destruct H as [L' H].
    split; [lia|]. intros i Hi. apply H. lia.
Qed.

(** ** Transposition *)
Section Transpose.
Context {A : Type} (d : A) (size st : nat) (v0 : list A).
Hypothesis len : length v0 = size * size * st.
Definition ix (r c k : nat) : nat := (r * size + c) * st + k.
Definition inr (r c k : nat) : Prop := r < size /\ c < size /\ k < st.
Lemma ix_lt r c k : inr r c k -> ix r c k < length v0.
Proof. intros (H1 & H2 & H3). rewrite len. unfold ix. assert (r * size + c + 1 <= size * size) by nia. nia. Qed.
Lemma ix_inj r c k r' c' k' : inr r c k -> inr r' c' k' -> ix r c k = ix r' c' k' -> r = r' /\ c = c' /\ k = k'.
Proof.
  intros (H1 & H2 & H3) (H1' & H2' & H3') E. unfold ix in E. apply coord_inj in E; [|assumption|assumption].
  destruct E as [E ->]. apply coord_inj in E; tauto.
Qed.
Lemma ix_surj p : p < length v0 -> exists r c k, inr r c k /\ p = ix r c k.
Proof.
  intros H. rewrite len in H. assert (0 < st) by nia. assert (0 < size) by nia.
  exists (p / st / size), ((p / st) mod size), (p mod st). unfold inr, ix.
  pose proof (Nat.div_mod p st ltac:(lia)). pose proof (Nat.div_mod (p / st) size ltac:(lia)).
  pose proof (Nat.mod_upper_bound p st ltac:(lia)). pose proof (Nat.mod_upper_bound (p / st) size ltac:(lia)).
  split; [|nia]. split; [|auto]. apply Nat.div_lt_upper_bound; [lia|]. apply Nat.div_lt_upper_bound; [lia|]. nia.
Qed.
Definition mswapped (D : nat -> nat -> nat -> Prop) (v : list A) : Prop :=
  length v = length v0 /\ forall r c k, inr r c k ->
  (D r c k -> nth (ix r c k) v d = nth (ix c r k) v0 d) /\ (~ D r c k -> nth (ix r c k) v d = nth (ix r c k) v0 d).
Lemma mswapped_start (D : nat -> nat -> nat -> Prop) : (forall r c k, inr r c k -> ~ D r c k) -> mswapped D v0.
Proof. intros H. split; [reflexivity|]. intros r c k I. split; [intros C; exfalso; exact (H r c k I C)|reflexivity]. Qed.
Lemma mswapped_step (D D' : nat -> nat -> nat -> Prop) v r0 c0 k0 i j : mswapped D v -> inr r0 c0 k0 -> i = ix r0 c0 k0 -> j = ix c0 r0 k0 ->
  ~ D r0 c0 k0 -> ~ D c0 r0 k0 ->
  (forall r c k, inr r c k -> (D' r c k <-> D r c k \/ (r = r0 /\ c = c0 /\ k = k0) \/ (r = c0 /\ c = r0 /\ k = k0))) ->
  exists v', swap v i j = Some v' /\ mswapped D' v'.
Proof.
  intros [L H] I Ei Ej D1 D2 HD. assert (I' : inr c0 r0 k0) by (destruct I as (?&?&?); unfold inr; auto).
  pose proof (ix_lt _ _ _ I) as B1. pose proof (ix_lt _ _ _ I') as B2.
  destruct (swap_ok v i j d) as (v' & E & L' & Hv); [rewrite L; subst; assumption..|]. exists v'. split; [exact E|].
  split; [congruence|]. intros r c k J. rewrite Hv.
  destruct (H _ _ _ I) as [_ HI]. destruct (H _ _ _ I') as [_ HI'].
  destruct (Nat.eqb_spec (ix r c k) j) as [E1|N1].
  { rewrite Ej in E1. apply ix_inj in E1 as (-> & -> & ->); [|assumption|assumption]. rewrite Ei.
    split; intros C; [auto|exfalso; apply C, HD; auto]. }
  destruct (Nat.eqb_spec (ix r c k) i) as [E2|N2].
  { rewrite Ei in E2. apply ix_inj in E2 as (-> & -> & ->); [|assumption|assumption]. rewrite Ej.
    split; intros C; [auto|exfalso; apply C, HD; auto]. }
  destruct (H r c k J) as [H1 H2]. split; intros C.
  - apply HD in C; [|assumption]. destruct C as [C|[(-> & -> & ->)|(-> & -> & ->)]]; [auto|congruence|congruence].
  - apply H2. intros C'. apply C, HD; auto.
Qed.
Lemma mswapped_ext (D D' : nat -> nat -> nat -> Prop) v : mswapped D v -> (forall r c k, inr r c k -> D r c k \/ ~ D r c k) ->
  (forall r c k, inr r c k -> r = c \/ (D r c k <-> D' r c k)) -> mswapped D' v.
Proof.
  intros [L H] Dec HE. split; [exact L|]. intros r c k I. destruct (H r c k I) as [H1 H2].
  destruct (HE r c k I) as [->|E]; [|split; intros C; [apply H1|apply H2]; tauto].
  destruct (Dec c c k I) as [C|C]; split; auto.
Qed.
Definition transposed (v : list A) : Prop :=
  length v = length v0 /\ forall r c k, inr r c k -> nth (ix r c k) v d = nth (ix c r k) v0 d.
End Transpose.

Lemma skipn1_seq a n : skipn 1 (seq a n) = seq (S a) (n - 1).
Proof. destruct n; [reflexivity|]. cbn. rewrite Nat.sub_0_r. reflexivity. Qed.
Lemma dassert_ok dbg b : b = true -> dassert dbg b = Some tt.
Proof. intros ->. destruct dbg; reflexivity. Qed.

Lemma transpose_2_spec {A} (d : A) dbg v size : length v = size * size * 2 ->
  exists v', transpose_square_2 dbg v size = Some v' /\ transposed d size 2 v v'.
Proof.
  intros L. unfold transpose_square_2. rewrite dassert_ok by (apply Nat.eqb_eq; lia). cbn [bind].
  destruct (for_range (fun row w => mswapped d size 2 v (fun r c _ => Nat.min r c < row) w)
    (fun matrix row => for_each (skipn 1 (seq row (size - row))) (fun matrix col =>
      let i := (row * size + col) * 2 in let j := (col * size + row) * 2 in
      let? matrix := swap matrix i j in swap matrix (i + 1) (j + 1)) matrix) 0 size v) as (v' & E & H).
  - apply mswapped_start. lia.
  - intros row w Hr H. rewrite skipn1_seq.
    destruct (for_range (fun col w => mswapped d size 2 v (fun r c _ => Nat.min r c < row \/ (Nat.min r c = row /\ row < Nat.max r c < col)) w)
      (fun matrix col => let i := (row * size + col) * 2 in let j := (col * size + row) * 2 in
      let? matrix := swap matrix i j in swap matrix (i + 1) (j + 1)) (S row) (size - row - 1) w) as (w' & E & H').
    + eapply mswapped_ext; [exact H| |]; intros; cbv beta; lia.
    + intros col w1 Hc H1. cbv zeta.
      destruct (mswapped_step d size 2 v L _ (fun r c k => Nat.min r c < row \/ (Nat.min r c = row /\ row < Nat.max r c < col) \/ (k = 0 /\ Nat.min r c = row /\ Nat.max r c = col))
        w1 row col 0 ((row * size + col) * 2) ((col * size + row) * 2) H1) as (w2 & -> & H2);
        [unfold inr; lia|unfold ix; lia|unfold ix; lia|lia|lia|unfold inr; intros; cbv beta in *; lia|]. cbn [bind].
      apply (mswapped_step d size 2 v L _ (fun r c _ => Nat.min r c < row \/ (Nat.min r c = row /\ row < Nat.max r c < col + 1))
        w2 row col 1 _ _ H2); [unfold inr; lia|unfold ix; lia|unfold ix; lia|lia|lia|unfold inr; intros; cbv beta in *; lia].
    + exists w'. split; [exact E|]. eapply mswapped_ext; [exact H'|intros; cbv beta; lia|unfold inr; intros; cbv beta in *; lia].
  - exists v'. split; [exact E|]. destruct H as [L' H]. split; [exact L'|]. intros r c k I. apply H; [assumption|]. unfold inr in I. lia.
Qed.

Lemma range_step_2 h : range_step 0 (2 * h) 2 = map (fun k => 2 * k) (seq 0 h).
Proof. replace (2 * h) with (0 + h * 2) by lia. rewrite range_step_exact by lia. apply map_ext. intros; cbv beta; lia. Qed.
Lemma range_step_2' R h : R < h -> skipn 1 (range_step (2 * R) (2 * h) 2) = map (fun k => 2 * k) (seq (S R) (h - R - 1)).
Proof.
  intros H. replace (2 * h) with (2 * R + (h - R) * 2) by lia. rewrite range_step_exact by lia.
  rewrite skipn_map, skipn1_seq.
  replace (seq (S R) (h - R - 1)) with (map (fun k => R + k) (seq 1 (h - R - 1))).
  - rewrite map_map. apply map_ext. intros; cbv beta; lia.
  - generalize (h - R - 1). intros n. rewrite <- (Nat.add_1_r R). generalize 1. induction n; intros m; [reflexivity|].
    cbn [seq map]. f_equal. rewrite IHn. f_equal. lia.
Qed.
Lemma em_or P Q : P \/ ~ P -> Q \/ ~ Q -> (P \/ Q) \/ ~ (P \/ Q). Proof. tauto. Qed.
Lemma em_and P Q : P \/ ~ P -> Q \/ ~ Q -> (P /\ Q) \/ ~ (P /\ Q). Proof. tauto. Qed.
Lemma em_lt (a b : nat) : a < b \/ ~ a < b. Proof. lia. Qed.
Lemma em_eq (a b : nat) : a = b \/ ~ a = b. Proof. lia. Qed.
Ltac em := intros; cbv beta; repeat first [apply em_or | apply em_and | apply em_lt | apply em_eq].
Ltac pick := lazymatch goal with |- _ \/ _ => first [left; pick | right; pick] | _ => solve [repeat split; lia] end.
Lemma mswapped_swap {A} (d : A) size st v0 (len : length v0 = size * size * st) D v r0 c0 k0 i j :
  mswapped d size st v0 D v -> inr size st r0 c0 k0 -> i = ix size st r0 c0 k0 -> j = ix size st c0 r0 k0 ->
  ~ D r0 c0 k0 -> ~ D c0 r0 k0 ->
  exists v', swap v i j = Some v' /\
  mswapped d size st v0 (fun r c k => D r c k \/ (r = r0 /\ c = c0 /\ k = k0) \/ (r = c0 /\ c = r0 /\ k = k0)) v'.
Proof. intros. eapply mswapped_step; try eassumption. intros; reflexivity. Qed.
Lemma half n : exists a b, n = 2 * a + b /\ b < 2 /\ n / 2 = a.
Proof. exists (n / 2), (n mod 2). pose proof (Nat.div_mod n 2). pose proof (Nat.mod_upper_bound n 2). lia. Qed.
Lemma half0 a : 2 * a / 2 = a. Proof. rewrite Nat.mul_comm. apply Nat.div_mul. lia. Qed.
Lemma half1 a : (2 * a + 1) / 2 = a. Proof. rewrite Nat.mul_comm, Nat.div_add_l by lia. change (1 / 2) with 0. lia. Qed.
Lemma transpose_1_spec {A} (d : A) dbg v size : length v = size * size * 1 -> size mod 2 = 0 ->
  exists v', transpose_square_1 dbg v size = Some v' /\ transposed d size 1 v v'.
Proof.
  intros L Ev. unfold transpose_square_1. rewrite dassert_ok by (apply Nat.eqb_eq; lia). cbn [bind]. rewrite Ev. cbn [Nat.eqb negb].
  assert (exists h, size = 2 * h) as [h Eh] by (exists (size / 2); pose proof (Nat.div_mod size 2); lia).
  replace (range_step 0 size 2) with (range_step 0 (2 * h) 2) by (f_equal; lia). rewrite range_step_2, for_each_map. clear Ev.
  match goal with |- exists v', for_each _ ?b _ = _ /\ _ =>
    destruct (for_range (fun R w => mswapped d size 1 v (fun r c _ => r / 2 < R \/ c / 2 < R) w) b 0 h v) as (v' & E & H) end.
  - apply mswapped_start. lia.
  - intros R w HR H.
    destruct (mswapped_swap d size 1 v L _ w (2 * R) (2 * R + 1) 0 (2 * R * size + 2 * R + 1) (2 * R * size + 2 * R + size) H) as (w1 & -> & H1);
      [unfold inr; lia|unfold ix; lia|unfold ix; lia|rewrite half0, half1; lia|rewrite half0, half1; lia|]. cbn [bind].
    replace (range_step (2 * R) size 2) with (range_step (2 * R) (2 * h) 2) by (f_equal; lia).
    rewrite range_step_2' by lia. rewrite for_each_map.
    match goal with |- exists v', for_each _ ?b _ = _ /\ _ =>
      destruct (for_range (fun C w => mswapped d size 1 v (fun r c _ => (r / 2 < R \/ c / 2 < R) \/ (r / 2 = R /\ c / 2 < C) \/ (c / 2 = R /\ r / 2 < C)) w)
        b (S R) (h - R - 1) w1) as (w' & E & H') end.
    + eapply mswapped_ext; [exact H1|em|]. intros r c k I.
      destruct (half r) as (a & b & -> & Hb & ->), (half c) as (a' & b' & -> & Hb' & ->). unfold inr in I. cbv beta. lia.
    + intros C w2 HC H2.
      destruct (mswapped_swap d size 1 v L _ w2 (2 * R) (2 * C) 0 (2 * R * size + 2 * C) (2 * C * size + 2 * R) H2) as (w3 & -> & H3);
        [unfold inr; lia|unfold ix; lia|unfold ix; lia|rewrite ?half0, ?half1; lia|rewrite ?half0, ?half1; lia|]. cbn [bind].
      destruct (mswapped_swap d size 1 v L _ w3 (2 * R) (2 * C + 1) 0 (2 * R * size + 2 * C + 1) (2 * C * size + 2 * R + size) H3) as (w4 & -> & H4);
        [unfold inr; lia|unfold ix; lia|unfold ix; lia|rewrite ?half0, ?half1; lia|rewrite ?half0, ?half1; lia|]. cbn [bind].
      destruct (mswapped_swap d size 1 v L _ w4 (2 * R + 1) (2 * C) 0 (2 * R * size + 2 * C + size) (2 * C * size + 2 * R + 1) H4) as (w5 & -> & H5);
        [unfold inr; lia|unfold ix; lia|unfold ix; lia|rewrite ?half0, ?half1; lia|rewrite ?half0, ?half1; lia|]. cbn [bind].
      destruct (mswapped_swap d size 1 v L _ w5 (2 * R + 1) (2 * C + 1) 0 (2 * R * size + 2 * C + size + 1) (2 * C * size + 2 * R + size + 1) H5) as (w6 & -> & H6);
        [unfold inr; lia|unfold ix; lia|unfold ix; lia|rewrite ?half0, ?half1; lia|rewrite ?half0, ?half1; lia|].
      exists w6. split; [reflexivity|]. eapply mswapped_ext; [exact H6|em|]. intros r c k I. right. cbv beta.
      destruct (half r) as (a & b & -> & Hb & ->), (half c) as (a' & b' & -> & Hb' & ->). unfold inr in I.
      assert (Hk : k = 0) by lia. clear - Hk Hb Hb' HC.
      assert (B : b = 0 \/ b = 1) by lia. assert (B' : b' = 0 \/ b' = 1) by lia.
      split.
      * intros H. repeat (destruct H as [H|H]; try lia).
      * intros [[H|H]|[[H1 H2]|[H1 H2]]]; [pick|pick| |].
        -- destruct (Nat.eq_dec a' C); [|pick]. destruct B as [-> | ->], B' as [-> | ->]; pick.
        -- destruct (Nat.eq_dec a C); [|pick]. destruct B as [-> | ->], B' as [-> | ->]; pick.
    + exists w'. split; [exact E|]. eapply mswapped_ext; [exact H'|em|]. unfold inr; intros r c k I. right. cbv beta.
      destruct (half r) as (a & b & -> & Hb & ->), (half c) as (a' & b' & -> & Hb' & ->). lia.
  - exists v'. split; [exact E|]. destruct H as [L' H]. split; [exact L'|]. intros r c k I. apply H; [assumption|]. unfold inr in I.
    left. apply Nat.div_lt_upper_bound; lia.
Qed.

Lemma transpose_spec {A} (d : A) dbg v size st : length v = size * size * st -> (st = 1 /\ size mod 2 = 0 \/ st = 2) ->
  exists v', transpose_square_stretch dbg v size st = Some v' /\ transposed d size st v v'.
Proof.
  intros L H. unfold transpose_square_stretch. rewrite (proj2 (Nat.eqb_eq _ _) L). cbn [negb].
  destruct H as [[-> H]| ->]; [apply transpose_1_spec|apply transpose_2_spec]; assumption.
Qed.

(** ** Chunked loops *)
Lemma nth_firstn {A} n : forall j (l : list A) d, j < n -> nth j (firstn n l) d = nth j l d.
Proof. induction n as [|n IH]; intros j l d H; [lia|]. destruct l as [|a l]; [reflexivity|]. destruct j as [|j]; cbn; [reflexivity|]. apply IH. lia. Qed.
Lemma nth_skipn {A} n : forall j (l : list A) d, nth j (skipn n l) d = nth (n + j) l d.
Proof. induction n as [|n IH]; intros j l d; [reflexivity|]. destruct l as [|a l]; [destruct j; reflexivity|]. apply IH. Qed.
Lemma chunk_nth {A} n i (v : list A) j d : j < n -> nth j (chunk n i v) d = nth (i * n + j) v d.
Proof. intros H. unfold chunk. rewrite nth_firstn by assumption. apply nth_skipn. Qed.
Lemma chunk_length {A} n i (v : list A) : length (chunk n i v) = Nat.min n (length v - i * n).
Proof. unfold chunk. rewrite firstn_length, skipn_length. reflexivity. Qed.
Lemma write_chunk_length {A} n i (v c : list A) : length c = length (chunk n i v) -> length (write_chunk n i v c) = length v.
Proof.
  intros H. unfold write_chunk. rewrite !app_length, firstn_length, skipn_length. rewrite chunk_length in H. lia.
Qed.
Lemma write_chunk_nth {A} n i (v c : list A) p d : length c = length (chunk n i v) ->
  nth p (write_chunk n i v c) d = if (i * n <=? p) && (p <? i * n + length c) then nth (p - i * n) c d else nth p v d.
Proof.
  intros H. rewrite chunk_length in H. unfold write_chunk.
  destruct (Nat.leb_spec (i * n) p) as [L|L]; cbn [andb].
  - destruct (le_lt_dec (length v) (i * n)) as [G|G].
    + assert (C : c = []) by (apply length_zero_iff_nil; lia). subst c. cbn [app length]. rewrite Nat.add_0_r.
      destruct (Nat.ltb_spec p (i * n)); [lia|]. rewrite firstn_skipn. reflexivity.
    + rewrite app_nth2 by (rewrite firstn_length; lia). rewrite firstn_length, Nat.min_l by lia.
      destruct (Nat.ltb_spec p (i * n + length c)).
      * rewrite app_nth1 by lia. reflexivity.
      * rewrite app_nth2 by lia. rewrite nth_skipn. f_equal. lia.
  - destruct (le_lt_dec (length v) p) as [G|G].
    + rewrite !nth_overflow; [reflexivity|lia|]. rewrite !app_length, firstn_length, skipn_length. lia.
    + rewrite app_nth1 by (rewrite firstn_length; lia). apply nth_firstn. lia.
Qed.
Lemma chunk_ext {A} n i (v w : list A) d : length v = length w ->
  (forall j, j < n -> nth (i * n + j) v d = nth (i * n + j) w d) -> chunk n i v = chunk n i w.
Proof.
  intros L H. apply list_ext with (d := d); [rewrite !chunk_length; congruence|]. intros j Hj. rewrite chunk_length in Hj.
  rewrite !chunk_nth by lia. apply H. lia.
Qed.
Lemma chunk_write_same {A} n i (v c : list A) : length c = length (chunk n i v) -> chunk n i (write_chunk n i v c) = c.
Proof.
  intros H. destruct c as [|d c'] eqn:Ec.
  - assert (length (chunk n i (write_chunk n i v [])) = 0).
    { rewrite chunk_length, write_chunk_length by exact H. rewrite chunk_length in H. cbn in H. lia. }
    apply length_zero_iff_nil. assumption.
  - rewrite <- Ec in *. apply list_ext with (d := d); [rewrite chunk_length, write_chunk_length by exact H; rewrite chunk_length in H; lia|].
    intros j Hj. rewrite chunk_length, write_chunk_length in Hj by exact H. rewrite chunk_nth by lia. rewrite write_chunk_nth by exact H.
    rewrite chunk_length in H. destruct (Nat.leb_spec (i * n) (i * n + j)); [|lia].
    destruct (Nat.ltb_spec (i * n + j) (i * n + length c)); [|lia]. cbn. f_equal. lia.
Qed.
Lemma chunk_write_other {A} n i k (v c : list A) : length c = length (chunk n i v) -> k <> i -> chunk n k (write_chunk n i v c) = chunk n k v.
Proof.
  intros H N. destruct v as [|d v'] eqn:Ev.
  - assert (length (write_chunk n i [] c) = 0) as E by (rewrite write_chunk_length by exact H; reflexivity).
    apply length_zero_iff_nil in E. rewrite E. reflexivity.
  - rewrite <- Ev in *. apply chunk_ext with (d := d); [apply write_chunk_length; exact H|].
    intros j Hj. rewrite write_chunk_nth by exact H. rewrite chunk_length in H.
    destruct (Nat.leb_spec (i * n) (k * n + j)); [|reflexivity].
    destruct (Nat.ltb_spec (k * n + j) (i * n + length c)); [|reflexivity]. exfalso. apply N. nia.
Qed.
(** Running the jobs of distinct chunks in any order applies each job to its own initial chunk. *)
Lemma par_chunks_spec {A} n (job : nat -> list A -> option (list A)) order : forall v, NoDup order ->
  (forall i, In i order -> exists c, job i (chunk n i v) = Some c /\ length c = length (chunk n i v)) ->
  exists v', par_chunks n order job v = Some v' /\ length v' = length v /\
  forall i, (In i order -> job i (chunk n i v) = Some (chunk n i v')) /\ (~ In i order -> chunk n i v' = chunk n i v).
Proof.
  induction order as [|i order IH]; intros v ND H.
  - exists v. split; [reflexivity|]. split; [reflexivity|]. intros i. split; [intros []|reflexivity].
  - inversion ND as [|? ? N ND']; subst. destruct (H i (or_introl eq_refl)) as (c & E & Lc).
    unfold par_chunks in *. cbn [for_each]. rewrite E. cbn [bind].
    destruct (IH (write_chunk n i v c) ND') as (v' & E' & L' & H').
    { intros k Hk. assert (k <> i) by congruence. rewrite chunk_write_other by assumption. apply H. right. assumption. }
    exists v'. split; [exact E'|]. split; [rewrite L'; apply write_chunk_length; exact Lc|].
    intros k. destruct (H' k) as [H1 H2]. split.
    + intros [<-|Hk].
      * rewrite H2 by assumption. rewrite chunk_write_same by assumption. exact E.
      * specialize (H1 Hk). rewrite chunk_write_other in H1; [exact H1|assumption|congruence].
    + intros Nk. cbn in Nk. rewrite H2 by tauto. apply chunk_write_other; [assumption|]. intros ->. tauto.
Qed.
