(** C61: random integers and field elements are uniform. *)
Require Import ZArith Lia Bool List.
From Verif Require Import Word U256Model U256Spec U256Proofs BinaryModel BinaryProofs MontgomeryModel MontgomeryProofs MontgomeryProps FieldSpec FieldModel FieldProofs FieldProps Primes FieldInstance RandModel.
Import ListNotations.
Open Scope Z_scope.

(** The four words of a 256 bit number, as the generator delivers them *)
Definition words_of (x : u256) : list Z := [l0 x; l1 x; l2 x; l3 x].
(** The raw number is shifted to the length of the range. *)
Definition excess (n : Z) : Z := 255 - Z.log2 n.

Lemma excess_bounds n : 0 < n < 2 ^ 256 -> 0 <= excess n <= 255 /\ 2 ^ 255 <= n * 2 ^ excess n < 2 ^ 256.
Proof.
  intros Hn. pose proof (Z.log2_spec n ltac:(lia)) as [H1 H2]. pose proof (Z.log2_nonneg n) as H0. assert (H3 : Z.log2 n < 256) by (apply Z.log2_lt_pow2; lia). unfold excess. split; [lia|].
  assert (P : 0 < 2 ^ (255 - Z.log2 n)) by (apply Z.pow_pos_nonneg; lia). rewrite Z.pow_succ_r in H2 by lia.
  assert (E : 2 ^ Z.log2 n * 2 ^ (255 - Z.log2 n) = 2 ^ 255) by (rewrite <- Z.pow_add_r by lia; f_equal; lia). change (2 ^ 256) with (2 * 2 ^ 255). split; nia.
Qed.
Lemma u_leading_zeros_pos x : wf x -> 0 < val x -> u_leading_zeros x = excess (val x).
Proof. intros Hx Hp. rewrite u_leading_zeros_spec by exact Hx. destruct (Z.eqb_spec (val x) 0); [lia|]. reflexivity. Qed.
Lemma draw_words x rest : draw (words_of x ++ rest) = Some (x, rest).
Proof. destruct x. reflexivity. Qed.
Lemma draw_wf ws x rest : Forall u64 ws -> draw ws = Some (x, rest) -> wf x /\ Forall u64 rest /\ ws = words_of x ++ rest.
Proof.
  intros F H. destruct ws as [|a [|b [|c [|d ws]]]]; try discriminate H. injection H as <- <-. inversion F as [|? ? F1 F2]; subst. inversion F2 as [|? ? F3 F4]; subst. inversion F4 as [|? ? F5 F6]; subst. inversion F6 as [|? ? F7 F8]; subst.
  split; [unfold wf; cbn [l0 l1 l2 l3]; auto|]. split; [assumption|reflexivity].
Qed.
Section Loop.
Variables (range : u256) (n : Z).
Hypotheses (D : denotes range n) (N : 0 < n).
Lemma n_bounds : 0 < n < 2 ^ 256.
Proof. destruct D as [Hr <-]. split; [exact N|]. apply (val_range range Hr). Qed.
Lemma loop_range fuel : forall ws x rest, Forall u64 ws -> sample_loop fuel range (excess n) ws = Some (x, rest) -> wf x /\ val x < n.
Proof.
  induction fuel as [|fuel IH]; intros ws x rest F H; [discriminate H|]. cbn [sample_loop] in H. destruct (draw ws) as [[y ws']|] eqn:E; [|discriminate H]. cbn [bind] in H.
  destruct (draw_wf ws y ws' F E) as (Hy & F' & _). destruct (excess_bounds n n_bounds) as [HE _]. destruct (u_shr_spec y (excess n) Hy ltac:(lia)) as [S1 S2]. rewrite u_geb_spec in H by (try exact S1; apply D).
  destruct (Z.leb_spec (val range) (val (u_shr y (excess n)))) as [_|Hlt]; [exact (IH _ _ _ F' H)|]. assert (x = u_shr y (excess n)) by congruence. subst x. split; [exact S1|]. destruct D as [_ <-]. exact Hlt.
Qed.
Lemma loop_accepts : forall rejected fuel x rest, Forall (fun r => wf r /\ n <= val r / 2 ^ excess n) rejected -> wf x -> val x / 2 ^ excess n < n -> (length rejected < fuel)%nat ->
  sample_loop fuel range (excess n) (flat_map words_of rejected ++ words_of x ++ rest) = Some (u_shr x (excess n), rest).
Proof.
  destruct (excess_bounds n n_bounds) as [HE _]. pose proof D as [Hr Vr].
  induction rejected as [|r rejected IH]; intros fuel x rest F Hx A L; (destruct fuel as [|fuel]; [cbn [length] in L; lia|]); cbn [sample_loop flat_map].
  - cbn [app]. rewrite (draw_words x rest). cbn [bind]. destruct (u_shr_spec x (excess n) Hx ltac:(lia)) as [S1 S2]. rewrite u_geb_spec by assumption. destruct (Z.leb_spec (val range) (val (u_shr x (excess n)))); [lia|reflexivity].
  - inversion F as [|? ? [Hw Hrej] F']; subst. rewrite <- app_assoc. rewrite draw_words. cbn [bind]. destruct (u_shr_spec r (excess (val range)) Hw ltac:(lia)) as [S1 S2]. rewrite u_geb_spec by assumption. destruct (Z.leb_spec (val range) (val (u_shr r (excess (val range))))); [|lia].
    apply IH; auto. cbn [length] in L. lia.
Qed.
End Loop.

(** The numbers from low up to, but excluding, low + n, delivered by the sampler [u] *)
Lemma sample_ranged low lo range n : denotes low lo -> denotes range n -> 0 < n -> lo + n <= 2 ^ 256 ->
  (forall fuel ws y rest, Forall u64 ws -> sample fuel (Ranged low range) ws = Some (y, rest) -> exists v, denotes y v /\ lo <= v < lo + n) /\
  (forall fuel rejected x rest, Forall (fun r => wf r /\ n <= val r / 2 ^ excess n) rejected -> wf x -> val x / 2 ^ excess n < n -> (length rejected < fuel)%nat ->
    exists y, sample fuel (Ranged low range) (flat_map words_of rejected ++ words_of x ++ rest) = Some (y, rest) /\ denotes y (lo + val x / 2 ^ excess n)).
Proof.
  intros [Hl Vl] D N B. pose proof D as [Hr Vr]. pose proof (val_range _ Hl) as Rl. assert (EL : u_leading_zeros range = excess n) by (rewrite <- Vr; apply u_leading_zeros_pos; [exact Hr|lia]). change (2 ^ 256) with W in B.
  assert (A : forall x, wf x -> val x < n -> denotes (u_add x low) (lo + val x)).
  { intros x Hx L. pose proof (val_range _ Hx) as Rx. destruct (u_add_spec x low Hx Hl) as [A1 A2]. split; [exact A1|]. rewrite A2, Z.mod_small by lia. lia. }
  split.
  - intros fuel ws y rest F H. cbn [sample] in H. rewrite EL in H. destruct (sample_loop fuel range (excess n) ws) as [[x r]|] eqn:E; [|discriminate H]. destruct (loop_range range n D N fuel ws x r F E) as [Hx L]. pose proof (val_range _ Hx) as Rx.
    cbn [bind] in H. assert (y = u_add x low) by congruence. subst y. exists (lo + val x). split; [exact (A x Hx L)|lia].
  - intros fuel rejected x rest F Hx L Len. cbn [sample]. rewrite EL, (loop_accepts range n D N rejected fuel x rest F Hx L Len). cbn [bind]. eexists. split; [reflexivity|].
    destruct (excess_bounds n (n_bounds range n D N)) as [HE _]. destruct (u_shr_spec x (excess n) Hx ltac:(lia)) as [S1 S2]. rewrite <- S2. apply A; [exact S1|lia].
Qed.
Lemma sub_range low lo high hi : denotes low lo -> denotes high hi -> lo < hi -> denotes (u_sub high low) (hi - lo).
Proof. intros [Hl Vl] [Hh Vh] L. destruct (u_sub_spec high low Hh Hl) as [S1 S2]. split; [exact S1|]. pose proof (val_range _ Hl). pose proof (val_range _ Hh). rewrite S2, Z.mod_small by lia. lia. Qed.
Lemma sub_range_inclusive low lo high hi : denotes low lo -> denotes high hi -> lo <= hi -> hi - lo + 1 < 2 ^ 256 -> denotes (u_add (u_sub high low) ONE) (hi - lo + 1).
Proof.
  intros [Hl Vl] [Hh Vh] L Lt. change (2 ^ 256) with W in Lt. destruct (u_sub_spec high low Hh Hl) as [S1 S2]. pose proof (val_range _ Hl). pose proof (val_range _ Hh). rewrite Z.mod_small in S2 by lia.
  assert (HO : denotes ONE 1) by (unfold denotes, wf, u64; vm_compute; repeat split; congruence). destruct HO as [HO VO]. destruct (u_add_spec (u_sub high low) ONE S1 HO) as [A1 A2]. split; [exact A1|]. rewrite A2, Z.mod_small by lia. lia.
Qed.

(** The numbers 0 .. 2^256 - 1 correspond one to one to the four words read. *)
Theorem C61_standard :
  (forall a b c d rest, u64 a -> u64 b -> u64 c -> u64 d -> exists x, draw (a :: b :: c :: d :: rest) = Some (x, rest) /\ denotes x (a + 2 ^ 64 * b + 2 ^ 128 * c + 2 ^ 192 * d)) /\
  (forall n, 0 <= n < 2 ^ 256 -> exists a b c d, u64 a /\ u64 b /\ u64 c /\ u64 d /\ n = a + 2 ^ 64 * b + 2 ^ 128 * c + 2 ^ 192 * d).
Proof.
  split.
  - intros a b c d rest Ha Hb Hc Hd. eexists. split; [reflexivity|]. split; [unfold wf; cbn [l0 l1 l2 l3]; auto|]. rewrite val_B. cbn [l0 l1 l2 l3]. unfold v4. change B with (2 ^ 64). ring.
  - intros n Hn. exists (n mod 2 ^ 64), (n / 2 ^ 64 mod 2 ^ 64), (n / 2 ^ 128 mod 2 ^ 64), (n / 2 ^ 192). unfold u64. change B with (2 ^ 64).
    repeat (split; [apply Z.mod_pos_bound; reflexivity|]). split; [split; [apply Z.div_pos; [lia|reflexivity]|apply Z.div_lt_upper_bound; [reflexivity|exact (proj2 Hn)]]|].
    rewrite (Z.div_mod n (2 ^ 64)) at 1 by discriminate. rewrite (Z.div_mod (n / 2 ^ 64) (2 ^ 64)) at 1 by discriminate. rewrite Z.div_div by (try discriminate; reflexivity). change (2 ^ 64 * 2 ^ 64) with (2 ^ 128).
    rewrite (Z.div_mod (n / 2 ^ 128) (2 ^ 64)) at 1 by discriminate. rewrite (Z.div_div n (2 ^ 128)) by (try discriminate; reflexivity). change (2 ^ 128 * 2 ^ 64) with (2 ^ 192). change (2 ^ 192) with (2 ^ 128 * 2 ^ 64). change (2 ^ 128) with (2 ^ 64 * 2 ^ 64). ring.
Qed.
Print Assumptions C61_standard.
(** Whatever the generator delivers, a sample lies in the range asked for. *)
Theorem C61_in_range : forall low lo high hi fuel ws y rest, denotes low lo -> denotes high hi -> Forall u64 ws ->
  (lo < hi -> sample fuel (uniform_new low high) ws = Some (y, rest) -> exists v, denotes y v /\ lo <= v < hi) /\
  (lo <= hi -> sample fuel (uniform_new_inclusive low high) ws = Some (y, rest) -> exists v, denotes y v /\ lo <= v <= hi).
Proof.
  intros low lo high hi fuel ws y rest Dl Dh F. pose proof (val_range low (proj1 Dl)) as Rl. pose proof (val_range high (proj1 Dh)) as Rh. rewrite (proj2 Dl) in Rl. rewrite (proj2 Dh) in Rh. split.
  - intros L H. destruct (proj1 (sample_ranged low lo _ _ Dl (sub_range low lo high hi Dl Dh L) ltac:(lia) ltac:(change (2 ^ 256) with W; lia)) fuel ws y rest F H) as (v & Dv & Rv). exists v. split; [exact Dv|lia].
  - intros L H. unfold uniform_new_inclusive in H. destruct (u_eqb low ZERO && u_eqb high MAX) eqn:E.
    + cbn [sample] in H. destruct (draw_wf ws y rest F H) as (Hy & _ & _). apply andb_true_iff in E. destruct E as [E1 E2]. apply u_eqb_spec in E1, E2. subst low high. assert (lo = 0) by (rewrite <- (proj2 Dl); reflexivity). assert (hi = W - 1) by (rewrite <- (proj2 Dh); reflexivity). exists (val y). split; [split; [exact Hy|reflexivity]|]. pose proof (val_range _ Hy). lia.
    + assert (Lt : hi - lo + 1 < 2 ^ 256).
      { change (2 ^ 256) with W. destruct (Z.eq_dec (hi - lo + 1) W) as [Eq|]; [|lia]. exfalso. assert (EZ : low = ZERO) by (apply val_inj; [apply Dl|vm_compute; repeat split; congruence|rewrite (proj2 Dl); change (val ZERO) with 0; lia]).
        assert (EM : high = MAX) by (apply val_inj; [apply Dh|vm_compute; repeat split; congruence|rewrite (proj2 Dh); change (val MAX) with (W - 1); lia]). subst low high. discriminate E. }
      destruct (proj1 (sample_ranged low lo _ _ Dl (sub_range_inclusive low lo high hi Dl Dh L Lt) ltac:(lia) ltac:(change (2 ^ 256) with W; lia)) fuel ws y rest F H) as (v & Dv & Rv). exists v. split; [exact Dv|lia].
Qed.
Print Assumptions C61_in_range.
Lemma sample_uniform low lo range n : denotes low lo -> denotes range n -> 0 < n -> lo + n <= 2 ^ 256 -> forall v, lo <= v < lo + n -> forall fuel rejected x rest,
  Forall (fun r => wf r /\ n * 2 ^ excess n <= val r) rejected -> wf x -> (v - lo) * 2 ^ excess n <= val x < (v - lo + 1) * 2 ^ excess n -> (length rejected < fuel)%nat ->
  exists y, sample fuel (Ranged low range) (flat_map words_of rejected ++ words_of x ++ rest) = Some (y, rest) /\ denotes y v.
Proof.
  intros Dl D N B v Rv fuel rejected x rest F Hx Rx Len. destruct (excess_bounds n (n_bounds range n D N)) as [HE _]. assert (P : 0 < 2 ^ excess n) by (apply Z.pow_pos_nonneg; lia).
  assert (Q : val x / 2 ^ excess n = v - lo) by (symmetry; apply Z.div_unique with (val x - 2 ^ excess n * (v - lo)); lia).
  destruct (proj2 (sample_ranged low lo range n Dl D N B) fuel rejected x rest) as (y & E & Dy); try assumption; [|lia|].
  - eapply Forall_impl; [|exact F]. intros r [Hr Lr]. split; [exact Hr|]. apply Z.div_le_lower_bound; lia.
  - exists y. split; [exact E|]. rewrite Q in Dy. replace v with (lo + (v - lo)) by lia. exact Dy.
Qed.
(** Every value of the range is produced by the same number of raw numbers, namely 2^s consecutive ones, after any number of
    rejected ones; at least half of the raw numbers are accepted. *)
Theorem C61_uniform : forall low lo high hi, denotes low lo -> denotes high hi ->
  (lo < hi -> exists s, 0 <= s <= 255 /\ 2 ^ 255 <= (hi - lo) * 2 ^ s < 2 ^ 256 /\
    forall v, lo <= v < hi -> forall fuel rejected x rest,
      Forall (fun r => wf r /\ (hi - lo) * 2 ^ s <= val r) rejected -> wf x -> (v - lo) * 2 ^ s <= val x < (v - lo + 1) * 2 ^ s -> (length rejected < fuel)%nat ->
      exists y, sample fuel (uniform_new low high) (flat_map words_of rejected ++ words_of x ++ rest) = Some (y, rest) /\ denotes y v) /\
  (lo <= hi -> hi - lo + 1 < 2 ^ 256 -> exists s, 0 <= s <= 255 /\ 2 ^ 255 <= (hi - lo + 1) * 2 ^ s < 2 ^ 256 /\
    forall v, lo <= v <= hi -> forall fuel rejected x rest,
      Forall (fun r => wf r /\ (hi - lo + 1) * 2 ^ s <= val r) rejected -> wf x -> (v - lo) * 2 ^ s <= val x < (v - lo + 1) * 2 ^ s -> (length rejected < fuel)%nat ->
      exists y, sample fuel (uniform_new_inclusive low high) (flat_map words_of rejected ++ words_of x ++ rest) = Some (y, rest) /\ denotes y v) /\
  (lo = 0 -> hi = 2 ^ 256 - 1 -> forall fuel x rest, sample fuel (uniform_new_inclusive low high) (words_of x ++ rest) = Some (x, rest)).
Proof.
  intros low lo high hi Dl Dh. pose proof (val_range low (proj1 Dl)) as Rl. pose proof (val_range high (proj1 Dh)) as Rh. rewrite (proj2 Dl) in Rl. rewrite (proj2 Dh) in Rh. change W with (2 ^ 256) in *. split; [|split].
  - intros L. exists (excess (hi - lo)). destruct (excess_bounds (hi - lo) ltac:(lia)) as [E1 E2]. split; [exact E1|]. split; [exact E2|]. intros v Rv. apply sample_uniform; [exact Dl|apply sub_range; assumption|lia..].
  - intros L Lt. exists (excess (hi - lo + 1)). destruct (excess_bounds (hi - lo + 1) ltac:(lia)) as [E1 E2]. split; [exact E1|]. split; [exact E2|]. intros v Rv.
    replace (uniform_new_inclusive low high) with (Ranged low (u_add (u_sub high low) ONE)); [apply sample_uniform; [exact Dl|apply sub_range_inclusive; assumption|lia..]|].
    unfold uniform_new_inclusive. destruct (u_eqb low ZERO && u_eqb high MAX) eqn:E; [|reflexivity]. exfalso. apply andb_true_iff in E. destruct E as [E1' E2']. apply u_eqb_spec in E1', E2'. subst low high. assert (lo = 0) by (rewrite <- (proj2 Dl); reflexivity). assert (hi = 2 ^ 256 - 1) by (rewrite <- (proj2 Dh); reflexivity). lia.
  - intros -> -> fuel x rest. assert (EZ : low = ZERO) by (apply val_inj; [apply Dl|vm_compute; repeat split; congruence|rewrite (proj2 Dl); reflexivity]).
    assert (EM : high = MAX) by (apply val_inj; [apply Dh|vm_compute; repeat split; congruence|rewrite (proj2 Dh); reflexivity]). subst low high. unfold uniform_new_inclusive. change (u_eqb ZERO ZERO && u_eqb MAX MAX) with true. cbn [sample]. apply draw_words.
Qed.
Print Assumptions C61_uniform.
(** An empty range is not refused: whatever the generator delivers, the call never returns. *)
Theorem C61_empty_refuted : forall low, wf low -> forall ws, Forall u64 ws -> forall fuel,
  sample fuel (uniform_new low low) ws = None.
Proof.
  intros low Hl ws F fuel. cbn [sample uniform_new]. destruct (u_sub_spec low low Hl Hl) as [S1 S2]. rewrite Z.sub_diag in S2. change (0 mod W) with 0 in S2.
  assert (L : forall fuel ws, Forall u64 ws -> sample_loop fuel (u_sub low low) (u_leading_zeros (u_sub low low)) ws = None).
  { clear F ws fuel. rewrite u_leading_zeros_spec by exact S1. rewrite S2. cbn [Z.eqb]. induction fuel as [|fuel IH]; intros ws F; [reflexivity|]. cbn [sample_loop]. destruct (draw ws) as [[x ws']|] eqn:E; [|reflexivity]. destruct (draw_wf ws x ws' F E) as (Hx & F' & _). cbn [bind].
    destruct (u_shr_spec x 256 Hx ltac:(lia)) as [T1 T2]. rewrite u_geb_spec by assumption. rewrite S2. pose proof (val_range _ T1) as R. destruct (Z.leb_spec 0 (val (u_shr x 256))); [apply IH; exact F'|lia]. }
  rewrite L by exact F. reflexivity.
Qed.
Print Assumptions C61_empty_refuted.
(** The inclusive range with one element too few is the same empty range. *)
Theorem C61_empty_inclusive_refuted : forall low lo high, denotes low lo -> denotes high (lo - 1) -> forall ws, Forall u64 ws -> forall fuel,
  sample fuel (uniform_new_inclusive low high) ws = None.
Proof.
  intros low lo high Dl Dh ws F fuel. unfold uniform_new_inclusive. pose proof (val_range low (proj1 Dl)) as Rl. pose proof (val_range high (proj1 Dh)) as Rh. rewrite (proj2 Dl) in Rl. rewrite (proj2 Dh) in Rh.
  destruct (u_eqb low ZERO && u_eqb high MAX) eqn:E.
  { exfalso. apply andb_true_iff in E. destruct E as [E1 E2]. apply u_eqb_spec in E1. subst low. assert (lo = 0) by (rewrite <- (proj2 Dl); reflexivity). lia. }
  replace (u_add (u_sub high low) ONE) with (u_sub low low); [exact (C61_empty_refuted low (proj1 Dl) ws F fuel)|].
  destruct (u_sub_spec low low (proj1 Dl) (proj1 Dl)) as [S1 S2]. destruct (u_sub_spec high low (proj1 Dh) (proj1 Dl)) as [S3 S4]. assert (HO : wf ONE) by (vm_compute; repeat split; congruence). destruct (u_add_spec _ ONE S3 HO) as [A1 A2]. apply val_inj; [exact S1|exact A1|].
  rewrite S2, A2, S4, (proj2 Dl), (proj2 Dh). change (val ONE) with 1. rewrite Zplus_mod_idemp_l. f_equal. lia.
Qed.
Print Assumptions C61_empty_inclusive_refuted.
(** A random field element: the assertion cannot fail, and every element is produced by the same number 2^s of raw numbers,
    consecutive ones. *)
Theorem C61_field : forall P m, consistent (fmp P) m ->
  (forall fuel ws r rest, Forall u64 ws -> field_sample fuel P ws = Some (r, rest) -> exists x v, r = Some x /\ represents m x v) /\
  exists s, 0 <= s <= 255 /\ 2 ^ 255 <= m * 2 ^ s < 2 ^ 256 /\
  forall v, 0 <= v < m -> exists k, 0 <= k < m /\
    forall fuel rejected raw rest, Forall (fun r => wf r /\ m * 2 ^ s <= val r) rejected -> wf raw -> (length rejected < fuel)%nat -> val raw < m * 2 ^ s ->
    exists x u, field_sample fuel P (flat_map words_of rejected ++ words_of raw ++ rest) = Some (Some x, rest) /\ represents m x u /\
      (u = v <-> k * 2 ^ s <= val raw < (k + 1) * 2 ^ s).
Proof.
  intros P m C. pose proof (fm_wf P m C) as Hm. pose proof (fm_val P m C) as Vm. pose proof (proj1 (c_range _ _ C)) as M1.
  assert (DZ : denotes ZERO 0) by (split; [vm_compute; repeat split; congruence|reflexivity]). assert (Dm : denotes (p_modulus P) m) by (split; assumption). pose proof (val_range _ Hm) as Rm. rewrite Vm in Rm. change W with (2 ^ 256) in Rm. split.
  - intros fuel ws r rest F H. unfold field_sample in H. destruct (sample fuel (uniform_new ZERO (p_modulus P)) ws) as [[u ws']|] eqn:E; [|discriminate H]. cbn [bind] in H.
    destruct (proj1 (C61_in_range ZERO 0 _ m fuel ws u ws' DZ Dm F) ltac:(lia) E) as (w & Dw & Rw). assert (Ru : 0 <= val u < m) by (rewrite (proj2 Dw); exact Rw). destruct (as_mont_ok P m C u (proj1 Dw) Ru) as [_ O]. rewrite O in H. exists u, (val (from_montgomery (fmp P) u)). split; [congruence|]. exact (rep_exists P m C u (proj1 Dw) Ru).
  - destruct (proj1 (C61_uniform ZERO 0 (p_modulus P) m DZ Dm) ltac:(lia)) as (s & Hs & Bs & U). rewrite Z.sub_0_r in Bs, U. exists s. split; [exact Hs|]. split; [exact Bs|]. intros v Rv. set (k := (v * 2 ^ 256) mod m). assert (Rk : 0 <= k < m) by (apply Z.mod_pos_bound; lia). exists k. split; [exact Rk|].
    intros fuel rejected raw rest F Hraw Len Lraw. assert (P2 : 0 < 2 ^ s) by (apply Z.pow_pos_nonneg; lia). pose proof (val_range _ Hraw) as Rr. set (j := val raw / 2 ^ s). assert (Rj : 0 <= j < m) by (split; [apply Z.div_pos; lia|apply Z.div_lt_upper_bound; lia]).
    assert (J : j * 2 ^ s <= val raw < (j + 1) * 2 ^ s) by (pose proof (Z.div_mod (val raw) (2 ^ s) ltac:(lia)); pose proof (Z.mod_pos_bound (val raw) (2 ^ s) P2); fold j in H; lia).
    destruct (U j ltac:(lia) fuel rejected raw rest F Hraw) as (y & E & Dy); [rewrite Z.sub_0_r; exact J|exact Len|]. assert (Ry : 0 <= val y < m) by (rewrite (proj2 Dy); exact Rj). destruct (as_mont_ok P m C y (proj1 Dy) Ry) as [_ O]. pose proof (rep_exists P m C y (proj1 Dy) Ry) as R.
    exists y, (val (from_montgomery (fmp P) y)). split; [unfold field_sample; rewrite E; cbn [bind]; rewrite O; reflexivity|]. split; [exact R|]. split.
    + intros Eq. rewrite Eq in R. destruct R as [_ [_ R]]. fold k in R. rewrite (proj2 Dy) in R. rewrite <- R. exact J.
    + intros K. assert (j = k) by nia. apply (rep_val P m C y); [exact R|]. split; [exact Rv|]. fold k. rewrite <- H. exact Dy.
Qed.
Print Assumptions C61_field.

(** A die: the range 1 ..= 6 rejects the raw numbers whose leading three bits are 6 or 7. *)
Example C61_example :
  exists y, sample 5 (uniform_new_inclusive (mk 1 0 0 0) (mk 6 0 0 0)) [1; 2; 3; 7 * 2 ^ 61; 0; 0; 0; 2 ^ 63 + 5; 99] = Some (y, [99]) /\ denotes y 5.
Proof. eexists. split; [vm_compute; reflexivity|]. unfold denotes, wf, u64. vm_compute. repeat split; congruence. Qed.
(** The field of the protocol: the raw number (2^256 mod p) * 16 gives one, with s = 4. *)
Example C61_field_example : exists x, field_sample 3 proth_field (repeat (2 ^ 64 - 1) 4 ++ words_of (u_shl (R1 (fmp proth_field)) 4) ++ [7]) = Some (Some x, [7]) /\ represents p_field x 1.
Proof. eexists. split; [vm_compute; reflexivity|]. unfold represents, denotes, wf, u64. vm_compute. repeat split; congruence. Qed.
