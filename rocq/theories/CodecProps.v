(** C60: encoding and decoding of integers and field elements. *)
Require Import ZArith Lia Bool List.
From Verif Require Import Word U256Model U256Spec U256Proofs MontgomeryModel MontgomeryProofs MontgomeryProps BinaryModel BinaryProofs BinaryProps EncodingModel FieldSpec FieldModel FieldProofs FieldProps Primes FieldInstance CodecModel.
Import ListNotations.
Open Scope Z_scope.

(** The bytes of [n], the least significant first *)
Definition byte_of (n : Z) (i : nat) : Z := (n / 256 ^ Z.of_nat i) mod 256.
Definition little_endian (k : nat) (n : Z) : list Z := map (byte_of n) (seq 0 k).
Definition bytes (l : list Z) : Prop := Forall (fun b => 0 <= b < 256) l.

Lemma le_bytes_spec k x : 0 <= x -> le_bytes k x = little_endian k x.
Proof.
  revert x. induction k as [|k IH]; intros x Hx; [reflexivity|]. cbn [le_bytes]. unfold little_endian. cbn [seq map]. f_equal.
  - unfold byte_of. cbn. rewrite Z.div_1_r. reflexivity.
  - rewrite IH by (apply Z.div_pos; lia). unfold little_endian. rewrite <- seq_shift, map_map. apply map_ext. intros i. unfold byte_of. rewrite Nat2Z.inj_succ, Z.pow_succ_r, Z.div_div by lia. reflexivity.
Qed.
Lemma le_bytes_length k x : length (le_bytes k x) = k.
Proof. revert x. induction k as [|k IH]; intros x; cbn; [reflexivity|]. rewrite IH. reflexivity. Qed.
Lemma le_value_bytes k : forall x, 0 <= x < 256 ^ Z.of_nat k -> le_value (le_bytes k x) = x.
Proof.
  induction k as [|k IH]; intros x Hx; [cbn in *; lia|]. cbn [le_bytes le_value]. rewrite Nat2Z.inj_succ, Z.pow_succ_r in Hx by lia.
  rewrite IH by (split; [apply Z.div_pos; lia|apply Z.div_lt_upper_bound; lia]). pose proof (Z.div_mod x 256 ltac:(lia)). lia.
Qed.
Lemma le_value_range l : bytes l -> 0 <= le_value l < 256 ^ Z.of_nat (length l).
Proof. induction l as [|b l IH]; intros H; [cbn; lia|]. inversion H; subst. specialize (IH H3). cbn [le_value length]. rewrite Nat2Z.inj_succ, Z.pow_succ_r by lia. lia. Qed.
Lemma le_value_inv l : bytes l -> le_bytes (length l) (le_value l) = l.
Proof.
  induction l as [|b l IH]; intros H; [reflexivity|]. inversion H; subst. cbn [le_value length le_bytes].
  assert (E : (b + 256 * le_value l) / 256 = le_value l) by (symmetry; apply Z.div_unique with b; [left; assumption|ring]).
  assert (E2 : (b + 256 * le_value l) mod 256 = b) by (symmetry; apply Z.mod_unique with (le_value l); [left; assumption|ring]). rewrite E, E2, IH by assumption. reflexivity.
Qed.
Lemma scale_limb_app l rest : length l = 8%nat -> scale_limb (l ++ rest) = Some (le_value l, rest).
Proof.
  intros L. unfold scale_limb. rewrite app_length. destruct (Nat.ltb_spec (length l + length rest) 8); [lia|]. rewrite firstn_app, skipn_app, L, Nat.sub_diag.
  rewrite firstn_all2, (skipn_all2 l) by lia. cbn [firstn skipn app]. rewrite app_nil_r. reflexivity.
Qed.
Lemma scale_decode_parts a b c d rest : length a = 8%nat -> length b = 8%nat -> length c = 8%nat -> length d = 8%nat ->
  scale_decode (a ++ b ++ c ++ d ++ rest) = Some (mk (le_value a) (le_value b) (le_value c) (le_value d), rest).
Proof. intros A B' C D. unfold scale_decode. rewrite (scale_limb_app a) by exact A. cbn [bind]. rewrite (scale_limb_app b) by exact B'. cbn [bind]. rewrite (scale_limb_app c) by exact C. cbn [bind]. rewrite (scale_limb_app d) by exact D. reflexivity. Qed.
Lemma scale_roundtrip x rest : wf x -> scale_decode (scale_encode x ++ rest) = Some (x, rest).
Proof.
  intros (H0 & H1 & H2 & H3). unfold scale_encode. rewrite <- !app_assoc. rewrite scale_decode_parts by apply le_bytes_length.
  rewrite !le_value_bytes by (change (256 ^ Z.of_nat 8) with B; assumption). destruct x; reflexivity.
Qed.
Lemma le_bytes_app j : forall k n, 0 <= n -> le_bytes (j + k) n = le_bytes j n ++ le_bytes k (n / 256 ^ Z.of_nat j).
Proof.
  induction j as [|j IH]; intros k n Hn; [cbn [le_bytes Nat.add app]; cbn; rewrite Z.div_1_r; reflexivity|]. cbn [le_bytes Nat.add app]. f_equal. rewrite IH by (apply Z.div_pos; lia).
  rewrite Nat2Z.inj_succ, Z.pow_succ_r, Z.div_div by lia. reflexivity.
Qed.
Lemma le_bytes_low j : forall a b, 0 <= a < 256 ^ Z.of_nat j -> le_bytes j (a + 256 ^ Z.of_nat j * b) = le_bytes j a.
Proof.
  induction j as [|j IH]; intros a b Ha; [reflexivity|]. cbn [le_bytes]. rewrite Nat2Z.inj_succ, Z.pow_succ_r in * by lia.
  replace (a + 256 * 256 ^ Z.of_nat j * b) with (a + (256 ^ Z.of_nat j * b) * 256) by ring. rewrite Z_mod_plus_full, Z.div_add by lia. f_equal. apply IH. split; [apply Z.div_pos; lia|apply Z.div_lt_upper_bound; lia].
Qed.
Lemma limb_of a b : u64 a -> 0 <= b -> (a + B * b) / 256 ^ Z.of_nat 8 = b.
Proof. intros Ha Hb. symmetry. apply Z.div_unique with a; [left; exact Ha|]. change (256 ^ Z.of_nat 8) with B. ring. Qed.
Lemma scale_encode_spec x : wf x -> scale_encode x = little_endian 32 (val x).
Proof.
  intros Hx. pose proof (val_range x Hx) as V. rewrite <- le_bytes_spec by lia. destruct Hx as (H0 & H1 & H2 & H3). unfold scale_encode. rewrite val_B.
  replace (l0 x + B * l1 x + B * B * l2 x + B * B * B * l3 x) with (l0 x + B * (l1 x + B * (l2 x + B * l3 x))) by ring. uB.
  change 32%nat with (8 + 24)%nat. rewrite le_bytes_app, limb_of by (try assumption; unfold u64; lia). rewrite (le_bytes_low 8 (l0 x)) by assumption. f_equal.
  change 24%nat with (8 + 16)%nat. rewrite le_bytes_app, limb_of by (try assumption; unfold u64; lia). rewrite (le_bytes_low 8 (l1 x)) by assumption. f_equal.
  change 16%nat with (8 + 8)%nat. rewrite le_bytes_app, limb_of by (try assumption; unfold u64; lia). rewrite (le_bytes_low 8 (l2 x)) by assumption. reflexivity.
Qed.

(** ** U256 *)
(** The encoding is the 32 bytes of the value, the least significant first; decoding gives the value back, takes
    exactly these bytes, accepts every 32 bytes and fails without them. *)
Theorem C60_scale_integer : forall x n, denotes x n ->
  scale_encode x = little_endian 32 n /\ forall rest, scale_decode (little_endian 32 n ++ rest) = Some (x, rest).
Proof. intros x n [Hx <-]. rewrite <- scale_encode_spec by exact Hx. split; [reflexivity|]. intros rest. apply scale_roundtrip. exact Hx. Qed.
Print Assumptions C60_scale_integer.
Lemma four_parts {A} (l : list A) : length l = 32%nat -> exists a b c d, l = a ++ b ++ c ++ d /\ length a = 8%nat /\ length b = 8%nat /\ length c = 8%nat /\ length d = 8%nat.
Proof.
  intros L. exists (firstn 8 l), (firstn 8 (skipn 8 l)), (firstn 8 (skipn 8 (skipn 8 l))), (skipn 8 (skipn 8 (skipn 8 l))).
  rewrite !firstn_skipn. split; [reflexivity|]. rewrite !firstn_length, !skipn_length, L. repeat split.
Qed.
Theorem C60_scale_total : forall l rest, bytes l -> length l = 32%nat ->
  exists x n, scale_decode (l ++ rest) = Some (x, rest) /\ denotes x n /\ l = little_endian 32 n.
Proof.
  intros l rest Hb L. destruct (four_parts l L) as (a & b & c & d & -> & A & B' & C & D). unfold bytes in Hb. rewrite !Forall_app in Hb. destruct Hb as (Ba & Bb & Bc & Bd).
  set (x := mk (le_value a) (le_value b) (le_value c) (le_value d)). exists x, (val x).
  assert (Hx : wf x). { unfold wf, x; cbn [l0 l1 l2 l3]. pose proof (le_value_range a Ba) as Ra. pose proof (le_value_range b Bb) as Rb. pose proof (le_value_range c Bc) as Rc. pose proof (le_value_range d Bd) as Rd. rewrite A in Ra. rewrite B' in Rb. rewrite C in Rc. rewrite D in Rd. exact (conj Ra (conj Rb (conj Rc Rd))). }
  split; [rewrite <- !app_assoc; apply scale_decode_parts; assumption|]. split; [split; [exact Hx|reflexivity]|].
  rewrite <- scale_encode_spec by exact Hx. unfold scale_encode, x. cbn [l0 l1 l2 l3]. rewrite <- A at 1. rewrite (le_value_inv a Ba). rewrite <- B' at 1. rewrite (le_value_inv b Bb). rewrite <- C at 1. rewrite (le_value_inv c Bc). rewrite <- D at 1. rewrite (le_value_inv d Bd). reflexivity.
Qed.
Print Assumptions C60_scale_total.
Theorem C60_scale_short : forall l, (length l < 32)%nat -> scale_decode l = None /\ forall dbg P, field_decode dbg P l = Some DecodeError.
Proof.
  intros l H. assert (E : scale_decode l = None).
  { unfold scale_decode, scale_limb. destruct (Nat.ltb_spec (length l) 8); [reflexivity|]. cbn [bind]. rewrite !skipn_length. destruct (Nat.ltb_spec (length l - 8) 8); [reflexivity|]. cbn [bind]. rewrite !skipn_length.
    destruct (Nat.ltb_spec (length l - 8 - 8) 8); [reflexivity|]. cbn [bind]. rewrite !skipn_length. destruct (Nat.ltb_spec (length l - 8 - 8 - 8) 8); [reflexivity|lia]. }
  split; [exact E|]. intros dbg P. unfold field_decode. rewrite E. reflexivity.
Qed.
Print Assumptions C60_scale_short.

(** ** Field elements *)
Lemma from_uint_ok dbg P m u v : consistent (fmp P) m -> denotes u v -> v < m -> exists x, from_uint dbg P u = Some x /\ represents m x v.
Proof.
  intros C D H. pose proof D as [Wu Vu]. pose proof (val_range u Wu). destruct dbg; cbn [from_uint].
  - apply (pf_from_uint_spec P m C u v D H).
  - destruct (C15_to_montgomery _ _ _ _ C D) as (r & E & R). exists r. split; [exact E|]. split; [lia|exact R].
Qed.
(** The encoding of an element is that of its value (not of its Montgomery form), in both builds; and it comes back. *)
Theorem C60_scale_field : forall P m x v, consistent (fmp P) m -> represents m x v ->
  field_encode P x = Some (little_endian 32 v) /\
  forall dbg rest, field_decode dbg P (little_endian 32 v ++ rest) = Some (Decoded (x, rest)).
Proof.
  intros P m x v C R. destruct (pf_to_uint_spec P m C x v R) as (u & E & D). destruct (C60_scale_integer u v D) as [S1 S2]. unfold field_encode, field_decode. rewrite E. cbn [bind]. rewrite S1. split; [reflexivity|].
  intros dbg rest. rewrite S2. destruct (from_uint_ok dbg P m u v C D (proj2 (proj1 R))) as (y & -> & Ry). cbn [bind]. rewrite (rep_inj m y x v Ry R). reflexivity.
Qed.
Print Assumptions C60_scale_field.
Lemma deserialize_ok dbg hr P u x s : deserialize hr s = Some u -> from_uint dbg P u = Some x -> field_deserialize dbg hr P s = Some (Decoded x).
Proof.
  unfold deserialize, field_deserialize. destruct hr, s as [s|b]; try discriminate.
  - generalize (from_hex_str s). intros r -> E. cbn [bind]. rewrite E. reflexivity.
  - destruct (length b =? 32)%nat; [|discriminate]. generalize (from_bytes_be b). intros r H E. assert (r = u) by congruence. subst r. rewrite E. reflexivity.
Qed.
(** serde: the hexadecimal string or the 32 bytes of the value, and back *)
Theorem C60_serde_field : forall P m hr x v, consistent (fmp P) m -> represents m x v ->
  exists u s, denotes u v /\ s = serialize hr u /\ field_serialize hr P x = Some s /\ forall dbg, field_deserialize dbg hr P s = Some (Decoded x).
Proof.
  intros P m hr x v C R. destruct (pf_to_uint_spec P m C x v R) as (u & E & D). exists u, (serialize hr u). split; [exact D|]. split; [reflexivity|]. unfold field_serialize. rewrite E. split; [reflexivity|].
  intros dbg. pose proof (C11_serde_roundtrip hr u v D) as RT. destruct (from_uint_ok dbg P m u v C D (proj2 (proj1 R))) as (y & Ey & Ry). rewrite (rep_inj m y x v Ry R) in Ey.
  exact (deserialize_ok dbg hr P u x (serialize hr u) RT Ey).
Qed.
Print Assumptions C60_serde_field.
Lemma u256_of n : 0 <= n < 2 ^ 256 -> exists u, denotes u n.
Proof.
  intros Hn. exists (mk (n mod B) ((n / B) mod B) ((n / B / B) mod B) (n / B / B / B)).
  pose proof (Z.div_mod n B ltac:(discriminate)). pose proof (Z.mod_pos_bound n B eq_refl). pose proof (Z.div_mod (n / B) B ltac:(discriminate)). pose proof (Z.mod_pos_bound (n / B) B eq_refl).
  pose proof (Z.div_mod (n / B / B) B ltac:(discriminate)). pose proof (Z.mod_pos_bound (n / B / B) B eq_refl).
  split; [unfold wf; cbn [l0 l1 l2 l3]; unfold u64; repeat split; try lia; [repeat apply Z.div_pos; try reflexivity; lia|rewrite !Z.div_div by (try discriminate; reflexivity); apply Z.div_lt_upper_bound; [reflexivity|exact (proj2 Hn)]]|].
  rewrite val_B. cbn [l0 l1 l2 l3]. lia.
Qed.
(** Decoding does not check that a value is canonical: a value n >= m panics in a debug build and is taken for n mod m in
    a release build. So an element has several encodings there. *)
Theorem C60_noncanonical_deviation : forall P m n rest, consistent (fmp P) m -> m <= n < 2 ^ 256 ->
  field_decode true P (little_endian 32 n ++ rest) = None /\
  exists x, field_decode false P (little_endian 32 n ++ rest) = Some (Decoded (x, rest)) /\ represents m x (n mod m) /\
    field_decode false P (little_endian 32 (n mod m) ++ rest) = Some (Decoded (x, rest)) /\ little_endian 32 n <> little_endian 32 (n mod m).
Proof.
  intros P m n rest C Hn. assert (M1 : 1 < m) by (destruct C as [_ ? _ _ _ _ _]; lia).
  destruct (u256_of n ltac:(lia)) as (u & D). destruct (C60_scale_integer u n D) as [_ S]. unfold field_decode. rewrite S. split.
  - cbn [from_uint]. rewrite (pf_from_uint_panics P m C u n D) by lia. reflexivity.
  - cbn [from_uint]. destruct (C15_to_montgomery _ _ _ _ C D) as (x & -> & R). cbn [bind]. exists x. split; [reflexivity|]. pose proof (Z.mod_pos_bound n m ltac:(lia)) as V.
    assert (R' : represents m x (n mod m)) by (split; [exact V|]; rewrite Zmult_mod_idemp_l; exact R). split; [exact R'|]. split; [apply (proj2 (C60_scale_field P m x (n mod m) C R') false rest)|].
    intros E. rewrite <- !le_bytes_spec in E by lia. apply (f_equal le_value) in E. rewrite !le_value_bytes in E by (change (256 ^ Z.of_nat 32) with (2 ^ 256); lia). lia.
Qed.
Print Assumptions C60_noncanonical_deviation.

(** Non-vacuity: the base field, the element 2 *)
Example C60_example : consistent (fmp proth_field) p_field /\ p_field + 2 < 2 ^ 256 /\
  (exists x, represents p_field x 2 /\ field_encode proth_field x = Some (2 :: repeat 0 31) /\
    field_decode true proth_field (2 :: repeat 0 31 ++ [7]) = Some (Decoded (x, [7]))) /\
  field_serialize true proth_field (R1 (fmp proth_field)) = Some (SString ([48; 120] ++ repeat 48 63 ++ [49])).
Proof.
  pose proof (proj1 C17_example) as C. split; [exact C|]. split; [reflexivity|]. split; [|vm_compute; reflexivity].
  destruct (from_uint_ok true proth_field p_field (mk 2 0 0 0) 2 C) as (x & _ & R); [split; [unfold wf, u64, B; cbn; lia|reflexivity]|reflexivity|].
  exists x. split; [exact R|]. destruct (C60_scale_field proth_field p_field x 2 C R) as [E1 E2]. split; [rewrite E1; vm_compute; reflexivity|]. exact (E2 true [7]).
Qed.
