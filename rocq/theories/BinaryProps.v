(** C05, C08, C09, C10, C11, C12. *)
Require Import ZArith Lia Bool List Znumtheory.
From Verif Require Import Word U256Model U256Spec U256Proofs KnuthModel KnuthProofs
  BinaryModel EncodingModel EncodingSpec BinaryProofs EncodingProofs.
Import ListNotations.
Open Scope Z_scope.

(** ** C05: inverse modulo 2^256 *)
Theorem C05_inv_some : forall x a, denotes x a -> Z.odd a = true ->
  exists r b, u_inv x = Some r /\ denotes r b /\ (a * b) mod 2 ^ 256 = 1.
Proof.
  intros x a [Hx <-] Ho. pose proof (u_inv_spec x Hx) as H. destruct (u_inv x) as [r|]; [|congruence].
  destruct H as (_ & H1 & H2). exists r, (val r). split; [reflexivity|]. split; [split; auto|]. exact H2.
Qed.
Print Assumptions C05_inv_some.
Theorem C05_inv_none : forall x a, denotes x a -> Z.odd a = false ->
  u_inv x = None /\ forall b, (a * b) mod 2 ^ 256 <> 1.
Proof.
  intros x a [Hx <-] Ho. split.
  - pose proof (u_inv_spec x Hx) as H. destruct (u_inv x) as [r|]; [|reflexivity]. destruct H as [H _]. congruence.
  - intros b E. assert (Z.odd ((val x * b) mod 2 ^ 256) = false).
    { pose proof (Z.div_mod (val x * b) (2 ^ 256) ltac:(discriminate)) as DM.
      assert (Hm : (val x * b) mod 2 ^ 256 = val x * b - 2 ^ 256 * (val x * b / 2 ^ 256)) by lia.
      rewrite Hm, Z.odd_sub, !Z.odd_mul, Ho. reflexivity. }
    rewrite E in H. discriminate.
Qed.
Print Assumptions C05_inv_none.
Example C05_example : u_inv (mk 3 0 0 0) =
  Some (mk 0xaaaaaaaaaaaaaaab 0xaaaaaaaaaaaaaaaa 0xaaaaaaaaaaaaaaaa 0xaaaaaaaaaaaaaaaa) /\ u_inv (mk 6 1 0 0) = None.
Proof. vm_compute. auto. Qed.

(** ** C08: shifts and bit queries. A shift amount is any usize. *)
Theorem C08_shl : forall x a s, denotes x a -> 0 <= s -> denotes (u_shl x s) ((a * 2 ^ s) mod 2 ^ 256).
Proof. intros x a s [Hx <-] Hs. exact (u_shl_spec x s Hx Hs). Qed.
Print Assumptions C08_shl.
Theorem C08_shr : forall x a s, denotes x a -> 0 <= s -> denotes (u_shr x s) (a / 2 ^ s).
Proof. intros x a s [Hx <-] Hs. exact (u_shr_spec x s Hx Hs). Qed.
Print Assumptions C08_shr.
Theorem C08_bit : forall x a i, denotes x a -> 0 <= i -> u_bit x i = Z.testbit a i.
Proof. intros x a i [Hx <-] Hi. exact (u_bit_spec x i Hx Hi). Qed.
Print Assumptions C08_bit.
Theorem C08_counts : forall x a, denotes x a ->
  u_count_ones x = bits_set 256 a /\ u_count_zeros x = 256 - bits_set 256 a.
Proof.
  intros x a [Hx <-]. pose proof (u_count_ones_spec x Hx) as H. split; [exact H|].
  rewrite <- H. unfold u_count_zeros, u_count_ones. lia.
Qed.
Print Assumptions C08_counts.
(** leading_zeros, bits, most_significant_bit: position of the top set bit. *)
Theorem C08_leading_zeros : forall x a, denotes x a ->
  (a = 0 -> u_leading_zeros x = 256 /\ u_bits x = 0 /\ u_most_significant_bit x = None) /\
  (0 < a -> exists t, 2 ^ t <= a < 2 ^ (t + 1) /\ 0 <= t < 256 /\
     u_leading_zeros x = 255 - t /\ u_bits x = t + 1 /\ u_most_significant_bit x = Some t).
Proof.
  intros x a [Hx <-]. unfold u_bits, u_most_significant_bit. rewrite (u_leading_zeros_spec x Hx). split.
  - intros ->. cbn. auto.
  - intros H. destruct (Z.eqb_spec (val x) 0); [lia|]. exists (Z.log2 (val x)).
    pose proof (val_range x Hx). pose proof (Z.log2_nonneg (val x)).
    assert (Z.log2 (val x) < 256) by (apply Z.log2_lt_pow2; [lia|]; change (2 ^ 256) with W; lia).
    split; [apply Z.log2_spec; assumption|]. split; [lia|]. split; [reflexivity|]. split; [lia|].
    replace (255 - Z.log2 (val x) <=? 256 - 1) with true by (symmetry; apply Z.leb_le; lia). f_equal. lia.
Qed.
Print Assumptions C08_leading_zeros.
Theorem C08_trailing_zeros : forall x a, denotes x a ->
  (a = 0 -> u_trailing_zeros x = 256) /\
  (a <> 0 -> 0 <= u_trailing_zeros x < 256 /\ (2 ^ u_trailing_zeros x | a) /\ Z.odd (a / 2 ^ u_trailing_zeros x) = true).
Proof.
  intros x a [Hx <-]. destruct (u_trailing_zeros_spec x Hx) as [H1 H2]. split; [exact H1|].
  intros H. destruct (H2 H) as [R (o & E)]. split; [exact R|]. split; [exists (2 * o + 1); exact E|].
  rewrite E at 1. assert (0 < 2 ^ u_trailing_zeros x) by (apply Z.pow_pos_nonneg; lia).
  rewrite Z.div_mul by lia. rewrite Z.odd_add, Z.odd_mul. reflexivity.
Qed.
Print Assumptions C08_trailing_zeros.
Theorem C08_bitwise : forall x y a b, denotes x a -> denotes y b ->
  denotes (u_and x y) (Z.land a b) /\ denotes (u_or x y) (Z.lor a b) /\ denotes (u_xor x y) (Z.lxor a b) /\
  denotes (u_not x) (2 ^ 256 - 1 - a) /\ (forall w, 0 <= w < 2 ^ 64 -> u_and_u64 x w = Z.land a w).
Proof.
  intros x y a b [Hx <-] [Hy <-].
  split; [exact (map2_spec Z.land andb x y (fun a b i _ => Z.land_spec a b i) (fun a b H _ => proj2 (Z.land_nonneg a b) (or_introl H)) eq_refl Hx Hy)|].
  split; [exact (map2_spec Z.lor orb x y (fun a b i _ => Z.lor_spec a b i) (fun a b H H' => proj2 (Z.lor_nonneg a b) (conj H H')) eq_refl Hx Hy)|].
  split; [refine (map2_spec Z.lxor xorb x y (fun a b i _ => Z.lxor_spec a b i) _ eq_refl Hx Hy)|].
  { intros c d Hc Hd. apply Z.lxor_nonneg. lia. }
  split; [exact (u_not_spec x Hx)|].
  intros w Hw. unfold u_and_u64. apply Z.bits_inj'. intros i Hi. rewrite !Z.land_spec.
  rewrite (testbit_val x i Hx Hi). destruct (Z.ltb_spec i 64); [reflexivity|].
  rewrite (u64_testbit_high w i) by (assumption || exact Hw). rewrite !andb_false_r. reflexivity.
Qed.
Print Assumptions C08_bitwise.
Example C08_example :
  u_shl (mk 1 2 3 4) 65 = mk 0 2 4 6 /\ u_shr (mk 1 2 3 4) 129 = mk 1 2 0 0 /\ u_shr (mk 1 2 3 5) 129 = mk (1 + 2 ^ 63) 2 0 0 /\
  u_leading_zeros (mk 1 2 3 4) = 61 /\ u_trailing_zeros (mk 0 8 3 4) = 67 /\ u_count_ones (mk 1 2 3 4) = 5.
Proof. vm_compute. repeat split. Qed.

(** ** C09: big-endian bytes *)
Theorem C09_from_bytes : forall n, length n = 32%nat -> Forall (digit 256) n -> denotes (from_bytes_be n) (num 256 n).
Proof. exact from_bytes_be_spec. Qed.
Print Assumptions C09_from_bytes.
Theorem C09_to_bytes : forall x a, denotes x a ->
  length (to_bytes_be x) = 32%nat /\ Forall (digit 256) (to_bytes_be x) /\ num 256 (to_bytes_be x) = a.
Proof. intros x a [Hx <-]. exact (to_bytes_be_spec x Hx). Qed.
Print Assumptions C09_to_bytes.
Theorem C09_roundtrip :
  (forall x a, denotes x a -> from_bytes_be (to_bytes_be x) = x) /\
  (forall n, length n = 32%nat -> Forall (digit 256) n -> to_bytes_be (from_bytes_be n) = n).
Proof. split; [intros x a [Hx _]; exact (from_to_bytes x Hx)|exact to_from_bytes]. Qed.
Print Assumptions C09_roundtrip.
Example C09_example : to_bytes_be (mk 0x0102030405060708 0 0 0xff00000000000000) =
  [255; 0; 0; 0; 0; 0; 0; 0; 0; 0; 0; 0; 0; 0; 0; 0; 0; 0; 0; 0; 0; 0; 0; 0; 1; 2; 3; 4; 5; 6; 7; 8].
Proof. vm_compute. reflexivity. Qed.

(** ** C10: decimal strings *)
(** Every decimal numeral below 2^256 (leading zeros allowed) parses to its value. *)
Theorem C10_parse : forall ds, ds <> [] -> Forall (digit 10) ds -> num 10 ds < 2 ^ 256 ->
  exists x, from_decimal_str (text ds) = Some (POk x) /\ denotes x (num 10 ds).
Proof.
  intros ds Hn Hd Hlt. destruct (decimal_prefix ds 0 ZERO [] wf_ZERO Hd val_ZERO) as (r & E & Wr & Vr).
  { rewrite Z.mul_0_l. exact Hlt. }
  rewrite app_nil_r in E. rewrite Z.mul_0_l in Vr. exists r. split; [|split; [assumption|exact Vr]].
  unfold from_decimal_str. destruct ds as [|d ds]; [contradiction|]. exact E.
Qed.
Print Assumptions C10_parse.
Theorem C10_empty : from_decimal_str [] = Some PEmpty.
Proof. reflexivity. Qed.
Print Assumptions C10_empty.
(** Larger numerals are rejected, except when a prefix denotes 2^256 + 4 .. 2^256 + 13. *)
Theorem C10_overflow : forall ds, Forall (digit 10) ds -> 2 ^ 256 <= num 10 ds ->
  (forall p q, ds = p ++ q -> ~ (2 ^ 256 + 4 <= num 10 p <= 2 ^ 256 + 13)) ->
  from_decimal_str (text ds) = Some POverflow.
Proof.
  intros ds Hd Hge Hno. destruct ds as [|d ds]; [vm_compute in Hge; exfalso; apply Hge; reflexivity|].
  exact (decimal_overflow (d :: ds) Hd Hge Hno).
Qed.
Print Assumptions C10_overflow.
(** In that excepted case the numeral is silently accepted with a wrapped value. *)
Theorem C10_overflow_accepted : forall p, Forall (digit 10) p -> 2 ^ 256 + 4 <= num 10 p <= 2 ^ 256 + 13 ->
  exists x, from_decimal_str (text p) = Some (POk x) /\ denotes x (num 10 p - 2 ^ 256).
Proof.
  intros p Hd Hr. change (2 ^ 256) with W in *.
  destruct p as [|d0 p0 _] using rev_ind; [vm_compute in Hr; destruct Hr as [Hr _]; exfalso; apply Hr; reflexivity|].
  apply Forall_app in Hd as [Hp Hd]. inversion Hd as [|? ? Hd0 _]; subst.
  rewrite num_snoc in Hr |- *. destruct max10_spec as (_ & _ & E10). pose proof Hd0 as Hd0'. unfold digit in Hd0.
  assert (E : num 10 p0 = M10) by lia.
  destruct (decimal_prefix p0 0 ZERO [48 + d0] wf_ZERO Hp val_ZERO) as (r & Er & Wr & Vr).
  { rewrite Z.mul_0_l, E. reflexivity. }
  rewrite Z.mul_0_l, Z.add_0_l, E in Vr.
  rewrite decimal_step, Vr in Er by assumption.
  replace (M10 <? M10) with false in Er by reflexivity. cbn [andb] in Er.
  destruct (decimal_next r d0 Wr Hd0') as [Wn Vn].
  eexists. split.
  - transitivity (from_decimal_loop ZERO (text p0 ++ [48 + d0])); [|rewrite Er; reflexivity].
    unfold text. rewrite map_app. cbn [map]. destruct (map (fun d => 48 + d) p0); reflexivity.
  - split; [exact Wn|]. rewrite Vn, Vr, E, E10. symmetry. apply mod_eq with (q := 1); [|lia]. change W with (2 ^ 256) in *. lia.
Qed.
Print Assumptions C10_overflow_accepted.
(** "115792089237316195423570985008687907853269984665640564039457584007913129639940" = 2^256 + 4 parses as 4. *)
Definition digits_2_256_4 : list Z :=
  [1;1;5;7;9;2;0;8;9;2;3;7;3;1;6;1;9;5;4;2;3;5;7;0;9;8;5;0;0;8;6;8;7;9;0;7;8;5;3;2;6;9;9;8;4;6;6;5;6;4;0;5;6;4;0;3;9;4;5;7;5;8;4;0;0;7;9;1;3;1;2;9;6;3;9;9;4;0].
Theorem C10_overflow_refuted : ~ (forall ds, Forall (digit 10) ds -> 2 ^ 256 <= num 10 ds ->
  from_decimal_str (text ds) = Some POverflow).
Proof.
  intros H. specialize (H digits_2_256_4). assert (from_decimal_str (text digits_2_256_4) = Some (POk (mk 4 0 0 0))) by (vm_compute; reflexivity).
  rewrite H0 in H. discriminate H.
  - repeat constructor; unfold digit; lia.
  - vm_compute. discriminate.
Qed.
Print Assumptions C10_overflow_refuted.
(** A non-digit after a numeral that fits is never accepted; a non-ASCII one panics. *)
Theorem C10_invalid : forall ds c s, Forall (digit 10) ds -> 10 * num 10 ds < 2 ^ 256 -> ~ (48 <= c <= 57) -> 0 <= c ->
  from_decimal_str (text ds ++ c :: s) = if c <? 128 then Some PInner else None.
Proof.
  intros ds c s Hd Hlt Hc Hc0. pose proof (num_range 10 ds ltac:(lia) Hd) as NR. change (2 ^ 256) with W in Hlt.
  destruct (decimal_prefix ds 0 ZERO (c :: s) wf_ZERO Hd val_ZERO) as (r & E & Wr & Vr).
  { rewrite Z.mul_0_l. lia. }
  rewrite Z.mul_0_l, Z.add_0_l in Vr.
  assert (from_decimal_str (text ds ++ c :: s) = from_decimal_loop ZERO (text ds ++ c :: s)) as ->.
  { unfold from_decimal_str. destruct (text ds ++ c :: s) eqn:En; [destruct (text ds); discriminate|reflexivity]. }
  rewrite E. cbn [from_decimal_loop]. destruct max10_spec as (Wm & Vm & E10). rewrite u_gtb_spec, Vm, Vr by assumption.
  replace (M10 <? num 10 ds) with false by (symmetry; apply Z.ltb_ge; lia).
  destruct (Z.leb_spec 128 c), (Z.ltb_spec c 128); try lia; [reflexivity|].
  replace ((48 <=? c) && (c <=? 57)) with false; [reflexivity|]. symmetry. apply andb_false_iff.
  destruct (Z_lt_ge_dec c 48); [left|right]; apply Z.leb_gt; lia.
Qed.
Print Assumptions C10_invalid.
(** Printing gives the canonical numeral, in both build profiles, and parses back. *)
Theorem C10_print : forall dbg x a, denotes x a ->
  exists ds, to_decimal_string dbg x = Some (text ds) /\ Forall (digit 10) ds /\ num 10 ds = a /\
    ds <> [] /\ (hd 0 ds <> 0 \/ ds = [0]).
Proof. intros dbg x a [Hx <-]. exact (to_decimal_string_spec dbg x Hx). Qed.
Print Assumptions C10_print.
Theorem C10_roundtrip : forall dbg x a, denotes x a ->
  exists s, to_decimal_string dbg x = Some s /\ from_decimal_str s = Some (POk x).
Proof.
  intros dbg x a [Hx <-]. destruct (to_decimal_string_spec dbg x Hx) as (ds & E & F & N & Ne & _).
  exists (text ds). split; [assumption|]. pose proof (val_range x Hx) as R.
  destruct (C10_parse ds Ne F) as (y & Ey & Wy & Vy). { rewrite N. exact (proj2 R). }
  rewrite Ey. f_equal. f_equal. apply val_inj; auto. congruence.
Qed.
Print Assumptions C10_roundtrip.
Example C10_example : to_decimal_string true (mk 0 1 0 0) =
  Some (text [1;8;4;4;6;7;4;4;0;7;3;7;0;9;5;5;1;6;1;6]) /\
  from_decimal_str (text [0;0;1;8;4;4;6;7;4;4;0;7;3;7;0;9;5;5;1;6;1;6]) = Some (POk (mk 0 1 0 0)).
Proof. vm_compute. auto. Qed.

(** ** C11: hexadecimal strings *)
Theorem C11_print : forall x a, denotes x a ->
  exists s ds, to_hex_string x = prefix_0x 1 s /\ display x = s /\ length s = 64%nat /\ lower_hex s /\ spells s ds /\ num 16 ds = a.
Proof.
  intros x a [Hx <-]. destruct (to_hex_spec x Hx) as (ds & E & F & L & N). destruct (display_spec x Hx) as (ds' & E' & F' & L' & N').
  assert (ds' = ds) by (apply (num_inj 16); auto; try lia; congruence). subst ds'.
  exists (map hex_char ds), ds. split; [assumption|]. split; [assumption|]. split; [rewrite map_length; assumption|].
  split; [|split; [apply spells_chars; assumption|assumption]].
  apply Forall_map. eapply Forall_impl; [|exact F]. intros d Hd. unfold digit in Hd. unfold hex_char.
  destruct (Z.ltb_spec d 10); lia.
Qed.
Print Assumptions C11_print.
(** Any number of "0x" prefixes, then at most 64 digits in either case. *)
Theorem C11_parse : forall k s vs, spells s vs -> (length s <= 64)%nat ->
  exists x, from_hex_str (prefix_0x k s) = Some x /\ denotes x (num 16 vs).
Proof. intros k s vs H L. destruct (from_hex_short k s vs H L) as (x & E & Wx & V). exists x. split; [assumption|split; assumption]. Qed.
Print Assumptions C11_parse.
Theorem C11_roundtrip : forall x a, denotes x a ->
  from_hex_str (to_hex_string x) = Some x /\ from_hex_str (display x) = Some x.
Proof.
  intros x a Hx. destruct (C11_print x a Hx) as (s & ds & E1 & E2 & L & _ & Sp & N). rewrite E1, E2.
  destruct (C11_parse 1 s ds Sp ltac:(lia)) as (y & Ey & Wy & Vy). destruct (C11_parse 0 s ds Sp ltac:(lia)) as (z & Ez & Wz & Vz).
  destruct Hx as [Hx Va]. change (prefix_0x 0 s) with s in Ez. rewrite Ey, Ez.
  split; f_equal; apply val_inj; auto; congruence.
Qed.
Print Assumptions C11_roundtrip.
(** Anything that is not a hexadecimal digit panics. *)
Theorem C11_invalid_panics : forall k s c, s <> [] -> hd 0 s <> 48 -> In c s -> (forall v, ~ hex_value c v) -> from_hex_str (prefix_0x k s) = None.
Proof.
  intros k s c Hs H0 Hin Hc. apply from_hex_invalid with (c := c).
  - assert (E : trim_0x (prefix_0x k s) = s).
    { induction k; [|cbn; exact IHk]. destruct s as [|a [|b s]]; try reflexivity. cbn [prefix_0x Nat.iter nat_rect trim_0x]. cbn [hd] in H0.
      destruct (Z.eqb_spec a 48); [contradiction|reflexivity]. }
    rewrite E. assumption.
  - destruct (hex_digit c) as [v|] eqn:E; [|reflexivity]. apply hex_value_digit in E. exfalso. exact (Hc v E).
Qed.
Print Assumptions C11_invalid_panics.
(** More than 64 digits: an odd count panics; an even count silently keeps the
    64 most significant digits. *)
Theorem C11_too_long : forall k s vs, spells s vs -> (64 < length s)%nat ->
  if Nat.even (length s) then exists x, from_hex_str (prefix_0x k s) = Some x /\ denotes x (num 16 (firstn 64 vs))
  else from_hex_str (prefix_0x k s) = None.
Proof.
  intros k s vs H L. pose proof (from_hex_long k s vs H L) as G. destruct (Nat.even (length s)); [|exact G].
  destruct G as (x & E & Wx & V). exists x. split; [assumption|split; assumption].
Qed.
Print Assumptions C11_too_long.
Theorem C11_truncation_refuted : exists s vs x, spells s vs /\ from_hex_str s = Some x /\ val x <> num 16 vs /\ val x <> num 16 vs mod 2 ^ 256.
Proof.
  exists (repeat 48 64 ++ [49; 49]), (repeat 0 64 ++ [1; 1]), ZERO. split.
  - repeat constructor; unfold hex_value; lia.
  - split; [vm_compute; reflexivity|]. split; vm_compute; discriminate.
Qed.
Print Assumptions C11_truncation_refuted.
(** serde: both representations round-trip. *)
Theorem C11_serde_roundtrip : forall hr x a, denotes x a -> deserialize hr (serialize hr x) = Some x.
Proof.
  intros hr x a H. destruct hr; cbn [serialize deserialize].
  - apply (C11_roundtrip x a H).
  - destruct (C09_to_bytes x a H) as (L & _). rewrite L. cbn [Nat.eqb]. f_equal. apply (proj1 C09_roundtrip x a H).
Qed.
Print Assumptions C11_serde_roundtrip.
Example C11_example : from_hex_str [48; 120; 70; 102] = Some (mk 255 0 0 0).
Proof. vm_compute. reflexivity. Qed.

(** ** C12: primitive integers *)
Theorem C12_from_unsigned : forall n,
  (0 <= n < 2 ^ 64 -> denotes (from_uint n) n) /\ (0 <= n < 2 ^ 128 -> denotes (from_u128 n) n).
Proof. intros n. split; intros H; [apply from_uint_spec; exact H|apply from_u128_spec; exact H]. Qed.
Print Assumptions C12_from_unsigned.
Theorem C12_from_bool : forall b, denotes (from_bool b) (if b then 1 else 0).
Proof. intros []; split; try (apply mk_wf; uB; lia); reflexivity. Qed.
Print Assumptions C12_from_bool.
Theorem C12_from_signed : forall n,
  (- 2 ^ 63 <= n < 2 ^ 63 -> denotes (from_int n) (n mod 2 ^ 256)) /\
  (- 2 ^ 127 <= n < 2 ^ 127 -> denotes (from_i128 n) (n mod 2 ^ 256)).
Proof. intros n. split; intros H; [apply from_int_spec; exact H|apply from_i128_spec; exact H]. Qed.
Print Assumptions C12_from_signed.
Theorem C12_as_unsigned : forall x a, denotes x a ->
  (forall bits, 0 <= bits <= 64 -> as_uint bits x = a mod 2 ^ bits) /\ as_u128 x = a mod 2 ^ 128.
Proof. intros x a [Hx <-]. split; [intros bits Hb; exact (as_uint_spec bits x Hx Hb)|apply (as_u128_val x Hx)]. Qed.
Print Assumptions C12_as_unsigned.
(** Signed truncation: the representative of a modulo 2^bits in the signed range. *)
Theorem C12_as_signed : forall x a, denotes x a ->
  (forall bits, 0 < bits <= 64 -> - 2 ^ (bits - 1) <= as_int bits x < 2 ^ (bits - 1) /\ as_int bits x mod 2 ^ bits = a mod 2 ^ bits) /\
  - 2 ^ 127 <= as_i128 x < 2 ^ 127 /\ as_i128 x mod 2 ^ 128 = a mod 2 ^ 128.
Proof.
  intros x a [Hx <-]. split.
  - intros bits Hb. pose proof (as_uint_spec bits x Hx ltac:(lia)) as E. unfold as_uint in E. unfold as_int. rewrite E.
    apply to_signed_spec; [lia|]. apply Z.mod_pos_bound, Z.pow_pos_nonneg; lia.
  - destruct (as_u128_val x Hx) as [E _]. unfold as_u128 in E. unfold as_i128. rewrite E.
    apply (to_signed_spec 128); [lia|]. apply Z.mod_pos_bound. reflexivity.
Qed.
Print Assumptions C12_as_signed.
(** Signed and unsigned round trips. *)
Theorem C12_roundtrip : forall bits n, 0 < bits <= 64 ->
  (0 <= n < 2 ^ bits -> as_uint bits (from_uint n) = n) /\
  (- 2 ^ (bits - 1) <= n < 2 ^ (bits - 1) -> as_int bits (from_int n) = n).
Proof.
  intros bits n Hb. assert (HP : 2 ^ bits <= 2 ^ 64) by (apply Z.pow_le_mono_r; lia).
  assert (HQ : 2 ^ bits = 2 * 2 ^ (bits - 1)) by (rewrite <- Z.pow_succ_r by lia; f_equal; lia).
  assert (0 < 2 ^ (bits - 1)) by (apply Z.pow_pos_nonneg; lia). split; intros Hn.
  - destruct (from_uint_spec n) as [Wn Vn]; [change B with (2 ^ 64) in *; unfold u64; change B with (2 ^ 64); lia|].
    rewrite as_uint_spec, Vn by (auto; lia). apply Z.mod_small. lia.
  - destruct (from_int_spec n) as [Wn Vn]; [change (2 ^ 64) with (2 * 2 ^ 63) in HP; lia|].
    destruct (C12_as_signed _ _ (conj Wn Vn)) as [G _]. destruct (G bits Hb) as [G1 G2].
    assert (EM : (n mod 2 ^ 256) mod 2 ^ bits = n mod 2 ^ bits) by (apply mod_mod_pow; lia).
    change W with (2 ^ 256) in G2. rewrite EM in G2. set (y := as_int bits (from_int n)) in *. clearbody y.
    pose proof (Z.div_mod y (2 ^ bits) ltac:(lia)). pose proof (Z.div_mod n (2 ^ bits) ltac:(lia)).
    set (M := 2 ^ bits) in *. assert (Hk : y - n = M * (y / M - n / M)) by lia.
    set (k := y / M - n / M) in *. clearbody k M. assert (k = 0) by nia. subst k. lia.
Qed.
Print Assumptions C12_roundtrip.
Example C12_example : from_int (-2) = mk (B - 2) (B - 1) (B - 1) (B - 1) /\ as_int 8 (mk 0x1ff 7 0 0) = -1 /\ as_i128 (mk 0 (2 ^ 63) 0 1) = - 2 ^ 127.
Proof. vm_compute. auto. Qed.
