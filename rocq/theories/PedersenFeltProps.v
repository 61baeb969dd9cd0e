(** C64: the layers over the field of the crate: which hashes a table can show. *)
Require Import Ring Field ZArith NArith Lia Bool List.
From Verif Require Import MimcHashProps Word KnuthModel FieldSig FieldInstance FieldModel Primes FieldAlgModel FieldAlgProofs Arr FftModel FftSpec PermuteProofs FftProofs FftProps StarkBase StarkInstance PolyModel PolyProps TraceModel TraceProps ExprModel ExprSpec ExprProofs ExprProps CheckProps OodsProofs OodsSatProps LayoutProps StarkSpec ClaimModel ClaimSpec ClaimProofs ClaimProps ExampleProofs ExampleProps MimcProps VdfProps MimcTreeProps ComponentModel ComponentProofs ComponentProps CurveModel CurveSpec CurveGroup CurveProofs CurveInstance CurveOrder CurveBase CurveProps PedersenModel PedersenSpec PedersenProofs PedersenHash PedersenProps PedersenTraceProps.
Import ListNotations.
Open Scope nat_scope.

(** ** Any bits *)
Section Complete.
Context {F : Type} (o : ops F) (L : lawful o).
Lemma rows_exist n bits shift P Q lb rb : bits < n -> num o (map lb (seq bits (n - 1 - bits))) = f0 o -> num o (map rb (seq bits (n - 1 - bits))) = f0 o ->
  generic o (point shift) (fun r => point (P r)) (fun r => point (Q r)) lb rb (n - 1) ->
  exists T, layer_rows o n bits shift P Q T /\ T 0 0 = num o (first_bits (n - 1) lb) /\ T 0 4 = num o (first_bits (n - 1) rb) /\
  point (T (n - 1) 6, T (n - 1) 7) = partial_sum o (point shift) (fun r => point (P r)) (fun r => point (Q r)) lb rb (n - 1).
Proof using L.
  intros Hn Hl Hr G.
  assert (H : forall i, i <= n - 1 -> exists T : nat -> nat -> F, (T 0 6, T 0 7) = shift /\ (forall r, T r 0 = num o (map lb (seq r (n - 1 - r))) /\ T r 4 = num o (map rb (seq r (n - 1 - r)))) /\
    (forall r, r < i -> advance o (lb r) (T (S r) 1) (T r 6, T r 7) (P r) (T (S r) 2, T (S r) 3) /\ advance o (rb r) (T (S r) 5) (T (S r) 2, T (S r) 3) (Q r) (T (S r) 6, T (S r) 7)) /\
    point (T i 6, T i 7) = partial_sum o (point shift) (fun r => point (P r)) (fun r => point (Q r)) lb rb i).
  { induction i as [|i IH]; intros Hi.
    - exists (fun r c => match c with 0 => num o (map lb (seq r (n - 1 - r))) | 4 => num o (map rb (seq r (n - 1 - r))) | 6 => fst shift | 7 => snd shift | _ => f0 o end).
      split; [symmetry; apply surjective_pairing|]. split; [split; reflexivity|]. split; [intros r Hr0; lia|reflexivity].
    - destruct IH as (T & T0 & T1 & T2 & T3); [lia|]. destruct (G i ltac:(lia)) as [G1 G2]. rewrite <- T3 in G1, G2. destruct (advance_exists o L (lb i) _ (P i) G1) as (s & q & V). pose proof (advance_sum o L _ _ _ _ _ G1 V) as E. rewrite <- E in G2.
      destruct (advance_exists o L (rb i) q (Q i) G2) as (s' & q' & V'). pose proof (advance_sum o L _ _ _ _ _ G2 V') as E'.
      exists (fun r c => if r =? S i then match c with 1 => s | 2 => fst q | 3 => snd q | 5 => s' | 6 => fst q' | 7 => snd q' | c => T r c end else T r c).
      split; [exact T0|]. split; [intros r; destruct (r =? S i); apply T1|]. split.
      + intros r Hr0. destruct (Nat.eqb_spec r (S i)) as [|_]; [lia|]. destruct (Nat.eqb_spec (S r) (S i)) as [Er|Nr].
        * injection Er as ->. rewrite <- !surjective_pairing. split; assumption.
        * apply T2. lia.
      + rewrite Nat.eqb_refl. cbn [partial_sum]. rewrite <- T3, <- E, <- E', <- surjective_pairing. reflexivity. }
  destruct (H (n - 1) ltac:(lia)) as (T & T0 & T1 & T2 & T3). exists T. split; [|split; [|split; [|exact T3]]].
  - exists lb, rb. split; [exact T0|]. split; [intros r _; apply T1|]. split; [rewrite (proj1 (T1 bits)); exact Hl|]. split; [rewrite (proj2 (T1 bits)); exact Hr|]. intros r Hr0. apply T2. lia.
  - rewrite (proj1 (T1 0)), Nat.sub_0_r. reflexivity.
  - rewrite (proj2 (T1 0)), Nat.sub_0_r. reflexivity.
Qed.
End Complete.

(** ** Numbers *)
Fixpoint zbits (bs : list bool) : Z := match bs with [] => 0 | b :: bs => (if b then 1 else 0) + 2 * zbits bs end%Z.
Lemma num_phi bs : num felt_ops bs = phi (zbits bs).
Proof. induction bs as [|b bs IH]; [symmetry; exact phi_0|]. cbn [num zbits]. rewrite IH, phi_add, phi_mul. change 2%Z with (1 + 1)%Z. rewrite phi_add, phi_1. f_equal. destruct b; [symmetry; exact phi_1|symmetry; exact phi_0]. Qed.
Lemma zbits_range bs : (0 <= zbits bs < 2 ^ Z.of_nat (length bs))%Z.
Proof. induction bs as [|b bs IH]; [cbn; lia|]. cbn [zbits length]. rewrite Nat2Z.inj_succ, Z.pow_succ_r by lia. destruct b; lia. Qed.
Lemma zbits_bit bs : forall r, bit (zbits bs) r = nth r bs false.
Proof.
  unfold bit. induction bs as [|b bs IH]; intros [|r]; try (cbn [zbits nth]; apply Z.bits_0).
  - cbn [zbits nth]. change (Z.of_nat 0) with 0%Z. rewrite Z.bit0_odd, Z.odd_add_mul_2. destruct b; reflexivity.
  - cbn [zbits nth]. rewrite Nat2Z.inj_succ, <- Z.div2_bits by lia. rewrite <- IH. replace (((if b then 1 else 0) + 2 * zbits bs) / 2)%Z with (zbits bs); [reflexivity|]. rewrite Z.add_comm, Z.mul_comm, Z.div_add_l by lia. destruct b; [change (1 / 2)%Z with 0%Z|change (0 / 2)%Z with 0%Z]; lia.
Qed.
Lemma zbits_zero bs : zbits bs = 0%Z -> forall r, nth r bs false = false.
Proof. intros E r. rewrite <- zbits_bit, E. apply Z.bits_0. Qed.
Lemma nth_bits n b r : r < n -> nth r (first_bits n b) false = b r.
Proof. intros Hr. unfold first_bits. rewrite (nth_indep _ false (b 0)) by (rewrite map_length, seq_length; exact Hr). rewrite map_nth, seq_nth by exact Hr. reflexivity. Qed.
Lemma bits_zbits n z : (0 <= z < 2 ^ Z.of_nat n)%Z -> zbits (first_bits n (bit z)) = z.
Proof.
  intros Hz. apply Z.bits_inj'. intros i Hi. rewrite <- (Z2Nat.id i Hi). fold (bit (zbits (first_bits n (bit z))) (Z.to_nat i)). fold (bit z (Z.to_nat i)). rewrite zbits_bit. destruct (Nat.lt_ge_cases (Z.to_nat i) n) as [H|H]; [apply nth_bits, H|].
  rewrite nth_overflow by (unfold first_bits; rewrite map_length, seq_length; exact H). symmetry. apply (high_false z n); assumption.
Qed.
Lemma bits_above z r n : (0 <= z)%Z -> zbits (map (bit z) (seq r n)) = (z / 2 ^ Z.of_nat r mod 2 ^ Z.of_nat n)%Z.
Proof.
  intros Hz. revert r. induction n as [|n IH]; intros r; [cbn; rewrite Z.mod_1_r; reflexivity|]. cbn [seq map zbits]. rewrite IH, <- odd_bit by exact Hz. rewrite <- div_succ, Z.div2_div. set (y := (z / 2 ^ Z.of_nat r)%Z). rewrite Nat2Z.inj_succ, Z.pow_succ_r by lia.
  assert (0 < 2 ^ Z.of_nat n)%Z by (apply Z.pow_pos_nonneg; lia). rewrite (Z.rem_mul_r y 2 (2 ^ Z.of_nat n)) by lia. rewrite Zmod_odd. reflexivity.
Qed.
Lemma p_bits : (2 ^ 251 < p_field < 2 ^ 252)%Z. Proof. split; vm_compute; reflexivity. Qed.
Lemma felt_range (x : Felt) : (0 <= fe_val x < p_field)%Z. Proof. apply (fe_val_range proth_good). Qed.
(** The conversions of the crate: [U256::from(FieldElement)] and [FieldElement::from(U256)]. *)
Theorem C64_conversions : conversions felt_ops fe_val phi 252.
Proof.
  constructor.
  - intros x. pose proof (felt_range x). pose proof p_bits. change (Z.of_nat 252) with 252%Z. lia.
  - apply phi_fe.
  - exact phi_0.
  - intros z Hz. rewrite (Z.div_mod z 2) at 1 by lia. rewrite Z.add_comm, phi_add, phi_mul, Zmod_odd. change 2%Z with (1 + 1)%Z at 1. rewrite phi_add, phi_1. f_equal. destruct (Z.odd z); [exact phi_1|exact phi_0].
Qed.
Print Assumptions C64_conversions.

Lemma partial_ext {F} (o : ops F) shift P Q lb rb lb' rb' n : (forall r, r < n -> lb r = lb' r /\ rb r = rb' r) -> partial_sum o shift P Q lb rb n = partial_sum o shift P Q lb' rb' n.
Proof. induction n as [|n IH]; intros H; [reflexivity|]. cbn [partial_sum]. destruct (H n ltac:(lia)) as [-> ->]. rewrite IH by (intros r Hr; apply H; lia). reflexivity. Qed.
Lemma partial_flat {F} (o : ops F) shift P Q lb rb i d : (forall r, i <= r < i + d -> lb r = false /\ rb r = false) -> partial_sum o shift P Q lb rb (i + d) = partial_sum o shift P Q lb rb i.
Proof. induction d as [|d IH]; intros H; [rewrite Nat.add_0_r; reflexivity|]. rewrite Nat.add_succ_r. cbn [partial_sum]. destruct (H (i + d) ltac:(lia)) as [-> ->]. apply IH. intros r Hr. apply H. lia. Qed.
Lemma zbits_app xs ys : zbits (xs ++ ys) = (zbits xs + 2 ^ Z.of_nat (length xs) * zbits ys)%Z.
Proof. induction xs as [|x xs IH]; cbn [app zbits length]; [rewrite Z.pow_0_r; lia|]. rewrite IH, Nat2Z.inj_succ, Z.pow_succ_r by lia. destruct x; lia. Qed.
Lemma column_bits (v : Felt) lb : v = num felt_ops (first_bits 255 lb) -> num felt_ops (map lb (seq 252 3)) = f0 felt_ops ->
  exists a, (0 <= a < 2 ^ 252)%Z /\ (a = fe_val v \/ a = fe_val v + p_field)%Z /\ forall r, r < 255 -> lb r = bit a r.
Proof.
  intros Ev Eh. set (a := zbits (first_bits 252 lb)). assert (Ra : (0 <= a < 2 ^ 252)%Z) by (pose proof (zbits_range (first_bits 252 lb)) as R; assert (L : length (first_bits 252 lb) = 252) by (unfold first_bits; rewrite map_length, seq_length; reflexivity); rewrite L in R; exact R).
  assert (Z3 : zbits (map lb (seq 252 3)) = 0%Z).
  { rewrite num_phi, <- phi_0 in Eh. pose proof (zbits_range (map lb (seq 252 3))) as R. rewrite map_length, seq_length in R. change (2 ^ Z.of_nat 3)%Z with 8%Z in R. pose proof p_bits. apply phi_inj in Eh; lia. }
  exists a. split; [exact Ra|]. split.
  - assert (E : num felt_ops (first_bits 255 lb) = phi a). { rewrite num_phi. apply (f_equal phi). unfold a, first_bits. change 255 with (252 + 3). rewrite seq_app, map_app, zbits_app. change (0 + 252) with 252. rewrite Z3. lia. }
    rewrite E in Ev. rewrite Ev, phi_val. pose proof p_bits. destruct (Z.lt_ge_cases a p_field) as [H1|H1]; [left; symmetry; apply Z.mod_small; lia|right]. rewrite <- (Z.mod_add a (-1)) by lia. rewrite Z.mod_small by lia. lia.
  - intros r Hr. unfold a. rewrite zbits_bit. destruct (Nat.lt_ge_cases r 252) as [H1|H1]; [symmetry; apply nth_bits, H1|]. rewrite (nth_overflow (first_bits 252 lb)) by (unfold first_bits; rewrite map_length, seq_length; exact H1).
    pose proof (zbits_zero _ Z3 (r - 252)) as H2. rewrite (nth_indep _ false (lb 0)) in H2 by (rewrite map_length, seq_length; lia). rewrite map_nth, seq_nth in H2 by lia. replace (252 + (r - 252)) with r in H2 by lia. exact H2.
Qed.
(** In the field of the crate, with layers of 256 rows: every accepted table shows the hash of two numbers below 2^252 that
    represent its inputs, unless an addition degenerates. Each is the input or the input plus the modulus. *)
Theorem C64_felt_layer : forall b, good_curve felt_ops b -> forall shift P Q T, curve felt_ops b (point shift) -> (forall r, r < 252 -> curve felt_ops b (point (P r)) /\ curve felt_ops b (point (Q r))) ->
  layer_rows felt_ops 256 252 shift P Q T -> exists x y : Z,
  (0 <= x < 2 ^ 252)%Z /\ (x = fe_val (T 0%nat 0%nat) \/ x = fe_val (T 0%nat 0%nat) + p_field)%Z /\
  (0 <= y < 2 ^ 252)%Z /\ (y = fe_val (T 0%nat 4%nat) \/ y = fe_val (T 0%nat 4%nat) + p_field)%Z /\
  (generic felt_ops (point shift) (fun r => point (P r)) (fun r => point (Q r)) (bit x) (bit y) 252 ->
   point (T 255 6, T 255 7) = pedersen_point felt_ops (point shift) (fun r => point (P r)) (fun r => point (Q r)) 252 x y).
Proof.
  intros b Sm shift P Q T Os On H. destruct (rows_sum felt_ops felt_lawful 256 252 shift P Q T H ltac:(lia)) as (lb & rb & E0 & E4 & B0 & B4 & EB & G). destruct (EB ltac:(lia)) as [H1 H2]. rewrite H1 in B0. rewrite H2 in B4. clear EB H1 H2.
  change (256 - 1) with 255 in *. change (255 - 252) with 3 in *. destruct (column_bits _ lb E0 B0) as (x & Rx & Ex & Bx). destruct (column_bits _ rb E4 B4) as (y & Ry & Ey & By). exists x, y. split; [exact Rx|]. split; [exact Ex|]. split; [exact Ry|]. split; [exact Ey|]. intros Gn.
  assert (Ext : forall r, r <= 255 -> partial_sum felt_ops (point shift) (fun r => point (P r)) (fun r => point (Q r)) lb rb r = partial_sum felt_ops (point shift) (fun r => point (P r)) (fun r => point (Q r)) (bit x) (bit y) r) by (intros r Hr; apply partial_ext; intros i Hi; split; [apply Bx|apply By]; lia).
  assert (Hx : forall r, 252 <= r -> bit x r = false) by (intros r Hr; apply (high_false x 252 r Rx Hr)). assert (Hy : forall r, 252 <= r -> bit y r = false) by (intros r Hr; apply (high_false y 252 r Ry Hr)).
  rewrite G; [|intros r Hr|lia].
  - rewrite Ext by lia. change 255 with (252 + 3). rewrite partial_flat by (intros r Hr; split; [apply Hx|apply Hy]; lia). apply (partial_pedersen felt_ops felt_lawful b Sm); assumption.
  - rewrite Ext by lia. rewrite (Bx r Hr), (By r Hr). destruct (Nat.lt_ge_cases r 252) as [Hr'|Hr']; [apply (Gn r Hr')|]. rewrite (Hx r Hr'), (Hy r Hr'). split; discriminate.
Qed.
Print Assumptions C64_felt_layer.

(** ** Two hashes of the same inputs *)
(** pedersen_points.rs: the shift point and the points 1, 193, 197, 252 of the table, those of the binary digits of the modulus. *)
Definition pt2 (x y : Z) : Felt * Felt := (phi x, phi y).
Definition SHIFT : Felt * Felt := pt2 0x049ee3eba8c1600700ee1b87eb599f16716b0b1022947733551fde4050ca6804 0x03ca0cfe4b3bc6ddf346d49d06ea0ed34e621062c0e056c1d0405d266e10268a.
Definition P_0 : Felt * Felt := pt2 0x1ef15c18599971b7beced415a40f0c7deacfd9b0d1819e03d723d8bc943cfca 0x5668060aa49730b7be4801df46ec62de53ecd11abe43a32873000c36e8dc1f.
Definition P_192 : Felt * Felt := pt2 0x6c65946cd51da9c30a36c38089e1370be2ed6b964bc3bf7a58d8050bcd867b9 0x238b983afeed5c6d09ed9fa73a92f5cbe3178e15a809dffe13fd294cc8e20bd.
Definition P_196 : Felt * Felt := pt2 0x2f5028bdd9240da43e90640d3248f7492659b98d5eb1387b31306f9669704cf 0x20e59f6098ddad615ddfa242d46ad749a44b9e212e347f921515cb0c2a69d91.
Definition P_251 : Felt * Felt := pt2 0x9ba020b37ad153c3f36f62ddf299d1ae80bdb88c12d070e6b004b9443ca83f 0x261fd0e65708a1b2b1cea6f02b8f176fb02ad97ebd0cff629aa515bce8b7963.
(** The sums. *)
Definition Q1 : Felt * Felt := pt2 0x53ac02c0a5f157d132f278536382bb6a5d97470d2200b3bf4ae9f313627ba19 0x474a9037f8a03cfbf90f7f5b72df656b5f5dd92c2deeec945d79139ad364efc.
Definition Q2 : Felt * Felt := pt2 0x394e606acb2c01baee89b97b7c2507c99827c56958c809bc8fcae9967303e75 0x2111ea8b1b0d8855efc04d047439d775912e495f28f91d8073168dab4c3a1aa.
Definition Q3 : Felt * Felt := pt2 0x51e4d5096873ded82e288a71e20ef4581a9632aa0ccdb8b5435959048dcfca4 0x6fa86706256575b241f778e01e84efdcb211b18bac5e3297f24540da0b42a3a.
Definition Q4 : Felt * Felt := pt2 0x1efda68d69768c91731542c5fd1b4870398d3327da3d35c845a6dbca9710217 0x2c4f02f65cb8517c6f6ec7c5796a19b03b13eaa31b71bdc2229f2248331ef65.
Lemma pt_sum s q0 q1 p0 p1 r0 r1 : ((s * (q0 - p0) - (q1 - p1)) mod p_field =? 0)%Z && ((s * s - (q0 + p0 + r0)) mod p_field =? 0)%Z && ((s * (q0 - r0) - (q1 + r1)) mod p_field =? 0)%Z && negb ((q0 - p0) mod p_field =? 0)%Z = true ->
  apart (point (pt2 q0 q1)) (point (pt2 p0 p1)) /\ padd felt_ops (f1 felt_ops) (point (pt2 q0 q1)) (point (pt2 p0 p1)) = point (pt2 r0 r1).
Proof.
  rewrite !andb_true_iff, negb_true_iff, !Z.eqb_eq, Z.eqb_neq. intros (((H1 & H2) & H3) & H4).
  assert (A : apart (point (pt2 q0 q1)) (point (pt2 p0 p1))). { cbn. intros E. apply (phi_neq _ H4). rewrite phi_sub, E. apply (fsub_0_iff felt_ops felt_lawful). reflexivity. }
  split; [exact A|]. symmetry. apply (advance_sum felt_ops felt_lawful true (phi s) (pt2 q0 q1) (pt2 p0 p1) (pt2 r0 r1) (fun _ => A)). cbn [advance]. unfold chord, pt2. cbn [fst snd]. apply phi_mod in H1, H2, H3. rewrite ?phi_mul, ?phi_sub, ?phi_add in *. auto.
Qed.
Lemma sum1 : apart (point SHIFT) (point P_0) /\ padd felt_ops (f1 felt_ops) (point SHIFT) (point P_0) = point Q1.
Proof. apply (pt_sum 0x1b8bb2c01a1df15128a175293abe979da5a96f4aad6d89f9e943f2dbd276655). vm_compute. reflexivity. Qed.
Lemma sum2 : apart (point Q1) (point P_192) /\ padd felt_ops (f1 felt_ops) (point Q1) (point P_192) = point Q2.
Proof. apply (pt_sum 0x32a2ce83ae28acd13af9e1b93af0e0200e178ff6f385cbe65d248488652eebd). vm_compute. reflexivity. Qed.
Lemma sum3 : apart (point Q2) (point P_196) /\ padd felt_ops (f1 felt_ops) (point Q2) (point P_196) = point Q3.
Proof. apply (pt_sum 0xe21f4efbeca399df716147e584a4e6dbc17cbd47ae849657465a3394d37f96). vm_compute. reflexivity. Qed.
Lemma sum4 : apart (point Q3) (point P_251) /\ padd felt_ops (f1 felt_ops) (point Q3) (point P_251) = point Q4.
Proof. apply (pt_sum 0x3fbc106d062f9cc872b6adc653336dc7e4f3cd1478ab066466fe78f996ef111). vm_compute. reflexivity. Qed.
Lemma p_digits : forallb (fun r => Bool.eqb (bit p_field r) ((r =? 0) || (r =? 192) || (r =? 196) || (r =? 251))) (seq 0 255) = true. Proof. vm_compute. reflexivity. Qed.
Lemma p_digit r : r < 255 -> bit p_field r = (r =? 0) || (r =? 192) || (r =? 196) || (r =? 251).
Proof. intros Hr. pose proof p_digits as H. rewrite forallb_forall in H. specialize (H r ltac:(apply in_seq; lia)). apply Bool.eqb_prop in H. exact H. Qed.
Lemma point_fst {F} (x y : F) q : point (x, y) = point q -> x = fst q. Proof. intros E. injection E as E _. exact E. Qed.
Lemma phi_apart a c : negb ((a - c) mod p_field =? 0)%Z = true -> phi a <> phi c.
Proof. rewrite negb_true_iff, Z.eqb_neq. intros H E. apply (phi_neq _ H). rewrite phi_sub, E. apply (fsub_0_iff felt_ops felt_lawful). reflexivity. Qed.
Section Two.
Variables (P Q : nat -> Felt * Felt).
Hypothesis H0 : P 0 = P_0.
Hypothesis H192 : P 192 = P_192.
Hypothesis H196 : P 196 = P_196.
Hypothesis H251 : P 251 = P_251.
Let none : nat -> bool := fun _ => false.
Notation PS := (partial_sum felt_ops (point SHIFT) (fun r => point (P r)) (fun r => point (Q r)) (bit p_field) none).
Lemma ps_step i p : bit p_field i = true -> P i = p -> PS (i + 1) = padd felt_ops (f1 felt_ops) (PS i) (point p).
Proof using. clear. intros Hb <-. rewrite Nat.add_1_r. cbn [partial_sum]. rewrite Hb. reflexivity. Qed.
Lemma ps_flat i j : i <= j -> j <= 255 -> (forall r, i <= r < j -> r <> 0 /\ r <> 192 /\ r <> 196 /\ r <> 251) -> PS j = PS i.
Proof using.
  clear. intros Hij Hj H. replace j with (i + (j - i)) by lia. apply partial_flat. intros r Hr. split; [|reflexivity]. rewrite p_digit by lia. destruct (H r ltac:(lia)) as (N1 & N2 & N3 & N4).
  destruct (Nat.eqb_spec r 0); [contradiction|]. destruct (Nat.eqb_spec r 192); [contradiction|]. destruct (Nat.eqb_spec r 196); [contradiction|]. destruct (Nat.eqb_spec r 251); [contradiction|]. reflexivity.
Qed.
Lemma ps_values : PS 0 = point SHIFT /\ PS 192 = point Q1 /\ PS 196 = point Q2 /\ PS 251 = point Q3 /\ PS 255 = point Q4.
Proof using H0 H192 H196 H251.
  assert (E0 : PS 0 = point SHIFT) by reflexivity. assert (E1 : PS 192 = point Q1) by (rewrite (ps_flat 1 192) by lia; change 1 with (0 + 1); rewrite (ps_step 0 P_0 eq_refl H0), E0; apply sum1).
  assert (E2 : PS 196 = point Q2) by (rewrite (ps_flat 193 196) by lia; change 193 with (192 + 1); rewrite (ps_step 192 P_192 eq_refl H192), E1; apply sum2).
  assert (E3 : PS 251 = point Q3) by (rewrite (ps_flat 197 251) by lia; change 197 with (196 + 1); rewrite (ps_step 196 P_196 eq_refl H196), E2; apply sum3).
  assert (E4 : PS 255 = point Q4) by (rewrite (ps_flat 252 255) by lia; change 252 with (251 + 1); rewrite (ps_step 251 P_251 eq_refl H251), E3; apply sum4). auto.
Qed.
Lemma ps_generic : generic felt_ops (point SHIFT) (fun r => point (P r)) (fun r => point (Q r)) (bit p_field) none 255.
Proof using H0 H192 H196 H251.
  destruct ps_values as (E0 & E1 & E2 & E3 & _). intros r Hr. split; [|discriminate]. rewrite p_digit by exact Hr. rewrite !orb_true_iff, !Nat.eqb_eq. intros [[[->| ->]| ->]| ->].
  - rewrite E0, H0. apply sum1. - rewrite E1, H192. apply sum2. - rewrite E2, H196. apply sum3. - rewrite E3, H251. apply sum4.
Qed.
End Two.
(** With the points of the crate, there are two accepted tables with the same inputs, 0 and 0, that show different hashes: one
    uses the digits of 0, the other those of the modulus, which represents 0, too. *)
Theorem C64_hash_refuted : forall P Q, P 0 = P_0 -> P 192 = P_192 -> P 196 = P_196 -> P 251 = P_251 -> exists T1 T2,
  layer_rows felt_ops 256 252 SHIFT P Q T1 /\ layer_rows felt_ops 256 252 SHIFT P Q T2 /\
  T1 0 0 = f0 felt_ops /\ T1 0 4 = f0 felt_ops /\ T2 0 0 = f0 felt_ops /\ T2 0 4 = f0 felt_ops /\
  T1 255 6 = fst SHIFT /\ T2 255 6 = fst Q4 /\ fst SHIFT <> fst Q4.
Proof.
  intros P Q H0 H192 H196 H251. set (none := fun _ : nat => false).
  assert (N0 : forall i n, num felt_ops (map none (seq i n)) = f0 felt_ops).
  { intros i n. rewrite num_phi, <- phi_0. apply (f_equal phi). revert i. induction n as [|n IH]; intros i; [reflexivity|]. cbn [seq map zbits]. rewrite IH. reflexivity. }
  assert (NP : forall i n, num felt_ops (map (bit p_field) (seq i n)) = phi (p_field / 2 ^ Z.of_nat i mod 2 ^ Z.of_nat n)%Z) by (intros i n; rewrite num_phi, bits_above by (pose proof p_bits; lia); reflexivity).
  destruct (rows_exist felt_ops felt_lawful 256 252 SHIFT P Q none none ltac:(lia) (N0 _ _) (N0 _ _)) as (T1 & A1 & A2 & A3 & A4); [intros r Hr; split; discriminate|].
  destruct (rows_exist felt_ops felt_lawful 256 252 SHIFT P Q (bit p_field) none ltac:(lia)) as (T2 & B1 & B2 & B3 & B4); [rewrite NP, <- phi_0; apply (f_equal phi); vm_compute; reflexivity|apply N0|exact (ps_generic P Q H0 H192 H196 H251)|].
  change (256 - 1) with 255 in *. exists T1, T2. split; [exact A1|]. split; [exact B1|]. split; [rewrite A2; apply N0|]. split; [rewrite A3; apply N0|]. split; [|split; [rewrite B3; apply N0|split; [|split]]].
  - rewrite B2. unfold first_bits. rewrite NP, <- phi_0. apply phi_mod. vm_compute. reflexivity.
  - rewrite (partial_flat felt_ops _ _ _ none none 0 255) in A4 by (intros; split; reflexivity). apply point_fst in A4. exact A4.
  - destruct (ps_values P Q H0 H192 H196 H251) as (_ & _ & _ & _ & E4). fold none in E4. rewrite E4 in B4. apply point_fst in B4. exact B4.
  - unfold SHIFT, Q4, pt2. cbn [fst]. apply phi_apart. vm_compute. reflexivity.
Qed.
Print Assumptions C64_hash_refuted.

(** So the tree accepts two roots for the same leaf and the same sibling: with one layer, leaf 0 and sibling 0, the root of the
    honest witness and another one. *)
Theorem C64_tree_refuted : forall dbg points lx ly rx ry P Q,
  length lx = 2 ^ 8 -> length ly = 2 ^ 8 -> length rx = 2 ^ 8 -> length ry = 2 ^ 8 ->
  (forall r, r < 2 ^ 8 -> let z := fpw felt_ops (fe_w proth_good 8) r in (peval felt_ops lx z, peval felt_ops ly z) = P r /\ (peval felt_ops rx z, peval felt_ops ry z) = Q r) ->
  P 0 = P_0 -> P 192 = P_192 -> P 196 = P_196 -> P 251 = P_251 ->
  exists c, merkle_tree felt_ops felt_engine (point SHIFT) points lx ly rx ry (2 ^ 8) 252 fe_val phi dbg (2 ^ 0) = Some c /\
  forall root, root = fst SHIFT \/ root = fst Q4 -> exists cs t, k_constraints c (f0 felt_ops, root) = Some cs /\ size t (2 ^ 8 * 2 ^ 0) 8 /\
  cell felt_ops t 0 0 = f0 felt_ops /\ cell felt_ops t 0 4 = f0 felt_ops /\ check_constraints felt_ops felt_engine cs t = Some None.
Proof.
  intros dbg points lx ly rx ry P Q L1 L2 L3 L4 HPQ H0 H192 H196 H251. destruct (C64_hash_refuted P Q H0 H192 H196 H251) as (T1 & T2 & A1 & A2 & A3 & A4 & A5 & A6 & A7 & A8 & _).
  assert (B : (2 ^ 0 =? 1) = true) by reflexivity. assert (Cs : exists c, merkle_tree felt_ops felt_engine (point SHIFT) points lx ly rx ry (2 ^ 8) 252 fe_val phi dbg (2 ^ 0) = Some c).
  { unfold merkle_tree, k_vertical. rewrite is_pow2. cbn [bind]. eexists. reflexivity. }
  destruct Cs as (c & Ec). exists c. split; [exact Ec|]. intros root Hr.
  assert (HT : exists T, layer_rows felt_ops 256 252 SHIFT P Q T /\ T 0 0 = f0 felt_ops /\ T 0 4 = f0 felt_ops /\ T 255 6 = root) by (destruct Hr as [->| ->]; [exists T1|exists T2]; auto).
  clear - Ec HT L1 L2 L3 L4 HPQ. destruct HT as (T & R & E0 & E4 & E6). destruct (table_of felt_ops (2 ^ 8 * 2 ^ 0) 8 T) as (t & S8 & G).
  destruct (C64_tree_check _ felt_ops felt_lawful felt_engine 63 _ felt_sound dbg (fst SHIFT) (snd SHIFT) points lx ly rx ry 8 0 252 fe_val phi P Q (f0 felt_ops) root t ltac:(lia) L1 L2 L3 L4 ltac:(cbn; lia) HPQ S8) as (c' & cs & Ec' & _ & _ & Ek & Iff).
  change (merkle_tree felt_ops felt_engine (point SHIFT) points lx ly rx ry (2 ^ 8) 252 fe_val phi dbg (2 ^ 0) = Some c') in Ec'. rewrite Ec in Ec'. apply some_inj in Ec' as <-. exists cs, t. split; [exact Ek|]. split; [exact S8|].
  split; [rewrite G by (cbn; lia); exact E0|]. split; [rewrite G by (cbn; lia); exact E4|]. apply Iff. change (2 ^ 0) with 1 in *. change (2 ^ 8) with 256 in *. clear Ec Ek Iff. split; [|split; [|split]].
  - intros b Hb. replace b with 0 by lia. destruct R as (lb & rb & R1 & R2 & R3 & R4 & R5). exists lb, rb. cbn [Nat.mul Nat.add]. rewrite <- surjective_pairing. rewrite !G by lia. split; [exact R1|]. split; [intros r Hr'; rewrite !G by lia; apply R2, Hr'|]. split; [exact R3|]. split; [exact R4|]. intros r Hr'. rewrite !G by lia. apply R5, Hr'.
  - left. rewrite G by lia. symmetry. exact E0.
  - rewrite G by lia. symmetry. exact E6.
  - intros b Hb. lia.
Qed.
Print Assumptions C64_tree_refuted.
(** Adding a point to itself is not constrained: any slope is accepted. Adding points with the same abscissa and different
    ordinates is impossible. *)
Theorem C64_degenerate_deviation : forall F (o : ops F), lawful o -> (forall s q, exists r, chord o s q q r /\ fst r = fsub o (fsub o (fmul o s s) (fst q)) (fst q)) /\
  forall s q p r, fst q = fst p -> snd q <> snd p -> ~ chord o s q p r.
Proof. intros F o L. split; [intros s q; eexists; split; [apply (chord_same o L)|reflexivity]|apply (chord_opposite o L)]. Qed.
Print Assumptions C64_degenerate_deviation.

(** *** Examples *)
Lemma pt_on x y : ((y * y - (x * x * x + x + fe_val BETA)) mod p_field =? 0)%Z = true -> curve felt_ops BETA (point (pt2 x y)).
Proof.
  intros H. apply Z.eqb_eq in H. apply phi_mod in H. rewrite !phi_add, !phi_mul, phi_fe in H. cbn [on_curve point pt2 fst snd]. rewrite H. f_equal. f_equal. symmetry. apply (Rmul_1_l (F_R (law_field _ felt_lawful))).
Qed.
Lemma shift_on : curve felt_ops BETA (point SHIFT). Proof. apply pt_on. rewrite beta_val. vm_compute. reflexivity. Qed.
Lemma p0_on : curve felt_ops BETA (point P_0). Proof. apply pt_on. rewrite beta_val. vm_compute. reflexivity. Qed.
(** Columns with any points exist. *)
Lemma columns_exist (P : nat -> Felt * Felt) k : k <= 63 -> exists xs ys, length xs = 2 ^ k /\ length ys = 2 ^ k /\ forall r, r < 2 ^ k -> (peval felt_ops xs (fpw felt_ops (fe_w proth_good k) r), peval felt_ops ys (fpw felt_ops (fe_w proth_good k) r)) = P r.
Proof.
  intros Hk. destruct (interp felt_ops felt_lawful felt_engine 63 _ felt_sound k (map (fun r => fst (P r)) (seq 0 (2 ^ k))) Hk) as (xs & Lx & Hx); [rewrite map_length, seq_length; reflexivity|].
  destruct (interp felt_ops felt_lawful felt_engine 63 _ felt_sound k (map (fun r => snd (P r)) (seq 0 (2 ^ k))) Hk) as (ys & Ly & Hy); [rewrite map_length, seq_length; reflexivity|].
  exists xs, ys. split; [exact Lx|]. split; [exact Ly|]. intros r Hr. rewrite <- Hx, <- Hy by exact Hr. rewrite !(nth_indep _ (f0 felt_ops) (fst (P 0))), (nth_indep (map (fun r => snd (P r)) (seq 0 (2 ^ k))) (fst (P 0)) (snd (P 0))) by (rewrite map_length, seq_length; exact Hr).
  rewrite (map_nth (fun r => fst (P r))), (map_nth (fun r => snd (P r))), seq_nth by exact Hr. symmetry. apply surjective_pairing.
Qed.
(** The columns that the refutation assumes. *)
Example C64_refuted_ex : exists lx ly rx ry P Q, length lx = 2 ^ 8 /\ length ly = 2 ^ 8 /\ length rx = 2 ^ 8 /\ length ry = 2 ^ 8 /\
  (forall r, r < 2 ^ 8 -> let z := fpw felt_ops (fe_w proth_good 8) r in (peval felt_ops lx z, peval felt_ops ly z) = P r /\ (peval felt_ops rx z, peval felt_ops ry z) = Q r) /\
  P 0 = P_0 /\ P 192 = P_192 /\ P 196 = P_196 /\ P 251 = P_251.
Proof.
  set (P := fun r => if r =? 192 then P_192 else if r =? 196 then P_196 else if r =? 251 then P_251 else P_0).
  destruct (columns_exist P 8 ltac:(lia)) as (lx & ly & L1 & L2 & HP). exists lx, ly, lx, ly, P, P. split; [exact L1|]. split; [exact L2|]. split; [exact L1|]. split; [exact L2|]. split; [intros r Hr; split; apply HP, Hr|]. repeat split; reflexivity.
Qed.
(** An honest witness: one layer, the leaf 1 on the left of the sibling 0; one addition. *)
Lemma val_01 : fe_val (f0 felt_ops) = 0%Z /\ fe_val (f1 felt_ops) = 1%Z.
Proof. rewrite <- phi_0, <- phi_1, !phi_val. split; reflexivity. Qed.
Lemma hash_at {F} (o : ops F) shift P Q bits to_uint x y q : pedersen_point o shift P Q bits (to_uint x) (to_uint y) = point q -> hash_of o shift P Q bits to_uint x y = fst q.
Proof. intros E. unfold hash_of. rewrite E. reflexivity. Qed.
Lemma one_root shift P Q bits q : pedersen_point felt_ops shift P Q bits 1 0 = point q -> tree_root (hash_of felt_ops shift P Q bits fe_val) (f1 felt_ops) (map swap [(false, f0 felt_ops)]) = fst q.
Proof. destruct val_01 as [V0 V1]. intros E. cbn [map swap fst snd tree_root siblings]. apply hash_at. rewrite V0, V1. exact E. Qed.
Example C64_tree_ex : exists lx ly rx ry c, let P' (r : nat) := point P_0 in
  Forall (regular felt_ops (point SHIFT) P' P' 256 252 fe_val) (tree_inputs (hash_of felt_ops (point SHIFT) P' P' 252 fe_val) (f1 felt_ops) (map swap [(false, f0 felt_ops)])) /\
  merkle_tree felt_ops felt_engine (point SHIFT) (repeat (point P_0) 506) lx ly rx ry 256 252 fe_val phi true 1 = Some c /\
  k_check felt_ops felt_engine c ([(false, f0 felt_ops)], f1 felt_ops, fst Q1) = Some None.
Proof.
  destruct (columns_exist (fun _ => P_0) 8 ltac:(lia)) as (lx & ly & L1 & L2 & HP). exists lx, ly, lx, ly. set (P' := fun _ : nat => point P_0). destruct val_01 as [V0 V1]. destruct sum1 as [S1 S2]. destruct sum2 as [A1 _].
  assert (B0 : forall r, bit 0 r = false) by (intros r; apply Z.bits_0). assert (B1 : forall r, bit 1 r = (r =? 0)) by (intros [|r]; [reflexivity|]; apply (high_false 1 1); cbn; lia).
  assert (PS : forall Q rb r, (forall i, rb i = false) -> partial_sum felt_ops (point SHIFT) P' Q (bit 1) rb (1 + r) = point Q1).
  { intros Q rb r Hrb. rewrite partial_flat by (intros i Hi; rewrite B1, Hrb; destruct i; [lia|auto]). cbn [partial_sum]. rewrite B1, Hrb. cbn [Nat.eqb add_if]. exact S2. }
  assert (R : regular felt_ops (point SHIFT) P' P' 256 252 fe_val (f1 felt_ops, f0 felt_ops) /\ pedersen_point felt_ops (point SHIFT) P' P' 252 1 0 = point Q1).
  { unfold regular. cbn [fst snd]. rewrite V0, V1. assert (E : pedersen_point felt_ops (point SHIFT) P' P' 252 1 0 = point Q1).
    { transitivity (partial_sum felt_ops (point SHIFT) P' P' (bit 1) (bit 0) (1 + 251)); [|apply PS, B0]. symmetry. apply (partial_pedersen felt_ops felt_lawful BETA stark_smooth); [exact shift_on|]. intros r _. split; exact p0_on. }
    split; [|exact E]. split; [|split].
    - intros r _. split; [|rewrite B0; discriminate]. rewrite B1. intros E0. apply Nat.eqb_eq in E0 as ->. exact S1.
    - intros r _. split; [|rewrite B0; discriminate]. rewrite B1. intros E0. apply Nat.eqb_eq in E0 as ->. exact S1.
    - rewrite E. discriminate. }
  destruct R as [R E]. assert (Fa : Forall (regular felt_ops (point SHIFT) P' P' 256 252 fe_val) (tree_inputs (hash_of felt_ops (point SHIFT) P' P' 252 fe_val) (f1 felt_ops) (map swap [(false, f0 felt_ops)]))) by (constructor; [exact R|constructor]).
  destruct (C64_tree _ felt_ops felt_lawful BETA stark_smooth felt_engine 63 _ felt_sound true SHIFT (repeat (point P_0) 506) lx ly lx ly 8 0 252 fe_val phi (fun _ => P_0) (fun _ => P_0) (f1 felt_ops) [(false, f0 felt_ops)] ltac:(lia) L1 L2 L1 L2 ltac:(cbn; lia)) as (_ & c & Ec & _ & Ek).
  - intros r Hr. split; apply HP, Hr. - apply C64_conversions.
  - intros r Hr. split; apply nth_error_repeat; lia.
  - exact shift_on. - intros r Hr. split; exact p0_on. - reflexivity. - exact Fa.
  - exists c. split; [exact Fa|]. split; [exact Ec|]. fold P' in Ek. rewrite (one_root _ _ _ _ _ E) in Ek. exact Ek.
Qed.
