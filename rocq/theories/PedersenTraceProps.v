(** C64: the trace of the Pedersen Merkle tree of the examples. *)
Require Import Ring Field ZArith NArith Lia Bool List.
From Verif Require Import Word KnuthModel FieldSig FieldInstance FieldAlgModel FieldAlgProofs Arr FftModel FftSpec PermuteProofs FftProofs FftProps StarkBase StarkInstance PolyModel PolyProps TraceModel TraceProps ExprModel ExprSpec ExprProofs ExprProps CheckProps OodsProofs OodsSatProps LayoutProps StarkSpec ClaimModel ClaimSpec ClaimProofs ClaimProps ExampleProofs ExampleProps MimcProps VdfProps ComponentModel ComponentProofs ComponentProps CurveModel CurveSpec CurveGroup CurveProofs CurveProps PedersenModel PedersenSpec PedersenProofs PedersenHash PedersenProps.
Import ListNotations.
Open Scope nat_scope.

Section Trace.
Context {F : Type} (o : ops F) (L : lawful o) (Two : fadd o (f1 o) (f1 o) <> f0 o).
Add Field Tfield : (law_field o L).
Notation "p ⊕ q" := (padd o (f1 o) p q) (at level 50, left associativity).
Variables (shift : F * F) (points : list (affine F)) (n bits : nat) (to_uint : F -> Z) (from_uint : Z -> F) (P Q : nat -> F * F).
Hypothesis CV : conversions o to_uint from_uint bits.
Hypothesis HP : forall r, r < bits -> nth_error points (r + 1) = Some (point (P r)).
Hypothesis HQ : forall r, r < bits -> nth_error points (r + 1 + bits) = Some (point (Q r)).
Hypothesis Hn : bits < n.

Lemma slope_apart q p : (exists s, get_slope o q p = Some s) <-> apart q p.
Proof using L.
  destruct q as [|x y], p as [|x' y']; cbn [get_slope apart]; try (split; [intros (s & E); discriminate E|intros []]). unfold f_div. destruct (feq_dec o L x x') as [->|N].
  - split; [|congruence]. intros (s & E). exfalso. rewrite (proj2 (inv_opt_none o L _)) in E by (apply (fsub_0_iff o L); reflexivity). discriminate E.
  - rewrite (inv_opt_ne o L) by (intros E; apply N, (fsub_0_iff o L), E). split; [intros _; exact N|intros _; eexists; reflexivity].
Qed.
Lemma layer_add_ok b idx q p : (b = true -> nth_error points idx = Some (point p)) -> (b = true -> apart (point q) (point p)) ->
  exists s r, layer_add o points b idx (point q) = Some (s, point r) /\ advance o b s q p r /\ point r = add_if o b (point p) (point q).
Proof using L Two.
  intros Hp A. destruct b; cbn [layer_add]; [|exists (f0 o), q; split; [reflexivity|]; split; [split; reflexivity|reflexivity]]. rewrite Hp by reflexivity. cbn [bind]. destruct (advance_exists o L true q p A) as (s & r & V). pose proof (advance_sum o L true s q p r A V) as E. exists s, r.
  assert (Es : get_slope o (point q) (point p) = Some s).
  { destruct V as (V1 & _). specialize (A eq_refl). destruct q as [q0 q1], p as [p0 p1]. cbn in A, V1 |- *. unfold f_div. rewrite (inv_opt_ne o L) by (intros E0; apply A, (fsub_0_iff o L), E0). cbn. f_equal. rewrite <- V1. field. intros E0. apply A, (fsub_0_iff o L), E0. }
  rewrite Es. cbn [bind]. rewrite (a_add_eq o L Two). cbn [bind]. cbn [add_if] in E. rewrite <- E. auto.
Qed.
Lemma layer_add_none b idx q s r : layer_add o points b idx q = Some (s, r) -> b = true -> forall p, nth_error points idx = Some p -> apart q p.
Proof using L. intros E -> p Hp. cbn [layer_add] in E. rewrite Hp in E. cbn [bind] in E. apply slope_apart. destruct (get_slope o q p) as [s'|]; [exists s'; reflexivity|discriminate E]. Qed.

(** The cells of one row. *)
Lemma apply_row R i (t : table F) v0 v1 v2 v3 v4 v5 v6 v7 : size t R 8 -> i < R ->
  exists t', apply_writes t [(0, i, v0); (1, i, v1); (2, i, v2); (3, i, v3); (4, i, v4); (5, i, v5); (6, i, v6); (7, i, v7)] = Some t' /\ size t' R 8 /\
  (cell o t' i 0 = v0 /\ cell o t' i 1 = v1 /\ cell o t' i 2 = v2 /\ cell o t' i 3 = v3 /\ cell o t' i 4 = v4 /\ cell o t' i 5 = v5 /\ cell o t' i 6 = v6 /\ cell o t' i 7 = v7) /\
  forall r c, r < R -> c < 8 -> r <> i -> cell o t' r c = cell o t r c.
Proof using.
  clear. intros S0 Hi. unfold apply_writes. cbn [for_each].
  destruct (size_set o t R 8 i 0 v0 S0 Hi ltac:(lia)) as (t0 & -> & S1 & G0 & O0). cbn [bind].
  destruct (size_set o t0 R 8 i 1 v1 S1 Hi ltac:(lia)) as (t1 & -> & S2 & G1 & O1). cbn [bind].
  destruct (size_set o t1 R 8 i 2 v2 S2 Hi ltac:(lia)) as (t2 & -> & S3 & G2 & O2). cbn [bind].
  destruct (size_set o t2 R 8 i 3 v3 S3 Hi ltac:(lia)) as (t3 & -> & S4 & G3 & O3). cbn [bind].
  destruct (size_set o t3 R 8 i 4 v4 S4 Hi ltac:(lia)) as (t4 & -> & S5 & G4 & O4). cbn [bind].
  destruct (size_set o t4 R 8 i 5 v5 S5 Hi ltac:(lia)) as (t5 & -> & S6 & G5 & O5). cbn [bind].
  destruct (size_set o t5 R 8 i 6 v6 S6 Hi ltac:(lia)) as (t6 & -> & S7 & G6 & O6). cbn [bind].
  destruct (size_set o t6 R 8 i 7 v7 S7 Hi ltac:(lia)) as (t7 & -> & S8 & G7 & O7). cbn [bind].
  exists t7. split; [reflexivity|]. split; [exact S8|]. split.
  - repeat split; rewrite ?O7, ?O6, ?O5, ?O4, ?O3, ?O2, ?O1 by lia; assumption.
  - intros r c Hr Hc N. rewrite O7, O6, O5, O4, O3, O2, O1, O0 by lia. reflexivity.
Qed.

Section Run.
Variables (x y : F).
Let ls := to_uint x.
Let rs := to_uint y.
Let lb := bit ls.
Let rb := bit rs.
Let PS := partial_sum o (point shift) (fun r => point (P r)) (fun r => point (Q r)) lb rb.
Let gen := generic o (point shift) (fun r => point (P r)) (fun r => point (Q r)) lb rb.
Notation step := (layer_step o points bits from_uint).
Lemma high z r : (0 <= z < 2 ^ Z.of_nat bits)%Z -> bit z r = true -> r < bits.
Proof using.
  clear. intros Hz Hb. destruct (Nat.lt_ge_cases r bits) as [|Hr]; [assumption|]. exfalso. unfold bit in Hb. destruct (Z.eq_dec z 0) as [->|N]; [rewrite Z.bits_0 in Hb; discriminate|].
  rewrite Z.bits_above_log2 in Hb; [discriminate|lia|]. apply Z.log2_lt_pow2; [lia|]. eapply Z.lt_le_trans; [apply Hz|]. apply Z.pow_le_mono_r; lia.
Qed.
Lemma odd_bit z r : (0 <= z)%Z -> Z.odd (z / 2 ^ Z.of_nat r) = bit z r.
Proof using. clear. intros Hz. unfold bit. rewrite Z.testbit_odd, Z.shiftr_div_pow2 by lia. reflexivity. Qed.
Lemma div_succ z r : (Z.div2 (z / 2 ^ Z.of_nat r) = z / 2 ^ Z.of_nat (S r))%Z.
Proof using. clear. rewrite Z.div2_div, Z.div_div by (try lia; apply Z.pow_pos_nonneg; lia). f_equal. rewrite Nat2Z.inj_succ, Z.pow_succ_r by lia. lia. Qed.
Definition done (i : nat) (t : table F) : Prop :=
  size t n 8 /\
  (forall r, r <= i -> cell o t r 0 = from_uint (ls / 2 ^ Z.of_nat r) /\ cell o t r 4 = from_uint (rs / 2 ^ Z.of_nat r) /\ point (cell o t r 6, cell o t r 7) = PS r) /\
  (forall r, r < i -> advance o (lb r) (cell o t (r + 1) 1) (cell o t r 6, cell o t r 7) (P r) (cell o t (r + 1) 2, cell o t (r + 1) 3) /\
                      advance o (rb r) (cell o t (r + 1) 5) (cell o t (r + 1) 2, cell o t (r + 1) 3) (Q r) (cell o t (r + 1) 6, cell o t (r + 1) 7)).
Lemma run_ok i : i < n -> gen i -> exists ws t, fold_left step (seq 0 (S i)) (Some ((ls, rs, point shift), [])) = Some ((ls / 2 ^ Z.of_nat i, rs / 2 ^ Z.of_nat i, PS i)%Z, ws) /\
  apply_writes (t_new o n 8) ws = Some t /\ done i t.
Proof using L Two CV HP HQ Hn.
  pose proof (cv_range _ _ _ _ CV x) as Rx. pose proof (cv_range _ _ _ _ CV y) as Ry. fold ls in Rx. fold rs in Ry. induction i as [|i IH]; intros Hi G.
  - cbn [seq fold_left]. unfold layer_step. cbn [bind Nat.eqb]. destruct (apply_row n 0 (t_new o n 8) (from_uint ls) (f0 o) (f0 o) (f0 o) (from_uint rs) (f0 o) (fst shift) (snd shift) (size_new o n 8) Hi) as (t & A & S1 & C & _).
    do 2 eexists. split; [cbn [Z.of_nat]; rewrite Z.pow_0_r, !Z.div_1_r; reflexivity|]. split; [exact A|]. split; [exact S1|]. split; [|intros r Hr; lia]. intros r Hr. replace r with 0 by lia. cbn [Z.of_nat]. rewrite Z.pow_0_r, !Z.div_1_r. destruct C as (-> & _ & _ & _ & -> & _ & -> & ->). split; [reflexivity|]. split; reflexivity.
  - destruct IH as (ws & t & E & A & D); [lia|intros r Hr; apply G; lia|]. rewrite seq_S, fold_left_app, E. cbn [fold_left Nat.add]. unfold layer_step. cbn [bind Nat.eqb]. rewrite !odd_bit by lia. fold lb rb.
    destruct (G i ltac:(lia)) as [G1 G2]. fold PS in G1, G2. destruct D as (S1 & D1 & D2). destruct (D1 i ltac:(lia)) as (_ & _ & Ei). rewrite <- Ei in G1, G2 |- *.
    destruct (layer_add_ok (lb i) (S i) _ (P i) ltac:(intros Hb; rewrite <- Nat.add_1_r; apply HP, (high ls i Rx Hb)) G1) as (sl & lp & -> & V1 & E1). cbn [bind]. rewrite <- E1 in G2.
    destruct (layer_add_ok (rb i) (S i + bits) lp (Q i) ltac:(intros Hb; rewrite <- Nat.add_1_r; apply HQ, (high rs i Ry Hb)) G2) as (sr & rp & -> & V2 & E2). cbn [bind]. rewrite !div_succ.
    destruct (apply_row n (S i) t (from_uint (ls / 2 ^ Z.of_nat (S i))) sl (fst lp) (snd lp) (from_uint (rs / 2 ^ Z.of_nat (S i))) sr (fst rp) (snd rp) S1 Hi) as (t' & A' & S1' & C & O).
    assert (EP : PS (S i) = point rp) by (unfold PS; cbn [partial_sum]; fold PS; rewrite <- Ei, <- E1, E2; reflexivity). rewrite EP. do 2 eexists. split; [reflexivity|]. rewrite apply_app, A. cbn [bind]. split; [exact A'|]. split; [exact S1'|].
    destruct C as (C0 & C1 & C2 & C3 & C4 & C5 & C6 & C7). split.
    + intros r Hr. destruct (Nat.eq_dec r (S i)) as [->|N]; [rewrite C0, C4, C6, C7, EP; auto|]. rewrite !O by lia. apply D1. lia.
    + intros r Hr. destruct (Nat.eq_dec r i) as [->|N].
      * rewrite Nat.add_1_r, C1, C2, C3, C5, C6, C7, !(O i) by lia. rewrite <- !surjective_pairing. split; assumption.
      * rewrite !O by lia. apply D2. lia.
Qed.
Lemma step_none l : fold_left step l None = None. Proof using. clear. induction l; [reflexivity|assumption]. Qed.
(** A run that ends had no degenerate addition. *)
Lemma run_gen i : i < n -> fold_left step (seq 0 (S i)) (Some ((ls, rs, point shift), [])) <> None -> gen i.
Proof using L Two CV HP HQ Hn.
  pose proof (cv_range _ _ _ _ CV x) as Rx. pose proof (cv_range _ _ _ _ CV y) as Ry. fold ls in Rx. fold rs in Ry. induction i as [|i IH]; intros Hi E; [intros r Hr; lia|]. rewrite seq_S, fold_left_app in E. cbn [fold_left Nat.add] in E.
  assert (G : gen i). { apply IH; [lia|]. intros E0. rewrite E0 in E. apply E. reflexivity. } destruct (run_ok i ltac:(lia) G) as (ws & t & Er & _ & (_ & D1 & _)). rewrite Er in E. unfold layer_step in E. cbn [bind Nat.eqb] in E. rewrite !odd_bit in E by lia. fold lb rb in E.
  intros r Hr. destruct (Nat.eq_dec r i) as [->|N]; [|apply G; lia]. fold PS. destruct (D1 i ltac:(lia)) as (_ & _ & Ei). rewrite <- Ei in E |- *. clear Er D1.
  assert (G1 : lb i = true -> apart (point (cell o t i 6, cell o t i 7)) (point (P i))).
  { intros Hb. destruct (layer_add o points (lb i) (S i) (point (cell o t i 6, cell o t i 7))) as [[s q]|] eqn:El; [|exfalso; apply E; reflexivity]. apply (layer_add_none _ _ _ _ _ El Hb). rewrite <- Nat.add_1_r. apply HP, (high ls i Rx Hb). }
  split; [exact G1|]. intros Hb. destruct (layer_add_ok (lb i) (S i) _ (P i) ltac:(intros Hb'; rewrite <- Nat.add_1_r; apply HP, (high ls i Rx Hb')) G1) as (sl & lp & El & _ & E1). rewrite El in E. cbn [bind] in E. rewrite <- E1.
  destruct (layer_add o points (rb i) (S i + bits) (point lp)) as [[s q]|] eqn:Er; [|exfalso; apply E; reflexivity]. apply (layer_add_none _ _ _ _ _ Er Hb). rewrite <- Nat.add_1_r. apply HQ, (high rs i Ry Hb).
Qed.
Lemma small_zero z r : (0 <= z < 2 ^ Z.of_nat bits)%Z -> bits <= r -> from_uint (z / 2 ^ Z.of_nat r) = f0 o.
Proof using CV. clear -CV. intros Hz Hr. rewrite Z.div_small; [apply (cv_zero _ _ _ _ CV)|]. split; [lia|]. eapply Z.lt_le_trans; [apply Hz|]. apply Z.pow_le_mono_r; lia. Qed.
Lemma next_bit z r : (0 <= z < 2 ^ Z.of_nat bits)%Z -> from_uint (z / 2 ^ Z.of_nat r) = fadd o (if bit z r then f1 o else f0 o) (fmul o (fadd o (f1 o) (f1 o)) (from_uint (z / 2 ^ Z.of_nat (r + 1)))).
Proof using CV.
  clear -CV. intros Hz. assert (0 < 2 ^ Z.of_nat r)%Z by (apply Z.pow_pos_nonneg; lia). rewrite (cv_bit _ _ _ _ CV (z / 2 ^ Z.of_nat r)), odd_bit, <- Z.div2_div, div_succ, Nat.add_1_r; [reflexivity|lia|]. split; [apply Z.div_pos; lia|]. apply Z.div_lt_upper_bound; [lia|]. nia.
Qed.
Lemma done_rows t : done (n - 1) t -> layer_rows o n bits shift P Q (cell o t) /\ cell o t 0 0 = x /\ cell o t 0 4 = y /\ point (cell o t (n - 1) 6, cell o t (n - 1) 7) = PS (n - 1).
Proof using L CV Hn.
  pose proof (cv_range _ _ _ _ CV x) as Rx. pose proof (cv_range _ _ _ _ CV y) as Ry. fold ls in Rx. fold rs in Ry. intros (S1 & D1 & D2). split.
  - apply (layer_iff o L n bits shift P Q (cell o t) ltac:(lia)). destruct (D1 0 ltac:(lia)) as (_ & _ & E0). unfold PS in E0. cbn [partial_sum] in E0. unfold point in E0. cbn [fst snd] in E0. injection E0 as E6 E7.
    split; [exact E6|]. split; [exact E7|]. destruct (D1 bits ltac:(lia)) as (-> & -> & _). destruct (D1 (n - 1) ltac:(lia)) as (-> & -> & _). rewrite !small_zero by (assumption || lia). do 4 (split; [reflexivity|]).
    split; intros r Hr; destruct (D1 r ltac:(lia)) as (E1 & E2 & _); destruct (D1 (r + 1) ltac:(lia)) as (E3 & E4 & _).
    + exists (lb r). rewrite E1, E3. split; [apply next_bit, Rx|apply D2; lia].
    + exists (rb r). rewrite E2, E4. split; [apply next_bit, Ry|apply D2; lia].
  - destruct (D1 0 ltac:(lia)) as (E1 & E2 & _). destruct (D1 (n - 1) ltac:(lia)) as (_ & _ & E3). rewrite E1, E2, E3. cbn [Z.of_nat]. rewrite Z.pow_0_r, !Z.div_1_r. unfold ls, rs. rewrite !(cv_back _ _ _ _ CV). auto.
Qed.
End Run.
End Trace.

(** ** The sum *)
Lemma partial_extend {F} (o : ops F) shift P Q lb rb n d : (forall r, n <= r -> lb r = false /\ rb r = false) -> partial_sum o shift P Q lb rb (n + d) = partial_sum o shift P Q lb rb n.
Proof. intros H. induction d as [|d IH]; [rewrite Nat.add_0_r; reflexivity|]. rewrite Nat.add_succ_r. cbn [partial_sum]. destruct (H (n + d) ltac:(lia)) as [-> ->]. exact IH. Qed.
Lemma high_false z bits r : (0 <= z < 2 ^ Z.of_nat bits)%Z -> bits <= r -> bit z r = false.
Proof. intros Hz Hr. destruct (bit z r) eqn:E; [|reflexivity]. apply (high bits z r Hz) in E. lia. Qed.

(** What an accepted table says: the columns decompose the two inputs into bits, and unless an addition degenerates, the last
    point is the shift point plus the points selected by those bits. *)
Theorem C64_layer_hash : forall F (o : ops F), lawful o -> forall b, good_curve o b -> forall n bits shift P Q T, 0 < n -> curve o b (point shift) -> (forall r, r < n - 1 -> curve o b (point (P r)) /\ curve o b (point (Q r))) ->
  layer_rows o n bits shift P Q T -> exists lb rb : nat -> bool,
  T 0 0 = num o (first_bits (n - 1) lb) /\ T 0 4 = num o (first_bits (n - 1) rb) /\
  (bits < n -> num o (map lb (seq bits (n - 1 - bits))) = f0 o /\ num o (map rb (seq bits (n - 1 - bits))) = f0 o) /\
  (generic o (point shift) (fun r => point (P r)) (fun r => point (Q r)) lb rb (n - 1) ->
   point (T (n - 1) 6, T (n - 1) 7) = pedersen o (point shift) (map (fun r => point (P r)) (seq 0 (n - 1))) (map (fun r => point (Q r)) (seq 0 (n - 1))) (first_bits (n - 1) lb) (first_bits (n - 1) rb)).
Proof.
  intros F o L b Sm n bits shift P Q T Hn Os On H. destruct (rows_sum o L n bits shift P Q T H Hn) as (lb & rb & E0 & E4 & B0 & B4 & EB & G). exists lb, rb. split; [exact E0|]. split; [exact E4|]. split.
  - intros Hb. destruct (EB Hb) as [<- <-]. auto.
  - intros Gn. rewrite (G Gn) by lia. apply (partial_pedersen o L b Sm); assumption.
Qed.
Print Assumptions C64_layer_hash.

(** The trace of a layer exists exactly if no addition degenerates; it is accepted and ends with the hash of the two inputs. *)
Theorem C64_layer_trace : forall F (o : ops F), lawful o -> forall b, good_curve o b -> forall e shift points lx ly rx ry n bits to_uint from_uint P Q leaf sibling direction,
  conversions o to_uint from_uint bits -> bits < n -> (forall r, r < bits -> nth_error points (r + 1) = Some (point (P r)) /\ nth_error points (r + 1 + bits) = Some (point (Q r))) ->
  curve o b (point shift) -> (forall r, r < bits -> curve o b (point (P r)) /\ curve o b (point (Q r))) ->
  let c := merkle_layer o e (point shift) points lx ly rx ry n bits to_uint from_uint in
  let xy := siblings sibling leaf direction in
  (trace_table o c (leaf, sibling, direction) <> None <-> generic o (point shift) (fun r => point (P r)) (fun r => point (Q r)) (bit (to_uint (fst xy))) (bit (to_uint (snd xy))) (n - 1)) /\
  forall t, trace_table o c (leaf, sibling, direction) = Some t ->
  size t n 8 /\ layer_rows o n bits shift P Q (cell o t) /\ cell o t 0 0 = fst xy /\ cell o t 0 4 = snd xy /\
  point (cell o t (n - 1) 6, cell o t (n - 1) 7) = pedersen_point o (point shift) (fun r => point (P r)) (fun r => point (Q r)) bits (to_uint (fst xy)) (to_uint (snd xy)).
Proof.
  intros F o L b Sm e shift points lx ly rx ry n bits to_uint from_uint P Q leaf sibling direction CV Hn HPQ Os On c xy. pose proof (sm_two _ _ _ Sm) as Two.
  assert (HP := fun r Hr => proj1 (HPQ r Hr)). assert (HQ := fun r Hr => proj2 (HPQ r Hr)).
  assert (Et : trace_table o c (leaf, sibling, direction) = let? (_, ws) := fold_left (layer_step o points bits from_uint) (seq 0 (S (n - 1))) (Some ((to_uint (fst xy), to_uint (snd xy), point shift), [])) in apply_writes (t_new o n 8) ws).
  { unfold trace_table, c, merkle_layer. cbn [k_size k_trace k_polynomials bind]. unfold layer_trace, xy, siblings. replace (S (n - 1)) with n by lia. destruct direction; cbn [fst snd]; destruct (fold_left _ _ _) as [[s ws]|]; reflexivity. }
  set (x := fst xy) in *. set (y := snd xy) in *. clearbody x y. clear xy. rewrite Et.
  assert (RO := run_ok o L Two shift points n bits to_uint from_uint P Q CV HP HQ Hn x y (n - 1) ltac:(lia)). assert (RG := run_gen o L Two shift points n bits to_uint from_uint P Q CV HP HQ Hn x y (n - 1) ltac:(lia)). split; [split|].
  - intros N. apply RG. intros E0. rewrite E0 in N. apply N. reflexivity.
  - intros G. destruct (RO G) as (ws & t & -> & A & _). cbn [bind]. rewrite A. discriminate.
  - intros t E. assert (G : generic o (point shift) (fun r => point (P r)) (fun r => point (Q r)) (bit (to_uint x)) (bit (to_uint y)) (n - 1)) by (apply RG; intros E0; rewrite E0 in E; discriminate E).
    destruct (RO G) as (ws & t' & E' & A & D). rewrite E' in E. cbn [bind] in E. rewrite A in E. injection E as ->. split; [apply D|]. destruct (done_rows o L shift n bits to_uint from_uint P Q CV Hn x y t D) as (D1 & D2 & D3 & D4). split; [exact D1|]. split; [exact D2|]. split; [exact D3|]. rewrite D4.
    replace (n - 1) with (bits + (n - 1 - bits)) by lia. rewrite partial_extend by (intros r Hr; split; apply (high_false _ bits); auto; apply (cv_range _ _ _ _ CV)). apply (partial_pedersen o L b Sm); assumption.
Qed.
Print Assumptions C64_layer_trace.

(** ** The hash function of the witness *)
Section Hash.
Context {F : Type} (o : ops F) (L : lawful o) (b : F) (Sm : good_curve o b).
Lemma hash_fold points first (P : nat -> affine F) z bits start p : (0 <= z < 2 ^ Z.of_nat bits)%Z -> (forall r, r < bits -> nth_error points (r + first) = Some (P r)) -> a_from_jacobian o p = start ->
  (forall r, r < bits -> bit z r = true -> apart (partial_sum o start P P (bit z) (fun _ => false) r) (P r)) ->
  forall i, i <= bits + 1 -> exists q, fold_left (hash_add o points first) (seq 0 i) (Some (p, z)) = Some (q, (z / 2 ^ Z.of_nat i)%Z) /\ a_from_jacobian o q = partial_sum o start P P (bit z) (fun _ => false) i.
Proof using L Sm.
  intros Hz Hp Es G i. induction i as [|i IH]; intros Hi; [exists p; cbn; rewrite Z.pow_0_r, Z.div_1_r; auto|]. destruct IH as (q & E & Eq); [lia|]. rewrite seq_S, fold_left_app, E. cbn [fold_left Nat.add]. unfold hash_add. cbn [bind]. rewrite odd_bit, div_succ by lia. cbn [partial_sum add_if]. destruct (bit z i) eqn:Eb.
  - assert (Hi' : i < bits) by exact (high bits z i Hz Eb). rewrite (Hp i Hi'). cbn [bind]. eexists. split; [reflexivity|]. destruct (C31_mixed_add F o b q (P i) L Sm) as [A _].
    { right. right. specialize (G i Hi' Eb). rewrite <- Eq in G. destruct (a_from_jacobian o q) as [|x0 y0], (P i) as [|x1 y1]; try contradiction. cbn. intros E0. injection E0 as E0. exact (G E0). }
    rewrite A, Eq. reflexivity.
  - cbn [bind]. eexists. split; [reflexivity|exact Eq].
Qed.
Lemma half_order shift P Q lb rb n : curve o b shift -> (forall r, r < n -> curve o b (P r) /\ curve o b (Q r)) ->
  partial_sum o (partial_sum o shift P P lb (fun _ => false) n) Q Q rb (fun _ => false) n = pedersen o shift (map P (seq 0 n)) (map Q (seq 0 n)) (first_bits n lb) (first_bits n rb).
Proof using L Sm.
  intros Os On. assert (Z1 : forall m i (ps : list (affine F)), selected o (map (fun _ => false) (seq i m)) ps = AZero) by (clear; induction m as [|m IH]; intros i [|p ps]; try reflexivity; cbn [seq map selected]; apply IH).
  assert (Z0 : forall ps, selected o (first_bits n (fun _ => false)) ps = AZero) by (intros ps; apply Z1).
  destruct (partial_pedersen o L b Sm shift P P lb (fun _ => false) n Os) as [E1 O1]; [intros r Hr; split; apply On, Hr|]. rewrite (proj1 (partial_pedersen o L b Sm _ Q Q rb (fun _ => false) n O1 ltac:(intros r Hr; split; apply On, Hr))). rewrite E1. unfold pedersen. rewrite !Z0, !(add_0_r o (f1 o)). reflexivity.
Qed.
End Hash.
(** The hash of the witness is the abscissa of the sum, unless an addition in its order degenerates. *)
Theorem C64_merkle_hash : forall F (o : ops F), lawful o -> forall b, good_curve o b -> forall shift points bits to_uint from_uint P Q x y,
  conversions o to_uint from_uint bits -> (forall r, r < bits -> nth_error points (r + 1) = Some (P r) /\ nth_error points (r + 1 + bits) = Some (Q r)) ->
  curve o b shift -> (forall r, r < bits -> curve o b (P r) /\ curve o b (Q r)) -> hash_generic o shift P Q (bit (to_uint x)) (bit (to_uint y)) bits ->
  merkle_hash o shift points bits to_uint x y = match pedersen_point o shift P Q bits (to_uint x) (to_uint y) with AZero => None | APoint h _ => Some h end.
Proof.
  intros F o L b Sm shift points bits to_uint from_uint P Q x y CV HPQ Os On G. unfold merkle_hash.
  assert (NF : forall z, (0 <= z < 2 ^ Z.of_nat bits)%Z -> forall r, bits <= r -> bit z r = false /\ (fun _ : nat => false) r = false) by (intros z Hz r Hr; split; [apply (high_false z bits r Hz Hr)|reflexivity]).
  pose proof (cv_range _ _ _ _ CV x) as Rx. pose proof (cv_range _ _ _ _ CV y) as Ry.
  destruct (hash_fold o L b Sm points 1 P (to_uint x) bits shift (j_from_affine o shift) Rx (fun r Hr => proj1 (HPQ r Hr))) with (i := bits + 1) as (q & -> & Eq); [apply (aff_from o L)|intros r Hr; apply (G r Hr)|lia|]. cbn [bind]. rewrite partial_extend in Eq by (apply NF, Rx).
  destruct (hash_fold o L b Sm points (bits + 1) Q (to_uint y) bits (partial_sum o shift P P (bit (to_uint x)) (fun _ => false) bits) q Ry) with (i := bits + 1) as (q' & -> & Eq'); [intros r Hr; replace (r + (bits + 1)) with (r + 1 + bits) by lia; apply (HPQ r Hr)|exact Eq|intros r Hr; apply (G r Hr)|lia|]. cbn [bind].
  rewrite partial_extend in Eq' by (apply NF, Ry). rewrite Eq', (half_order o L b Sm) by assumption. reflexivity.
Qed.
Print Assumptions C64_merkle_hash.

(** ** The tree *)
(** The inputs of a layer for which neither order of the additions degenerates, and whose sum is not the point at infinity (the
    hash function of the witness panics on it). *)
Definition regular {F} (o : ops F) (shift : affine F) (P Q : nat -> affine F) (n bits : nat) (to_uint : F -> Z) (xy : F * F) : Prop :=
  let lb := bit (to_uint (fst xy)) in let rb := bit (to_uint (snd xy)) in
  generic o shift P Q lb rb (n - 1) /\ hash_generic o shift P Q lb rb bits /\ pedersen_point o shift P Q bits (to_uint (fst xy)) (to_uint (snd xy)) <> AZero.
(** The hash as a function. *)
Definition hash_of {F} (o : ops F) (shift : affine F) (P Q : nat -> affine F) (bits : nat) (to_uint : F -> Z) (x y : F) : F :=
  match pedersen_point o shift P Q bits (to_uint x) (to_uint y) with AZero => f0 o | APoint h _ => h end.
Definition swap {A B} (p : A * B) : B * A := (snd p, fst p).

Section Tree.
Context {F : Type} (o : ops F) (L : lawful o) (b : F) (Sm : good_curve o b).
Variables (e : engine F) (shift : F * F) (points : list (affine F)) (lx ly rx ry : list F) (n bits : nat) (to_uint : F -> Z) (from_uint : Z -> F) (P Q : nat -> F * F).
Hypothesis CV : conversions o to_uint from_uint bits.
Hypothesis Hn : bits < n.
Hypothesis HPQ : forall r, r < bits -> nth_error points (r + 1) = Some (point (P r)) /\ nth_error points (r + 1 + bits) = Some (point (Q r)).
Hypothesis Os : curve o b (point shift).
Hypothesis On : forall r, r < bits -> curve o b (point (P r)) /\ curve o b (point (Q r)).
Let P' r := point (P r).
Let Q' r := point (Q r).
Let h := hash_of o (point shift) P' Q' bits to_uint.
Let reg := regular o (point shift) P' Q' n bits to_uint.
Let layer := merkle_layer o e (point shift) points lx ly rx ry n bits to_uint from_uint.
Lemma hash_regular xy : reg xy -> merkle_hash o (point shift) points bits to_uint (fst xy) (snd xy) = Some (h (fst xy) (snd xy)).
Proof using All. intros (_ & G & N). rewrite (C64_merkle_hash F o L b Sm (point shift) points bits to_uint from_uint P' Q' (fst xy) (snd xy) CV HPQ Os On G). unfold h, hash_of. destruct (pedersen_point _ _ _ _ _ _ _); [contradiction|reflexivity]. Qed.
(** The tables of the layers. *)
Lemma tree_layers path : forall leaf, Forall reg (tree_inputs h leaf (map swap path)) ->
  exists ws ts, layer_witnesses o (point shift) points bits to_uint leaf path = Some ws /\ length ws = length path /\ Forall2 (fun w t => trace_table o layer w = Some t) ws ts /\
  witness_root o (point shift) points bits to_uint leaf path = Some (tree_root h leaf (map swap path)) /\
  forall i t, nth_error ts i = Some t -> size t n 8 /\ layer_rows o n bits shift P Q (cell o t) /\
    (i = 0 -> leaf = cell o t 0 0 \/ leaf = cell o t 0 4) /\ (i + 1 = length path -> tree_root h leaf (map swap path) = cell o t (n - 1) 6) /\
    (forall t', nth_error ts (i + 1) = Some t' -> cell o t (n - 1) 6 = cell o t' 0 0 \/ cell o t (n - 1) 6 = cell o t' 0 4).
Proof using All.
  induction path as [|[d sib] path IH]; intros leaf R.
  - exists [], []. split; [reflexivity|]. split; [reflexivity|]. split; [constructor|]. split; [reflexivity|]. intros [|i] t E; discriminate E.
  - cbn [map swap fst snd tree_inputs tree_root] in *. set (xy := siblings sib leaf d) in *. inversion R as [|? ? R1 R2]; subst. set (nxt := h (fst xy) (snd xy)) in *.
    assert (Eh : (if d then merkle_hash o (point shift) points bits to_uint sib leaf else merkle_hash o (point shift) points bits to_uint leaf sib) = Some nxt).
    { unfold nxt. rewrite <- (hash_regular xy R1). unfold xy, siblings. destruct d; reflexivity. }
    destruct (IH nxt R2) as (ws & ts & E1 & E2 & E3 & E4 & E5).
    destruct (C64_layer_trace F o L b Sm e shift points lx ly rx ry n bits to_uint from_uint P Q leaf sib d CV Hn HPQ Os On) as [T1 T2]. fold layer xy in T1, T2. destruct (trace_table o layer (leaf, sib, d)) as [t0|] eqn:Et; [|exfalso; exact (proj2 T1 (proj1 R1) eq_refl)].
    destruct (T2 t0 eq_refl) as (S0 & L0 & C0 & C4 & CE). assert (C6 : cell o t0 (n - 1) 6 = nxt) by (unfold nxt, h, hash_of, P', Q'; rewrite <- CE; reflexivity).
    exists ((leaf, sib, d) :: ws), (t0 :: ts). cbn [layer_witnesses]. rewrite Eh. cbn [bind]. rewrite E1. cbn [bind]. split; [reflexivity|]. split; [cbn [length]; lia|]. split; [constructor; assumption|].
    split; [unfold witness_root in *; cbn [fold_left bind fst snd]; rewrite Eh; exact E4|].
    assert (L2 : length ws = length ts) by (clear - E3; induction E3; cbn; lia).
    intros [|i] t Hi; cbn [nth_error length Nat.add] in *.
    + injection Hi as <-. split; [exact S0|]. split; [exact L0|]. split; [intros _|split].
      * rewrite C0, C4. unfold xy, siblings. destruct d; cbn; auto.
      * intros Hl. assert (path = []) as -> by (destruct path; [reflexivity|cbn in Hl; lia]). cbn [map tree_root]. symmetry. exact C6.
      * intros t' Ht'. rewrite C6. destruct (E5 0 t' Ht') as (_ & _ & H0 & _). apply H0. reflexivity.
    + destruct (E5 i t Hi) as (H1 & H2 & H3 & H4 & H5). split; [exact H1|]. split; [exact H2|]. split; [intros E0; discriminate E0|]. split; [intros Hl; apply H4; lia|exact H5].
Qed.
End Tree.

(** The witness that the hash function makes for a path of 2^m siblings has a trace and passes the check. *)
Theorem C64_tree : forall F (o : ops F), lawful o -> forall b, good_curve o b -> forall e M w, sound o e M w -> forall dbg shift points lx ly rx ry k m bits to_uint from_uint P Q leaf path,
  k + m <= M -> length lx = 2 ^ k -> length ly = 2 ^ k -> length rx = 2 ^ k -> length ry = 2 ^ k -> bits < 2 ^ k ->
  (forall r, r < 2 ^ k -> let z := fpw o (w k) r in (peval o lx z, peval o ly z) = P r /\ (peval o rx z, peval o ry z) = Q r) ->
  conversions o to_uint from_uint bits -> (forall r, r < bits -> nth_error points (r + 1) = Some (point (P r)) /\ nth_error points (r + 1 + bits) = Some (point (Q r))) ->
  curve o b (point shift) -> (forall r, r < bits -> curve o b (point (P r)) /\ curve o b (point (Q r))) -> length path = 2 ^ m ->
  let P' r := point (P r) in let Q' r := point (Q r) in let hash := hash_of o (point shift) P' Q' bits to_uint in
  Forall (regular o (point shift) P' Q' (2 ^ k) bits to_uint) (tree_inputs hash leaf (map swap path)) ->
  let root := tree_root hash leaf (map swap path) in
  witness_root o (point shift) points bits to_uint leaf path = Some root /\
  exists c, merkle_tree o e (point shift) points lx ly rx ry (2 ^ k) bits to_uint from_uint dbg (2 ^ m) = Some c /\ k_claim c (path, leaf, root) = (leaf, root) /\ k_check o e c (path, leaf, root) = Some None.
Proof.
  intros F o L b Sm e M w SD dbg [sx sy] points lx ly rx ry k m bits to_uint from_uint P Q leaf path HK L1 L2 L3 L4 Hb HPQ CV HPt Os On Hl P' Q' hash R root. pose proof (pow2_pos k) as Pk. pose proof (pow2_pos m) as Pm.
  destruct (tree_layers o L b Sm e (sx, sy) points lx ly rx ry (2 ^ k) bits to_uint from_uint P Q CV Hb HPt Os On path leaf R) as (ws & ts & E1 & E2 & E3 & E4 & E5). split; [exact E4|].
  assert (L5 : length ws = length ts) by (clear - E3; induction E3; cbn; lia).
  destruct (k_vertical dbg (merkle_layer o e (point (sx, sy)) points lx ly rx ry (2 ^ k) bits to_uint from_uint) (2 ^ m)) as [v|] eqn:Ev; [|exfalso; unfold k_vertical in Ev; rewrite is_pow2 in Ev; discriminate Ev].
  destruct (C47_vertical_cells F o dbg _ _ _ (2 ^ m) v (2 ^ k) ws ts Ev eq_refl ltac:(lia) E3) as (T & ET & Sh & RT & CT & GT). cbn [merkle_layer k_polynomials] in CT, GT.
  assert (S8 : size T (2 ^ k * 2 ^ m) 8) by (split; [exact Sh|split; assumption]).
  destruct (C64_tree_check F o L e M w SD dbg sx sy points lx ly rx ry k m bits to_uint from_uint P Q leaf root T HK L1 L2 L3 L4 Hb HPQ S8) as (c & cs & Ec & K1 & K2 & K3 & K4). exists c. split; [exact Ec|].
  assert (Et : trace_table o c (path, leaf, root) = Some T).
  { unfold trace_table. rewrite K1, K2. cbn [bind]. unfold merkle_tree in Ec. change (APoint sx sy) with (point (sx, sy)) in Ec. rewrite Ev in Ec. cbn [bind] in Ec. injection Ec as <-. cbn [k_trace]. change (point (sx, sy)) with (APoint sx sy) in E1 |- *. cbn [point fst snd] in *.
    rewrite E1. cbn [bind]. unfold trace_table in ET. assert (Ks : k_size v = Some (2 ^ k * 2 ^ m) /\ k_polynomials v = 8) by (clear - Ev; unfold k_vertical in Ev; rewrite is_pow2 in Ev; injection Ev as <-; split; reflexivity). destruct Ks as [Ks Kp]. rewrite Ks, Kp in ET. cbn [bind] in ET. exact ET. }
  assert (Kc : k_claim c (path, leaf, root) = (leaf, root)) by (clear - Ec; unfold merkle_tree, k_vertical in Ec; rewrite is_pow2 in Ec; cbn [bind] in Ec; injection Ec as <-; reflexivity).
  split; [exact Kc|]. unfold k_check. rewrite K2, Kc, K3, K1. cbn [bind]. unfold from_expressions. rewrite <- Nat.pow_add_r, (s_root _ _ _ _ SD (k + m) HK). cbn [bind]. rewrite Et. cbn [bind c_exprs]. apply K4. clear K1 K2 K3 K4 Et Kc Ec.
  assert (Cells : forall i t r col, nth_error ts i = Some t -> r < 2 ^ k -> col < 8 -> cell o T (i * 2 ^ k + r) col = cell o t r col).
  { intros i t r col Hi Hr Hc. assert (Hi' : i < 2 ^ m) by (assert (i < length ts) by (apply nth_error_Some; rewrite Hi; discriminate); lia). assert (Hrow : i * 2 ^ k + r < 2 ^ k * 2 ^ m) by nia. specialize (GT (i * 2 ^ k + r) col Hrow Hc).
    rewrite Nat.div_add_l, Nat.div_small, Nat.add_0_r in GT by lia. rewrite Hi in GT. rewrite block_mod in GT by exact Hr. rewrite (size_get o T _ _ _ _ S8 Hrow Hc) in GT. destruct (E5 i t Hi) as (St & _). rewrite (size_get o t _ _ _ _ St Hr Hc) in GT. injection GT as ->. reflexivity. }
  assert (Nth : forall i, i < 2 ^ m -> exists t, nth_error ts i = Some t) by (intros i Hi; destruct (nth_error ts i) as [t|] eqn:E0; [exists t; reflexivity|apply nth_error_None in E0; lia]).
  split; [|split; [|split]].
  - intros i Hi. destruct (Nth i Hi) as (t & Ht). destruct (E5 i t Ht) as (_ & (lb & rb & A1 & A2 & A3 & A4 & A5) & _). exists lb, rb. rewrite !(Cells i t) by (assumption || lia). split; [exact A1|]. split; [intros r Hr; rewrite !(Cells i t) by (assumption || lia); apply A2, Hr|]. split; [exact A3|]. split; [exact A4|].
    intros r Hr. rewrite !(Cells i t) by (assumption || lia). apply A5, Hr.
  - destruct (Nth 0 Pm) as (t & Ht). rewrite !(Cells 0 t) by (assumption || lia). apply (E5 0 t Ht). reflexivity.
  - destruct (Nth (2 ^ m - 1) ltac:(lia)) as (t & Ht). rewrite (Cells _ t) by (assumption || lia). apply (E5 _ t Ht). lia.
  - intros i Hi. destruct (Nth i ltac:(lia)) as (t & Ht). destruct (Nth (i + 1) Hi) as (t' & Ht'). rewrite !(Cells i t), !(Cells (i + 1) t') by (assumption || lia). apply (E5 i t Ht). exact Ht'.
Qed.
Print Assumptions C64_tree.
