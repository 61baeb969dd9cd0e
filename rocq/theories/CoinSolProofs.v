(** The coin, proof of work and queries of the contract against those of the library, for C71. *)
Require Import ZArith Arith Lia Bool List Permutation Sorted.
From Verif Require Import Word U256Model U256Spec U256Proofs BinaryModel BinaryProofs EncodingSpec EncodingProofs KnuthModel Arr FieldModel FieldInstance ChannelModel ChannelSpec ChannelProps PowModel PowProps QueryModel QueryProps CoinSolModel.
Import ListNotations.
Open Scope Z_scope.

Lemma pack_S n w : pack (S n) w = (w / 256 ^ Z.of_nat n) mod 256 :: pack n w.
Proof. unfold pack. rewrite seq_S, rev_app_distr. reflexivity. Qed.
Lemma pack_spec n w : length (pack n w) = n /\ Forall (digit 256) (pack n w) /\ num 256 (pack n w) = w mod 256 ^ Z.of_nat n.
Proof.
  induction n as [|n (L & F & N)]; [split; [reflexivity|split; [constructor|]]; change (256 ^ Z.of_nat 0) with 1; rewrite Z.mod_1_r; reflexivity|].
  rewrite pack_S. split; [cbn; lia|]. split; [constructor; [apply Z.mod_pos_bound; lia|exact F]|].
  rewrite num_cons, L, N, Nat2Z.inj_succ, Z.pow_succ_r by lia. assert (0 < 256 ^ Z.of_nat n) by (apply Z.pow_pos_nonneg; lia).
  rewrite (Z.mul_comm 256). rewrite Z.rem_mul_r by lia. ring.
Qed.
Lemma pack_num n l : length l = n -> Forall (digit 256) l -> pack n (num 256 l) = l.
Proof.
  intros L F. destruct (pack_spec n (num 256 l)) as (L' & F' & N'). apply (num_inj 256); auto; [lia|lia|]. rewrite N'. apply Z.mod_small. rewrite <- L. apply num_range; [lia|exact F].
Qed.
Lemma pack_u256 x : wf x -> pack 32 (val x) = to_bytes_be x.
Proof. intros W. destruct (to_bytes_be_spec x W) as (L & F & N). rewrite <- N. apply pack_num; assumption. Qed.
Lemma pack_8 n : 0 <= n < 2 ^ 64 -> pack 8 n = u64_to_be n.
Proof. intros H. destruct (u64_to_be_spec n H) as (L & F & N). rewrite <- N at 1. apply pack_num; assumption. Qed.
Lemma pack_counter n : 0 <= n < 2 ^ 64 -> pack 32 n = repeat 0 24 ++ u64_to_be n.
Proof.
  intros H. destruct (u64_to_be_spec n H) as (L & F & N). assert (E : num 256 (repeat 0 24 ++ u64_to_be n) = n) by exact N. rewrite <- E at 1.
  apply pack_num; [rewrite app_length, repeat_length, L; reflexivity|]. apply Forall_app. split; [|exact F]. apply Forall_forall. intros x Hx. apply repeat_spec in Hx. subst x. unfold digit. lia.
Qed.
Lemma pack_1 d : 0 <= d < 256 -> pack 1 d = [d].
Proof. intros H. unfold pack. cbn [seq rev app map]. change (256 ^ Z.of_nat 0) with 1. rewrite Z.div_1_r, Z.mod_small by lia. reflexivity. Qed.
Local Opaque to_bytes_be from_bytes_be u64_to_be pack num.

Section Coin.
Context (dbg : bool) (keccak : list Z -> list Z) (HK : forall y, is_hash (keccak y)).
(** The coin of the library [c] is the coin [s] in the memory of the contract. *)
Definition represents (c : coin) (s : scoin) : Prop := is_hash (digest c) /\ sc_digest s = num 256 (digest c) /\ sc_counter s = counter c /\ 0 <= counter c < 2 ^ 64.
Lemma rep_pack c s : represents c s -> pack 32 (sc_digest s) = digest c.
Proof. intros ([L F] & -> & _). apply pack_num; assumption. Qed.
Lemma rep_new d : represents (Coin (keccak d) 0) (SCoin (word_of (keccak d)) 0).
Proof. split; [apply HK|]. split; [reflexivity|]. split; [reflexivity|]. cbn. lia. Qed.
Lemma rep_write32 c s h : represents c s -> is_hash h -> represents (coin_write keccak c h) (write_bytes32 keccak s (num 256 h)).
Proof. intros R [L F]. unfold coin_write, write_bytes32, publicCoinHash. rewrite (rep_pack c s R), (pack_num 32 h L F). apply rep_new. Qed.
Lemma bytes_hash x : wf x -> is_hash (to_bytes_be x). Proof. intros W. destruct (to_bytes_be_spec x W) as (L & F & _). split; assumption. Qed.
Lemma bytes_num x : wf x -> num 256 (to_bytes_be x) = val x. Proof. intros W. apply (to_bytes_be_spec x W). Qed.
Lemma rep_write_many l : forall c s, represents c s -> Forall is_hash l -> represents (fold_left (coin_write keccak) l c) (fold_left (write_bytes32 keccak) (map (num 256) l) s).
Proof. induction l as [|h l IH]; intros c s R F; [exact R|]. inversion F; subst. cbn [fold_left map]. apply IH; [apply rep_write32; assumption|assumption]. Qed.
Lemma rep_write8 c s n : represents c s -> 0 <= n < 2 ^ 64 -> represents (coin_write keccak c (u64_to_be n)) (write_bytes8 keccak s n).
Proof. intros R H. unfold coin_write, write_bytes8. rewrite (rep_pack c s R), (pack_8 n H). apply rep_new. Qed.
Lemma rep_layer c s l : represents c s -> Forall wf l -> represents (coin_write keccak c (concat (map to_bytes_be l))) (write_layer keccak s (map val l)).
Proof.
  intros R F. unfold coin_write, write_layer. rewrite (rep_pack c s R), map_map. replace (map (fun x => pack 32 (val x)) l) with (map to_bytes_be l); [apply rep_new|].
  apply map_ext_in. intros x Hx. rewrite Forall_forall in F. symmetry. apply pack_u256, F, Hx.
Qed.
Lemma rep_read c s b c' : represents c s -> draw_bytes dbg keccak c = Some (b, c') ->
  is_hash b /\ fst (read_bytes32 keccak s) = num 256 b /\ represents c' (snd (read_bytes32 keccak s)).
Proof.
  intros R D. pose proof R as (Hd & Ed & Ec & Hc). unfold draw_bytes in D. destruct (incr dbg (counter c)) as [k|] eqn:I; [|discriminate D]. cbn [bind] in D. injection D as <- <-.
  split; [apply HK|]. unfold read_bytes32, publicCoinHash. cbn [fst snd]. rewrite (rep_pack c s R), Ec, pack_counter by exact Hc. split; [reflexivity|].
  unfold incr in I. change (2 ^ 64) with B in *. assert (k = (counter c + 1) mod B) as ->.
  { destruct (Z.ltb_spec (counter c + 1) B); [injection I as <-; rewrite Z.mod_small by lia; reflexivity|]. destruct dbg; [discriminate I|]. injection I as <-. replace (counter c + 1) with B by lia. rewrite Z.mod_same by (unfold B; lia). reflexivity. }
  split; [exact Hd|]. split; [exact Ed|]. split; [reflexivity|]. cbn [counter]. apply Z.mod_pos_bound. reflexivity.
Qed.
Lemma rep_felt fuel : forall c s x c', represents c s -> draw_felt dbg keccak fuel c = Some (x, c') -> exists s', read_field_element keccak fuel s = Some (val x, s') /\ represents c' s'.
Proof.
  induction fuel as [|fuel IH]; intros c s x c' R D; [discriminate D|]. cbn [draw_felt] in D. unfold draw_u256 in D. destruct (draw_bytes dbg keccak c) as [[b c1]|] eqn:Eb; [|discriminate D].
  destruct (rep_read c s b c1 R Eb) as ([L F] & Ew & R1). destruct (from_bytes_be_spec b L F) as [W0 V0]. destruct (mask_val _ W0) as [W1 V1].
  cbn [read_field_element]. rewrite Ew. assert (M : Z.land (num 256 b) MODULUS_MASK = val (u_and (from_bytes_be b) DRAW_MASK)). { rewrite V1, V0. change MODULUS_MASK with (Z.ones 252). apply Z.land_ones. lia. }
  rewrite M. rewrite (u_ltb_spec _ (p_modulus proth_field) W1 (proj1 (wfb_spec (p_modulus proth_field)) eq_refl)) in D. change (val (p_modulus proth_field)) with MODULUS in D.
  destruct (Z.ltb_spec (val (u_and (from_bytes_be b) DRAW_MASK)) MODULUS) as [Lt|Ge]; destruct (Z.leb_spec MODULUS (val (u_and (from_bytes_be b) DRAW_MASK))); try lia.
  - destruct (in_range dbg _) as [y|] eqn:Er; [|discriminate D]. apply in_range_some in Er. subst y. cbn [bind] in D. injection D as <- <-. eexists. split; [reflexivity|exact R1].
  - apply (IH c1 _ x c' R1 D).
Qed.
Lemma rep_coefficients fuel n : forall c s l c', represents c s -> get_coefficients dbg keccak fuel c n = Some (l, c') -> exists s', read_many_field_elements keccak fuel s n = Some (map val l, s') /\ represents c' s'.
Proof.
  induction n as [|n IH]; intros c s l c' R D; cbn [get_coefficients read_many_field_elements] in *; [injection D as <- <-; exists s; split; [reflexivity|exact R]|].
  destruct (draw_felt dbg keccak fuel c) as [[x c1]|] eqn:E; [|discriminate D]. destruct (rep_felt fuel c s x c1 R E) as (s1 & -> & R1).
  destruct (get_coefficients dbg keccak fuel c1 n) as [[l1 c2]|] eqn:E2; [|discriminate D]. injection D as <- <-. destruct (IH c1 s1 l1 c2 R1 E2) as (s2 & -> & R2). exists s2. split; [reflexivity|exact R2].
Qed.
End Coin.

(** Sorting *)
Lemma upd_at {A} (l r : list A) x y : upd (l ++ y :: r) (length l) x = l ++ x :: r.
Proof. induction l as [|a l IH]; cbn; [reflexivity|]. rewrite IH. reflexivity. Qed.
Lemma nth_at {A} (l r : list A) y d : nth (length l) (l ++ y :: r) d = y.
Proof. rewrite app_nth2, Nat.sub_diag by lia. reflexivity. Qed.
Lemma sorted_app_le (q : list Z) y : StronglySorted Z.le q -> Forall (fun z => z <= y) q -> StronglySorted Z.le (q ++ [y]).
Proof. intros S. induction S as [|a q S IH F]; intros Hx; cbn [app]; [repeat constructor|]. inversion Hx; subst. constructor; [apply IH; assumption|]. apply Forall_app; auto. Qed.
Lemma sorted_prefix (q r : list Z) : StronglySorted Z.le (q ++ r) -> StronglySorted Z.le q /\ Forall (fun x => Forall (Z.le x) r) q.
Proof. induction q as [|a q IH]; cbn [app]; intros S; [split; constructor|]. inversion S as [|? ? S' F]; subst. apply Forall_app in F as [F1 F2]. destruct (IH S') as [A B]. split; constructor; assumption. Qed.
Lemma sink_spec pre : forall x post, exists q, sink (pre ++ x :: post) (length pre) = q ++ post /\ Permutation (pre ++ [x]) q /\ (StronglySorted Z.le pre -> StronglySorted Z.le q).
Proof.
  induction pre as [|y pre IH] using rev_ind; intros x post.
  - exists [x]. split; [reflexivity|]. split; [reflexivity|]. intros _. repeat constructor.
  - rewrite app_length, Nat.add_comm. cbn [length Nat.add sink]. rewrite <- app_assoc. cbn [app].
    assert (N1 : nth (S (length pre)) (pre ++ y :: x :: post) 0 = x). { replace (pre ++ y :: x :: post) with ((pre ++ [y]) ++ x :: post) by (rewrite <- app_assoc; reflexivity). replace (S (length pre)) with (length (pre ++ [y])) by (rewrite app_length; cbn; lia). apply nth_at. }
    rewrite N1, nth_at. destruct (Z.ltb_spec x y) as [Lt|Ge].
    + replace (upd (upd (pre ++ y :: x :: post) (S (length pre)) y) (length pre) x) with (pre ++ x :: y :: post).
      * destruct (IH x (y :: post)) as (q & E & P & So). exists (q ++ [y]). split; [rewrite E, <- app_assoc; reflexivity|]. split.
        -- rewrite <- P, <- !app_assoc. apply Permutation_app_head. apply perm_swap.
        -- intros S. apply sorted_prefix in S as [S1 S2]. apply sorted_app_le; [apply So; exact S1|]. apply (Permutation_Forall P). apply Forall_app. split; [eapply Forall_impl; [|exact S2]; intros z Hz; inversion Hz; assumption|repeat constructor; lia].
      * replace (pre ++ y :: x :: post) with ((pre ++ [y]) ++ x :: post) by (rewrite <- app_assoc; reflexivity). replace (S (length pre)) with (length (pre ++ [y])) by (rewrite app_length; cbn; lia). rewrite upd_at, <- app_assoc. cbn [app]. rewrite upd_at. reflexivity.
    + exists ((pre ++ [y]) ++ [x]). split; [rewrite <- !app_assoc; reflexivity|]. split; [rewrite <- !app_assoc; reflexivity|]. intros S. apply sorted_app_le; [exact S|]. apply sorted_prefix in S as [S1 S2]. apply Forall_app. split; [eapply Forall_impl; [|exact S2]; intros z Hz; inversion Hz; lia|repeat constructor; lia].
Qed.
Lemma sort_array_spec data : Permutation data (sort_array data) /\ StronglySorted Z.le (sort_array data).
Proof.
  assert (G : forall post pre, StronglySorted Z.le pre -> let r := fold_left sink (seq (length pre) (length post)) (pre ++ post) in Permutation (pre ++ post) r /\ StronglySorted Z.le r).
  { induction post as [|x post IH]; intros pre So0; cbn [length seq fold_left]; [rewrite app_nil_r; split; [reflexivity|exact So0]|].
    destruct (sink_spec pre x post) as (q & E & P & So). rewrite E. assert (L : length q = S (length pre)) by (rewrite <- (Permutation_length P), app_length; cbn; lia). rewrite <- L.
    destruct (IH q (So So0)) as [P2 S2]. split; [|exact S2]. rewrite <- P2, <- P, <- app_assoc. reflexivity. }
  exact (G data [] (SSorted_nil _)).
Qed.

(** The queries *)
Section Queries.
Context (keccak : list Z -> list Z) (HK : forall y, is_hash (keccak y)) (d : list Z) (k bits : Z) (Hb : 0 <= bits < 64) (Hk : 0 <= k) (count : nat).
Notation qi := (query_index keccak d k bits).
Definition filled (m : nat) : list Z := map qi (seq 0 (min m count)) ++ repeat 0 (count - min m count).
Lemma filled_step m : (m < count)%nat -> upd (filled m) m (qi m) = filled (S m).
Proof.
  intros H. unfold filled. rewrite !Nat.min_l by lia. destruct (count - m)%nat as [|z] eqn:E; [lia|]. cbn [repeat].
  pose proof (upd_at (map qi (seq 0 m)) (repeat 0 z) (qi m) 0) as U. rewrite map_length, seq_length in U. rewrite U, seq_S, map_app, <- app_assoc. cbn [map app Nat.add]. replace (count - S m)%nat with z by lia. reflexivity.
Qed.
Lemma filled_full m : (count <= m)%nat -> filled (S m) = filled m.
Proof. intros H. unfold filled. rewrite !Nat.min_r by lia. reflexivity. Qed.
Lemma top_bits r a : 0 <= r -> 0 <= a <= 192 -> Z.land (Z.shiftr ((r * 2 ^ a) mod 2 ^ 256) 192) (2 ^ bits - 1) = (r / 2 ^ (192 - a)) mod 2 ^ bits.
Proof.
  intros Hr Ha. replace (2 ^ bits - 1) with (Z.ones bits) by (rewrite Z.ones_equiv; lia). rewrite Z.land_ones, Z.shiftr_div_pow2 by lia.
  replace 256 with (a + (256 - a)) by lia. replace 192 with (a + (192 - a)) at 1 by lia. rewrite !Z.pow_add_r by lia. rewrite (Z.mul_comm r).
  assert (0 < 2 ^ a) by (apply Z.pow_pos_nonneg; lia). assert (0 < 2 ^ (256 - a)) by (apply Z.pow_pos_nonneg; lia). assert (P3 : 0 < 2 ^ (192 - a)) by (apply Z.pow_pos_nonneg; lia).
  rewrite Z.mul_mod_distr_l by lia. rewrite Z.div_mul_cancel_l by lia. replace (256 - a) with ((192 - a) + 64) by lia. rewrite Z.pow_add_r by lia. rewrite Z.rem_mul_r by lia.
  rewrite (Z.mul_comm (2 ^ (192 - a))). rewrite Z.div_add by lia. rewrite Z.div_small by (apply Z.mod_pos_bound; lia). rewrite Z.add_0_l.
  replace 64 with (bits + (64 - bits)) by lia. rewrite Z.pow_add_r by lia. rewrite Z.rem_mul_r by (try apply Z.pow_nonzero; try apply Z.pow_pos_nonneg; lia).
  rewrite Z.mul_comm, Z.mod_add by (apply Z.pow_nonzero; lia). apply Z.mod_mod. apply Z.pow_nonzero; lia.
Qed.
Lemma pick_row i : let r := num 256 (challenge keccak d (k + Z.of_nat i)) in fst (fold_left (pick (2 ^ bits - 1) count i) (seq 0 4) (filled (4 * i), r)) = filled (4 * S i).
Proof.
  intros r. assert (Hr : 0 <= r < 2 ^ 256). { destruct (HK (d ++ repeat 0 24 ++ u64_to_be (k + Z.of_nat i))) as [L F]. pose proof (num_range 256 _ ltac:(lia) F) as N. rewrite L in N. change (256 ^ Z.of_nat 32) with (2 ^ 256) in N. exact N. }
  assert (G : forall n j st, (j + n = 4)%nat -> fst st = filled (4 * i + j) -> ((4 * i + j < count)%nat -> snd st = (r * 2 ^ (64 * Z.of_nat j)) mod 2 ^ 256) -> fst (fold_left (pick (2 ^ bits - 1) count i) (seq j n) st) = filled (4 * i + 4)).
  { induction n as [|n IH]; intros j [q w] Hj Eq Ew; cbn [fst snd] in *; [cbn [seq fold_left fst]; rewrite Eq; f_equal; lia|]. cbn [seq fold_left]. apply IH; [lia| |]; unfold pick; cbn [fst snd]; destruct (Nat.ltb_spec (4 * i + j) count) as [Lt|Ge]; cbn [fst snd].
    - rewrite Eq, (Ew Lt), top_bits by lia. replace (4 * i + S j)%nat with (S (4 * i + j)) by lia. rewrite <- filled_step by exact Lt. f_equal. unfold query_index. fold r.
      replace ((4 * i + j) / 4)%nat with i by (rewrite (Nat.mul_comm 4 i), Nat.div_add_l, Nat.div_small by lia; lia). replace ((4 * i + j) mod 4)%nat with j by (rewrite (Nat.mul_comm 4 i), Nat.add_comm, Nat.mod_add, Nat.mod_small by lia; lia). reflexivity.
    - rewrite Eq. replace (4 * i + S j)%nat with (S (4 * i + j)) by lia. symmetry. apply filled_full. exact Ge.
    - intros _. rewrite (Ew Lt), Z.shiftl_mul_pow2, Z.mul_mod_idemp_l by lia. rewrite <- Z.mul_assoc, <- Z.pow_add_r by lia. do 3 f_equal. lia.
    - lia. }
  replace (4 * S i)%nat with (4 * i + 4)%nat by lia. apply (G 4%nat 0%nat); cbn [fst snd]; [reflexivity|f_equal; lia|]. intros _. change (2 ^ (64 * Z.of_nat 0)) with 1. rewrite Z.mul_1_r, Z.mod_small by exact Hr. reflexivity.
Qed.
Lemma get_queries_spec : is_hash d -> k + Z.of_nat (count / 4) + 1 < 2 ^ 64 ->
  get_queries keccak (SCoin (num 256 d) k) bits count = (sort_array (map qi (seq 0 count)), SCoin (num 256 d) (k + Z.of_nat (count / 4) + 1)).
Proof.
  intros [Ld Fd] Hn. unfold get_queries.
  assert (G : forall n i, k + Z.of_nat (i + n) < 2 ^ 64 -> fold_left (fun (st : list Z * scoin) i => (fst (fold_left (pick (2 ^ bits - 1) count i) (seq 0 4) (fst st, fst (read_bytes32 keccak (snd st)))), snd (read_bytes32 keccak (snd st)))) (seq i n) (filled (4 * i), SCoin (num 256 d) (k + Z.of_nat i)) = (filled (4 * (i + n)), SCoin (num 256 d) (k + Z.of_nat (i + n)))).
  { induction n as [|n IH]; intros i Hi; [cbn [seq fold_left]; rewrite Nat.add_0_r; reflexivity|]. change (seq i (S n)) with (i :: seq (S i) n). cbn [fold_left].
    assert (Er : read_bytes32 keccak (SCoin (num 256 d) (k + Z.of_nat i)) = (num 256 (challenge keccak d (k + Z.of_nat i)), SCoin (num 256 d) (k + Z.of_nat (S i)))).
    { unfold read_bytes32, publicCoinHash, publicCoinHasher. cbn [sc_digest sc_counter]. rewrite (pack_num 32 d Ld Fd), pack_counter by lia. rewrite Z.mod_small by lia. replace (k + Z.of_nat i + 1) with (k + Z.of_nat (S i)) by lia. reflexivity. }
    cbn [fst snd]. rewrite Er. cbn [fst snd]. rewrite pick_row. rewrite IH by lia. replace (S i + n)%nat with (i + S n)%nat by lia. reflexivity. }
  specialize (G (S (count / 4)) 0%nat ltac:(lia)). rewrite Nat.mul_0_r in G. change (k + Z.of_nat 0) with (k + 0) in G. rewrite Z.add_0_r in G.
  replace (filled 0) with (repeat 0 count) in G by (unfold filled; cbn [Nat.min seq map app]; rewrite Nat.sub_0_r; reflexivity). rewrite G. cbn [fst snd].
  pose proof (Nat.div_mod count 4 ltac:(lia)) as DM. pose proof (Nat.mod_upper_bound count 4 ltac:(lia)) as MB.
  f_equal; [|f_equal; lia]. f_equal. unfold filled. rewrite Nat.min_r by lia. rewrite Nat.sub_diag. cbn [repeat]. apply app_nil_r.
Qed.
End Queries.
