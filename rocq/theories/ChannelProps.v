(** C39, C40: the transcript is the same on both ends; what the challenges are. *)
Require Import ZArith Lia Bool List.
From Verif Require Import Word U256Model U256Spec U256Proofs BinaryModel BinaryProofs BinaryProps EncodingSpec EncodingProofs KnuthModel Primes
  MontgomeryModel MontgomeryProps FieldModel FieldSpec FieldProofs FieldInstance ChannelModel ChannelSpec.
Import ListNotations.
Open Scope Z_scope.

Section Acts.
Context (dbg : bool) (keccak : list Z -> list Z) (fuel : nat).
(** The dispatch of acts to the functions of the model. *)
Definition c_draw (c : coin) (d : draw) : option (event * coin) :=
  match d with
  | DBytes => match draw_bytes dbg keccak c with Some (b, c) => Some (DrewBytes b, c) | None => None end
  | DNumber => match draw_u256 dbg keccak c with Some (x, c) => Some (DrewNumber x, c) | None => None end
  | DFelt => match draw_felt dbg keccak fuel c with Some (x, c) => Some (DrewFelt x, c) | None => None end
  | DSeed => match draw_seed dbg c with Some (b, c) => Some (DrewSeed b, c) | None => None end
  | DCoefficients n => match get_coefficients dbg keccak fuel c n with Some (l, c) => Some (DrewCoefficients l, c) | None => None end
  end.
Definition p_say (p : prover) (m : message) : option prover :=
  match m with
  | Hash_ h => Some (p_hash keccak p h)
  | Number x => Some (p_u256 keccak p x)
  | Felt_ x => p_felt dbg keccak p x
  | Nonce n => Some (p_nonce keccak p n)
  | Hashes l => Some (p_hashes keccak p l)
  | Numbers l => Some (p_u256s keccak p l)
  | Layer l => p_layer dbg keccak p l
  end.
Definition p_do (p : prover) (a : p_act) : option (event * prover) :=
  match a with
  | Say m => let? p := p_say p m in Some (Said m, p)
  | PDraw d => match c_draw (pcoin p) d with Some (e, c) => Some (e, Prover c (pproof p)) | None => None end
  end.
Definition v_hear (v : verifier) (k : kind) : option (message * verifier) :=
  match k with
  | KHash => match replay_hash keccak v with Some (x, v) => Some (Hash_ x, v) | None => None end
  | KNumber => match replay_u256 keccak v with Some (x, v) => Some (Number x, v) | None => None end
  | KFelt => match replay_felt dbg keccak v with Some (x, v) => Some (Felt_ x, v) | None => None end
  | KNonce => match replay_nonce keccak v with Some (x, v) => Some (Nonce x, v) | None => None end
  | KHashes n => match replay_many (replay_hash keccak) n v with Some (x, v) => Some (Hashes x, v) | None => None end
  | KNumbers n => match replay_many (replay_u256 keccak) n v with Some (x, v) => Some (Numbers x, v) | None => None end
  | KLayer n => match replay_fri_layer dbg keccak v n with Some (x, v) => Some (Layer x, v) | None => None end
  end.
Definition v_do (v : verifier) (a : v_act) : option (event * verifier) :=
  match a with
  | Hear k => match v_hear v k with Some (m, v) => Some (Said m, v) | None => None end
  | VDraw d => match c_draw (vcoin v) d with Some (e, c) => Some (e, Verifier c (vproof v) (proof_index v)) | None => None end
  end.
Fixpoint p_run (p : prover) (l : list p_act) : option (list event * prover) :=
  match l with
  | [] => Some ([], p)
  | a :: l => match p_do p a with None => None | Some (e, p) => match p_run p l with Some (es, p) => Some (e :: es, p) | None => None end end
  end.
Fixpoint v_run (v : verifier) (l : list v_act) : option (list event * verifier) :=
  match l with
  | [] => Some ([], v)
  | a :: l => match v_do v a with None => None | Some (e, v) => match v_run v l with Some (es, v) => Some (e :: es, v) | None => None end end
  end.

(** ** Byte strings *)
Lemma u64_to_be_spec n : 0 <= n < B -> length (u64_to_be n) = 8%nat /\ Forall (digit 256) (u64_to_be n) /\ num 256 (u64_to_be n) = n.
Proof.
  intros H. unfold u64_to_be. split; [reflexivity|]. split.
  - apply Forall_forall. intros y Hy. apply in_map_iff in Hy. destruct Hy as (i & <- & _). unfold digit. apply Z.mod_pos_bound. lia.
  - cbn [map]. rewrite !num_cons. cbn [length]. change (num 256 []) with 0.
    change (Z.of_nat 7) with 7. change (Z.of_nat 6) with 6. change (Z.of_nat 5) with 5. change (Z.of_nat 4) with 4.
    change (Z.of_nat 3) with 3. change (Z.of_nat 2) with 2. change (Z.of_nat 1) with 1. change (Z.of_nat 0) with 0.
    change (256 ^ 7) with 72057594037927936. change (256 ^ 6) with 281474976710656. change (256 ^ 5) with 1099511627776. change (256 ^ 4) with 4294967296.
    change (256 ^ 3) with 16777216. change (256 ^ 2) with 65536. change (256 ^ 1) with 256. change (256 ^ 0) with 1. unfold B in H.
    assert (D : forall a b, 0 < a -> b = a * 256 -> (n / a) mod 256 = n / a - 256 * (n / b)) by (intros a b Ha ->; rewrite <- Z.div_div by lia; apply Z.mod_eq; lia).
    rewrite (D 1 256), (D 256 65536), (D 65536 16777216), (D 16777216 4294967296), (D 4294967296 1099511627776), (D 1099511627776 281474976710656), (D 281474976710656 72057594037927936) by lia.
    rewrite (Z.mod_small (n / 72057594037927936)) by (split; [apply Z.div_pos; lia|apply Z.div_lt_upper_bound; lia]). rewrite Z.div_1_r. clear. generalize (n / 256) (n / 65536) (n / 16777216) (n / 4294967296) (n / 1099511627776) (n / 281474976710656) (n / 72057594037927936). intros. lia.
Qed.
Lemma u64_from_be_num l : u64_from_be l = num 256 l. Proof. reflexivity. Qed.
Lemma nonce_round n : 0 <= n < 2 ^ 64 -> u64_from_be (u64_to_be n) = n.
Proof. intros H. rewrite u64_from_be_num. apply (u64_to_be_spec n H). Qed.

Local Opaque to_bytes_be from_bytes_be u64_to_be.
(** ** One message *)
(** [v] has heard everything [p] has said; [rest] of the proof is unread. *)
Definition synced (p : prover) (v : verifier) (rest : list Z) : Prop :=
  vcoin v = pcoin p /\ vproof v = pproof p ++ rest /\ proof_index v = length (pproof p).
Definition advanced (v : verifier) (p' : prover) : verifier := Verifier (pcoin p') (vproof v) (length (pproof p')).
Lemma take_spec p v data rest n : synced p v (data ++ rest) -> length data = n -> v_take v n = Some data.
Proof.
  intros (_ & E & I) L. unfold v_take. rewrite I, E, !app_length. destruct (Nat.ltb_spec (length (pproof p) + (length data + length rest)) (length (pproof p) + n)); [lia|].
  rewrite skipn_app, Nat.sub_diag, skipn_all2 by lia. cbn [app skipn]. rewrite <- L. rewrite firstn_app, Nat.sub_diag, firstn_all, firstn_O, app_nil_r. reflexivity.
Qed.
Lemma read_spec p v data rest : synced p v (data ++ rest) -> length data = 32%nat ->
  read_32_bytes keccak v = Some (data, advanced v (p_write keccak p data)).
Proof.
  intros S L. unfold read_32_bytes. rewrite (take_spec p v data rest 32 S L). cbn [bind]. unfold advanced, p_write. cbn [pcoin pproof]. destruct S as (-> & E & ->). rewrite app_length, L. reflexivity.
Qed.
Lemma synced_write p v data rest : synced p v (data ++ rest) -> synced (p_write keccak p data) (advanced v (p_write keccak p data)) rest.
Proof. intros (E1 & E2 & E3). unfold synced, advanced, p_write. cbn. rewrite E2, app_assoc. auto. Qed.
Lemma advanced_twice v p' p'' : advanced (advanced v p') p'' = advanced v p''. Proof. reflexivity. Qed.
Lemma in_range_some x y : in_range dbg x = Some y -> y = x.
Proof. unfold in_range. destruct dbg; [destruct (u_ltb _ _)|]; congruence. Qed.
(** Writing a list of 32-byte strings one by one *)
Lemma many_spec {T} (enc : T -> list Z) (dec : list Z -> T) (ok : T -> Prop) replay :
  (forall x, ok x -> length (enc x) = 32%nat /\ dec (enc x) = x) ->
  (forall v, replay v = match read_32_bytes keccak v with Some (b, v) => Some (dec b, v) | None => None end) ->
  forall l p v rest, Forall ok l -> synced p v (concat (map enc l) ++ rest) ->
  let p' := fold_left (fun p x => p_write keccak p (enc x)) l p in
  pproof p' = pproof p ++ concat (map enc l) /\ replay_many replay (length l) v = Some (l, advanced v p').
Proof.
  intros He Hr. induction l as [|x l IH]; intros p v rest F S; cbn [fold_left map concat length replay_many].
  - cbn zeta. rewrite app_nil_r. split; [reflexivity|]. unfold advanced. destruct S as (<- & _ & <-). destruct v; reflexivity.
  - inversion F as [|? ? Hx F']; subst. destruct (He x Hx) as [L D]. cbn [map concat] in S. rewrite <- app_assoc in S.
    rewrite Hr, (read_spec p v (enc x) _ S L), D. destruct (IH _ _ _ F' (synced_write p v _ _ S)) as [IH1 IH2]. cbn zeta. rewrite IH1, IH2, advanced_twice. split; [|reflexivity].
    unfold p_write at 1. cbn [pproof]. rewrite app_assoc. reflexivity.
Qed.
Lemma container_spec l : forall c, container dbg l = Some c -> Forall wf l ->
  length c = (32 * length l)%nat /\ felts_of dbg (chunks_32 (length l) c) = Some l.
Proof.
  induction l as [|x l IH]; intros c; cbn [container length chunks_32].
  - intros [= <-] _. split; reflexivity.
  - destruct (in_range dbg x) as [y|] eqn:R; cbn [bind]; [|discriminate]. pose proof (in_range_some _ _ R). subst y.
    destruct (container dbg l) as [rest|]; cbn [bind]; [|discriminate]. intros [= <-] F. inversion F as [|? ? Hx F']; subst.
    destruct (IH rest eq_refl F') as [L E]. destruct (to_bytes_be_spec x Hx) as (L32 & _ & _). rewrite app_length, L32, L.
    destruct (Nat.ltb_spec (32 + 32 * length l) 32); [lia|]. split; [lia|].
    rewrite firstn_app, L32, Nat.sub_diag, firstn_O, app_nil_r, firstn_all2 by lia. rewrite skipn_app, L32, Nat.sub_diag, (skipn_all2 (to_bytes_be x)) by lia. cbn [skipn app felts_of].
    rewrite (from_to_bytes x Hx), R. cbn [bind]. rewrite E. reflexivity.
Qed.
Lemma say_spec p m p' : typed m -> p_say p m = Some p' -> exists data, pproof p' = pproof p ++ data /\
  forall v rest, synced p v (data ++ rest) -> v_hear v (kind_of m) = Some (m, advanced v p').
Proof.
  intros T. destruct m as [h|x|x|n|l|l|l]; cbn [p_say kind_of v_hear]; cbn [typed] in T.
  - intros [= <-]. exists h. split; [reflexivity|]. intros v rest S. unfold replay_hash. rewrite (read_spec p v h rest S (proj1 T)). reflexivity.
  - intros [= <-]. exists (to_bytes_be x). split; [reflexivity|]. intros v rest S. unfold replay_u256. rewrite (read_spec p v _ rest S (proj1 (to_bytes_be_spec x T))). rewrite from_to_bytes by exact T. reflexivity.
  - unfold p_felt. destruct (in_range dbg x) as [y|] eqn:R; cbn [bind]; [|discriminate]. pose proof (in_range_some _ _ R). subst y. intros [= <-]. exists (to_bytes_be x). split; [reflexivity|].
    intros v rest S. unfold replay_felt, replay_u256. rewrite (read_spec p v _ rest S (proj1 (to_bytes_be_spec x T))). rewrite from_to_bytes by exact T. rewrite R. reflexivity.
  - intros [= <-]. exists (u64_to_be n). split; [reflexivity|]. intros v rest S. unfold replay_nonce. rewrite (take_spec p v _ rest 8 S) by reflexivity. cbn [bind]. rewrite nonce_round by exact T.
    unfold advanced, p_nonce, p_write. cbn [pcoin pproof]. destruct S as (-> & E & ->). rewrite app_length. reflexivity.
  - intros [= <-]. exists (concat (map (fun h => h) l)).
    assert (K := fun v rest (S : synced p v _) => many_spec (fun h => h) (fun h => h) is_hash (replay_hash keccak) (fun x H => conj (proj1 H) eq_refl)
      (fun v => ltac:(unfold replay_hash; destruct (read_32_bytes keccak v) as [[b v']|]; reflexivity)) l p v rest T S).
    split.
    + destruct (K (Verifier (pcoin p) (pproof p ++ concat (map (fun h => h) l) ++ []) (length (pproof p))) []) as [K1 _]; [repeat split|]. exact K1.
    + intros v rest S. destruct (K v rest S) as [_ ->]. reflexivity.
  - intros [= <-]. exists (concat (map to_bytes_be l)).
    assert (K := fun v rest (S : synced p v _) => many_spec to_bytes_be from_bytes_be wf (replay_u256 keccak) (fun x H => conj (proj1 (to_bytes_be_spec x H)) (from_to_bytes x H)) (fun v => eq_refl) l p v rest T S).
    split.
    + destruct (K (Verifier (pcoin p) (pproof p ++ concat (map to_bytes_be l) ++ []) (length (pproof p))) []) as [K1 _]; [repeat split|]. exact K1.
    + intros v rest S. destruct (K v rest S) as [_ ->]. reflexivity.
  - unfold p_layer. destruct (container dbg l) as [c|] eqn:E; cbn [bind]; [|discriminate]. intros [= <-]. exists c. split; [reflexivity|]. destruct (container_spec l c E T) as [L F].
    intros v rest S. unfold replay_fri_layer. rewrite (take_spec p v c rest _ S L). cbn [bind]. rewrite F. cbn [bind]. unfold advanced, p_write. cbn [pcoin pproof]. destruct S as (-> & E0 & ->). rewrite app_length, L. reflexivity.
Qed.
Lemma do_spec p a e p' : act_typed a -> p_do p a = Some (e, p') -> exists data, pproof p' = pproof p ++ data /\
  forall v rest, synced p v (data ++ rest) -> v_do v (mirror a) = Some (e, advanced v p').
Proof.
  intros T. destruct a as [m|d]; cbn [p_do mirror v_do].
  - destruct (p_say p m) as [q|] eqn:E; cbn [bind]; [|discriminate]. intros [= <- <-]. destruct (say_spec p m q T E) as (data & E1 & H). exists data. split; [exact E1|]. intros v rest S. rewrite (H v rest S). reflexivity.
  - destruct (c_draw (pcoin p) d) as [[e0 c]|] eqn:E; [|discriminate]. intros [= <- <-]. exists []. cbn [pproof]. rewrite app_nil_r. split; [reflexivity|]. intros v rest (E1 & E2 & E3). rewrite E1, E. unfold advanced. cbn [pcoin pproof]. rewrite E3. reflexivity.
Qed.
Lemma run_spec l : forall p es p', Forall act_typed l -> p_run p l = Some (es, p') -> exists data, pproof p' = pproof p ++ data /\
  forall v rest, synced p v (data ++ rest) -> v_run v (map mirror l) = Some (es, advanced v p').
Proof.
  induction l as [|a l IH]; intros p es p' F; cbn [p_run map v_run].
  - intros [= <- <-]. exists []. rewrite app_nil_r. split; [reflexivity|]. intros v rest (E1 & E2 & E3). unfold advanced. rewrite <- E1, <- E3. destruct v; reflexivity.
  - inversion F as [|? ? Ta F']; subst. destruct (p_do p a) as [[e q]|] eqn:E; [|discriminate]. destruct (p_run q l) as [[es0 q']|] eqn:R; [|discriminate]. intros [= <- <-].
    destruct (do_spec p a e q Ta E) as (d1 & E1 & H1). destruct (IH q es0 q' F' R) as (d2 & E2 & H2). exists (d1 ++ d2). rewrite E2, E1, app_assoc. split; [reflexivity|].
    intros v rest S. rewrite <- app_assoc in S. rewrite (H1 v _ S). destruct S as (S1 & S2 & S3).
    rewrite (H2 (advanced v q) rest). { reflexivity. } unfold synced, advanced. cbn. rewrite S2, E1, app_assoc. auto.
Qed.

(** ** Truncation *)
Definition size_of (k : kind) : nat := match k with KNonce => 8 | KHash | KNumber | KFelt => 32 | KHashes n | KNumbers n | KLayer n => 32 * n end.
Lemma take_short v n : (length (vproof v) < proof_index v + n)%nat -> v_take v n = None.
Proof. intros H. unfold v_take. destruct (Nat.ltb_spec (length (vproof v)) (proof_index v + n)); [reflexivity|lia]. Qed.
Lemma many_short {T} (replay : verifier -> option (T * verifier)) :
  (forall v, (length (vproof v) < proof_index v + 32)%nat -> replay v = None) ->
  (forall v x v', replay v = Some (x, v') -> vproof v' = vproof v /\ proof_index v' = (proof_index v + 32)%nat) ->
  forall n v, (length (vproof v) < proof_index v + 32 * n)%nat -> (proof_index v <= length (vproof v))%nat -> replay_many replay n v = None.
Proof.
  intros H1 H2. induction n as [|n IH]; intros v H Hi; [lia|]. cbn [replay_many]. destruct (replay v) as [[x v']|] eqn:E; [|reflexivity].
  destruct (H2 v x v' E) as [E1 E2]. rewrite IH; [reflexivity|rewrite E1, E2; lia|].
  destruct (Nat.le_gt_cases (proof_index v + 32) (length (vproof v))); [rewrite E1, E2; lia|]. rewrite H1 in E by assumption. discriminate E.
Qed.
Lemma read_next v x v' : read_32_bytes keccak v = Some (x, v') -> vproof v' = vproof v /\ proof_index v' = (proof_index v + 32)%nat.
Proof. unfold read_32_bytes. destruct (v_take v 32); cbn [bind]; [|discriminate]. intros [= _ <-]. split; reflexivity. Qed.
Lemma hear_short v k : (length (vproof v) < proof_index v + size_of k)%nat -> (proof_index v <= length (vproof v))%nat -> v_hear v k = None.
Proof.
  intros H Hi.
  assert (R : forall w, (length (vproof w) < proof_index w + 32)%nat -> read_32_bytes keccak w = None) by (intros w Hw; unfold read_32_bytes; rewrite take_short by exact Hw; reflexivity).
  destruct k as [| | | |n|n|n]; cbn [size_of] in H; cbn [v_hear]; unfold replay_hash, replay_felt, replay_u256; rewrite ?R by exact H; try reflexivity.
  - unfold replay_nonce. rewrite take_short by exact H. reflexivity.
  - rewrite many_short; [reflexivity|exact R|exact read_next|exact H|exact Hi].
  - rewrite many_short; [reflexivity| | |exact H|exact Hi].
    + intros w Hw. rewrite R by exact Hw. reflexivity.
    + intros w x w'. destruct (read_32_bytes keccak w) as [[b u]|] eqn:E; [|discriminate]. intros [= _ <-]. apply (read_next w b u E).
  - unfold replay_fri_layer. rewrite take_short by exact H. reflexivity.
Qed.
Lemma say_size p m p' : typed m -> p_say p m = Some p' -> length (pproof p') = (length (pproof p) + size_of (kind_of m))%nat.
Proof.
  intros T E. destruct (say_spec p m p' T E) as (data & Ed & H).
  assert (S : synced p (Verifier (pcoin p) (pproof p ++ data ++ []) (length (pproof p))) (data ++ [])) by (repeat split).
  destruct (Nat.le_gt_cases (size_of (kind_of m)) (length data)) as [L|L].
  - (* no message is longer than its size: read what the functions write *)
    rewrite Ed, app_length. f_equal. destruct m as [h|x|x|n|l|l|l]; cbn [p_say] in E; cbn [typed] in T; cbn [size_of kind_of] in *.
    + injection E as <-. cbn in Ed. apply app_inv_head in Ed. subst data. apply T.
    + injection E as <-. cbn in Ed. apply app_inv_head in Ed. subst data. apply (to_bytes_be_spec x T).
    + unfold p_felt in E. destruct (in_range dbg x) as [y|] eqn:R; cbn [bind] in E; [|discriminate]. pose proof (in_range_some _ _ R); subst y. injection E as <-. cbn in Ed. apply app_inv_head in Ed. subst data. apply (to_bytes_be_spec x T).
    + injection E as <-. cbn in Ed. apply app_inv_head in Ed. subst data. reflexivity.
    + injection E as <-. revert p Ed S H L. assert (G : forall p, pproof (p_hashes keccak p l) = pproof p ++ concat l).
      { clear - l. induction l as [|h l IH]; intros p; cbn [p_hashes fold_left concat]; [rewrite app_nil_r; reflexivity|]. unfold p_hashes in IH. rewrite IH. unfold p_hash, p_write. cbn [pproof]. rewrite app_assoc. reflexivity. }
      intros p Ed _ _ _. rewrite G in Ed. apply app_inv_head in Ed. subst data. clear - T. induction T as [|h l Hh T IH]; [reflexivity|]. cbn [concat length]. rewrite app_length, IH, (proj1 Hh). lia.
    + injection E as <-. assert (G : forall p, pproof (p_u256s keccak p l) = pproof p ++ concat (map to_bytes_be l)).
      { clear - l. induction l as [|h l IH]; intros p; cbn [p_u256s fold_left concat map]; [rewrite app_nil_r; reflexivity|]. unfold p_u256s in IH. rewrite IH. unfold p_u256, p_write. cbn [pproof]. rewrite app_assoc. reflexivity. }
      rewrite G in Ed. apply app_inv_head in Ed. subst data. clear - T. induction T as [|h l Hh T IH]; [reflexivity|]. cbn [concat length map]. rewrite app_length, IH, (proj1 (to_bytes_be_spec h Hh)). lia.
    + unfold p_layer in E. destruct (container dbg l) as [c|] eqn:Ec; cbn [bind] in E; [|discriminate]. injection E as <-. cbn in Ed. apply app_inv_head in Ed. subst data. apply (container_spec l c Ec T).
  - specialize (H _ _ S). rewrite hear_short in H; [discriminate H| |]; cbn [vproof proof_index]; rewrite !app_length; cbn; lia.
Qed.
Lemma run_truncated l : forall p es p', Forall act_typed l -> p_run p l = Some (es, p') ->
  forall v short cut, vcoin v = pcoin p -> vproof v = pproof p ++ short -> proof_index v = length (pproof p) -> pproof p' = pproof p ++ short ++ cut -> cut <> [] ->
  v_run v (map mirror l) = None.
Proof.
  induction l as [|a l IH]; intros p es p' F; cbn [p_run map v_run].
  - intros [= <- <-] v short cut _ _ _ E N. exfalso. rewrite <- (app_nil_r (pproof p)) in E at 1. apply app_inv_head in E. destruct short; [|discriminate E]. apply N. symmetry. exact E.
  - inversion F as [|? ? Ta F']; subst. destruct (p_do p a) as [[e q]|] eqn:E; [|discriminate]. destruct (p_run q l) as [[es0 q']|] eqn:R; [|discriminate]. intros [= <- <-] v short cut V1 V2 V3 Ep N.
    destruct (do_spec p a e q Ta E) as (d1 & E1 & H1). destruct (run_spec l q es0 q' F' R) as (d2 & E2 & _).
    rewrite E2, E1, <- app_assoc in Ep. apply app_inv_head in Ep.
    destruct (Nat.le_gt_cases (length d1) (length short)) as [L|L].
    + assert (X : short = d1 ++ skipn (length d1) short).
      { rewrite <- (firstn_skipn (length d1) short) at 1. f_equal. apply (f_equal (firstn (length d1))) in Ep. rewrite !firstn_app, Nat.sub_diag, firstn_O, firstn_all in Ep. replace (length d1 - length short)%nat with 0%nat in Ep by lia. rewrite firstn_O, !app_nil_r in Ep. symmetry. exact Ep. }
      set (s' := skipn (length d1) short) in *. rewrite (H1 v s').
      2:{ repeat split; [exact V1|rewrite V2, X; reflexivity|exact V3]. }
      rewrite (IH q es0 q' F' R (advanced v q) s' cut); [reflexivity|reflexivity| |reflexivity| |exact N].
      * unfold advanced. cbn [vproof]. rewrite V2, X, E1, app_assoc. reflexivity.
      * rewrite E2. f_equal. rewrite X, <- app_assoc in Ep. apply app_inv_head in Ep. exact Ep.
    + destruct a as [m|d]; cbn [p_do mirror v_do] in *.
      * destruct (p_say p m) as [q0|] eqn:Es; cbn [bind] in E; [|discriminate]. injection E as <- <-. pose proof (say_size p m q0 Ta Es) as Sz. rewrite E1, app_length in Sz.
        rewrite hear_short; [reflexivity| |]; rewrite V2, V3, app_length; lia.
      * destruct (c_draw (pcoin p) d) as [[e0 c]|]; [|discriminate]. injection E as <- <-. cbn [pproof] in E1. rewrite <- (app_nil_r (pproof p)) in E1 at 1. apply app_inv_head in E1. subst d1. cbn in L. lia.
Qed.
End Acts.

(** Every sequence of messages and draws by the prover from a seed: the verifier that mirrors it on
    the resulting proof hears the same messages, draws the same challenges, ends with the same coin
    and is at the end of the proof. *)
Theorem C39_agreement : forall dbg keccak fuel seed acts events p, Forall act_typed acts ->
  p_run dbg keccak fuel (prover_new keccak seed) acts = Some (events, p) ->
  exists v, v_run dbg keccak fuel (verifier_new keccak (pproof p) seed) (map mirror acts) = Some (events, v) /\ vcoin v = pcoin p /\ at_end v = true.
Proof.
  intros dbg keccak fuel seed acts events p T R. destruct (run_spec dbg keccak fuel acts _ _ _ T R) as (data & E & H). cbn [pproof prover_new app] in E.
  exists (advanced (verifier_new keccak (pproof p) seed) p). split; [|split; [reflexivity|]].
  - apply H with (rest := []). unfold synced, verifier_new, prover_new. cbn. rewrite E, app_nil_r. auto.
  - unfold at_end, advanced. cbn [proof_index vproof verifier_new]. apply Nat.eqb_refl.
Qed.
Print Assumptions C39_agreement.

(** The channel's part of C55: with bytes appended to the proof the verifier hears and draws the
    same and is not at the end; with any bytes removed from the end it panics. *)
Theorem C55_channel_trailing : forall dbg keccak fuel seed acts events p extra, Forall act_typed acts ->
  p_run dbg keccak fuel (prover_new keccak seed) acts = Some (events, p) -> extra <> [] ->
  exists v, v_run dbg keccak fuel (verifier_new keccak (pproof p ++ extra) seed) (map mirror acts) = Some (events, v) /\ at_end v = false.
Proof.
  intros dbg keccak fuel seed acts events p extra T R N. destruct (run_spec dbg keccak fuel acts _ _ _ T R) as (data & E & H). cbn [pproof prover_new app] in E.
  exists (advanced (verifier_new keccak (pproof p ++ extra) seed) p). split.
  - apply H with (rest := extra). unfold synced, verifier_new, prover_new. cbn. rewrite E. auto.
  - unfold at_end, advanced. cbn [proof_index vproof verifier_new]. apply Nat.eqb_neq. rewrite app_length. destruct extra; [contradiction|]. cbn. lia.
Qed.
Print Assumptions C55_channel_trailing.
Theorem C55_channel_truncated : forall dbg keccak fuel seed acts events p short cut, Forall act_typed acts ->
  p_run dbg keccak fuel (prover_new keccak seed) acts = Some (events, p) -> pproof p = short ++ cut -> cut <> [] ->
  v_run dbg keccak fuel (verifier_new keccak short seed) (map mirror acts) = None.
Proof.
  intros dbg keccak fuel seed acts events p short cut T R E N. eapply run_truncated with (short := short) (cut := cut); eauto; reflexivity.
Qed.
Print Assumptions C55_channel_truncated.

Local Opaque to_bytes_be from_bytes_be u64_to_be.
(** ** Binding *)
Section Binding.
Context (dbg : bool) (keccak : list Z -> list Z) (fuel : nat).
Definition writes (m : message) : list (list Z) :=
  match m with
  | Hash_ h => [h] | Number x | Felt_ x => [to_bytes_be x] | Nonce n => [u64_to_be n]
  | Hashes l => l | Numbers l => map to_bytes_be l | Layer l => [concat (map to_bytes_be l)]
  end.
Lemma container_eq l : forall c, container dbg l = Some c -> c = concat (map to_bytes_be l).
Proof.
  induction l as [|x l IH]; intros c; cbn [container map concat]; [intros [= <-]; reflexivity|].
  destruct (in_range dbg x) as [y|] eqn:R; cbn [bind]; [|discriminate]. apply in_range_some in R. subst y. destruct (container dbg l) as [rest|]; cbn [bind]; [|discriminate]. intros [= <-]. rewrite (IH rest eq_refl). reflexivity.
Qed.
Lemma say_writes p m p' : p_say dbg keccak p m = Some p' -> p' = fold_left (p_write keccak) (writes m) p.
Proof.
  destruct m as [h|x|x|n|l|l|l]; cbn [p_say writes fold_left]; try (intros [= <-]; reflexivity).
  - unfold p_felt. destruct (in_range dbg x) as [y|] eqn:R; cbn [bind]; [|discriminate]. apply in_range_some in R. subst y. intros [= <-]. reflexivity.
  - intros [= <-]. unfold p_u256s. revert p. induction l as [|x l IH]; intros p; cbn [fold_left map]; [reflexivity|]. apply IH.
  - unfold p_layer. destruct (container dbg l) as [c|] eqn:E; cbn [bind]; [|discriminate]. apply container_eq in E. subst c. intros [= <-]. reflexivity.
Qed.
Lemma concat_bytes_length l : Forall wf l -> length (concat (map to_bytes_be l)) = (32 * length l)%nat.
Proof. induction 1 as [|x l Hx Hl IH]; [reflexivity|]. cbn [map concat length]. rewrite app_length, IH, (proj1 (to_bytes_be_spec x Hx)). lia. Qed.
Lemma writes_lengths m m' : typed m -> typed m' -> kind_of m = kind_of m' -> map (@length Z) (writes m) = map (@length Z) (writes m').
Proof.
  assert (A : forall l, Forall is_hash l -> map (@length Z) l = repeat 32%nat (length l)) by (induction 1 as [|x l Hx Hl IH]; [reflexivity|cbn; rewrite IH, (proj1 Hx); reflexivity]).
  assert (Bq : forall l, Forall wf l -> map (@length Z) (map to_bytes_be l) = repeat 32%nat (length l)) by (induction 1 as [|x l Hx Hl IH]; [reflexivity|cbn; rewrite IH, (proj1 (to_bytes_be_spec x Hx)); reflexivity]).
  destruct m as [h|x|x|n|l|l|l], m' as [h'|x'|x'|n'|l'|l'|l']; cbn [typed kind_of writes]; intros T T' K; try discriminate K; cbn [map].
  - rewrite (proj1 T), (proj1 T'). reflexivity.
  - rewrite (proj1 (to_bytes_be_spec x T)), (proj1 (to_bytes_be_spec x' T')). reflexivity.
  - rewrite (proj1 (to_bytes_be_spec x T)), (proj1 (to_bytes_be_spec x' T')). reflexivity.
  - reflexivity.
  - injection K as K. rewrite A, A, K by assumption. reflexivity.
  - injection K as K. rewrite Bq, Bq, K by assumption. reflexivity.
  - injection K as K. rewrite !concat_bytes_length, K by assumption. reflexivity.
Qed.
Definition collision : Prop := exists a b, a <> b /\ keccak a = keccak b.
Lemma app_inj_len {A} (a b c d : list A) : length b = length d -> a ++ b = c ++ d -> a = c /\ b = d.
Proof.
  intros L E. assert (La : length a = length c) by (apply (f_equal (@length A)) in E; rewrite !app_length in E; lia).
  revert c La E. induction a as [|x a IH]; intros [|y c] La E; try discriminate La; [split; [reflexivity|exact E]|]. injection La as La. injection E as -> E. destruct (IH c La E) as [-> ->]. split; reflexivity.
Qed.
Lemma folds_bind ws : forall us p q, map (@length Z) ws = map (@length Z) us -> digest (pcoin (fold_left (p_write keccak) ws p)) = digest (pcoin (fold_left (p_write keccak) us q)) ->
  collision \/ (digest (pcoin p) = digest (pcoin q) /\ ws = us).
Proof.
  induction ws as [|w ws IH]; intros [|u us] p q L E; try discriminate L; [right; split; [exact E|reflexivity]|]. cbn [fold_left map] in *. assert (L1 : length w = length u) by congruence. assert (L2 : map (@length Z) ws = map (@length Z) us) by congruence.
  destruct (IH us _ _ L2 E) as [C|[D ->]]; [left; exact C|]. unfold p_write, coin_write in D. cbn in D.
  destruct (list_eq_dec Z.eq_dec (digest (pcoin p) ++ w) (digest (pcoin q) ++ u)) as [S|N].
  - right. destruct (app_inj_len _ _ _ _ L1 S) as [-> ->]. split; reflexivity.
  - left. exists (digest (pcoin p) ++ w), (digest (pcoin q) ++ u). split; assumption.
Qed.
Lemma draw_digest c d e c' : c_draw dbg keccak fuel c d = Some (e, c') -> digest c' = digest c.
Proof.
  assert (Bt : forall c b c', draw_bytes dbg keccak c = Some (b, c') -> digest c' = digest c) by (intros c0 b c1; unfold draw_bytes; destruct (incr dbg (counter c0)); cbn [bind]; [|discriminate]; intros [= _ <-]; reflexivity).
  assert (Ut : forall c b c', draw_u256 dbg keccak c = Some (b, c') -> digest c' = digest c) by (intros c0 b c1; unfold draw_u256; destruct (draw_bytes dbg keccak c0) as [[b0 c2]|] eqn:E; [|discriminate]; intros [= _ <-]; exact (Bt _ _ _ E)).
  assert (Ft : forall n c b c', draw_felt dbg keccak n c = Some (b, c') -> digest c' = digest c).
  { induction n as [|n IH]; intros c0 b c1; cbn [draw_felt]; [discriminate|]. destruct (draw_u256 dbg keccak c0) as [[x c2]|] eqn:E; [|discriminate]. apply Ut in E.
    destruct (u_ltb _ _); [|intros H; rewrite (IH _ _ _ H); exact E]. destruct (in_range dbg _); cbn [bind]; [|discriminate]. intros [= _ <-]. exact E. }
  destruct d as [| | | |n]; cbn [c_draw].
  - destruct (draw_bytes dbg keccak c) as [[b c1]|] eqn:E; [|discriminate]. intros [= _ <-]. exact (Bt _ _ _ E).
  - destruct (draw_u256 dbg keccak c) as [[b c1]|] eqn:E; [|discriminate]. intros [= _ <-]. exact (Ut _ _ _ E).
  - destruct (draw_felt dbg keccak fuel c) as [[b c1]|] eqn:E; [|discriminate]. intros [= _ <-]. exact (Ft _ _ _ _ E).
  - unfold draw_seed. destruct (incr dbg (counter c)); cbn [bind]; [|discriminate]. intros [= _ <-]. reflexivity.
  - destruct (get_coefficients dbg keccak fuel c n) as [[b c1]|] eqn:E; [|discriminate]. intros [= _ <-]. revert c b c1 E. induction n as [|n IH]; intros c b c1; cbn [get_coefficients]; [intros [= _ <-]; reflexivity|].
    destruct (draw_felt dbg keccak fuel c) as [[x c2]|] eqn:E; [|discriminate]. destruct (get_coefficients dbg keccak fuel c2 n) as [[l c3]|] eqn:G; [|discriminate]. intros [= _ <-]. rewrite (IH _ _ _ G). exact (Ft _ _ _ _ E).
Qed.
Lemma folds_proof ws : forall p, pproof (fold_left (p_write keccak) ws p) = pproof p ++ concat ws.
Proof. induction ws as [|w ws IH]; intros p; cbn [fold_left concat]; [rewrite app_nil_r; reflexivity|]. rewrite IH. unfold p_write. cbn [pproof]. rewrite app_assoc. reflexivity. Qed.
Lemma runs_bind l : forall k p q es es' p' q', Forall act_typed l -> Forall act_typed k -> map mirror l = map mirror k ->
  p_run dbg keccak fuel p l = Some (es, p') -> p_run dbg keccak fuel q k = Some (es', q') -> digest (pcoin p') = digest (pcoin q') ->
  collision \/ (digest (pcoin p) = digest (pcoin q) /\ exists data, pproof p' = pproof p ++ data /\ pproof q' = pproof q ++ data).
Proof.
  induction l as [|a l IH]; intros [|b k] p q es es' p' q' F G M; try discriminate M; cbn [p_run].
  - intros [= <- <-] [= <- <-] E. right. split; [exact E|]. exists []. rewrite !app_nil_r. split; reflexivity.
  - inversion F as [|? ? Ta F']; inversion G as [|? ? Tb G']; subst. injection M as M0 M.
    destruct (p_do dbg keccak fuel p a) as [[e p1]|] eqn:Ep; [|discriminate]. destruct (p_run dbg keccak fuel p1 l) as [[es0 p2]|] eqn:Rp; [|discriminate]. intros [= <- <-].
    destruct (p_do dbg keccak fuel q b) as [[e' q1]|] eqn:Eq; [|discriminate]. destruct (p_run dbg keccak fuel q1 k) as [[es1 q2]|] eqn:Rq; [|discriminate]. intros [= <- <-] E.
    destruct (IH k p1 q1 es0 es1 p2 q2 F' G' M Rp Rq E) as [C|(D & data & E1 & E2)]; [left; exact C|].
    destruct a as [m|d], b as [m'|d']; try discriminate M0; cbn [p_do] in Ep, Eq.
    + injection M0 as M0. destruct (p_say dbg keccak p m) as [x|] eqn:Sp; cbn [bind] in Ep; [|discriminate Ep]. injection Ep as <- <-. destruct (p_say dbg keccak q m') as [y|] eqn:Sq; cbn [bind] in Eq; [|discriminate Eq]. injection Eq as <- <-.
      apply say_writes in Sp. apply say_writes in Sq. subst x y. destruct (folds_bind _ _ _ _ (writes_lengths m m' Ta Tb M0) D) as [C|[D' W]]; [left; exact C|].
      right. split; [exact D'|]. rewrite folds_proof in E1, E2. exists (concat (writes m) ++ data). rewrite E1, E2, W, !app_assoc. split; reflexivity.
    + destruct (c_draw dbg keccak fuel (pcoin p) d) as [[e0 c]|] eqn:Cp; [|discriminate Ep]. injection Ep as <- <-. destruct (c_draw dbg keccak fuel (pcoin q) d') as [[e1 c']|] eqn:Cq; [|discriminate Eq]. injection Eq as <- <-.
      cbn [pcoin pproof] in *. apply draw_digest in Cp. apply draw_digest in Cq. right. split; [congruence|]. exists data. split; assumption.
Qed.
End Binding.
(** Two provers saying messages of the same kinds and ending with the same digest said the same
    bytes from the same starting digest, unless they exhibit a Keccak collision. *)
Theorem C39_binding : forall dbg keccak fuel seed seed' acts acts' events events' p p', Forall act_typed acts -> Forall act_typed acts' -> map mirror acts = map mirror acts' ->
  p_run dbg keccak fuel (prover_new keccak seed) acts = Some (events, p) -> p_run dbg keccak fuel (prover_new keccak seed') acts' = Some (events', p') ->
  digest (pcoin p) = digest (pcoin p') ->
  (pproof p = pproof p' /\ seed = seed') \/ exists a b, a <> b /\ keccak a = keccak b.
Proof.
  intros dbg keccak fuel seed seed' acts acts' events events' p p' F G M R R' E. destruct (runs_bind dbg keccak fuel acts acts' _ _ _ _ _ _ F G M R R' E) as [C|(D & data & E1 & E2)]; [right; exact C|].
  cbn in D. destruct (list_eq_dec Z.eq_dec seed seed') as [<-|N]; [|right; exists seed, seed'; split; assumption]. left. rewrite E1, E2. split; reflexivity.
Qed.
Print Assumptions C39_binding.

(** ** C40: the challenges *)
(** The bytes drawn at counter [k]. *)
Definition challenge (keccak : list Z -> list Z) (d : list Z) (k : Z) : list Z := keccak (d ++ repeat 0 24 ++ u64_to_be k).
Fixpoint draws (dbg : bool) (keccak : list Z -> list Z) (n : nat) (c : coin) : option (list (list Z) * coin) :=
  match n with
  | O => Some ([], c)
  | S n => match draw_bytes dbg keccak c with None => None | Some (b, c) => match draws dbg keccak n c with Some (l, c) => Some (b :: l, c) | None => None end end
  end.
Lemma incr_ok dbg k : 0 <= k -> k + 1 < B -> incr dbg k = Some (k + 1).
Proof. intros. unfold incr. destruct (Z.ltb_spec (k + 1) B); [reflexivity|lia]. Qed.
(** Successive draws between two writes hash successive, pairwise different, inputs. *)
Theorem C40_counter : forall dbg keccak d k n, 0 <= k -> k + Z.of_nat n < 2 ^ 64 ->
  draws dbg keccak n (Coin d k) = Some (map (fun i => challenge keccak d (k + Z.of_nat i)) (seq 0 n), Coin d (k + Z.of_nat n)) /\
  forall i j, 0 <= i < 2 ^ 64 -> 0 <= j < 2 ^ 64 -> d ++ repeat 0 24 ++ u64_to_be i = d ++ repeat 0 24 ++ u64_to_be j -> i = j.
Proof.
  intros dbg keccak d k n Hk Hn. change (2 ^ 64) with B in *. split.
  - revert k Hk Hn. induction n as [|n IH]; intros k Hk Hn; cbn [draws seq map]; [change (Z.of_nat 0) with 0; rewrite Z.add_0_r; reflexivity|].
    unfold draw_bytes. cbn [digest counter]. rewrite incr_ok by lia. cbn [bind]. rewrite IH by lia. rewrite <- seq_shift, map_map. unfold challenge. cbn [Z.of_nat]. rewrite Z.add_0_r. f_equal. f_equal; [f_equal|f_equal; lia].
    apply map_ext. intros i. replace (k + 1 + Z.of_nat i) with (k + Z.of_nat (S i)) by lia. reflexivity.
  - intros i j Hi Hj E. apply app_inv_head in E. apply app_inv_head in E. destruct (u64_to_be_spec i Hi) as (_ & _ & <-). destruct (u64_to_be_spec j Hj) as (_ & _ & <-). rewrite E. reflexivity.
Qed.
Print Assumptions C40_counter.

Lemma mask_val x : wf x -> wf (u_and x DRAW_MASK) /\ val (u_and x DRAW_MASK) = val x mod 2 ^ 252.
Proof.
  intros H. assert (D : denotes DRAW_MASK (2 ^ 252 - 1)) by (split; [exact (proj1 (wfb_spec DRAW_MASK) eq_refl)|reflexivity]).
  destruct (C08_bitwise x DRAW_MASK (val x) (2 ^ 252 - 1) (conj H eq_refl) D) as ([W1 V1] & _). split; [exact W1|]. rewrite V1. change (2 ^ 252 - 1) with (Z.ones 252). apply Z.land_ones. lia.
Qed.
(** A drawn field element is the first of the successive challenges that is below the modulus after
    keeping its low 252 bits, and the counter moves past it. *)
Definition candidate (keccak : list Z -> list Z) (d : list Z) (k : Z) : Z := num 256 (challenge keccak d k) mod 2 ^ 252.
Theorem C40_field_element : forall dbg keccak fuel d k x c, (forall y, is_hash (keccak y)) -> 0 <= k -> k + Z.of_nat fuel < 2 ^ 64 ->
  (draw_felt dbg keccak fuel (Coin d k) = Some (x, c) <->
   exists i, (i < fuel)%nat /\ denotes x (candidate keccak d (k + Z.of_nat i)) /\ candidate keccak d (k + Z.of_nat i) < p_field /\
     (forall j, (j < i)%nat -> p_field <= candidate keccak d (k + Z.of_nat j)) /\ c = Coin d (k + Z.of_nat i + 1)).
Proof.
  intros dbg keccak fuel d k x c K. revert k. induction fuel as [|fuel IH]; intros k Hk Hn; cbn [draw_felt].
  - split; [discriminate|]. intros (i & Hi & _). lia.
  - change (2 ^ 64) with B in *. unfold draw_u256, draw_bytes. cbn [digest counter]. rewrite incr_ok by lia. cbn [bind].
    fold (challenge keccak d k). destruct (K (d ++ repeat 0 24 ++ u64_to_be k)) as [L F]. fold (challenge keccak d k) in L, F.
    destruct (from_bytes_be_spec _ L F) as [W0 V0]. destruct (mask_val _ W0) as [W1 V1]. rewrite V0 in V1. set (y := u_and (from_bytes_be (challenge keccak d k)) DRAW_MASK) in *.
    assert (V2 : val y = candidate keccak d k) by exact V1.
    assert (Lt : u_ltb y (p_modulus proth_field) = (candidate keccak d k <? p_field)).
    { pose proof (u_ltb_spec y (p_modulus proth_field) W1 (proj1 (wfb_spec (p_modulus proth_field)) eq_refl)) as X. rewrite V2 in X. change (val (p_modulus proth_field)) with p_field in X. exact X. }
    rewrite Lt. destruct (Z.ltb_spec (candidate keccak d k) p_field) as [H|H].
    + assert (R : in_range dbg y = Some y) by (unfold in_range; rewrite Lt; destruct (Z.ltb_spec (candidate keccak d k) p_field); [destruct dbg; reflexivity|lia]). rewrite R. cbn [bind]. split.
      * intros [= <- <-]. exists O. change (Z.of_nat 0) with 0. rewrite Z.add_0_r. split; [lia|]. split; [split; [exact W1|exact V2]|]. split; [exact H|]. split; [intros j Hj; lia|reflexivity].
      * intros (i & Hi & D & Hc & Hj & ->). destruct i as [|i].
        -- change (Z.of_nat 0) with 0 in *. rewrite Z.add_0_r in *. f_equal. f_equal. destruct D as [Wx Vx]. apply val_inj; [exact W1|exact Wx|congruence].
        -- exfalso. specialize (Hj O ltac:(lia)). change (Z.of_nat 0) with 0 in Hj. rewrite Z.add_0_r in Hj. lia.
    + rewrite (IH (k + 1)) by lia. split.
      * intros (i & Hi & D & Hc & Hj & ->). exists (S i). replace (k + Z.of_nat (S i)) with (k + 1 + Z.of_nat i) by lia. split; [lia|]. split; [exact D|]. split; [exact Hc|]. split; [|reflexivity].
        intros [|j] Hji; [change (Z.of_nat 0) with 0; rewrite Z.add_0_r; exact H|]. replace (k + Z.of_nat (S j)) with (k + 1 + Z.of_nat j) by lia. apply Hj. lia.
      * intros (i & Hi & D & Hc & Hj & ->). destruct i as [|i]; [exfalso; change (Z.of_nat 0) with 0 in Hc; rewrite Z.add_0_r in Hc; lia|]. exists i. replace (k + 1 + Z.of_nat i) with (k + Z.of_nat (S i)) by lia. split; [lia|]. split; [exact D|]. split; [exact Hc|]. split; [|reflexivity].
        intros j Hji. replace (k + 1 + Z.of_nat j) with (k + Z.of_nat (S j)) by lia. apply Hj. lia.
Qed.
Print Assumptions C40_field_element.

(** Draws leave no trace once something is written: after a write of [data] the i-th draw is the hash
    of the new digest and i, however many draws preceded the write. *)
Theorem C40_after_write : forall dbg keccak d k data n, Z.of_nat n < 2 ^ 64 ->
  draws dbg keccak n (coin_write keccak (Coin d k) data) =
  Some (map (fun i => challenge keccak (keccak (d ++ data)) (Z.of_nat i)) (seq 0 n), Coin (keccak (d ++ data)) (Z.of_nat n)).
Proof. intros dbg keccak d k data n Hn. apply (proj1 (C40_counter dbg keccak (keccak (d ++ data)) 0 n ltac:(lia) ltac:(lia))). Qed.
Print Assumptions C40_after_write.

(** The coin does not separate draws from writes: saying the 32 bytes "0^24, counter" moves the coin
    to a digest that was already given out as the challenge at that counter. *)
Theorem C40_separation_deviation : forall dbg keccak c k, 0 <= counter c -> counter c + 1 < 2 ^ 64 ->
  draw_bytes dbg keccak c = Some (challenge keccak (digest c) (counter c), Coin (digest c) (counter c + 1)) /\
  digest (coin_write keccak (Coin (digest c) k) (repeat 0 24 ++ u64_to_be (counter c))) = challenge keccak (digest c) (counter c).
Proof. intros dbg keccak c k H1 H2. split; [|reflexivity]. unfold draw_bytes. rewrite incr_ok by assumption. reflexivity. Qed.
Print Assumptions C40_separation_deviation.
(** The proof of work seed is the digest: it does not depend on the counter, so two draws in a row
    give the same seed. *)
Theorem C40_seed_deviation : forall dbg c, 0 <= counter c -> counter c + 2 < 2 ^ 64 -> exists c1 c2,
  draw_seed dbg c = Some (digest c, c1) /\ draw_seed dbg c1 = Some (digest c, c2) /\ counter c2 = counter c + 2.
Proof.
  intros dbg c H1 H2. change (2 ^ 64) with B in *. exists (Coin (digest c) (counter c + 1)), (Coin (digest c) (counter c + 1 + 1)). unfold draw_seed. rewrite incr_ok by lia. cbn [bind counter digest].
  rewrite incr_ok by lia. cbn [bind]. split; [reflexivity|]. split; [reflexivity|]. cbn [counter]. lia.
Qed.
Print Assumptions C40_seed_deviation.
(** A release build takes any 32 bytes of the proof for a field element. *)
Theorem C39_noncanonical_deviation : forall keccak x seed, wf x -> exists v,
  replay_felt false keccak (verifier_new keccak (to_bytes_be x) seed) = Some (x, v) /\
  (p_field <= val x -> replay_felt true keccak (verifier_new keccak (to_bytes_be x) seed) = None).
Proof.
  intros keccak x seed H. destruct (to_bytes_be_spec x H) as (L & _ & _).
  assert (S : synced (prover_new keccak seed) (verifier_new keccak (to_bytes_be x) seed) (to_bytes_be x ++ [])) by (unfold synced; cbn; rewrite app_nil_r; auto).
  eexists. unfold replay_felt, replay_u256. rewrite (read_spec keccak _ _ _ _ S L), from_to_bytes by exact H. cbn [in_range bind]. split; [reflexivity|].
  intros Hx. assert (Lt : u_ltb x (p_modulus proth_field) = (val x <? p_field)) by exact (u_ltb_spec x (p_modulus proth_field) H (proj1 (wfb_spec (p_modulus proth_field)) eq_refl)).
  rewrite Lt. destruct (Z.ltb_spec (val x) p_field); [lia|reflexivity].
Qed.
Print Assumptions C39_noncanonical_deviation.

(** A run of every kind of act, with a toy hash (the length of the input as the last byte). *)
Definition toy (x : list Z) : list Z := repeat 0 31 ++ [Z.of_nat (length x) mod 256].
Definition acts_ex : list p_act := [Say (Hash_ (repeat 7 32)); PDraw DBytes; PDraw DFelt; Say (Felt_ (mk 5 0 0 0)); PDraw (DCoefficients 2); Say (Nonce 123456789); Say (Hashes [repeat 1 32; repeat 2 32]); Say (Numbers [mk 1 2 3 4]); Say (Layer [mk 9 0 0 0; mk 8 0 0 0]); PDraw DSeed; PDraw DNumber].
Example C39_ex : Forall act_typed acts_ex /\ (exists r, p_run true toy 3 (prover_new toy [1; 2]) acts_ex = Some r) /\ forall y, is_hash (toy y).
Proof.
  split; [|split].
  - assert (HB : forall b, 0 <= b < 256 -> is_hash (repeat b 32)) by (intros b Hb; split; [reflexivity|]; apply Forall_forall; intros y Hy; apply repeat_spec in Hy; subst y; exact Hb).
    unfold acts_ex. repeat apply Forall_cons; try exact I; try apply Forall_nil; cbn [act_typed typed];
      first [apply HB; lia | match goal with |- wf ?x => exact (proj1 (wfb_spec x) eq_refl) end | lia].
  - eexists. vm_compute. reflexivity.
  - intros y. split; [reflexivity|]. unfold toy. apply Forall_app. split; [repeat constructor; unfold digit; lia|]. constructor; [|constructor]. unfold digit. apply Z.mod_pos_bound. lia.
Qed.
