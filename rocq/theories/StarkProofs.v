(** The verifier on a proof written by the prover: the two channels move in step. *)
Require Import ZArith Lia Bool List.
From Verif Require Import Word U256Model U256Spec U256Proofs BinaryModel BinaryProofs BinaryProps EncodingSpec EncodingProofs KnuthModel FieldSig FieldModel FieldInstance FieldAlgModel Arr FftModel StarkBase PolyModel TraceModel ExprModel
  HashModel MerkleModel ChannelModel ChannelSpec ChannelProps PowModel QueryModel FriModel OodsModel OodsProofs DagModel StarkModel StarkSpec.
Import ListNotations.
Open Scope nat_scope.

(** ** Actions *)
Section Acts.
Context {S E : Type}.
Lemma bind_good {A C} (m : act S E A) (k : A -> act S E C) s r : act_bind m k s = Some (Good r) ->
  exists a s', m s = Some (Good (a, s')) /\ k a s' = Some (Good r).
Proof. unfold act_bind. destruct (m s) as [[[a s']|err]|]; try discriminate. intros H. exists a, s'. auto. Qed.
Lemma lift_good {A} (x : option A) (s : S) (a : A) (s' : S) : lift (E := E) x s = Some (Good (a, s')) -> x = Some a /\ s' = s.
Proof. unfold lift. destruct x; [|discriminate]. intros [= <- <-]. auto. Qed.
Lemma chan_good {A} (f : S -> option (A * S)) s r : chan (E := E) f s = Some (Good r) -> f s = Some r.
Proof. unfold chan. destruct (f s) as [[a s']|]; [|discriminate]. intros [= <-]. reflexivity. Qed.
Lemma ret_good {A} (a : A) (s : S) r : ret (E := E) a s = Some (Good r) -> r = (a, s).
Proof. intros [= <-]. reflexivity. Qed.
Lemma merkle_good {A} (wrap : merror -> E) (x : res A) (s : S) a s' : merkle wrap x s = Some (Good (a, s')) -> x = Ok a /\ s' = s.
Proof. destruct x; cbn [merkle]; [|discriminate]. intros [= <- <-]. auto. Qed.
End Acts.

(** ** In step *)
(** [v] has read what [p] has written, and [rest] follows; [s]: the coins agree. *)
Definition sync (s : bool) (p : prover) (v : verifier) (rest : list Z) : Prop :=
  (s = true -> vcoin v = pcoin p) /\ vproof v = pproof p ++ rest /\ proof_index v = length (pproof p).
(** While the prover goes from [p] to [p'], the verifier's [m] reads what was written and returns [a]; if part of
    what was written is missing it panics. *)
Definition follows (s s' : bool) (p p' : prover) {A} (m : act verifier verror A) (a : A) : Prop :=
  exists data, pproof p' = pproof p ++ data /\
    (forall v rest, sync s p v (data ++ rest) -> exists v', m v = Some (Good (a, v')) /\ sync s' p' v' rest) /\
    (forall v short cut, data = short ++ cut -> cut <> [] -> sync s p v short -> m v = None).

Lemma split_prefix {A} (d1 d2 short cut : list A) : d1 ++ d2 = short ++ cut -> cut <> [] ->
  (exists c', d1 = short ++ c' /\ c' <> []) \/ (exists s', short = d1 ++ s' /\ d2 = s' ++ cut).
Proof.
  revert short. induction d1 as [|x d1 IH]; intros short E N.
  - right. exists short. auto.
  - destruct short as [|y short]; [left; exists (x :: d1); split; [reflexivity|discriminate]|]. cbn [app] in E. injection E as -> E.
    destruct (IH short E N) as [(c & E1 & N1)|(s & E1 & E2)]; [left; exists c; split; [rewrite E1; reflexivity|exact N1]|right; exists s; split; [rewrite E1; reflexivity|exact E2]].
Qed.
Lemma follows_bind s s1 s2 p q r {A C} (m : act verifier verror A) (k : A -> act verifier verror C) a c :
  follows s s1 p q m a -> follows s1 s2 q r (k a) c -> follows s s2 p r (act_bind m k) c.
Proof.
  intros (d1 & E1 & H1 & T1) (d2 & E2 & H2 & T2). exists (d1 ++ d2). split; [rewrite E2, E1, app_assoc; reflexivity|]. split.
  - intros v rest S. rewrite <- app_assoc in S. destruct (H1 v _ S) as (v1 & R1 & S1). destruct (H2 v1 rest S1) as (v2 & R2 & S2). exists v2. split; [|exact S2]. unfold act_bind. rewrite R1. exact R2.
  - intros v short cut E N S. unfold act_bind. destruct (split_prefix d1 d2 short cut E N) as [(c' & -> & N')|(s' & -> & ->)].
    + rewrite (T1 v short c' eq_refl N' S). reflexivity.
    + destruct (H1 v s' S) as (v1 & R1 & S1). rewrite R1. apply (T2 v1 s' cut eq_refl N S1).
Qed.
Lemma follows_ext s s' p p' {A} (m m' : act verifier verror A) a : (forall v, m v = m' v) -> follows s s' p p' m a -> follows s s' p p' m' a.
Proof.
  intros H (d & E & H1 & T1). exists d. split; [exact E|]. split; [intros v rest S; rewrite <- H; apply H1, S|intros v short cut; rewrite <- H; apply T1].
Qed.
Lemma follows_pure s p {A} (m : act verifier verror A) a : (forall v, m v = Some (Good (a, v))) -> follows s s p p m a.
Proof.
  intros H. exists []. rewrite app_nil_r. split; [reflexivity|]. split.
  - intros v rest S. exists v. split; [apply H|exact S].
  - intros v short cut E N. destruct short; destruct cut; try discriminate E. contradiction.
Qed.
Lemma follows_ret s p {A} (a : A) : follows s s p p (ret a) a.
Proof. apply follows_pure. reflexivity. Qed.
Lemma follows_lift s p {A} (x : option A) a : x = Some a -> follows s s p p (lift x) a.
Proof. intros ->. apply follows_pure. reflexivity. Qed.
Lemma follows_merkle s p {A} (x : res A) a : x = Ok a -> follows s s p p (merkle MerkleError x) a.
Proof. intros ->. apply follows_pure. reflexivity. Qed.
Lemma sync_weak s p v rest : sync s p v rest -> sync false p v rest.
Proof. intros (_ & H). split; [discriminate|exact H]. Qed.
Lemma follows_weak s s' p p' {A} (m : act verifier verror A) a : follows s s' p p' m a -> follows s false p p' m a.
Proof. intros (d & E & H1 & T1). exists d. split; [exact E|]. split; [|exact T1]. intros v rest S. destruct (H1 v rest S) as (v' & R & S'). exists v'. split; [exact R|apply (sync_weak s'), S']. Qed.

(** Loops in step *)
Lemma follows_map s p p' {A C} (f : A -> act prover perror unit) (g : A -> act verifier verror C) (h : A -> C) l :
  (forall x q q', In x l -> f x q = Some (Good (tt, q')) -> follows s s q q' (g x) (h x)) ->
  act_iter f l p = Some (Good (tt, p')) -> follows s s p p' (act_map g l) (map h l).
Proof.
  revert p. induction l as [|x l IH]; intros p Hf H; cbn [act_iter] in H; cbn [act_map map].
  - apply ret_good in H. injection H as <-. apply follows_ret.
  - apply bind_good in H as ([] & q & H1 & H2). apply (follows_bind s s s p q p') with (a := h x); [apply Hf; [left; reflexivity|exact H1]|].
    apply (follows_bind s s s q p' p') with (a := map h l); [apply (IH q); [intros y q1 q2 Hy; apply Hf; right; exact Hy|exact H2]|]. apply follows_ret.
Qed.
(** ... where what is read does not depend on the coin *)
Lemma follows_map_weak s p p' {A C} (f : A -> act prover perror unit) (g : A -> act verifier verror C) (h : A -> C) l :
  (forall x q q', In x l -> f x q = Some (Good (tt, q')) -> follows false false q q' (g x) (h x)) ->
  act_iter f l p = Some (Good (tt, p')) -> follows s false p p' (act_map g l) (map h l).
Proof.
  intros Hf H. destruct (follows_map false p p' f g h l Hf H) as (d & E & H1 & T1). exists d. split; [exact E|]. split.
  - intros v rest S. apply H1, (sync_weak s), S.
  - intros v short cut Ed N S. apply (T1 v short cut Ed N), (sync_weak s), S.
Qed.
Lemma follows_chan_map s p p' {A} (f : verifier -> option (A * verifier)) (g : prover -> A -> prover) l :
  (forall x q, In x l -> follows s s q (g q x) (chan f) x) -> p' = fold_left g l p -> follows s s p p' (chan (replay_many f (length l))) l.
Proof.
  intros Hf ->. revert p. induction l as [|x l IH]; intros p; cbn [fold_left length].
  - apply follows_pure. reflexivity.
  - apply follows_ext with (m := act_bind (chan f) (fun x => act_bind (chan (replay_many f (length l))) (fun l => ret (x :: l)))).
    + intros v. unfold act_bind, chan, ret. cbn [replay_many]. destruct (f v) as [[y v']|]; [|reflexivity]. destruct (replay_many f (length l) v') as [[ys v'']|]; reflexivity.
    + apply (follows_bind s s s p (g p x)) with (a := x); [apply Hf; left; reflexivity|]. eapply follows_bind; [apply IH; intros y q Hy; apply Hf; right; exact Hy|]. apply follows_ret.
Qed.

Section Messages.
Context {F : Type} (o : ops F) (e : engine F) (keccak : list Z -> list Z) (enc : F -> u256) (dec : u256 -> option F) (fuel : nat).
Context (Hcodec : codec enc dec).
Local Notation dbg := (edbg e).
Local Opaque to_bytes_be from_bytes_be u64_to_be.

(** ** Messages *)
Lemma take_sync s p v data rest n : sync s p v (data ++ rest) -> length data = n -> v_take v n = Some data.
Proof.
  intros (_ & Ev & I) L. unfold v_take. rewrite I, Ev, !app_length. destruct (Nat.ltb_spec (length (pproof p) + (length data + length rest)) (length (pproof p) + n)); [lia|].
  rewrite skipn_app, Nat.sub_diag, skipn_all2 by lia. cbn [app skipn]. rewrite <- L. rewrite firstn_app, Nat.sub_diag, firstn_all, firstn_O, app_nil_r. reflexivity.
Qed.
Lemma take_sync_short s p v short n : sync s p v short -> length short < n -> v_take v n = None.
Proof. intros (_ & Ev & I) L. apply take_short. rewrite I, Ev, app_length. lia. Qed.
Lemma sync_write s p v data rest : sync s p v (data ++ rest) ->
  sync s (p_write keccak p data) (Verifier (coin_write keccak (vcoin v) data) (vproof v) (proof_index v + length data)) rest.
Proof. intros (E1 & E2 & E3). unfold sync, p_write. cbn. rewrite E2, E3, app_assoc, app_length. split; [intros Hs; rewrite (E1 Hs); reflexivity|]. auto. Qed.
(** A read of [n] bytes that are then decoded *)
Lemma follows_take s p {A} (f : verifier -> option (A * verifier)) n data a : length data = n ->
  (forall v, f v = let? b := v_take v n in if list_eq_dec Z.eq_dec b data then Some (a, Verifier (coin_write keccak (vcoin v) b) (vproof v) (proof_index v + n)) else f v) ->
  follows s s p (p_write keccak p data) (chan f) a.
Proof.
  intros L Hf. exists data. split; [reflexivity|]. split.
  - intros v rest S. eexists. split; [unfold chan; rewrite Hf, (take_sync s p v data rest n S L); cbn [bind]; destruct (list_eq_dec Z.eq_dec data data) as [_|X]; [reflexivity|contradiction]|]. rewrite <- L. apply sync_write, S.
  - intros v short cut Ed N S. unfold chan. rewrite Hf, (take_sync_short s p v short n S); [reflexivity|]. subst data. rewrite <- L, app_length. destruct cut; [contradiction|cbn; lia].
Qed.
Lemma replay_hash_follows s p h : length h = 32 -> follows s s p (p_hash keccak p h) (chan (replay_hash keccak)) h.
Proof.
  intros L. unfold p_hash. apply (follows_take s p _ 32 h h L). intros v. unfold replay_hash, read_32_bytes. destruct (v_take v 32) as [b|]; cbn [bind]; [|reflexivity].
  destruct (list_eq_dec Z.eq_dec b h) as [->|_]; reflexivity.
Qed.
Lemma enc_bytes x : length (to_bytes_be (enc x)) = 32 /\ from_bytes_be (to_bytes_be (enc x)) = enc x.
Proof. destruct (Hcodec x) as (W & _). split; [apply (to_bytes_be_spec _ W)|apply from_to_bytes, W]. Qed.
Lemma enc_range x : in_range dbg (enc x) = Some (enc x).
Proof.
  destruct (Hcodec x) as (W & R & _). unfold in_range. destruct dbg; [|reflexivity]. rewrite (u_ltb_spec (enc x) (p_modulus proth_field) W (proj1 (wfb_spec (p_modulus proth_field)) eq_refl)).
  rewrite (proj2 (Z.ltb_lt _ _) R). reflexivity.
Qed.
Lemma replay_elem_follows s p x p' : w_elem e keccak enc x p = Some (tt, p') -> follows s s p p' (chan (replay_elem e keccak dec)) x.
Proof.
  unfold w_elem, p_felt. rewrite enc_range. cbn [bind]. intros [= <-]. apply (follows_take s p _ 32 (to_bytes_be (enc x)) x); [apply enc_bytes|].
  intros v. unfold replay_elem, replay_felt, replay_u256, read_32_bytes. destruct (v_take v 32) as [b|]; cbn [bind]; [|reflexivity].
  destruct (list_eq_dec Z.eq_dec b (to_bytes_be (enc x))) as [->|_]; [|reflexivity]. rewrite (proj2 (enc_bytes x)), enc_range. cbn [bind]. destruct (Hcodec x) as (_ & _ & ->). reflexivity.
Qed.
Lemma decode_enc l : decode_all dec (map enc l) = Some l.
Proof. unfold decode_all. induction l as [|x l IH]; [reflexivity|]. cbn [map option_all]. destruct (Hcodec x) as (_ & _ & ->). cbn [bind]. rewrite IH. reflexivity. Qed.
Lemma container_enc l : container dbg (map enc l) = Some (concat (map (fun x => to_bytes_be (enc x)) l)).
Proof. induction l as [|x l IH]; [reflexivity|]. cbn [map container concat]. rewrite enc_range. cbn [bind]. rewrite IH. reflexivity. Qed.
(** A layer is read as one string, whichever way it was written. *)
Lemma layer_read v l n data : length l = n -> data = concat (map (fun x => to_bytes_be (enc x)) l) ->
  replay_layer e keccak dec n v = let? b := v_take v (32 * n) in if list_eq_dec Z.eq_dec b data then Some (l, Verifier (coin_write keccak (vcoin v) b) (vproof v) (proof_index v + 32 * n)) else replay_layer e keccak dec n v.
Proof.
  intros Ln ->. unfold replay_layer, replay_fri_layer. destruct (v_take v (32 * n)) as [b|]; cbn [bind]; [|reflexivity].
  destruct (list_eq_dec Z.eq_dec b (concat (map (fun x => to_bytes_be (enc x)) l))) as [->|_]; [|reflexivity].
  destruct (container_spec dbg (map enc l) _ (container_enc l)) as [_ Hc]; [apply Forall_forall; intros x Hx; apply in_map_iff in Hx as (y & <- & _); apply Hcodec|].
  rewrite map_length, Ln in Hc. rewrite Hc. cbn [bind]. rewrite decode_enc. reflexivity.
Qed.
Lemma layer_bytes (l : list F) : length (concat (map (fun x => to_bytes_be (enc x)) l)) = 32 * length l.
Proof. induction l as [|x l IH]; [reflexivity|]. cbn [map concat length]. rewrite app_length, IH, (proj1 (enc_bytes x)). lia. Qed.
Lemma replay_layer_follows s p l n p' : length l = n -> w_layer e keccak enc l p = Some (tt, p') -> follows s s p p' (chan (replay_layer e keccak dec n)) l.
Proof.
  intros Ln. unfold w_layer, p_layer. rewrite container_enc. cbn [bind]. intros [= <-]. apply (follows_take s p _ (32 * n)); [rewrite <- Ln; apply layer_bytes|]. intros v. apply layer_read; [exact Ln|reflexivity].
Qed.
(** A leaf is written element by element and read as one string: the bytes agree, the coins do not. *)
Lemma leaf_bytes l : forall p, pproof (p_u256s keccak p (map enc l)) = pproof p ++ concat (map (fun x => to_bytes_be (enc x)) l).
Proof.
  induction l as [|x l IH]; intros p; cbn [map p_u256s fold_left concat]; [rewrite app_nil_r; reflexivity|]. unfold p_u256s in IH. rewrite IH. unfold p_u256, p_write. cbn [pproof]. rewrite app_assoc. reflexivity.
Qed.
Lemma replay_leaf_follows p l n p' : length l = n -> w_leaf keccak enc l p = Some (tt, p') -> follows false false p p' (chan (replay_layer e keccak dec n)) l.
Proof.
  intros Ln [= <-]. set (data := concat (map (fun x => to_bytes_be (enc x)) l)).
  assert (Fw : follows false false p (p_write keccak p data) (chan (replay_layer e keccak dec n)) l).
  { apply (follows_take false p _ (32 * n)); [rewrite <- Ln; apply layer_bytes|]. intros v. apply layer_read; [exact Ln|reflexivity]. }
  destruct Fw as (d & Ed & H1 & T1). exists d. split; [rewrite leaf_bytes; exact Ed|]. split; [|exact T1]. intros v rest S. destruct (H1 v rest S) as (v' & R & _ & S2 & S3). exists v'. split; [exact R|].
  split; [discriminate|]. cbn [pproof p_write] in *. rewrite leaf_bytes. split; [exact S2|exact S3].
Qed.
Lemma replay_nonce_follows s p n p' : (0 <= n < 2 ^ 64)%Z -> w_nonce keccak n p = Some (tt, p') -> follows s s p p' (chan (replay_nonce keccak)) n.
Proof.
  intros Hn [= <-]. unfold p_nonce. apply (follows_take s p _ 8); [reflexivity|]. intros v. unfold replay_nonce. destruct (v_take v 8) as [b|]; cbn [bind]; [|reflexivity].
  destruct (list_eq_dec Z.eq_dec b (u64_to_be n)) as [->|_]; [|reflexivity]. rewrite nonce_round by exact Hn. reflexivity.
Qed.
Lemma replay_hashes_follows s p l p' : Forall (fun h => length h = 32) l -> w_hashes keccak l p = Some (tt, p') -> follows s s p p' (chan (replay_many (replay_hash keccak) (length l))) l.
Proof. intros Hl [= <-]. apply (follows_chan_map s p _ _ (p_hash keccak) l); [|reflexivity]. intros x q Hx. apply replay_hash_follows. rewrite Forall_forall in Hl. apply Hl, Hx. Qed.
Lemma replay_elems_follows s p l p' : act_iter (fun x => chan (E := perror) (w_elem e keccak enc x)) l p = Some (Good (tt, p')) ->
  follows s s p p' (chan (replay_many (replay_elem e keccak dec) (length l))) l.
Proof.
  revert p. induction l as [|x l IH]; intros p H; cbn [act_iter] in H; cbn [length].
  - apply ret_good in H. injection H as <-. apply follows_pure. reflexivity.
  - apply bind_good in H as ([] & q & H1 & H2). apply chan_good in H1.
    apply follows_ext with (m := act_bind (chan (replay_elem e keccak dec)) (fun x => act_bind (chan (replay_many (replay_elem e keccak dec) (length l))) (fun l => ret (x :: l)))).
    + intros v. unfold act_bind, chan, ret. cbn [replay_many]. destruct (replay_elem e keccak dec v) as [[y v']|]; [|reflexivity]. destruct (replay_many (replay_elem e keccak dec) (length l) v') as [[ys v'']|]; reflexivity.
    + eapply follows_bind; [apply replay_elem_follows, H1|]. eapply follows_bind; [apply IH, H2|]. apply follows_ret.
Qed.
(** Draws *)
Lemma draw_follows p {A} (f : coin -> option (A * coin)) a p' : p_coin f p = Some (a, p') -> follows true true p p' (chan (v_coin f)) a.
Proof.
  unfold p_coin. destruct (f (pcoin p)) as [[x c]|] eqn:Ef; [|discriminate]. intros [= <- <-]. exists []. cbn [pproof]. rewrite app_nil_r. split; [reflexivity|]. split.
  - intros v rest (S1 & S2 & S3). eexists. split; [unfold chan, v_coin; rewrite (S1 eq_refl), Ef; reflexivity|]. repeat split; assumption.
  - intros v short cut Es N. destruct short; destruct cut; try discriminate Es. contradiction.
Qed.
(** One draw of a number of coefficients, or two *)
Lemma coefficients_app m n c : get_coefficients dbg keccak fuel c (m + n) =
  match get_coefficients dbg keccak fuel c m with Some (l, c) => match get_coefficients dbg keccak fuel c n with Some (l', c) => Some (l ++ l', c) | None => None end | None => None end.
Proof.
  revert c. induction m as [|m IH]; intros c; cbn [Nat.add get_coefficients].
  - destruct (get_coefficients dbg keccak fuel c n) as [[l c']|]; reflexivity.
  - destruct (draw_felt dbg keccak fuel c) as [[x c1]|]; [|reflexivity]. rewrite IH. destruct (get_coefficients dbg keccak fuel c1 m) as [[l c2]|]; [|reflexivity]. destruct (get_coefficients dbg keccak fuel c2 n) as [[l' c3]|]; reflexivity.
Qed.
Lemma decode_app l l' x x' : decode_all dec l = Some x -> decode_all dec l' = Some x' -> decode_all dec (l ++ l') = Some (x ++ x').
Proof.
  revert x. unfold decode_all. induction l as [|y l IH]; intros x H H'; cbn [map app option_all] in *; [injection H as <-; exact H'|].
  destruct (dec y) as [z|]; cbn [bind] in *; [|discriminate]. destruct (option_all (map dec l)) as [zs|]; cbn [bind] in *; [|discriminate]. injection H as <-. rewrite (IH zs eq_refl H'). reflexivity.
Qed.
Lemma draw_elems_length n c l c' : draw_elems e keccak dec fuel n c = Some (l, c') -> length l = n.
Proof.
  unfold draw_elems. destruct (get_coefficients dbg keccak fuel c n) as [[r c1]|] eqn:Eg; [|discriminate].
  assert (Lr : length r = n). { clear - Eg. revert c r Eg. induction n as [|n IH]; intros c r; cbn [get_coefficients]; [intros [= <- _]; reflexivity|]. destruct (draw_felt dbg keccak fuel c) as [[x c2]|]; [|discriminate]. destruct (get_coefficients dbg keccak fuel c2 n) as [[l c3]|] eqn:E; [|discriminate]. intros [= <- <-]. cbn. f_equal. apply (IH c2 l E). }
  unfold decode_all. destruct (option_all (map dec r)) as [x|] eqn:Ex; cbn [bind]; [|discriminate]. intros [= <- _]. rewrite <- Lr. clear - Ex. revert x Ex. induction r as [|y r IH]; intros x; cbn [map option_all]; [intros [= <-]; reflexivity|].
  destruct (dec y); cbn [bind]; [|discriminate]. destruct (option_all (map dec r)); cbn [bind]; [|discriminate]. intros [= <-]. cbn. f_equal. apply IH. reflexivity.
Qed.
Lemma draw_twice m n p l p1 l' p2 : p_coin (draw_elems e keccak dec fuel m) p = Some (l, p1) -> p_coin (draw_elems e keccak dec fuel n) p1 = Some (l', p2) ->
  p_coin (draw_elems e keccak dec fuel (m + n)) p = Some (l ++ l', p2).
Proof.
  unfold p_coin, draw_elems. rewrite coefficients_app. destruct (get_coefficients dbg keccak fuel (pcoin p) m) as [[r c1]|]; [|discriminate]. destruct (decode_all dec r) as [x|] eqn:Ex; cbn [bind]; [|discriminate]. intros [= <- <-]. cbn [pcoin pproof].
  destruct (get_coefficients dbg keccak fuel c1 n) as [[r' c2]|]; [|discriminate]. destruct (decode_all dec r') as [x'|] eqn:Ex'; cbn [bind]; [|discriminate]. intros [= <- <-]. rewrite (decode_app r r' x x' Ex Ex'). reflexivity.
Qed.
End Messages.
