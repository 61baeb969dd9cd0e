(** The verifier reads the proof once, from the front: what it does depends on what it has read, not on what follows. *)
Require Import ZArith Lia Bool List.
From Verif Require Import Word U256Model BinaryModel KnuthModel FieldSig FieldAlgModel Arr FftModel StarkBase PolyModel TraceModel ExprModel
  HashModel MerkleModel ChannelModel PowModel QueryModel FriModel OodsModel OodsProofs StarkModel StarkSpec StarkProofs.
Import ListNotations.
Open Scope nat_scope.

(** [m], run before [rest] and successful, reads some [data] from it; before [data] and anything else it does the
    same, and before part of [data] only it panics. *)
Definition reader {A} (m : act verifier verror A) : Prop :=
  forall c pre rest a v', m (Verifier c (pre ++ rest) (length pre)) = Some (Good (a, v')) ->
  exists data rest' c', rest = data ++ rest' /\ v' = Verifier c' ((pre ++ data) ++ rest') (length (pre ++ data)) /\
    (forall rest2, m (Verifier c (pre ++ data ++ rest2) (length pre)) = Some (Good (a, Verifier c' ((pre ++ data) ++ rest2) (length (pre ++ data))))) /\
    (forall short cut, data = short ++ cut -> cut <> [] -> m (Verifier c (pre ++ short) (length pre)) = None).
(** ... and the verifier as a whole reads everything. *)
Definition reads_all (m : act verifier verror unit) : Prop :=
  forall c pre rest v', m (Verifier c (pre ++ rest) (length pre)) = Some (Good (tt, v')) ->
    (forall extra, extra <> [] -> m (Verifier c (pre ++ rest ++ extra) (length pre)) = Some (Bad ProofTooLong)) /\
    (forall short cut, rest = short ++ cut -> cut <> [] -> m (Verifier c (pre ++ short) (length pre)) = None).

Lemma no_cut {A} (short cut : list A) : [] = short ++ cut -> cut <> [] -> False.
Proof. destruct short; destruct cut; intros E N; try discriminate E. contradiction. Qed.
(** Actions that use the coin only *)
Lemma reader_coin {A} (m : act verifier verror A) : (forall c, (exists a c', forall p i, m (Verifier c p i) = Some (Good (a, Verifier c' p i))) \/ forall p i a v', m (Verifier c p i) <> Some (Good (a, v'))) -> reader m.
Proof.
  intros H c pre rest a v' E. destruct (H c) as [(b & c' & Hb)|N]; [|destruct (N _ _ _ _ E)]. rewrite Hb in E. injection E as <- <-. exists [], rest, c'. rewrite app_nil_r. split; [reflexivity|]. split; [reflexivity|]. split.
  - intros rest2. apply Hb.
  - intros short cut E N. destruct (no_cut _ _ E N).
Qed.
Lemma reader_ret {A} (a : A) : reader (ret a).
Proof. apply reader_coin. intros c. left. exists a, c. reflexivity. Qed.
Lemma reader_fail {A} err : reader (A := A) (fail err).
Proof. apply reader_coin. intros c. right. discriminate. Qed.
Lemma reader_lift {A} (x : option A) : reader (lift x).
Proof. apply reader_coin. intros c. unfold lift. destruct x as [a|]; [left; exists a, c; reflexivity|right; discriminate]. Qed.
Lemma reader_merkle {A} (x : res A) : reader (merkle MerkleError x).
Proof. destruct x; [apply reader_ret|apply reader_fail]. Qed.
Lemma reader_draw {A} (f : coin -> option (A * coin)) : reader (chan (v_coin f)).
Proof. apply reader_coin. intros c. unfold chan, v_coin. cbn [vcoin vproof proof_index]. destruct (f c) as [[a c']|]; [left; exists a, c'; reflexivity|right; discriminate]. Qed.
Lemma reader_ext {A} (m m' : act verifier verror A) : (forall v, m v = m' v) -> reader m -> reader m'.
Proof.
  intros H R c pre rest a v' E. rewrite <- H in E. destruct (R c pre rest a v' E) as (data & rest' & c' & E1 & E2 & H1 & H2). exists data, rest', c'. split; [exact E1|]. split; [exact E2|]. split; intros *; rewrite <- H; [apply H1|apply H2].
Qed.
Lemma reader_bind {A C} (m : act verifier verror A) (k : A -> act verifier verror C) : reader m -> (forall a, reader (k a)) -> reader (act_bind m k).
Proof.
  intros Rm Rk c pre rest b v2 E. apply bind_good in E as (a & v1 & E1 & E2). destruct (Rm c pre rest a v1 E1) as (d1 & r1 & c1 & -> & -> & H1 & T1).
  destruct (Rk a c1 (pre ++ d1) r1 b v2 E2) as (d2 & r2 & c2 & -> & -> & H2 & T2). exists (d1 ++ d2), r2, c2. split; [apply app_assoc|]. split; [rewrite !app_assoc; reflexivity|]. split.
  - intros rest2. unfold act_bind. rewrite <- app_assoc. rewrite H1. rewrite (app_assoc pre). rewrite H2. reflexivity.
  - intros short cut E N. unfold act_bind. destruct (split_prefix d1 d2 short cut E N) as [(c' & -> & N')|(s' & -> & ->)].
    + rewrite (T1 short c' eq_refl N'). reflexivity.
    + rewrite H1. apply (T2 s' cut eq_refl N).
Qed.
Lemma reader_map {A C} (f : A -> act verifier verror C) : (forall x, reader (f x)) -> forall l, reader (act_map f l).
Proof. intros H. induction l as [|x l IH]; cbn [act_map]; [apply reader_ret|]. apply reader_bind; [apply H|]. intros y. apply reader_bind; [exact IH|]. intros ys. apply reader_ret. Qed.
(** Reads *)
Lemma reader_take {A} keccak (f : verifier -> option (A * verifier)) n (g : list Z -> option A) :
  (forall v, f v = let? b := v_take v n in let? a := g b in Some (a, Verifier (coin_write keccak (vcoin v) b) (vproof v) (proof_index v + n))) -> reader (chan f).
Proof.
  intros Hf c pre rest a v' E. unfold chan in E. rewrite Hf in E. unfold v_take in E. cbn [vproof proof_index vcoin] in E. rewrite app_length in E. destruct (Nat.ltb_spec (length pre + length rest) (length pre + n)) as [_|Hl]; [discriminate E|].
  assert (Sk : forall r, skipn (length pre) (pre ++ r) = r) by (intros r; rewrite skipn_app, skipn_all, Nat.sub_diag; reflexivity).
  cbn [bind] in E. rewrite Sk in E. destruct (g (firstn n rest)) as [x|] eqn:Eg; cbn [bind] in E; [|discriminate E]. injection E as -> <-.
  assert (Ln : length (firstn n rest) = n) by (apply firstn_length_le; lia).
  exists (firstn n rest), (skipn n rest), (coin_write keccak c (firstn n rest)). rewrite firstn_skipn. split; [reflexivity|]. split; [|split].
  - rewrite <- app_assoc, firstn_skipn, app_length, Ln. reflexivity.
  - intros rest2. unfold chan. rewrite Hf. unfold v_take. cbn [vproof proof_index vcoin]. rewrite !app_length, Ln. destruct (Nat.ltb_spec (length pre + (n + length rest2)) (length pre + n)); [lia|]. cbn [bind]. rewrite Sk.
    rewrite <- Ln at 1. rewrite firstn_app, Nat.sub_diag, firstn_all, firstn_O, app_nil_r. rewrite Eg. cbn [bind]. rewrite <- app_assoc. rewrite <- Ln at 1. rewrite firstn_app, Nat.sub_diag, firstn_all, firstn_O, app_nil_r. reflexivity.
  - intros short cut E N. unfold chan. rewrite Hf. unfold v_take. cbn [vproof proof_index vcoin]. rewrite app_length. assert (length short < n) by (rewrite <- Ln, E, app_length; destruct cut; [contradiction|cbn; lia]).
    destruct (Nat.ltb_spec (length pre + length short) (length pre + n)); [reflexivity|lia].
Qed.
Lemma reader_many {A} (f : verifier -> option (A * verifier)) n : reader (chan f) -> reader (chan (replay_many f n)).
Proof.
  intros R. induction n as [|n IH]; [apply reader_ext with (m := ret []); [reflexivity|apply reader_ret]|].
  apply reader_ext with (m := act_bind (chan f) (fun x => act_bind (chan (replay_many f n)) (fun l => ret (x :: l)))).
  - intros v. unfold act_bind, chan, ret. cbn [replay_many]. destruct (f v) as [[y v']|]; [|reflexivity]. destruct (replay_many f n v') as [[ys v'']|]; reflexivity.
  - apply reader_bind; [exact R|]. intros x. apply reader_bind; [exact IH|]. intros l. apply reader_ret.
Qed.
(** The end *)
Lemma all_step {A} (m : act verifier verror A) (k : A -> act verifier verror unit) : reader m -> (forall a, reads_all (k a)) -> reads_all (act_bind m k).
Proof.
  intros Rm Rk c pre rest v2 E. apply bind_good in E as (a & v1 & E1 & E2). destruct (Rm c pre rest a v1 E1) as (d1 & r1 & c1 & -> & -> & H1 & T1). destruct (Rk a c1 (pre ++ d1) r1 v2 E2) as (H2 & T2). split.
  - intros extra N. unfold act_bind. rewrite <- (app_assoc d1), H1. apply H2, N.
  - intros short cut E N. unfold act_bind. destruct (split_prefix d1 r1 short cut E N) as [(c' & -> & N')|(s' & -> & ->)].
    + rewrite (T1 short c' eq_refl N'). reflexivity.
    + rewrite H1. apply (T2 s' cut eq_refl N).
Qed.
Lemma all_end (m : act verifier verror unit) : reads_all (do ended <- (fun v => Some (Good (at_end v, v))); if negb ended then fail ProofTooLong else m).
Proof.
  intros c pre rest v' E. unfold act_bind, at_end in *. cbn [proof_index vproof] in *. rewrite app_length in E. destruct (Nat.eqb_spec (length pre) (length pre + length rest)) as [El|_]; [|discriminate E]. destruct rest as [|x rest]; [|cbn in El; lia]. clear E El. split.
  - intros extra N. cbn [app]. rewrite app_length. destruct (Nat.eqb_spec (length pre) (length pre + length extra)) as [X|_]; [destruct extra; [contradiction|cbn in X; lia]|]. reflexivity.
  - intros short cut E N. destruct (no_cut _ _ E N).
Qed.
Lemma all_fail err : reads_all (fail err).
Proof. intros c pre rest v' E. discriminate E. Qed.

Section Verify.
Context {F : Type} (o : ops F) (e : engine F) (keccak : list Z -> list Z) (enc : F -> u256) (dec : u256 -> option F).
Context (sort_idx : list Z -> list Z) (sort_nodes : list (Z * hash) -> list (Z * hash)) (search : list Z -> Z -> option nat) (fuel : nat).
Lemma reader_hash : reader (chan (replay_hash keccak)).
Proof. apply (reader_take keccak _ 32 Some). reflexivity. Qed.
Lemma reader_elem : reader (chan (replay_elem e keccak dec)).
Proof.
  apply (reader_take keccak _ 32 (fun b => let? x := in_range (edbg e) (from_bytes_be b) in dec x)). intros v. unfold replay_elem, replay_felt, replay_u256, read_32_bytes. destruct (v_take v 32) as [b|]; cbn [bind]; [|reflexivity].
  destruct (in_range (edbg e) (from_bytes_be b)) as [x|]; cbn [bind]; [|reflexivity]. destruct (dec x); reflexivity.
Qed.
Lemma reader_layer n : reader (chan (replay_layer e keccak dec n)).
Proof.
  apply (reader_take keccak _ (32 * n) (fun b => let? l := felts_of (edbg e) (chunks_32 n b) in decode_all dec l)). intros v. unfold replay_layer, replay_fri_layer. destruct (v_take v (32 * n)) as [b|]; cbn [bind]; [|reflexivity].
  destruct (felts_of (edbg e) (chunks_32 n b)) as [x|]; cbn [bind]; [|reflexivity]. destruct (decode_all dec x); reflexivity.
Qed.
Lemma reader_nonce : reader (chan (replay_nonce keccak)).
Proof. apply (reader_take keccak _ 8 (fun b => Some (u64_from_be b))). reflexivity. Qed.
Ltac rd := repeat first [ apply reader_ret | apply reader_fail | apply reader_lift | apply reader_merkle | apply reader_draw | apply reader_hash | apply reader_elem | apply reader_layer | apply reader_nonce
  | apply reader_many | apply reader_map; intros | apply reader_bind; [|intros] | match goal with |- reader (match ?x with _ => _ end) => destruct x end ].
Lemma reader_fri layout : forall size, reader (replay_fri e keccak dec fuel layout size).
Proof. induction layout as [|m layout IH]; intros size; cbn [replay_fri]; rd. apply IH. Qed.
Lemma reader_decommit c idx : reader (decommit keccak sort_idx c idx).
Proof. unfold decommit. rd. Qed.
Lemma reader_check p l err : reader (check_leaves keccak enc sort_nodes (F := F) p l err).
Proof. unfold check_leaves. rd. Qed.
Lemma reader_layers eval_x known layers : (forall z, reader (known z)) -> forall first idx prev folds step len,
  reader (fri_layers o e keccak enc dec sort_idx sort_nodes search eval_x known layers first idx prev folds step len).
Proof.
  intros Hk. induction layers as [|[[c x] n] layers IH]; intros first idx prev folds step len; cbn [fri_layers]; rd; try apply Hk; try apply reader_decommit; try apply reader_check. apply IH.
Qed.
Lemma verify_reads_all c claims : reads_all (verify_channel o e keccak enc dec sort_idx sort_nodes search fuel c claims).
Proof.
  unfold verify_channel.
  repeat first [ apply all_end | apply all_fail | apply all_step; [solve [rd; first [apply reader_fri | apply reader_decommit | apply reader_check | apply reader_layers; intros; rd]]|intros]
   | match goal with |- reads_all (if ?x then _ else _) => destruct x end | match goal with |- reads_all (let x := _ in _) => cbv zeta end | match goal with |- reads_all (match ?p with (_, _) => _ end) => destruct p end ].
Qed.
End Verify.
