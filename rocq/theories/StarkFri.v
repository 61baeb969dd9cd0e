(** The verifier on a proof written by the prover: the FRI layers. *)
Require Import ZArith Lia Bool List Sorted Permutation.
From Verif Require Import Word U256Model U256Spec BinaryModel KnuthModel FieldSig FieldAlgModel Arr FftModel FftSpec PermuteProofs StarkBase PolyModel TraceModel ExprModel
  HashModel MerkleModel MerkleSpec MerkleProofs MerkleTreeProofs MerkleProps ChannelModel ChannelSpec ChannelProps FriModel FriProps OodsModel OodsProofs StarkModel StarkSpec StarkProofs StarkOpen.
Import ListNotations.
Open Scope nat_scope.

Section Fri.
Context {F : Type} (o : ops F) (L : lawful o) (e : engine F) (M : nat) (w : nat -> F) (SD : sound o e M w).
Context (keccak : list Z -> list Z) (enc : F -> u256) (dec : u256 -> option F) (fuel : nat).
Context (sort_idx : list Z -> list Z) (sort_nodes : list (Z * hash) -> list (Z * hash)) (search : list Z -> Z -> option nat) (orders : list (list F) -> nat -> list nat).
Context (Hcodec : codec enc dec) (Hk : forall y, is_hash (keccak y)) (Si : sorts (fun x => x) sort_idx) (Sn : sorts fst sort_nodes) (Sr : searches search).
Context (Ho : forall leaves D, schedules (orders leaves) D).
Context (K0 : nat) (HK0 : 1 <= K0 <= M) (x_inv eval_x : list F) (Ex : fri_x_inv o e (2 ^ K0) = Some (Some x_inv)) (Ee : eval_x = map (fun i => fpw o (w K0) i) (seq 0 (2 ^ K0))).
Local Notation dbg := (edbg e).

Lemma ushl1_small n : n < 64 -> ushl1 dbg (Z.of_nat n) = Some (2 ^ Z.of_nat n)%Z.
Proof. intros H. unfold ushl1. destruct (Z.ltb_spec (Z.of_nat n) 64); [reflexivity|lia]. Qed.
Lemma pow_nat n : Z.to_nat (2 ^ Z.of_nat n) = 2 ^ n.
Proof. rewrite <- (Nat2Z.id (2 ^ n)), Nat2Z.inj_pow. reflexivity. Qed.
Lemma pow_Z' n : (2 ^ Z.of_nat n)%Z = Z.of_nat (2 ^ n).
Proof. rewrite Nat2Z.inj_pow. reflexivity. Qed.
Lemma ushr_small K m : m < 64 -> ushr e (2 ^ Z.of_nat (m + K)) m = Some (2 ^ Z.of_nat K)%Z.
Proof. intros H. unfold ushr. destruct (Z.ltb_spec (Z.of_nat m) 64); [|lia]. f_equal. rewrite Z.shiftr_div_pow2 by lia. rewrite Nat2Z.inj_add, Z.pow_add_r, Z.mul_comm, Z.div_mul by lia. reflexivity. Qed.
Lemma umul_small a b : (a * b < 2 ^ 64)%Z -> umul dbg a b = Some (a * b)%Z.
Proof. intros H. unfold umul. change B with (2 ^ 64)%Z. destruct (Z.ltb_spec (a * b) (2 ^ 64)); [reflexivity|lia]. Qed.
Lemma double_pow n K : n + K < 64 -> double e n (2 ^ Z.of_nat K) = Some (2 ^ Z.of_nat (n + K))%Z.
Proof.
  revert K. induction n as [|n IH]; intros K H; [reflexivity|]. cbn [double].
  assert (E : (2 ^ Z.of_nat K * 2 = 2 ^ Z.of_nat (S K))%Z) by (rewrite Nat2Z.inj_succ, Z.pow_succ_r by lia; lia).
  rewrite umul_small by (rewrite E; apply Z.pow_lt_mono_r; lia). cbn [bind]. rewrite E, IH by lia. do 3 f_equal. lia.
Qed.
Lemma udiv_pow K m : udiv (2 ^ Z.of_nat (m + K)) (2 ^ Z.of_nat m) = Some (2 ^ Z.of_nat K)%Z.
Proof.
  unfold udiv. pose proof (Z.pow_pos_nonneg 2 (Z.of_nat m) ltac:(lia) ltac:(lia)). destruct (Z.eqb_spec (2 ^ Z.of_nat m) 0); [lia|]. f_equal. rewrite Nat2Z.inj_add, Z.pow_add_r, Z.mul_comm, Z.div_mul by lia. reflexivity.
Qed.
Lemma udiv_all m l : option_all (map (fun x => udiv x (2 ^ Z.of_nat m)) l) = Some (map (fun x => x / 2 ^ Z.of_nat m)%Z l).
Proof.
  pose proof (Z.pow_pos_nonneg 2 (Z.of_nat m) ltac:(lia) ltac:(lia)). induction l as [|x l IH]; [reflexivity|]. cbn [map option_all]. unfold udiv at 1. destruct (Z.eqb_spec (2 ^ Z.of_nat m) 0); [lia|]. cbn [bind]. rewrite IH. reflexivity.
Qed.

(** ** The leaves of a layer *)
Definition chunks (m : nat) (v : list F) : list (list F) := map (fun i => firstn (2 ^ m) (skipn (i * 2 ^ m) v)) (seq 0 (length v / 2 ^ m)).
Lemma fri_leaves_spec m K v : length v = 2 ^ (m + K) -> fri_leaves e (2 ^ m) v = Some (chunks m v).
Proof.
  intros Lv. pose proof (pow2_pos m) as P2. unfold fri_leaves. destruct (Nat.eqb_spec (2 ^ m) 0); [lia|].
  rewrite Lv at 1. rewrite Nat.pow_add_r, Nat.mul_comm, Nat.mod_mul, Nat.eqb_refl by lia. rewrite andb_false_r. reflexivity.
Qed.
Lemma chunks_length m K v : length v = 2 ^ (m + K) -> length (chunks m v) = 2 ^ K.
Proof. intros Lv. unfold chunks. rewrite map_length, seq_length, Lv, Nat.pow_add_r, Nat.mul_comm, Nat.div_mul; [reflexivity|]. pose proof (pow2_pos m). lia. Qed.
Lemma chunks_nth m K v i : length v = 2 ^ (m + K) -> i < 2 ^ K -> nth_error (chunks m v) i = Some (firstn (2 ^ m) (skipn (i * 2 ^ m) v)).
Proof.
  intros Lv Hi. pose proof (pow2_pos m). unfold chunks. apply (map_nth_error (fun i => firstn (2 ^ m) (skipn (i * 2 ^ m) v))). rewrite Lv, Nat.pow_add_r, Nat.mul_comm, Nat.div_mul by lia. rewrite (nth_error_nth' _ 0) by (rewrite seq_length; exact Hi). rewrite seq_nth by exact Hi. reflexivity.
Qed.
Lemma chunk_eq m K v i : length v = 2 ^ (m + K) -> i < 2 ^ K -> firstn (2 ^ m) (skipn (i * 2 ^ m) v) = map (fun j => nth (i * 2 ^ m + j) v (f0 o)) (seq 0 (2 ^ m)).
Proof.
  intros Lv Hi. rewrite (slice_eq o) by (rewrite Lv, (Nat.add_comm m), Nat.pow_add_r; pose proof (pow2_pos m); nia). unfold slice. rewrite <- (Nat.add_0_r (i * 2 ^ m)) at 1.
  generalize (i * 2 ^ m) as s. intros s. generalize 0 at 1 3 as a. induction (2 ^ m) as [|n IH]; intros a; [reflexivity|]. cbn [seq map]. f_equal. rewrite <- IH, Nat.add_succ_r. reflexivity.
Qed.

(** ** The layers the prover commits to *)
Local Notation committed := (committed keccak enc orders).
Inductive chain : list nat -> nat -> list F -> list F -> list (fri_tree (F := F)) -> list F -> nat -> list F -> list F -> Prop :=
| chain_nil K p v : layer_of o w K p v -> chain [] K p v [] [] K p v
| chain_cons m layout K p v t x v' trees points Kend pend final : 1 <= m <= 4 -> layer_of o w (m + K) p v -> committed K (chunks m v) t -> fold_layer o m x x_inv v = Some v' ->
    chain layout K (folds_poly o m x p) v' trees points Kend pend final -> chain (m :: layout) (m + K) p v (FriTree t (2 ^ m) v :: trees) (x :: points) Kend pend final.
Lemma fri_commit_follows layout : forall K p v pr trees final pr', Forall (fun m => 1 <= m <= 4) layout -> list_sum layout <= K -> K <= K0 -> layer_of o w K p v ->
  fri_commit o e keccak enc dec fuel orders x_inv layout v pr = Some (Good ((trees, final), pr')) ->
  exists points Kend pend, chain layout K p v trees points Kend pend final /\ Kend + list_sum layout = K /\
    follows true true pr pr' (replay_fri e keccak dec fuel layout (2 ^ Z.of_nat K)) (List.combine (map (fun t => t_commitment (ft_tree t)) trees) points, (2 ^ Z.of_nat Kend)%Z).
Proof.
  pose proof (s_max _ _ _ _ SD) as HM. destruct (C44_prover F o L e M w SD K0 HK0) as (xi & Exi & HP). rewrite Ex in Exi. assert (xi = x_inv) by congruence. subst xi. clear Exi.
  induction layout as [|m layout IH]; intros K p v pr trees final pr' Hm HS HK Hv H; cbn [fri_commit] in H.
  - apply ret_good in H. injection H as -> -> ->. exists [], K, p. split; [constructor; exact Hv|]. split; [cbn; lia|]. cbn [replay_fri]. apply follows_ret.
  - inversion Hm as [|? ? Hm1 Hm2]; subst. change (list_sum (m :: layout)) with (m + list_sum layout) in HS. set (K' := K - m). assert (EK : K = m + K') by (unfold K'; lia). rewrite EK in *. clearbody K'. clear EK.
    pose proof Hv as [Lv _].
    apply bind_good in H as (cs & q & H1 & H). apply lift_good in H1 as [H1 ->]. rewrite ushl1_small in H1 by lia. injection H1 as <-. rewrite pow_nat in H.
    apply bind_good in H as (leaves & q & H1 & H). apply lift_good in H1 as [H1 ->]. rewrite (fri_leaves_spec m K' v Lv) in H1. injection H1 as <-.
    apply bind_good in H as (t & q & H1 & H). apply (commit_good keccak enc dec orders Hcodec Hk K') in H1 as [-> Ct]; [|lia|apply chunks_length; exact Lv|apply Ho].
    apply bind_good in H as ([] & q1 & H1 & H). apply chan_good in H1. apply bind_good in H as (x & q2 & H2 & H). apply chan_good in H2.
    apply bind_good in H as (v' & q3 & H3 & H). apply lift_good in H3 as [H3 ->]. apply bind_good in H as ([trees' final'] & q3 & H4 & H). apply ret_good in H. injection H as -> -> ->. cbn [fst snd].
    destruct (HP m K' x p v Hm1 ltac:(lia) Hv) as (v'' & Ev & Hv'). rewrite H3 in Ev. assert (v'' = v') by congruence. subst v''.
    destruct (IH K' (folds_poly o m x p) v' q2 trees' final' q3 Hm2 ltac:(lia) ltac:(lia) Hv' H4) as (points & Kend & pend & Ch & ES & Fo).
    exists (x :: points), Kend, pend. split; [|split].
    + apply chain_cons with (v' := v'); assumption.
    + change (list_sum (m :: layout)) with (m + list_sum layout). lia.
    + cbn [replay_fri map List.combine ft_tree]. destruct Ct as (C1 & C2 & C3 & C4 & C5 & C6 & C7).
      eapply follows_bind; [apply follows_lift, ushr_small; lia|]. injection H1 as <-. eapply follows_bind; [apply replay_hash_follows, C6|]. eapply follows_bind; [apply follows_merkle, C7|].
      eapply follows_bind; [apply draw_follows, H2|]. eapply follows_bind; [apply Fo|]. cbn [fst snd]. apply follows_ret.
Qed.
Lemma fold_poly_length c p n : length p = 2 * n -> length (fold_poly o c p) = n.
Proof. apply (C44_folded_polynomial F o L c p). Qed.
Lemma folds_length m : forall d c p, length p = 2 ^ (m + d) -> length (folds_poly o m c p) = 2 ^ d.
Proof. induction m as [|m IH]; intros d c p Lp; [exact Lp|]. cbn [folds_poly]. apply IH, fold_poly_length. rewrite Lp. reflexivity. Qed.
Lemma chain_end layout K p v trees points Kend pend final : chain layout K p v trees points Kend pend final -> forall d, length p = 2 ^ (list_sum layout + d) ->
  layer_of o w Kend pend final /\ length pend = 2 ^ d /\ length trees = length layout /\ length points = length layout.
Proof.
  induction 1 as [K p v Hv|m layout K p v t x v' trees points Kend pend final Hm Hv Ct Ef Ch IH]; intros d Lp.
  - cbn [list_sum Nat.add fold_right] in Lp. auto.
  - change (list_sum (m :: layout)) with (m + list_sum layout) in Lp. destruct (IH d) as (A1 & A2 & A3 & A4); [apply folds_length; rewrite Lp; f_equal; lia|]. cbn [length]. auto.
Qed.

(** ** The layers the prover decommits *)
Lemma div_sorted s l : (0 < s)%Z -> StronglySorted Z.le l -> StronglySorted Z.le (map (fun x => x / s)%Z l).
Proof.
  intros Hs. induction 1 as [|x l Sl IH Fx]; cbn [map]; constructor; [exact IH|]. rewrite Forall_forall in *. intros y Hy. apply in_map_iff in Hy as (z & <- & Hz). apply Z.div_le_mono; [exact Hs|apply Fx, Hz].
Qed.
Lemma dedup_props l : StronglySorted Z.le l -> let d := dedup_by (fun x => x) l in StronglySorted Z.le d /\ NoDup d /\ (forall x, In x d <-> In x l) /\ length d <= length l.
Proof.
  intros Sl d. pose proof (dedup_strict (fun x : Z => x) l Sl) as St. rewrite map_id in St. fold d in St.
  assert (Hin : forall x, In x d <-> In x l). { intros x. pose proof (dedup_keys (fun x : Z => x) l x) as Hd. rewrite !map_id in Hd. exact Hd. }
  pose proof (strict_length d l St Hin) as Hlen. clearbody d.
  split; [|split; [|split; [exact Hin|exact Hlen]]].
  - clear - St. induction St as [|x l Sl IH Fx]; constructor; [exact IH|]. revert Fx. apply Forall_impl. intros; lia.
  - clear - St. induction St as [|x l Sl IH Fx]; constructor; [|exact IH]. intros I. rewrite Forall_forall in Fx. specialize (Fx x I). lia.
Qed.
Lemma folds_get_map (f : Z -> F) l n : folds_get (map (fun i => (i, f i)) l) n = if in_dec Z.eq_dec n l then Some (f n) else None.
Proof.
  unfold folds_get. induction l as [|x l IH]; [reflexivity|]. cbn [map find fst]. destruct (Z.eqb_spec x n) as [->|N].
  - cbn [option_map snd]. destruct (in_dec Z.eq_dec n (n :: l)) as [_|X]; [reflexivity|]. exfalso. apply X. left. reflexivity.
  - rewrite IH. destruct (in_dec Z.eq_dec n l) as [I|I]; destruct (in_dec Z.eq_dec n (x :: l)) as [J|J]; try reflexivity; exfalso; [apply J; right; exact I|]. destruct J as [J|J]; [congruence|contradiction].
Qed.
Lemma fri_query layout K p v trees points Kend pend final : chain layout K p v trees points Kend pend final ->
  forall (first : bool) prev idx folds pr pr' known, K <= K0 -> (layout = [] -> first = false) ->
  StronglySorted Z.le prev -> Forall (fun i => 0 <= i < 2 ^ Z.of_nat K)%Z prev -> (Z.of_nat (length prev) * 64 <= 2 ^ 64)%Z ->
  (first = true -> forall z n, nth_error prev z = Some n -> forall u, known z u = Some (Good (nth (Z.to_nat n) v (f0 o), u))) ->
  (first = false -> folds = map (fun i => (i, nth (Z.to_nat i) v (f0 o))) prev) ->
  match layout with [] => True | m :: _ => idx = map (fun x => x / 2 ^ Z.of_nat m)%Z prev end ->
  decommit_fri e keccak enc sort_idx search trees prev pr = Some (Good (tt, pr')) ->
  exists prev', Forall (fun i => 0 <= i < 2 ^ Z.of_nat Kend)%Z prev' /\
    follows false false pr pr'
      (fri_layers o e keccak enc dec sort_idx sort_nodes search eval_x known (List.combine (List.combine (map (fun t => t_commitment (ft_tree t)) trees) points) layout) first idx prev folds (2 ^ Z.of_nat (K0 - K)) (2 ^ Z.of_nat K))
      (map (fun i => (i, nth (Z.to_nat i) final (f0 o))) prev', prev', (2 ^ Z.of_nat Kend)%Z).
Proof.
  pose proof (s_max _ _ _ _ SD) as HM. destruct (C44_agreement F o L e M w SD K0 eval_x HK0 Ee) as (xi & Exi & HA). rewrite Ex in Exi. assert (xi = x_inv) by congruence. subst xi. clear Exi.
  induction 1 as [K p v Hv|m layout K p v t x v' trees points Kend pend final Hm Hv Ct Ef Ch IH]; intros first prev idx folds pr pr' known HK Hfirst Sp Fp Lp Hkn Hfo Hidx H.
  - specialize (Hfirst eq_refl). subst first. cbn [decommit_fri] in H. apply ret_good in H. injection H as <-. exists prev. split; [exact Fp|]. cbn [map List.combine fri_layers]. rewrite (Hfo eq_refl). apply follows_ret.
  - subst idx. cbn [decommit_fri ft_coset_size ft_tree ft_layer] in H. pose proof (pow2_pos m) as P2. pose proof Hv as [Lv _]. rewrite <- pow_Z' in H.
    apply bind_good in H as (ind & q & H1 & H). apply lift_good in H1 as [H1 ->]. rewrite udiv_all in H1. injection H1 as <-.
    pose proof (Z.pow_pos_nonneg 2 (Z.of_nat m) ltac:(lia) ltac:(lia)) as PZ.
    pose proof (div_sorted (2 ^ Z.of_nat m) prev PZ Sp) as Sd. destruct (dedup_props _ Sd) as (Sn' & Nd & Hin & Ld). rewrite map_length in Ld.
    set (new := dedup_by (fun x => x) (map (fun x => x / 2 ^ Z.of_nat m)%Z prev)) in *. cbv zeta in H.
    assert (Fn : Forall (fun i => 0 <= i < 2 ^ Z.of_nat K)%Z new).
    { rewrite Forall_forall in *. intros i Hi. apply Hin in Hi. apply in_map_iff in Hi as (y & <- & Hy). specialize (Fp y Hy). rewrite Nat2Z.inj_add, Z.pow_add_r in Fp by lia. split; [apply Z.div_pos; lia|apply Z.div_lt_upper_bound; lia]. }
    apply bind_good in H as ([] & q1 & H1 & H). apply bind_good in H as ([] & q2 & H2 & H).
    assert (Idx : forall i j, In i new -> (0 <= j < 2 ^ m) -> Z.to_nat (i * 2 ^ Z.of_nat m + Z.of_nat j) = Z.to_nat i * 2 ^ m + j).
    { intros i j Hi Hj. rewrite Forall_forall in Fn. specialize (Fn i Hi). rewrite pow_Z'. lia. }
    (* the cosets *)
    assert (Fc : follows false false pr q1 (act_map (fun i =>
        do coset <- act_map (fun j =>
          let n := (i * 2 ^ Z.of_nat m + Z.of_nat j)%Z in
          match search prev n with
          | Some z => if first then known z else match folds_get folds n with Some x => ret x | None => fail HashMapFailure end
          | None => chan (replay_elem e keccak dec)
          end) (seq 0 (2 ^ m));
        ret (i, coset)) new) (map (fun i => (i, firstn (2 ^ m) (skipn (Z.to_nat i * 2 ^ m) v))) new)).
    { revert H1. apply follows_map. intros i qa qb Hi Hi2. rewrite Forall_forall in Fn. pose proof (Fn i Hi) as Ri. rewrite (chunk_eq m K v (Z.to_nat i) Lv) by (rewrite <- pow_nat; apply Z2Nat.inj_lt; lia).
      eapply follows_bind; [|apply follows_ret]. revert Hi2. apply follows_map. intros j qc qd Hj Hj2. apply in_seq in Hj. cbv zeta in *. rewrite <- (Idx i j Hi ltac:(lia)). set (n := (i * 2 ^ Z.of_nat m + Z.of_nat j)%Z) in *.
      pose proof (Sr prev n Sp) as Hs. destruct (search prev n) as [z|].
      - apply ret_good in Hj2. injection Hj2 as <-. apply follows_pure. intros u. destruct first; [apply (Hkn eq_refl z n Hs)|]. rewrite (Hfo eq_refl), folds_get_map. destruct (in_dec Z.eq_dec n prev) as [_|X]; [reflexivity|]. exfalso. apply X, (nth_error_In _ z), Hs.
      - apply bind_good in Hj2 as (y & qe & Hy & Hj2). apply lift_good in Hy as [Hy ->]. apply chan_good in Hj2. rewrite (nth_error_nth v _ (f0 o) Hy). apply (replay_elem_follows e keccak enc dec Hcodec _ _ _ _ Hj2). }
    (* their folds *)
    destruct (HA m K x v Hm ltac:(lia) Lv) as (v'' & Ev & Lv' & Hfold). rewrite Ef in Ev. assert (v'' = v') by congruence. subst v''.
    assert (Efo : option_all (map (fun ic : Z * list F => let? y := fri_fold o dbg (snd ic) x (Z.to_nat (2 ^ Z.of_nat (K0 - (m + K)))) (Z.to_nat (2 ^ Z.of_nat m / 2 * fst ic)) (Z.to_nat (2 ^ Z.of_nat (m + K))) eval_x in Some (fst ic, y))
        (map (fun i => (i, firstn (2 ^ m) (skipn (Z.to_nat i * 2 ^ m) v))) new)) = Some (map (fun i => (i, nth (Z.to_nat i) v' (f0 o))) new)).
    { clear - Fn Hfold Lv' HA. induction new as [|i l IHl]; [reflexivity|]. inversion Fn as [|? ? Fi Fl]; subst. cbn [map option_all fst snd]. rewrite !pow_nat. rewrite pow_Z'. change 2%Z with (Z.of_nat 2). rewrite <- Nat2Z.inj_div.
      rewrite Z2Nat.inj_mul by lia. rewrite Nat2Z.id. rewrite Hfold by (rewrite <- pow_nat; apply Z2Nat.inj_lt; lia). rewrite (nth_error_nth' v' (f0 o)) by (rewrite Lv', <- pow_nat; apply Z2Nat.inj_lt; lia). cbn [bind].
      specialize (IHl Fl). rewrite !pow_nat, pow_Z' in IHl. change 2%Z with (Z.of_nat 2) in IHl at 1. rewrite <- Nat2Z.inj_div in IHl. rewrite IHl. reflexivity. }
    (* the decommitment *)
    destruct (decommit_follows keccak enc dec sort_idx sort_nodes orders Hcodec Hk Si Sn false q1 q2 K (chunks m v) t new Ct Fn ltac:(lia) H2) as (mp & Fd & Hcheck).
    (* the layers after this one *)
    assert (Next : exists nxt, match layout with [] => True | m' :: _ => nxt = map (fun y => y / 2 ^ Z.of_nat m')%Z new end /\ forall u,
       (match List.combine (List.combine (map (fun t => t_commitment (ft_tree t)) trees) points) layout with
        | [] => ret new | (_, n) :: _ => do s <- lift (ushl1 dbg (Z.of_nat n)); lift (option_all (map (fun ind => udiv ind s) new)) end : act verifier verror (list Z)) u = Some (Good (nxt, u))).
    { inversion Ch as [|m' layout' K' p' v1 t' x' v'1 trees' points' Ke pe fi Hm' Hv1 Ct' Ef' Ch']; subst.
      - exists new. split; [exact I|]. reflexivity.
      - exists (map (fun y => y / 2 ^ Z.of_nat m')%Z new). split; [reflexivity|]. intros u. cbn [map List.combine]. unfold act_bind, lift. rewrite ushl1_small by lia. rewrite udiv_all. reflexivity. }
    destruct Next as (nxt & Hnxt & Enxt).
    destruct (IH false new nxt (map (fun i => (i, nth (Z.to_nat i) v' (f0 o))) new) q2 pr' known ltac:(lia) ltac:(reflexivity) Sn' Fn ltac:(lia) ltac:(discriminate) ltac:(reflexivity) Hnxt H) as (prev' & Fp' & Fo).
    exists prev'. split; [exact Fp'|]. cbn [map List.combine fri_layers ft_tree]. fold new.
    eapply follows_bind; [apply follows_lift, ushl1_small; lia|]. cbv beta. rewrite pow_nat.
    eapply follows_bind; [exact Fc|]. eapply follows_bind; [apply follows_lift, Efo|]. eapply follows_bind; [exact Fd|].
    eapply follows_bind; [apply follows_lift, double_pow; lia|]. eapply follows_bind; [apply follows_lift, udiv_pow|].
    eapply follows_bind.
    { apply follows_pure. intros u. apply Hcheck.
      - intros i. rewrite map_map. cbn [fst]. rewrite map_id. reflexivity.
      - intros i l Hi. apply in_map_iff in Hi as (j & Ej & Hj). injection Ej as <- <-. rewrite Forall_forall in Fn. specialize (Fn j Hj). apply (chunks_nth m K v); [exact Lv|]. rewrite <- pow_nat. apply Z2Nat.inj_lt; lia. }
    eapply follows_bind; [apply follows_pure, Enxt|]. replace (m + (K0 - (m + K))) with (K0 - K) by lia. exact Fo.
Qed.
End Fri.
