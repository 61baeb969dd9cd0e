(** Construction of the tree, [node_hash], and the public functions as a whole. *)
Require Import ZArith Arith Lia Bool List Permutation Sorted.
From Verif Require Import Word U256Proofs KnuthModel BinaryModel BinaryProofs Arr MerkleModel MerkleSpec MerkleIndexProofs MerkleProofs.
From Verif Require PermuteProofs.
Import ListNotations.
Open Scope Z_scope.

Section Tree.
Context {H Leaf : Type} (heqb : H -> H -> bool) (node : H -> H -> H) (leaf_hash : Leaf -> H) (hdefault : H).
Hypothesis heqb_spec : forall a b, heqb a b = true <-> a = b.

(** leaf hashes by position *)
Local Notation leaf_hashes := (MerkleSpec.leaf_hashes leaf_hash hdefault).

Lemma par_fill_spec order job (g : nat -> H) slice :
  (forall i, In i order -> (i < length slice)%nat /\ job i = Some (g i)) ->
  exists s, par_fill order job slice = Some s /\ length s = length slice /\
  forall p, nth p s hdefault = if existsb (Nat.eqb p) order then g p else nth p slice hdefault.
Proof.
  unfold par_fill. revert slice. induction order as [|i order IH]; intros slice E.
  - exists slice. cbn. auto.
  - cbn [for_each]. destruct (E i (or_introl eq_refl)) as [Hi Ei]. rewrite Ei. cbn [bind]. rewrite set_ok by assumption. cbn [bind].
    destruct (IH (upd slice i (g i))) as (s & Es & Ls & Ns).
    { intros j Ij. rewrite upd_length. apply E. right. exact Ij. }
    exists s. split; [exact Es|]. rewrite upd_length in Ls. split; [exact Ls|]. intros p. rewrite Ns. cbn [existsb].
    rewrite nth_upd by assumption. destruct (Nat.eqb_spec p i) as [->|N]; cbn [orb].
    + destruct (existsb (Nat.eqb i) order); reflexivity.
    + reflexivity.
Qed.
Lemma par_fill_perm order job (g : nat -> H) slice : Permutation order (seq 0 (length slice)) ->
  (forall i, (i < length slice)%nat -> job i = Some (g i)) ->
  par_fill order job slice = Some (map g (seq 0 (length slice))).
Proof.
  intros Pm E. destruct (par_fill_spec order job g slice) as (s & Es & Ls & Ns).
  { intros i I. apply (Permutation_in _ Pm) in I. apply in_seq in I. split; [lia|apply E; lia]. }
  rewrite Es. f_equal. apply (nth_ext _ _ hdefault hdefault); [rewrite map_length, seq_length; exact Ls|].
  intros p Hp. rewrite Ns. rewrite Ls in Hp.
  assert (X : existsb (Nat.eqb p) order = true).
  { apply existsb_exists. exists p. split; [|apply Nat.eqb_refl]. apply (Permutation_in _ (Permutation_sym Pm)). apply in_seq. lia. }
  rewrite X. rewrite (nth_indep _ hdefault (g 0%nat)) by (rewrite map_length, seq_length; exact Hp).
  rewrite map_nth, seq_nth by assumption. reflexivity.
Qed.
Lemma on_range_spec v a b fn s : 0 <= a -> a <= b + 1 -> b < Z.of_nat (length v) ->
  fn (firstn (Z.to_nat (b + 1 - a)) (skipn (Z.to_nat a) v)) = Some s -> length s = Z.to_nat (b + 1 - a) ->
  exists v', on_range v a b fn = Some v' /\ length v' = length v /\
  forall p, nth p v' hdefault = if (a <=? Z.of_nat p) && (Z.of_nat p <=? b) then nth (p - Z.to_nat a) s hdefault else nth p v hdefault.
Proof.
  intros Ha Hab Hb Ef Ls. unfold on_range.
  destruct (Z.leb_spec a (b + 1)); [|lia]. destruct (Z.ltb_spec b (Z.of_nat (length v))); [|lia]. cbn [andb]. rewrite Ef. cbn [bind].
  eexists. split; [reflexivity|]. set (i := Z.to_nat a). set (n := Z.to_nat (b + 1 - a)) in *.
  assert (Lf : length (firstn i v) = i) by (apply firstn_length_le; lia).
  split.
  - rewrite !app_length, Lf, skipn_length. lia.
  - intros p. destruct (Z.leb_spec a (Z.of_nat p)); cbn [andb].
    + rewrite app_nth2 by lia. rewrite Lf. destruct (Z.leb_spec (Z.of_nat p) b).
      * rewrite app_nth1 by lia. reflexivity.
      * rewrite app_nth2 by lia. rewrite PermuteProofs.nth_skipn. f_equal. lia.
    + rewrite app_nth1 by lia. rewrite PermuteProofs.nth_firstn by lia. reflexivity.
Qed.

Section Built.
Variables (leaves : list Leaf) (D : nat).
Hypothesis HD : (D < 64)%nat.
Hypothesis HL : Z.of_nat (length leaves) = 2 ^ Z.of_nat D.
Notation f := (leaf_hashes leaves).
Notation hat := (hash_at node D f).

Lemma leaf_get k : 0 <= k < 2 ^ Z.of_nat D -> exists l, get leaves (Z.to_nat k) = Some l /\ leaf_hash l = hat (Z.of_nat D) k /\ nth_error leaves (Z.to_nat k) = Some l.
Proof.
  intros Hk. unfold get. destruct (nth_error leaves (Z.to_nat k)) as [l|] eqn:E.
  - exists l. split; [reflexivity|]. split; [|reflexivity]. unfold hash_at. rewrite Nat2Z.id, Nat.sub_diag. cbn [merkle_root].
    rewrite Z.sub_diag, Z.mul_1_r. unfold MerkleSpec.leaf_hashes. symmetry. apply nth_error_nth. apply map_nth_error. exact E.
  - exfalso. apply nth_error_None in E. lia.
Qed.
Lemma compute_spec fuel e k : 0 <= e <= Z.of_nat D -> 0 <= k < 2 ^ e -> Z.of_nat D - e <= Z.of_nat fuel ->
  compute node leaf_hash fuel leaves (idx e k) = Some (hat e k).
Proof.
  revert e k. induction fuel as [|fuel IH]; intros e k He Hk Hf; cbn [compute]; rewrite HL, depth_for_size_pow by lia; cbn [bind];
    unfold idx; rewrite depth_node by lia; (destruct (Z.leb_spec e (Z.of_nat D)); [cbn [negb]|lia]); destruct (Z.eqb_spec e (Z.of_nat D)) as [Ee|Ee].
  1, 3: rewrite offset_node by lia; subst e; destruct (leaf_get k Hk) as (l & -> & <- & _); reflexivity.
  - lia.
  - rewrite left_child_node, right_child_node by lia. pose proof (pow_S e ltac:(lia)).
    pose proof (IH (e + 1) (2 * k) ltac:(lia) ltac:(lia) ltac:(lia)) as E1. pose proof (IH (e + 1) (2 * k + 1) ltac:(lia) ltac:(lia) ltac:(lia)) as E2.
    unfold idx in E1, E2. rewrite E1, E2. cbn [bind]. rewrite <- hash_at_node by (assumption || lia). reflexivity.
Qed.

(** all layers [e] with d <= e < m are in place; [m] layers are stored *)
Definition filled (m d : Z) (nodes : list H) : Prop :=
  Z.of_nat (length nodes) = 2 ^ m - 1 /\
  forall e k, d <= e < m -> 0 <= k < 2 ^ e -> nth (Z.to_nat (2 ^ e + k - 1)) nodes hdefault = hat e k.

Lemma layer_range_ok e : 0 <= e < 64 -> layer_range e = Some (2 ^ e - 1, 2 ^ (e + 1) - 2).
Proof.
  intros He. unfold layer_range. pose proof (pow_pos' e ltac:(lia)). rewrite from_depth_offset_ok by lia. cbn [bind]. rewrite size_at_depth_ok by lia. cbn [bind].
  rewrite from_depth_offset_ok by lia. cbn [bind]. rewrite as_index_ok by (apply node_valid; lia). cbn [bind].
  rewrite as_index_ok by (apply node_valid; lia). cbn [bind]. rewrite pow_S by lia. f_equal. f_equal; lia.
Qed.
Lemma pos_inj e e' k k' : 0 <= e -> 0 <= e' -> 0 <= k < 2 ^ e -> 0 <= k' < 2 ^ e' -> e < e' -> 2 ^ e + k < 2 ^ e' .
Proof. intros. pose proof (pow_le (e + 1) e' ltac:(lia)) as X. rewrite pow_S in X by lia. lia. Qed.

(** storing a computed layer *)
Lemma fill_layer nodes m d v order job g : 0 <= d < m -> m <= 64 -> Z.of_nat (length nodes) = 2 ^ m - 1 ->
  (length v <= length nodes)%nat -> (forall p, (p < length v)%nat -> nth p v hdefault = nth p nodes hdefault) ->
  2 ^ (d + 1) - 1 <= Z.of_nat (length v) ->
  Permutation order (seq 0 (Z.to_nat (2 ^ d))) -> (forall i, (i < Z.to_nat (2 ^ d))%nat -> job i = Some (g i)) ->
  exists v', on_range v (2 ^ d - 1) (2 ^ (d + 1) - 2) (par_fill order job) = Some v' /\ length v' = length v /\
    (forall k, 0 <= k < 2 ^ d -> nth (Z.to_nat (2 ^ d + k - 1)) v' hdefault = g (Z.to_nat k)) /\
    (forall p, (p < length v)%nat -> 2 ^ (d + 1) - 1 <= Z.of_nat p -> nth p v' hdefault = nth p nodes hdefault).
Proof.
  intros Hd Hm Ln Lv Nv Hv Pm Ej. pose proof (pow_pos' d ltac:(lia)). pose proof (pow_S d ltac:(lia)).
  set (sl := firstn (Z.to_nat (2 ^ (d + 1) - 2 + 1 - (2 ^ d - 1))) (skipn (Z.to_nat (2 ^ d - 1)) v)).
  assert (Lsl : length sl = Z.to_nat (2 ^ d)). { unfold sl. rewrite firstn_length_le; [lia|]. rewrite skipn_length. lia. }
  assert (Ef : par_fill order job sl = Some (map g (seq 0 (length sl)))).
  { apply par_fill_perm; rewrite Lsl; assumption. }
  destruct (on_range_spec v (2 ^ d - 1) (2 ^ (d + 1) - 2) (par_fill order job) _ ltac:(lia) ltac:(lia) ltac:(lia) Ef) as (v' & Ev & Lv' & Nv').
  { rewrite map_length, seq_length, Lsl. lia. }
  exists v'. split; [exact Ev|]. split; [exact Lv'|]. split.
  - intros k Hk. rewrite Nv'. destruct (Z.leb_spec (2 ^ d - 1) (Z.of_nat (Z.to_nat (2 ^ d + k - 1)))); [|lia].
    destruct (Z.leb_spec (Z.of_nat (Z.to_nat (2 ^ d + k - 1))) (2 ^ (d + 1) - 2)); [|lia]. cbn [andb].
    replace (Z.to_nat (2 ^ d + k - 1) - Z.to_nat (2 ^ d - 1))%nat with (Z.to_nat k) by lia.
    rewrite (nth_indep _ hdefault (g 0%nat)) by (rewrite map_length, seq_length; lia).
    rewrite map_nth, seq_nth by lia. reflexivity.
  - intros p Hp Hp2. rewrite Nv'. destruct (Z.leb_spec (Z.of_nat p) (2 ^ (d + 1) - 2)); [lia|]. rewrite andb_false_r. apply Nv. exact Hp.
Qed.

Lemma upper_layers_spec orders m d nodes : 0 < m <= Z.of_nat D + 1 -> Z.of_nat d < m ->
  (forall e, (e < d)%nat -> Permutation (orders e) (seq 0 (Z.to_nat (2 ^ Z.of_nat e)))) ->
  filled m (Z.of_nat d) nodes ->
  exists nodes', upper_layers node orders d nodes = Some nodes' /\ filled m 0 nodes'.
Proof.
  revert nodes. induction d as [|d IH]; intros nodes Hm Hd Po [Ln Fl].
  - exists nodes. split; [reflexivity|]. split; assumption.
  - cbn [upper_layers]. replace (Z.of_nat (S d)) with (Z.of_nat d + 1) in * by lia. set (e := Z.of_nat d) in *.
    pose proof (pow_pos' e ltac:(lia)). pose proof (pow_S e ltac:(lia)).
    rewrite from_depth_offset_ok by lia. cbn [bind]. rewrite as_index_ok by (apply node_valid; lia). cbn [bind].
    pose proof (pow_le (e + 1 + 1) m ltac:(lia)) as Pm. rewrite pow_S in Pm by lia.
    destruct (Z.ltb_spec (Z.of_nat (length nodes)) (2 ^ (e + 1) + 0 - 1)); [lia|].
    rewrite layer_range_ok by lia. cbn [bind].
    set (mid := Z.to_nat (2 ^ (e + 1) + 0 - 1)).
    assert (Lt : length (firstn mid nodes) = mid) by (apply firstn_length_le; lia).
    destruct (fill_layer nodes m e (firstn mid nodes) (orders d)
      (fun i => let? l := get (skipn mid nodes) (2 * i) in let? r := get (skipn mid nodes) (2 * i + 1) in Some (node l r))
      (fun i => hat e (Z.of_nat i))) as (v' & Ev & Lv & N1 & N2).
    + lia.
    + lia.
    + exact Ln.
    + rewrite Lt. lia.
    + intros p Hp. rewrite Lt in Hp. apply PermuteProofs.nth_firstn. exact Hp.
    + rewrite Lt. lia.
    + apply Po. lia.
    + intros i Hi. rewrite !(get_nth _ _ hdefault) by (rewrite skipn_length; lia). cbn [bind]. rewrite !PermuteProofs.nth_skipn.
      f_equal. rewrite (hash_at_node node D f HD e) by (assumption || lia). f_equal.
      * rewrite <- Fl by lia. f_equal. lia.
      * rewrite <- Fl by lia. f_equal. lia.
    + rewrite Ev. cbn [bind]. apply IH.
      * assumption.
      * lia.
      * intros. apply Po. lia.
      * assert (Lq : length (v' ++ skipn mid nodes) = length nodes) by (rewrite app_length, Lv, Lt, skipn_length; lia).
        split; [rewrite Lq; exact Ln|]. intros e' k He' Hk. pose proof (pow_pos' e' ltac:(lia)).
        destruct (Z.eq_dec e' e) as [->|Ne].
        -- rewrite app_nth1 by (rewrite Lv, Lt; lia). rewrite N1 by assumption. rewrite Z2Nat.id by lia. reflexivity.
        -- pose proof (pow_le (e + 1) e' ltac:(lia)). rewrite app_nth2 by (rewrite Lv, Lt; lia). rewrite Lv, Lt, PermuteProofs.nth_skipn.
           rewrite <- Fl by lia. f_equal. lia.
Qed.

Lemma z_pow2_size : z_is_pow2 (Z.of_nat (length leaves)) = true.
Proof. rewrite HL. apply z_is_pow2_pow. lia. Qed.

Lemma build_spec orders skip : 0 <= skip ->
  (forall e, Z.of_nat e <= Z.of_nat D - skip -> Permutation (orders e) (seq 0 (Z.to_nat (2 ^ Z.of_nat e)))) ->
  exists nodes m, from_leaves_skip_layers node leaf_hash hdefault orders leaves skip =
    Some (Ok (T (C (2 ^ Z.of_nat D) (hat 0 0)) nodes leaves)) /\ 0 <= m <= Z.of_nat D + 1 /\ filled m 0 nodes.
Proof.
  intros Hs Po. unfold from_leaves_skip_layers. rewrite HL. pose proof (pow_pos' (Z.of_nat D) ltac:(lia)) as PD.
  pose proof (pow_le (Z.of_nat D) 63 ltac:(lia)) as P63.
  destruct (Z.eqb_spec (2 ^ Z.of_nat D) 0); [lia|]. rewrite z_is_pow2_pow by lia. cbn [negb]. unfold max_size.
  destruct (Z.leb_spec (2 ^ Z.of_nat D) (2 ^ 63)); [cbn [negb]|lia]. rewrite depth_for_size_pow by lia. cbn [bind].
  assert (Fin : forall h, h = hat 0 0 -> from_size_hash (2 ^ Z.of_nat D) h = Ok (C (2 ^ Z.of_nat D) (hat 0 0))).
  { intros h ->. unfold from_size_hash. rewrite z_is_pow2_pow by lia. rewrite orb_true_r. reflexivity. }
  destruct (Z.leb_spec skip (Z.of_nat D)) as [Hsk|Hsk].
  - set (d := Z.of_nat D - skip). rewrite size_at_depth_ok by lia. cbn [bind]. pose proof (pow_pos' d ltac:(lia)) as Pd. pose proof (pow_S d ltac:(lia)) as PS.
    rewrite from_depth_offset_ok by lia. cbn [bind]. rewrite as_index_ok by (apply node_valid; lia). cbn [bind].
    rewrite layer_range_ok by lia. cbn [bind].
    set (nodes0 := repeat hdefault (Z.to_nat (2 ^ d + (2 ^ d - 1) - 1 + 1))).
    assert (L0 : Z.of_nat (length nodes0) = 2 ^ (d + 1) - 1) by (unfold nodes0; rewrite repeat_length; lia).
    destruct (fill_layer nodes0 (d + 1) d nodes0 (orders (Z.to_nat d))
      (fun i => let? s := from_depth_offset d (Z.of_nat i) in match s with Ok index => compute node leaf_hash 64 leaves index | Err _ => None end)
      (fun i => hat d (Z.of_nat i))) as (v' & Ev & Lv & N1 & N2).
    + lia.
    + lia.
    + exact L0.
    + lia.
    + auto.
    + lia.
    + pose proof (Po (Z.to_nat d) ltac:(lia)) as Q. rewrite Z2Nat.id in Q by lia. exact Q.
    + intros i Hi. rewrite from_depth_offset_ok by lia. cbn [bind]. apply compute_spec; lia.
    + rewrite Ev. cbn [bind].
      destruct (upper_layers_spec orders (d + 1) (Z.to_nat d) v') as (nodes' & Eu & Fu).
      * lia.
      * lia.
      * intros e He. apply Po. lia.
      * rewrite Z2Nat.id by lia. split; [rewrite Lv; exact L0|]. intros e k He Hk. assert (e = d) by lia. subst e.
        rewrite N1 by assumption. rewrite Z2Nat.id by lia. reflexivity.
      * rewrite Eu. cbn [bind]. destruct Fu as [Lu Fu]. destruct nodes' as [|h0 nl]; [cbn in Lu; lia|].
        cbn [bind]. rewrite Fin by (rewrite <- (Fu 0 0) by (try lia; change (2 ^ 0) with 1; lia); reflexivity).
        exists (h0 :: nl), (d + 1). split; [reflexivity|]. split; [lia|]. split; assumption.
  - cbn [bind]. change i_root with (idx 0 0). rewrite compute_spec by (change (2 ^ 0) with 1; lia). cbn [bind]. rewrite Fin by reflexivity.
    exists [], 0. split; [reflexivity|]. split; [lia|]. split; [reflexivity|]. intros. lia.
Qed.
Lemma node_hash_spec t m fuel e k : t_leaves t = leaves -> 0 <= m -> filled m 0 (t_nodes t) ->
  0 <= e <= Z.of_nat D -> 0 <= k < 2 ^ e -> Z.of_nat D - e <= Z.of_nat fuel ->
  node_hash node leaf_hash fuel t (idx e k) = Some (hat e k).
Proof.
  intros Et Hm [Ln Fl]. revert e k. induction fuel as [|fuel IH]; intros e k He Hk Hf; cbn [node_hash];
    unfold idx; rewrite as_index_ok by (apply node_valid; lia); cbn [bind];
    (destruct (Z.ltb_spec (2 ^ e + k - 1) (Z.of_nat (length (t_nodes t)))) as [Lt|Ge];
     [rewrite (get_nth _ _ hdefault) by (pose proof (pow_pos' e); lia); f_equal; apply Fl; [|assumption];
      split; [lia|]; destruct (Z_lt_ge_dec e m); [assumption|exfalso; pose proof (pow_le m e ltac:(lia)); lia]|]);
    rewrite Et, HL, depth_for_size_pow by lia; cbn [bind]; rewrite depth_node by lia;
    (destruct (Z.leb_spec e (Z.of_nat D)); [cbn [negb]|lia]); destruct (Z.eqb_spec e (Z.of_nat D)) as [Ee|Ee].
  1, 3: rewrite offset_node by lia; subst e; destruct (leaf_get k Hk) as (l & -> & <- & _); reflexivity.
  - lia.
  - rewrite left_child_node, right_child_node by lia. pose proof (pow_S e ltac:(lia)).
    pose proof (IH (e + 1) (2 * k) ltac:(lia) ltac:(lia) ltac:(lia)) as E1. pose proof (IH (e + 1) (2 * k + 1) ltac:(lia) ltac:(lia) ltac:(lia)) as E2.
    unfold idx in E1, E2. rewrite E1, E2. cbn [bind]. rewrite <- hash_at_node by (assumption || lia). reflexivity.
Qed.
End Built.

(** * Public functions *)
Context (sort_idx : list Z -> list Z) (sort_nodes : list (Z * H) -> list (Z * H)).
Hypothesis Si : sorts (fun x => x) sort_idx.
Hypothesis Sn : sorts fst sort_nodes.

Lemma map_idx_strict e L : strict (map (idx e) L) -> strict L.
Proof.
  induction L as [|x L IH]; intros St; [constructor|]. cbn [map] in St. apply strict_inv in St as [St F]. apply strict_cons; [auto|].
  intros y I. specialize (F (idx e y) (in_map _ _ _ I)). unfold idx in F. lia.
Qed.
Lemma unidx e L : exists K, L = map (idx e) K.
Proof. exists (map (fun x => x - 2 ^ e) L). rewrite map_map. rewrite <- (map_id L) at 1. apply map_ext. intros. unfold idx. lia. Qed.

Lemma sort_indices_spec D (h : H) indices : (D < 64)%nat -> Forall (fun k => 0 <= k < 2 ^ Z.of_nat D) indices ->
  exists K, sort_indices sort_idx (C (2 ^ Z.of_nat D) h) indices = Ok (map (idx (Z.of_nat D)) K) /\ strict K /\
    in_layer (Z.of_nat D) K /\ (forall k, In k K <-> In k indices).
Proof.
  intros HD F. rewrite Forall_forall in F. unfold sort_indices. cbn [c_size].
  rewrite (collect_ok _ (idx (Z.of_nat D))) by (intros x I; apply from_size_offset_ok; [lia|apply F; exact I]). cbn [rbind].
  destruct (Si (map (idx (Z.of_nat D)) indices)) as [Pm St].
  set (l := sort_idx (map (idx (Z.of_nat D)) indices)) in *.
  pose proof (dedup_strict (fun x => x) l St) as S2. rewrite map_id in S2.
  destruct (unidx (Z.of_nat D) (dedup_by (fun x => x) l)) as (K & EK). rewrite EK in *. exists K. split; [reflexivity|].
  assert (Set_ : forall k, In k K <-> In k indices).
  { intros k. transitivity (In (idx (Z.of_nat D) k) (map (idx (Z.of_nat D)) K)).
    { split; [apply in_map|]. intros I. apply in_map_iff in I as (k' & E & I). unfold idx in E. assert (k' = k) by lia. congruence. }
    rewrite <- EK. rewrite <- (map_id (dedup_by _ l)). rewrite dedup_keys, map_id.
    transitivity (In (idx (Z.of_nat D) k) (map (idx (Z.of_nat D)) indices)).
    { split; apply Permutation_in; [apply Permutation_sym|]; exact Pm. }
    split; [|apply in_map]. intros I. apply in_map_iff in I as (k' & E & I). unfold idx in E. assert (k' = k) by lia. congruence. }
  split; [apply map_idx_strict in S2; exact S2|]. split; [|exact Set_].
  apply Forall_forall. intros k I. apply F. apply Set_. exact I.
Qed.
Lemma sort_indices_err D (h : H) indices k : (D < 64)%nat -> Forall (fun k => 0 <= k) indices -> In k indices -> 2 ^ Z.of_nat D <= k ->
  sort_indices sort_idx (C (2 ^ Z.of_nat D) h) indices = Err IndexOutOfRange.
Proof.
  intros HD F I Hk. rewrite Forall_forall in F. unfold sort_indices. cbn [c_size].
  rewrite (collect_err _ (idx (Z.of_nat D)) _ IndexOutOfRange k I); [reflexivity| |apply from_size_offset_range; lia].
  intros x Ix. destruct (Z_lt_ge_dec x (2 ^ Z.of_nat D)); [left; apply from_size_offset_ok; [lia|]|right; apply from_size_offset_range; lia].
  specialize (F x Ix). lia.
Qed.
Lemma proof_size_spec D (h : H) indices K : (D < 64)%nat -> Z.of_nat (length K) * 64 <= 2 ^ 64 ->
  sort_indices sort_idx (C (2 ^ Z.of_nat D) h) indices = Ok (map (idx (Z.of_nat D)) K) -> strict K -> in_layer (Z.of_nat D) K ->
  proof_size sort_idx (C (2 ^ Z.of_nat D) h) indices = Some (Ok (Z.of_nat (length (olayers D K)))).
Proof.
  intros HD Hl E St F. unfold proof_size. rewrite E. cbn [c_size].
  assert (Ec : ctz64 (2 ^ Z.of_nat D) = Z.of_nat D).
  { pose proof (PermuteProofs.ctz64_pow2 D) as X. rewrite Nat2Z.inj_pow in X. exact X. }
  rewrite Ec, map_length. pose proof (olayers_count D K F St) as Oc. pose proof (adj_nonneg (Z.of_nat D) K ltac:(lia) F St).
  unfold mul64, B. destruct (Z.ltb_spec (Z.of_nat D * Z.of_nat (length K)) 18446744073709551616).
  2: { exfalso. destruct K; [change (2 ^ 64) with 18446744073709551616 in *; cbn in *; lia|]. cbn [length] in *. nia. }
  cbn [bind]. rewrite proof_size_loop_spec by (try assumption; lia). cbn [bind]. rewrite Oc. reflexivity.
Qed.
Lemma from_hashes_spec D (h : H) indices K hs : (D < 64)%nat -> Z.of_nat (length K) * 64 <= 2 ^ 64 ->
  sort_indices sort_idx (C (2 ^ Z.of_nat D) h) indices = Ok (map (idx (Z.of_nat D)) K) -> strict K -> in_layer (Z.of_nat D) K ->
  from_hashes sort_idx (C (2 ^ Z.of_nat D) h) indices hs =
  Some (if (length hs =? length (olayers D K))%nat then Ok (P (C (2 ^ Z.of_nat D) h) indices hs) else Err NotEnoughHashes).
Proof.
  intros HD Hl E St F. unfold from_hashes. rewrite E. rewrite (proof_size_spec D h indices K) by assumption. cbn [bind rbind]. f_equal.
  destruct (Nat.eqb_spec (length hs) (length (olayers D K))) as [En|En]; destruct (Z.eqb_spec (Z.of_nat (length hs)) (Z.of_nat (length (olayers D K)))) as [Ez|Ez];
    cbn [negb]; try reflexivity; lia.
Qed.
Lemma offset_idx D K : (D < 64)%nat -> in_layer (Z.of_nat D) K -> map i_offset (map (idx (Z.of_nat D)) K) = K.
Proof.
  intros HD F. rewrite map_map. rewrite <- (map_id K) at 2. apply map_ext_in. intros k I. unfold in_layer in F. rewrite Forall_forall in F.
  unfold idx. apply offset_node; [lia|apply F; exact I].
Qed.
Lemma open_spec leaves D m (t : tree) indices K : (D < 64)%nat -> Z.of_nat (length leaves) = 2 ^ Z.of_nat D -> Z.of_nat (length K) * 64 <= 2 ^ 64 ->
  t_leaves t = leaves -> 0 <= m -> filled leaves D m 0 (t_nodes t) -> t_commitment t = C (2 ^ Z.of_nat D) (hash_at node D (leaf_hashes leaves) 0 0) ->
  sort_indices sort_idx (t_commitment t) indices = Ok (map (idx (Z.of_nat D)) K) -> strict K -> in_layer (Z.of_nat D) K ->
  open node leaf_hash sort_idx t indices = Some (Ok (P (t_commitment t) K
    (map (fun dk => hash_at node D (leaf_hashes leaves) (fst dk) (snd dk)) (olayers D K)))).
Proof.
  intros HD HL Hl Et Hm Fl Ec E St F. unfold open. rewrite E. rewrite offset_idx by assumption. rewrite map_length.
  rewrite (open_layers node leaf_hash D (leaf_hashes leaves) HD t); try assumption; try lia.
  - cbn [bind app]. rewrite Ec. destruct (sort_indices_spec D (hash_at node D (leaf_hashes leaves) 0 0) K HD F) as (K' & E' & St' & F' & Es).
    assert (K' = K) by (apply strict_ext; assumption). subst K'.
    rewrite (from_hashes_spec D _ K K) by assumption. rewrite map_length, Nat.eqb_refl. reflexivity.
  - intros e k He Hk. apply (node_hash_spec leaves D HD HL t m); try assumption; lia.
  - rewrite Nat.mul_comm. apply Nat.mul_le_mono_r. lia.
Qed.

(** verify: from presented leaves to the layers *)
Definition vnode (D : nat) (il : Z * Leaf) : Z * H := (fst il, leaf_hash (snd il)).
Lemma windows_spec (l : list (Z * H)) : StronglySorted (fun a b => fst a <= fst b) l ->
  (windows_ok heqb l = true <-> forall x h h', In (x, h) l -> In (x, h') l -> h = h').
Proof.
  induction l as [|[x h]|[x h] [y g] l _ IH] using pair_ind; intros S.
  - cbn. split; [contradiction|reflexivity].
  - cbn. split; [|reflexivity]. intros _ a b c [E1|[]] [E2|[]]. congruence.
  - change (windows_ok heqb ((x, h) :: (y, g) :: l)) with ((negb (x =? y) || heqb h g) && windows_ok heqb ((y, g) :: l)).
    inversion S as [|? ? S' F]; subst. rewrite Forall_forall in F. inversion S' as [|? ? S'' F']; subst. rewrite Forall_forall in F'.
    rewrite andb_true_iff, (IH S'). split.
    + intros [E1 E2] a b c I1 I2.
      assert (Hx : forall c, In (x, c) ((y, g) :: l) -> c = h).
      { intros c0 I. assert (y = x). { pose proof (F (y, g) (or_introl eq_refl)). cbn [fst] in *. destruct I as [I|I]; [congruence|].
          specialize (F' _ I). cbn [fst] in F'. lia. }
        subst y. rewrite Z.eqb_refl in E1. cbn in E1. apply heqb_spec in E1. subst g. apply (E2 x); [exact I|left; reflexivity]. }
      destruct I1 as [I1|I1], I2 as [I2|I2].
      * congruence.
      * injection I1 as -> ->. symmetry. apply Hx. exact I2.
      * injection I2 as -> ->. apply Hx. exact I1.
      * apply (E2 a); assumption.
    + intros E. split.
      * destruct (Z.eqb_spec x y) as [->|]; [|reflexivity]. cbn. apply heqb_spec. apply (E y); [left; reflexivity|right; left; reflexivity].
      * intros a b c I1 I2. apply (E a); right; assumption.
Qed.
Lemma kunidx e (L : list (Z * H)) : exists K, L = map (kidx e) K.
Proof.
  exists (map (fun x => (fst x - 2 ^ e, snd x)) L). rewrite map_map. rewrite <- (map_id L) at 1. apply map_ext. intros [x h]. unfold kidx, idx. cbn. f_equal. lia.
Qed.
Lemma kidx_keys e (L : list (Z * H)) : map fst (map (kidx e) L) = map (idx e) (map fst L).
Proof. rewrite !map_map. reflexivity. Qed.
(** either some presented index carries two hashes, or the layers are run on the distinct ones *)
Lemma verify_spec D (h0 : H) pi hs leafs : (D < 64)%nat -> Forall (fun il : Z * Leaf => 0 <= fst il < 2 ^ Z.of_nat D) leafs ->
  let distinct := forall i l l', In (i, l) leafs -> In (i, l') leafs -> leaf_hash l = leaf_hash l' in
  let p := P (C (2 ^ Z.of_nat D) h0) pi hs in
  (~ distinct /\ verify_log heqb node leaf_hash sort_nodes p leafs = Some (Err DuplicateLeafMismatch, [])) \/
  (distinct /\ exists L, verify_log heqb node leaf_hash sort_nodes p leafs = Some (vlayers heqb node h0 D L hs) /\
     strict (map fst L) /\ in_layer (Z.of_nat D) (map fst L) /\
     (forall k h, In (k, h) L <-> exists l, In (k, l) leafs /\ leaf_hash l = h)).
Proof.
  intros HD F distinct p. rewrite Forall_forall in F. unfold verify_log. cbn [p_commitment p_hashes c_size c_hash p].
  rewrite (collect_ok _ (fun il => kidx (Z.of_nat D) (fst il, leaf_hash (snd il)))).
  2: { intros [i l] I. cbn [fst snd]. rewrite from_size_offset_ok; [reflexivity|lia|]. specialize (F _ I). exact F. }
  set (nodes := map (fun il : Z * Leaf => kidx (Z.of_nat D) (fst il, leaf_hash (snd il))) leafs).
  assert (In_ : forall k h, In (idx (Z.of_nat D) k, h) nodes <-> exists l, In (k, l) leafs /\ leaf_hash l = h).
  { intros k h. unfold nodes. rewrite in_map_iff. split.
    - intros ([i l] & E & I). unfold kidx, idx in E. cbn [fst snd] in E. injection E as E1 E2. exists l. replace k with i by lia. auto.
    - intros (l & I & <-). exists (k, l). auto. }
  destruct (Sn nodes) as [Pm St]. set (sorted := sort_nodes nodes) in *.
  pose proof (windows_spec sorted St) as W.
  assert (Dx : (forall x h h', In (x, h) sorted -> In (x, h') sorted -> h = h') <-> distinct).
  { split.
    - intros E i l l' I1 I2. apply (E (idx (Z.of_nat D) i)); apply (Permutation_in _ Pm); apply In_; eauto.
    - intros E x h h' I1 I2. apply (Permutation_in _ (Permutation_sym Pm)) in I1. apply (Permutation_in _ (Permutation_sym Pm)) in I2.
      assert (Ex : x = idx (Z.of_nat D) (x - 2 ^ Z.of_nat D)) by (unfold idx; lia). rewrite Ex in I1, I2.
      apply In_ in I1 as (l1 & J1 & <-). apply In_ in I2 as (l2 & J2 & <-). eapply E; eassumption. }
  destruct (windows_ok heqb sorted) eqn:Ew; cbn [negb].
  2: { left. split; [|reflexivity]. intros Hd. pose proof (proj2 W (proj2 Dx Hd)). discriminate. }
  right. assert (Hd : distinct) by exact (proj1 Dx (proj1 W eq_refl)). split; [exact Hd|].
  destruct (kunidx (Z.of_nat D) (dedup_by fst sorted)) as (L & EL). exists L.
  pose proof (dedup_strict fst sorted St) as S2. rewrite EL, kidx_keys in S2. apply map_idx_strict in S2.
  assert (InL : forall k h, In (k, h) L <-> In (idx (Z.of_nat D) k, h) (dedup_by fst sorted)).
  { intros k h. rewrite EL. rewrite in_map_iff. split.
    - intros I. exists (k, h). auto.
    - intros ([k' h'] & E & I). unfold kidx, idx in E. cbn [fst snd] in E. injection E as E1 E2. replace k with k' by lia. subst. exact I. }
  assert (Iff : forall k h, In (k, h) L <-> exists l, In (k, l) leafs /\ leaf_hash l = h).
  { intros k h. rewrite InL, <- In_. split.
    - intros I. apply dedup_In in I. apply (Permutation_in _ (Permutation_sym Pm)). exact I.
    - intros I. apply (Permutation_in _ Pm) in I.
      assert (Ik : In (idx (Z.of_nat D) k) (map fst (dedup_by fst sorted))). { apply dedup_keys. apply (in_map fst) in I. exact I. }
      apply in_map_iff in Ik as ([x' h'] & E & I'). cbn [fst] in E. subst x'. assert (h' = h); [|congruence].
      eapply (proj2 Dx Hd); [apply dedup_In in I'; exact I'|exact I]. }
  assert (FL : in_layer (Z.of_nat D) (map fst L)).
  { apply Forall_forall. intros k I. apply in_map_iff in I as ([k' h'] & <- & I). apply Iff in I as (l & I & _). specialize (F _ I). exact F. }
  split; [|auto]. rewrite EL, map_length. rewrite (verify_layers heqb node D HD h0 D L hs []) by (first [assumption | rewrite Nat.mul_comm; apply Nat.mul_le_mono_r; lia]).
  cbn [app]. rewrite <- surjective_pairing. reflexivity.
Qed.
End Tree.
