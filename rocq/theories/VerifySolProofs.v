(** Proofs about the verifier of the Ethereum contract. *)
Require Import ZArith Arith Lia Bool List.
From Verif Require Import Word U256Model U256Spec EncodingSpec KnuthModel MerkleSpec PermuteProofs Arr ChannelModel ChannelSpec ChannelProps CoinSolModel CoinSolProps FriSolModel PrimeSolModel VerifySolModel.
Import ListNotations.
Open Scope Z_scope.
(** ** Transcript *)
Lemma sol_run_app keccak fuel : forall a b s ws s2, sol_run keccak fuel s (a ++ b) = Some (ws, s2) ->
  exists w1 s1 w2, sol_run keccak fuel s a = Some (w1, s1) /\ sol_run keccak fuel s1 b = Some (w2, s2) /\ ws = w1 ++ w2.
Proof.
  induction a as [|x a IH]; intros b s ws s2 R; cbn [app sol_run] in *; [exists [], s, ws; auto|].
  destruct (sol_do keccak fuel s x) as [[w s']|]; [|discriminate R]. destruct (sol_run keccak fuel s' (a ++ b)) as [[ws' s'']|] eqn:E; [|discriminate R]. injection R as <- <-.
  destruct (IH b s' ws' s'' E) as (w1 & s1 & w2 & E1 & E2 & ->). exists (w :: w1), s1, w2. rewrite E1. auto.
Qed.
Lemma run_felts keccak fuel : forall l s ws s2, sol_run keccak fuel s (map (fun x => Say (Felt_ x)) l) = Some (ws, s2) -> concat ws = [] /\ s2 = write_many_field_elements keccak s (map val l).
Proof.
  induction l as [|x l IH]; intros s ws s2 R; cbn [map sol_run sol_do sol_say] in R; [injection R as <- <-; split; reflexivity|].
  destruct (sol_run keccak fuel (write_bytes32 keccak s (val x)) (map (fun x => Say (Felt_ x)) l)) as [[ws' s']|] eqn:E; [|discriminate R]. injection R as <- <-.
  destruct (IH _ _ _ E) as [E1 E2]. split; [exact E1|]. rewrite E2. reflexivity.
Qed.
Lemma run_fri keccak fuel : forall l s ws s2, sol_run keccak fuel s (flat_map (fun r => [Say (Hash_ r); PDraw DFelt]) l) = Some (ws, s2) ->
  fri_points keccak fuel s (length l) (map (num 256) l) = Some (concat ws, s2) /\ length (concat ws) = length l.
Proof.
  induction l as [|x l IH]; intros s ws s2 R; cbn [flat_map app sol_run sol_do sol_say] in R; [injection R as <- <-; split; reflexivity|].
  cbn [map length fri_points]. destruct (read_field_element keccak fuel (write_bytes32 keccak s (num 256 x))) as [[y s1]|]; [|discriminate R]. cbn [bind fst snd].
  destruct (sol_run keccak fuel s1 (flat_map (fun r => [Say (Hash_ r); PDraw DFelt]) l)) as [[ws' s']|] eqn:E; [|discriminate R]. injection R as <- <-.
  destruct (IH _ _ _ E) as [E1 E2]. rewrite E1. cbn [bind fst snd concat app length]. split; [reflexivity|]. f_equal. exact E2.
Qed.
Lemma read_many_length keccak fuel : forall n c l c', read_many_field_elements keccak fuel c n = Some (l, c') -> length l = n.
Proof.
  induction n as [|n IH]; intros c l c' E; cbn [read_many_field_elements] in E; [injection E as <- _; reflexivity|].
  destruct (read_field_element keccak fuel c) as [[x c1]|]; [|discriminate E]. destruct (read_many_field_elements keccak fuel c1 n) as [[l1 c2]|] eqn:E1; [|discriminate E]. injection E as <- _. cbn [length]. f_equal. exact (IH _ _ _ E1).
Qed.
(** ** Arrays *)
Lemma stores_seq f : forall n k out, (k + n <= length out)%nat -> stores f (seq k n) out = Some (firstn k out ++ map f (seq k n) ++ skipn (k + n) out).
Proof.
  induction n as [|n IH]; intros k out H; cbn [seq stores map].
  - rewrite Nat.add_0_r. cbn [app]. rewrite firstn_skipn. reflexivity.
  - unfold store. destruct (Nat.ltb_spec k (length out)) as [Hk|]; [|lia]. cbn [bind]. rewrite IH by (rewrite upd_length; lia). f_equal.
    apply nth_ext with (d := 0) (d' := 0).
    + rewrite !app_length, !firstn_length, !skipn_length, upd_length. cbn [length]. rewrite !map_length, !seq_length. lia.
    + intros j Hj. rewrite !app_length, !firstn_length, !skipn_length, upd_length, !map_length, !seq_length in Hj.
      assert (Ln : forall q, (q <= length out)%nat -> length (firstn q out) = q) by (intros q Hq; rewrite firstn_length; lia).
      destruct (Nat.lt_ge_cases j (S k)) as [A|A].
      * rewrite app_nth1 by (rewrite firstn_length, upd_length; lia). rewrite nth_firstn by lia. rewrite nth_upd by lia. destruct (Nat.eqb_spec j k) as [->|Nj].
        -- rewrite app_nth2 by (rewrite Ln; lia). rewrite Ln by lia. rewrite Nat.sub_diag. reflexivity.
        -- rewrite app_nth1 by (rewrite Ln; lia). rewrite nth_firstn by lia. reflexivity.
      * rewrite app_nth2 by (rewrite firstn_length, upd_length; lia). rewrite firstn_length, upd_length, Nat.min_l by lia.
        rewrite (app_nth2 (firstn k out)) by (rewrite Ln; lia). rewrite Ln by lia. replace (j - k)%nat with (S (j - S k)) by lia. cbn [app nth].
        destruct (Nat.lt_ge_cases (j - S k) n) as [C|C].
        -- rewrite !app_nth1 by (rewrite map_length, seq_length; lia). reflexivity.
        -- rewrite !app_nth2 by (rewrite map_length, seq_length; lia). rewrite map_length, seq_length. rewrite !nth_skipn. rewrite nth_upd by lia. destruct (Nat.eqb_spec (S k + n + (j - S k - n)) k); [lia|]. f_equal. lia.
Qed.
Lemma stores_fail f : forall l out, (exists i, In i l /\ (length out <= i)%nat) -> stores f l out = None.
Proof.
  induction l as [|a l IH]; intros out (i & I & Hi); [contradiction|]. cbn [stores]. unfold store. destruct (Nat.ltb_spec a (length out)) as [Ha|]; [|reflexivity]. cbn [bind]. apply IH. exists i. rewrite upd_length. destruct I as [->|I]; [lia|]. auto.
Qed.
Lemma map_nth_seq {A} (d : A) (l : list A) : map (fun i => nth i l d) (seq 0 (length l)) = l.
Proof. induction l as [|a l IH]; [reflexivity|]. cbn [length seq map nth]. f_equal. rewrite <- seq_shift, map_map. exact IH. Qed.
Lemma concat_len size : forall groups : list (list Z), (forall g, In g groups -> length g = size) -> length (concat groups) = (length groups * size)%nat.
Proof. induction groups as [|g groups IH]; intros H; [reflexivity|]. cbn [concat length]. rewrite app_length, IH by (intros; apply H; right; assumption). rewrite (H g) by (left; reflexivity). lia. Qed.
Lemma group_of size : forall (groups : list (list Z)) rest i, (forall g, In g groups -> length g = size) -> (i < length groups)%nat ->
  map (fun j => nth (i * size + j) (concat groups ++ rest) 0) (seq 0 size) = nth i groups [].
Proof.
  induction groups as [|g groups IH]; intros rest i H Hi; [cbn in Hi; lia|]. assert (Lg := H g (or_introl eq_refl)). cbn [concat]. rewrite <- app_assoc. destruct i as [|i].
  - cbn [nth Nat.mul Nat.add]. transitivity (map (fun i => nth i g 0) (seq 0 (length g))); [|apply map_nth_seq]. rewrite Lg. apply map_ext_in. intros j Hj. apply in_seq in Hj. apply app_nth1. lia.
  - cbn [nth]. rewrite <- (IH rest i) by (try (intros; apply H; right; assumption); cbn in Hi; lia). apply map_ext. intros j. rewrite app_nth2 by lia. f_equal. lia.
Qed.
Lemma hashes_spec H size groups rest out : (0 < size)%nat -> (forall g, In g groups -> length g = size) -> (length rest < size)%nat ->
  let data := concat groups ++ rest in
  stores (fun i => H (map (fun j => nth (i * size + j) data 0) (seq 0 size))) (seq 0 (length data / size)) out =
  if (length groups <=? length out)%nat then Some (map H groups ++ skipn (length groups) out) else None.
Proof.
  intros Hs Hg Hr data. assert (N : (length data / size = length groups)%nat).
  { unfold data. rewrite app_length, (concat_len size groups Hg), Nat.div_add_l by lia. rewrite (Nat.div_small (length rest)) by exact Hr. lia. }
  rewrite N. destruct (Nat.leb_spec (length groups) (length out)) as [Le|Gt].
  - rewrite stores_seq by lia. cbn [firstn app Nat.add]. f_equal. f_equal. transitivity (map H (map (fun i => nth i groups []) (seq 0 (length groups)))); [|rewrite map_nth_seq; reflexivity]. rewrite map_map. apply map_ext_in. intros i Hi. apply in_seq in Hi. f_equal. apply group_of; [exact Hg|lia].
  - apply stores_fail. exists (length groups - 1)%nat. split; [apply in_seq; lia|lia].
Qed.
Lemma prepare_spec H size groups rest queries domain hashes positions : (0 < size)%nat -> (forall g, In g groups -> length g = size) -> (length rest < size)%nat -> length positions = length queries ->
  prepare_hashes_and_queries H (concat groups ++ rest) size queries domain hashes positions =
  if (length groups <=? length hashes)%nat then Some (map H groups ++ skipn (length groups) hashes, map (fun x => wrap (x + domain)) queries) else None.
Proof.
  intros Hs Hg Hr Lp. unfold prepare_hashes_and_queries. destruct (Nat.eqb_spec size 0); [lia|]. rewrite (hashes_spec H size groups rest hashes Hs Hg Hr). destruct (length groups <=? length hashes)%nat; [|reflexivity]. cbn [bind].
  rewrite stores_seq by lia. cbn [firstn app Nat.add bind]. rewrite map_nth_seq, <- Lp, skipn_all, app_nil_r, Lp. rewrite stores_seq by lia. cbn [firstn app Nat.add bind]. rewrite skipn_all, app_nil_r. f_equal. f_equal.
  transitivity (map (fun x => wrap (x + domain)) (map (fun i => nth i queries 0) (seq 0 (length queries)))); [rewrite map_map; reflexivity|]. rewrite map_nth_seq. reflexivity.
Qed.
