(** Property C75: the contract goes over the FRI layers as the library: fri.sol, fold_and_check_fri_layers. *)
Require Import ZArith Arith Lia Bool List Sorting.Sorted.
From Verif Require Import Word KnuthModel U256Model U256Spec FieldSig FieldModel FieldInstance FieldAlgModel Arr FftModel FftSpec StarkBase PolyModel PolyProps StarkInstance FriModel ContractModel FriSolModel FriSolProofs FriSolBits FriSolProps PrimeSolModel PrimeSolProps FriLoopModel.
Import ListNotations.
Open Scope Z_scope.

(** What the contract is to open for a layer: the values of the cosets, their numbers, and the logarithm of the number of cosets *)
Record opening := Opening { o_cosets : list (list Felt); o_numbers : list nat; o_log : nat }.
(** The run of the library's verifier over the layers: [folded n v qs layers completions openings n' v' qs'] says that the layer
    [v] of size [2 ^ n], queried at [qs], is folded with the cosets of size [2 ^ m] and the point [c] for each [(m, c)] in
    [layers], to the layer [v'] of size [2 ^ n'] with the queries [qs']. The completions are the values of the cosets that are
    met at the positions that are not queried. [eval_x] and [K0] are the domain of the first layer. *)
Inductive folded (dbg : bool) (K0 : nat) (eval_x : list Felt) : nat -> (nat -> Felt) -> list nat -> list (nat * Felt) -> list (list Felt) -> list opening -> nat -> (nat -> Felt) -> list nat -> Prop :=
| folded_nil : forall n v qs, folded dbg K0 eval_x n v qs [] [] [] n v qs
| folded_cons : forall m K v c qs is_ v1 layers completions openings n' v' qs', (1 <= m <= 3)%nat -> increasing is_ -> (forall i, In i is_ <-> exists q, In q qs /\ (q / 2 ^ m = i)%nat) ->
    (forall i, In i is_ -> fri_fold felt_ops dbg (map v (coset_positions m i)) c (2 ^ (K0 - (m + K))) (2 ^ m / 2 * i) (2 ^ (m + K)) eval_x = Some (v1 i))%nat ->
    folded dbg K0 eval_x K v1 is_ layers completions openings n' v' qs' ->
    folded dbg K0 eval_x (m + K) v qs ((m, c) :: layers) (map v (filter (fun j => negb (existsb (Nat.eqb j) qs)) (flat_map (coset_positions m) is_)) :: completions)
      (Opening (map (fun i => map v (coset_positions m i)) is_) is_ K :: openings) n' v' qs'.
(** The Merkle verifier accepts the openings of the layers from layer [i] *)
Definition opened (leaf_hash : list Z -> Z) (verify : nat -> list Z -> list Z -> option bool) (i : nat) (openings : list opening) : Prop :=
  forall j x, nth_error openings j = Some x -> verify (i + j)%nat (map (fun coset => leaf_hash (map word coset)) (o_cosets x)) (map (fun k => Z.of_nat k + 2 ^ Z.of_nat (o_log x)) (o_numbers x)) = Some true.
(** What the contract holds for a layer *)
Definition held (n : nat) (v : nat -> Felt) (qs : list nat) : Z * Z * list (Z * Z * Z) := (Z.of_nat n, word (fe_w proth_good n), map (kept n v) qs).

Lemma opened_cons H verify i x l : opened H verify i (x :: l) <-> verify i (map (fun coset => H (map word coset)) (o_cosets x)) (map (fun k => Z.of_nat k + 2 ^ Z.of_nat (o_log x)) (o_numbers x)) = Some true /\ opened H verify (S i) l.
Proof.
  split.
  - intros O. split; [specialize (O 0%nat x eq_refl); rewrite Nat.add_0_r in O; exact O|]. intros j y E. specialize (O (S j) y E). rewrite Nat.add_succ_r in O. exact O.
  - intros [O1 O2] j y E. destruct j as [|j]; [injection E as <-; rewrite Nat.add_0_r; exact O1|]. rewrite Nat.add_succ_r. exact (O2 j y E).
Qed.
Lemma layers_spec dbg K0 eval_x H verify : (K0 <= 40)%nat -> eval_x = map (fun i => fpw felt_ops (fe_w proth_good K0) i) (seq 0 (2 ^ K0)) ->
  forall n v qs layers completions openings n' v' qs', folded dbg K0 eval_x n v qs layers completions openings n' v' qs' -> (n <= K0)%nat -> increasing qs -> (forall q, In q qs -> (q < 2 ^ n)%nat) ->
  forall i before before', length before = i -> length before' = i ->
  let run := fri_layers H verify i (2 ^ Z.of_nat n) (Z.of_nat n) (word (fe_w proth_good n)) (map (kept n v) qs) (map (fun x => Z.of_nat (fst x)) layers) (before ++ map (map word) completions) (before' ++ map (fun x => limbs (snd x)) layers) in
  (opened H verify i openings /\ run = Some (held n' v' qs') \/ ~ opened H verify i openings /\ run = None) /\ (n' <= n)%nat /\ (forall q, In q qs' -> (q < 2 ^ n')%nat).
Proof.
  intros HK0 Hx. induction 1 as [n v qs|m K v c qs is_ v1 layers completions openings n' v' qs' Hm Si Hi Hf F IH]; intros Hn Sq Hq i before before' Lb Lb'; cbn zeta.
  - cbn [map fri_layers]. split; [left; split; [intros j x E; destruct j; discriminate E|reflexivity]|]. split; [lia|exact Hq].
  - assert (HiK : (forall k, In k is_ -> k < 2 ^ K)%nat).
    { intros k Ik. apply Hi in Ik as (q & Iq & E). specialize (Hq q Iq). rewrite <- E. apply Nat.div_lt_upper_bound; [apply Nat.pow_nonzero; discriminate|]. rewrite <- Nat.pow_add_r. exact Hq. }
    destruct (C72_layer dbg K0 eval_x ltac:(lia) Hx m K v c qs is_ [] Hm Hn Sq Si Hq Hi) as (v2 & V2 & E). rewrite app_nil_r in E.
    assert (Ev : map (fun k => (map (fun j => word (v j)) (coset_positions m k), kept K v2 k)) is_ = map (fun k => (map (fun j => word (v j)) (coset_positions m k), kept K v1 k)) is_).
    { apply map_ext_in. intros k Ik. specialize (V2 k Ik). specialize (Hf k Ik). rewrite Hf in V2. injection V2 as V2. unfold kept. rewrite V2. reflexivity. }
    rewrite Ev in E. clear Ev V2 v2.
    assert (Cs : wrap (Z.shiftl 1 (Z.of_nat m)) = 2 ^ Z.of_nat m). { rewrite Z.shiftl_1_l. unfold wrap. apply Z.mod_small. split; [apply Z.pow_nonneg; lia|]. apply Z.pow_lt_mono_r; lia. }
    assert (C8 : (8 <? 2 ^ Z.of_nat m) = false). { apply Z.ltb_ge. change 8 with (2 ^ 3). apply Z.pow_le_mono_r; lia. }
    assert (Cn : Z.to_nat (2 ^ Z.of_nat m) = (2 ^ m)%nat). { rewrite <- (Nat2Z.id (2 ^ m)), Nat2Z.inj_pow. reflexivity. }
    assert (Nx : 2 ^ Z.of_nat (m + K) / 2 ^ Z.of_nat m = 2 ^ Z.of_nat K). { rewrite Nat2Z.inj_add, Z.pow_add_r, Z.mul_comm by lia. apply Z.div_mul. apply Z.pow_nonzero; lia. }
    assert (Lg : wrap (Z.of_nat (m + K) - Z.of_nat m) = Z.of_nat K). { unfold wrap. rewrite Z.mod_small; [lia|]. split; [lia|]. assert (40 < 2 ^ 256) by reflexivity. lia. }
    assert (Gn : next_generator (word (fe_w proth_good (m + K))) (2 ^ Z.of_nat m) = word (fe_w proth_good K)) by (apply C72_points; lia).
    assert (Pt : from_montgomery (limbs c) = word c) by exact (proj1 (C73_limbs c c)).
    assert (N1 : nth_error (before ++ map (map word) (map v (filter (fun j => negb (existsb (Nat.eqb j) qs)) (flat_map (coset_positions m) is_)) :: completions)) i = Some (map (fun j => word (v j)) (filter (fun j => negb (existsb (Nat.eqb j) qs)) (flat_map (coset_positions m) is_)))).
    { rewrite nth_error_app2 by lia. rewrite Lb, Nat.sub_diag. cbn [map nth_error]. rewrite map_map. reflexivity. }
    assert (N2 : nth_error (before' ++ map (fun x => limbs (snd x)) ((m, c) :: layers)) i = Some (limbs c)) by (rewrite nth_error_app2 by lia; rewrite Lb', Nat.sub_diag; reflexivity).
    cbn [fri_layers map fst snd]. cbn [map] in N1, N2. cbn [snd] in N2. rewrite Cs, C8, N1. cbn [bind]. rewrite N2. cbn [bind]. rewrite Pt, Cn, map_length, E. cbn [bind]. rewrite Nx, Lg, Gn. rewrite !map_map. cbn [fst snd].
    assert (Ix : map (fun x => wrap (fst (fst (kept K v1 x)) + 2 ^ Z.of_nat K)) is_ = map (fun k => Z.of_nat k + 2 ^ Z.of_nat K) is_).
    { apply map_ext_in. intros k Ik. cbn [kept fst]. unfold wrap. apply Z.mod_small. specialize (HiK k Ik). apply Nat2Z.inj_lt in HiK. rewrite Nat2Z.inj_pow in HiK. change (Z.of_nat 2) with 2 in HiK. assert (2 ^ Z.of_nat K <= 2 ^ 40) by (apply Z.pow_le_mono_r; lia). assert (2 ^ 40 + 2 ^ 40 < 2 ^ 256) by reflexivity. lia. }
    rewrite Ix. specialize (IH ltac:(lia) Si HiK (S i) (before ++ [map (fun j => word (v j)) (filter (fun j => negb (existsb (Nat.eqb j) qs)) (flat_map (coset_positions m) is_))]) (before' ++ [limbs c])).
    rewrite !app_length, Lb, Lb' in IH. cbn [length] in IH. specialize (IH ltac:(lia) ltac:(lia)). cbn zeta in IH. rewrite <- !app_assoc in IH. cbn [app] in IH. destruct IH as (I1 & I3 & I4).
    assert (Hh : map (fun x => H (map (fun j => word (v j)) (coset_positions m x))) is_ = map (fun coset => H (map word coset)) (map (fun k => map v (coset_positions m k)) is_)) by (rewrite map_map; apply map_ext; intros k; rewrite map_map; reflexivity).
    rewrite Hh. split; [|split; [lia|exact I4]].
    destruct (verify i _ _) as [[|]|] eqn:Ve; cbn [bind].
    + destruct I1 as [[O2 R]|[N R]]; [left; split; [apply opened_cons; split; [exact Ve|exact O2]|exact R]|right; split; [intros O; apply opened_cons in O as [_ O]; exact (N O)|exact R]].
    + right. split; [|reflexivity]. intros O. apply opened_cons in O as [O _]. cbn [o_cosets o_numbers o_log] in O. rewrite O in Ve. discriminate Ve.
    + right. split; [|reflexivity]. intros O. apply opened_cons in O as [O _]. cbn [o_cosets o_numbers o_log] in O. rewrite O in Ve. discriminate Ve.
Qed.
Lemma first_spec n v : (n <= 40)%nat -> forall qs, (forall q, In q qs -> (q < 2 ^ n)%nat) -> first_entries (Z.of_nat n) (map (fun q => (Z.of_nat q, word (v q))) qs) = Some (map (kept n v) qs).
Proof.
  intros Hn. induction qs as [|q qs IH]; intros Hq; [reflexivity|]. cbn [map first_entries]. rewrite (proj1 C72_points n q Hn (Hq q (or_introl eq_refl))). cbn [bind]. rewrite IH by (intros; apply Hq; right; assumption). reflexivity.
Qed.

(** The contract accepts the layers exactly if the Merkle verifier accepts every opening of the library's run, at the leaves of
    the cosets that it meets, and the library accepts every value of the last layer. *)
Theorem C75_layers : forall dbg n v qs layers completions openings n' v' qs' coefficients leaf_hash verify, (n <= 40)%nat -> layers <> [] -> increasing qs -> (forall q, In q qs -> (q < 2 ^ n)%nat) ->
  (exists d, length coefficients = 2 ^ d)%nat ->
  folded dbg n (map (fun i => fpw felt_ops (fe_w proth_good n) i) (seq 0 (2 ^ n))) n v qs layers completions openings n' v' qs' ->
  fold_and_check_fri_layers leaf_hash verify (Z.of_nat n) (map (fun x => Z.of_nat (fst x)) layers) (map (map word) completions) (map (fun x => limbs (snd x)) layers) (map word coefficients) (map (fun q => (Z.of_nat q, word (v q))) qs) = Some tt <->
  opened leaf_hash verify 0 openings /\ forall q, In q qs' -> last_check felt_ops dbg (2 ^ n') (fe_w proth_good n') coefficients q (v' q) = Some true.
Proof.
  intros dbg n v qs layers completions openings n' v' qs' coefficients H verify Hn Nl Sq Hq Hd F. destruct (layers_spec dbg n _ H verify Hn eq_refl n v qs layers completions openings n' v' qs' F ltac:(lia) Sq Hq 0%nat [] [] eq_refl eq_refl) as (R1 & R3 & R4). cbn [app] in R1.
  unfold fold_and_check_fri_layers. assert (Sz : wrap (Z.shiftl 1 (Z.of_nat n)) = 2 ^ Z.of_nat n). { rewrite Z.shiftl_1_l. unfold wrap. apply Z.mod_small. split; [apply Z.pow_nonneg; lia|]. apply Z.pow_lt_mono_r; lia. }
  rewrite Sz, map_length. destruct layers as [|l0 layers]; [contradiction|]. cbn [length Nat.eqb]. rewrite (proj1 (proj1 (proj2 C72_points) n ltac:(lia))). cbn [bind]. rewrite first_spec by assumption. cbn [bind].
  set (run := fri_layers H verify 0 _ _ _ _ _ _ _) in *. clearbody run.
  assert (La : forallb (fun e => last_layer_check (word (fe_w proth_good n')) (Z.of_nat n') (map word coefficients) (fst (fst e)) (snd (fst e))) (map (kept n' v') qs') = true <-> forall q, In q qs' -> last_check felt_ops dbg (2 ^ n') (fe_w proth_good n') coefficients q (v' q) = Some true).
  { rewrite forallb_forall. split.
    - intros A q Iq. rewrite C72_last_layer by (try exact Hd; try lia; exact (R4 q Iq)). f_equal. exact (A (kept n' v' q) (in_map _ _ _ Iq)).
    - intros A e Ie. apply in_map_iff in Ie as (q & <- & Iq). specialize (A q Iq). rewrite C72_last_layer in A by (try exact Hd; try lia; exact (R4 q Iq)). injection A as A. exact A. }
  destruct R1 as [[O ->]|[N ->]]; cbn [bind].
  - unfold held. cbn [fst snd]. destruct (forallb _ _) eqn:Ef.
    + split; [intros _; split; [exact O|apply La; reflexivity]|reflexivity].
    + split; [discriminate|]. intros [_ A]. apply La in A. discriminate A.
  - split; [discriminate|]. intros [O _]. contradiction.
Qed.
Print Assumptions C75_layers.
(** An empty layout makes the contract revert, as the library panics (both read the first entry). *)
Theorem C75_empty_layout : forall leaf_hash verify log_size fri_values eval_points coefficients queries, fold_and_check_fri_layers leaf_hash verify log_size [] fri_values eval_points coefficients queries = None.
Proof. reflexivity. Qed.
Print Assumptions C75_empty_layout.
(** A layer with cosets of more than eight values reverts. *)
Theorem C75_coset_too_large : forall leaf_hash verify log_size m layout fri_values eval_points coefficients queries, 4 <= m <= 255 -> fold_and_check_fri_layers leaf_hash verify log_size (m :: layout) fri_values eval_points coefficients queries = None.
Proof.
  intros H verify log_size m layout fri_values eval_points coefficients queries Hm. unfold fold_and_check_fri_layers. cbn [length Nat.eqb]. destruct (root _); [|reflexivity]. cbn [bind]. destruct (first_entries _ _); [|reflexivity]. cbn [bind fri_layers].
  rewrite (Z.shiftl_1_l m). assert (B : 2 ^ 4 <= 2 ^ m < 2 ^ 256) by (split; [apply Z.pow_le_mono_r; lia|apply Z.pow_lt_mono_r; lia]). assert (W : wrap (2 ^ m) = 2 ^ m) by (unfold wrap; apply Z.mod_small; lia). rewrite W. destruct (Z.ltb_spec 8 (2 ^ m)) as [_|L]; [reflexivity|]. change (2 ^ 4) with 16 in B. lia.
Qed.
Print Assumptions C75_coset_too_large.

(** ** A case: two layers, of sixteen and of four values *)
(** Any layer can be folded, with the library's folds: the hypothesis of [C75_layers] holds for queries 1, 2 and 5. *)
Example C75_ex : forall (v : nat -> Felt) c c', exists completions openings v' , folded true 4 (map (fun i => fpw felt_ops (fe_w proth_good 4) i) (seq 0 (2 ^ 4))) 4 v [1; 2; 5]%nat [(2%nat, c); (1%nat, c')] completions openings 1 v' [0]%nat.
Proof.
  intros v c c'. destruct (C72_layer true 4 _ ltac:(lia) eq_refl 2 2 v c [1; 2; 5]%nat [0; 1]%nat [] ltac:(lia) ltac:(lia)) as (v1 & F1 & _).
  - repeat constructor.
  - repeat constructor.
  - intros q Hq. cbn in Hq. change (2 ^ (2 + 2))%nat with 16%nat. lia.
  - intros i. split.
    + intros [<-|[<-|[]]]; [exists 1%nat|exists 5%nat]; (split; [cbn; tauto|reflexivity]).
    + intros (q & [<-|[<-|[<-|[]]]] & <-); cbn; tauto.
  - destruct (C72_layer true 4 _ ltac:(lia) eq_refl 1 1 v1 c' [0; 1]%nat [0]%nat [] ltac:(lia) ltac:(lia)) as (v2 & F2 & _).
    + repeat constructor.
    + repeat constructor.
    + intros q Hq. cbn in Hq. change (2 ^ (1 + 1))%nat with 4%nat. lia.
    + intros i. split; [intros [<-|[]]; exists 0%nat; split; [cbn; tauto|reflexivity]|intros (q & [<-|[<-|[]]] & <-); cbn; tauto].
    + do 2 eexists. exists v2. apply (folded_cons true 4 _ 2 2 v c [1; 2; 5]%nat [0; 1]%nat v1); [lia|repeat constructor| |exact F1|].
      * intros i. split; [intros [<-|[<-|[]]]; [exists 1%nat|exists 5%nat]; (split; [cbn; tauto|reflexivity])|intros (q & [<-|[<-|[<-|[]]]] & <-); cbn; tauto].
      * apply (folded_cons true 4 _ 1 1 v1 c' [0; 1]%nat [0]%nat v2); [lia|repeat constructor| |exact F2|apply folded_nil].
        intros i. split; [intros [<-|[]]; exists 0%nat; split; [cbn; tauto|reflexivity]|intros (q & [<-|[<-|[]]] & <-); cbn; tauto].
Qed.
