(** The prover returns a proof: prover.rs [prove] does not panic and does not stop with an error. *)
Require Import ZArith Lia Bool List Sorted Permutation.
From Verif Require Import Word U256Model U256Spec BinaryModel KnuthModel FieldSig FieldAlgModel FieldAlgProofs Arr FftModel FftSpec PermuteProofs StarkBase PolyModel PolyProps TraceModel TraceProps ExprModel ExprSpec ExprProofs ExprProps CheckProps
  HashModel MerkleModel MerkleSpec MerkleProofs MerkleTreeProofs MerkleProps ChannelModel ChannelSpec ChannelProps PowModel QueryModel QueryProps FriModel FriProps OodsModel OodsProofs OodsProps OodsSatProps OodsClaimProps DagModel DagSpec DagProps
  StarkModel StarkSpec StarkProofs StarkOpen StarkFri StarkNum StarkMain StarkTotalSpec.
Import ListNotations.
Open Scope nat_scope.

Lemma bind_runs {S E A C} (m : act S E A) (k : A -> act S E C) s a s' r : m s = Some (Good (a, s')) -> k a s' = r -> act_bind m k s = r.
Proof. intros H <-. unfold act_bind. rewrite H. reflexivity. Qed.
Lemma lift_runs {S E A} (x : option A) (s : S) a : x = Some a -> lift (E := E) x s = Some (Good (a, s)).
Proof. intros ->. reflexivity. Qed.
Lemma chan_runs {S E A} (f : S -> option (A * S)) s a s' : f s = Some (a, s') -> chan (E := E) f s = Some (Good (a, s')).
Proof. intros H. unfold chan. rewrite H. reflexivity. Qed.
Lemma iter_runs {S E A} (f : A -> act S E unit) (P : S -> Prop) l : (forall x s, In x l -> P s -> exists s', f x s = Some (Good (tt, s')) /\ P s') ->
  forall s, P s -> exists s', act_iter f l s = Some (Good (tt, s')) /\ P s'.
Proof.
  induction l as [|x l IH]; intros H s Hs; [exists s; split; [reflexivity|exact Hs]|]. destruct (H x s (or_introl eq_refl) Hs) as (s1 & E1 & P1).
  destruct (IH (fun y s' Hy => H y s' (or_intror Hy)) s1 P1) as (s2 & E2 & P2). exists s2. split; [|exact P2]. cbn [act_iter]. eapply bind_runs; [exact E1|exact E2].
Qed.

Section Total.
Context {F : Type} (o : ops F) (L : lawful o) (e : engine F) (M : nat) (w : nat -> F) (SD : sound o e M w).
Context (keccak : list Z -> list Z) (enc : F -> u256) (dec : u256 -> option F) (fuel : nat).
Context (sort_idx : list Z -> list Z) (sort_nodes : list (Z * hash) -> list (Z * hash)) (search : list Z -> Z -> option nat).
Context (kseed : F -> nat -> F) (ktrace : F -> nat -> Z -> F) (solve : challenge_ -> option Z) (orders : list (list F) -> nat -> list nat).
Context (Hcodec : codec enc dec) (Hk : forall y, is_hash (keccak y)) (Si : sorts (fun x => x) sort_idx) (Sn : sorts fst sort_nodes) (Sr : searches search).
Context (Hs : solves keccak solve) (Ho : forall leaves D, schedules (orders leaves) D).
Local Notation dbg := (edbg e).

(** ** Draws *)
Lemma draws_split m n c l c' : draw_elems e keccak dec fuel (m + n) c = Some (l, c') ->
  exists l1 c1 l2, draw_elems e keccak dec fuel m c = Some (l1, c1) /\ draw_elems e keccak dec fuel n c1 = Some (l2, c').
Proof.
  unfold draw_elems. rewrite coefficients_app. destruct (get_coefficients dbg keccak fuel c m) as [[r c1]|]; [|discriminate]. destruct (get_coefficients dbg keccak fuel c1 n) as [[r' c2]|] eqn:E2; [|discriminate].
  unfold decode_all. rewrite map_app. intros H. destruct (option_all (map dec r ++ map dec r')) as [x|] eqn:Ex; cbn [bind] in H; [|discriminate].
  assert (G : forall a b (y : list F), option_all (a ++ b) = Some y -> exists y1 y2, option_all a = Some y1 /\ option_all b = Some y2).
  { induction a as [|z a IH]; intros b y Hy; cbn [app option_all] in *; [exists [], y; auto|]. destruct z as [z|]; cbn [bind] in *; [|discriminate]. destruct (option_all (a ++ b)) as [y'|] eqn:Ea; cbn [bind] in *; [|discriminate].
    destruct (IH b y' Ea) as (y1 & y2 & -> & E'). exists (z :: y1), y2. cbn [bind]. auto. }
  destruct (G _ _ _ Ex) as (y1 & y2 & E3 & E4). exists y1, c1, y2. rewrite E3. cbn [bind]. split; [reflexivity|]. rewrite E2, E4. cbn [bind]. congruence.
Qed.
Lemma draws_less n m d : draws e keccak dec fuel n -> m <= n -> is_hash d -> exists l c, draw_elems e keccak dec fuel m (Coin d 0) = Some (l, c).
Proof. intros H Hm Hd. destruct (H d Hd) as (l & c & E). replace n with (m + (n - m)) in E by lia. apply draws_split in E as (l1 & c1 & _ & E & _). exists l1, c1. exact E. Qed.
Lemma draw_one n d : draws e keccak dec fuel n -> 1 <= n -> is_hash d -> exists x c, draw_elem e keccak dec fuel (Coin d 0) = Some (x, c).
Proof.
  intros H Hn Hd. destruct (draws_less n 1 d H Hn Hd) as (l & c & E). unfold draw_elems, draw_elem in *. cbn [get_coefficients] in E. destruct (draw_felt dbg keccak fuel (Coin d 0)) as [[x c1]|]; [|discriminate].
  unfold decode_all in E. cbn [map option_all] in E. destruct (dec x) as [y|]; cbn [bind] in *; [|discriminate]. exists y, c1. reflexivity.
Qed.

(** ** Writes *)
(** The channel after a write: its digest is a hash and its counter is zero. *)
Definition fresh (p : prover) : Prop := is_hash (digest (pcoin p)) /\ counter (pcoin p) = 0%Z.
Lemma fresh_coin p : fresh p -> pcoin p = Coin (digest (pcoin p)) 0.
Proof. intros [_ H]. destruct (pcoin p) as [d k]. cbn in *. subst k. reflexivity. Qed.
Lemma write_fresh p data : fresh (p_write keccak p data).
Proof. split; [apply Hk|reflexivity]. Qed.
Lemma enc_in_range x : in_range dbg (enc x) = Some (enc x).
Proof. apply (enc_range e enc dec Hcodec). Qed.
Lemma elem_runs x p : exists p', chan (E := perror) (w_elem e keccak enc x) p = Some (Good (tt, p')) /\ fresh p'.
Proof. exists (p_write keccak p (to_bytes_be (enc x))). split; [|apply write_fresh]. apply chan_runs. unfold w_elem, p_felt. rewrite enc_in_range. reflexivity. Qed.
Lemma elems_run l p : exists p', act_iter (fun x => chan (E := perror) (w_elem e keccak enc x)) l p = Some (Good (tt, p')) /\ (fresh p \/ l <> [] -> fresh p').
Proof.
  revert p. induction l as [|x l IH]; intros p; [exists p; split; [reflexivity|intros [H|H]; [exact H|contradiction]]|]. destruct (elem_runs x p) as (p1 & E1 & F1). destruct (IH p1) as (p2 & E2 & F2). exists p2. split; [cbn [act_iter]; eapply bind_runs; [exact E1|exact E2]|]. intros _. apply F2. left. exact F1.
Qed.
Lemma layer_runs l p : exists p', chan (E := perror) (w_layer e keccak enc l) p = Some (Good (tt, p')) /\ fresh p'.
Proof. eexists. split; [apply chan_runs; unfold w_layer, p_layer; rewrite (container_enc e enc dec Hcodec l); cbn [bind]; reflexivity|apply write_fresh]. Qed.

(** ** Trees *)
Lemma commit_runs D leaves p : D < 64 -> length leaves = 2 ^ D -> exists t, commit keccak enc orders leaves p = Some (Good (t, p)) /\ committed keccak enc orders D leaves t /\
  c_hash (t_commitment t) = merkle_root (node_of keccak) D (leaf_hashes (leaf_of keccak enc) hash_default leaves) 0.
Proof.
  intros HD HL. destruct (C36_commitment (node_of keccak) (leaf_of keccak enc) hash_default (orders leaves) leaves D 1%Z HD) as (t & Et & Ec & El); [rewrite HL, Nat2Z.inj_pow; reflexivity|lia|apply Ho|].
  exists t. assert (R : commit keccak enc orders leaves p = Some (Good (t, p))) by (unfold commit; eapply bind_runs; [apply lift_runs; exact Et|reflexivity]).
  split; [exact R|]. split; [|rewrite Ec; reflexivity]. apply (commit_good keccak enc dec orders Hcodec Hk D leaves p t p HD HL (Ho _ _) R).
Qed.
Lemma decommit_runs p D leaves t indices : committed keccak enc orders D leaves t -> Forall (fun i => 0 <= i < 2 ^ Z.of_nat D)%Z indices -> (Z.of_nat (length indices) * 64 <= 2 ^ 64)%Z ->
  exists p', write_decommitment keccak enc sort_idx t indices p = Some (Good (tt, p')).
Proof.
  intros (HD & HL & Hsch & Eb & El & L32 & Es) Fi Hlen. assert (HLZ : Z.of_nat (length leaves) = (2 ^ Z.of_nat D)%Z) by (rewrite HL, Nat2Z.inj_pow; reflexivity).
  destruct (C38_proof_size (node_of keccak) (leaf_of keccak enc) hash_default sort_idx (orders leaves) leaves D 1%Z t indices Si HD HLZ ltac:(lia) Hsch Eb Fi Hlen) as (pr & Eo & _).
  eexists. unfold write_decommitment. eapply bind_runs; [apply lift_runs; exact Eo|]. eapply bind_runs; [reflexivity|]. apply chan_runs. reflexivity.
Qed.
Lemma leaves_run p D leaves t indices : committed keccak enc orders D leaves t -> Forall (fun i => 0 <= i < 2 ^ Z.of_nat D)%Z indices ->
  exists p', write_leaves keccak enc t indices p = Some (Good (tt, p')).
Proof.
  intros (HD & HL & _ & _ & El & _) Fi. unfold write_leaves. rewrite El. destruct (iter_runs (E := perror) (fun index => do l <- lift (nth_error leaves (Z.to_nat index)); chan (w_leaf keccak enc l)) (fun _ => True) indices) with (s := p) as (p' & E & _).
  - intros i s Hi _. rewrite Forall_forall in Fi. specialize (Fi i Hi). destruct (nth_error leaves (Z.to_nat i)) as [l|] eqn:En.
    + eexists. split; [|exact I]. eapply bind_runs; [apply lift_runs; reflexivity|]. apply chan_runs. reflexivity.
    + exfalso. apply nth_error_None in En. rewrite HL, <- pow_NZ in En. apply Z2Nat.inj_le in En; lia.
  - exact I.
  - exists p'. exact E.
Qed.

(** ** FRI *)
Lemma fri_commit_runs K0 x_inv n : 1 <= K0 <= M -> fri_x_inv o e (2 ^ K0) = Some (Some x_inv) -> draws e keccak dec fuel n -> 1 <= n ->
  forall layout K p v pr, Forall (fun m => 1 <= m <= 4) layout -> list_sum layout <= K -> K <= K0 -> layer_of o w K p v ->
  exists trees final pr', fri_commit o e keccak enc dec fuel orders x_inv layout v pr = Some (Good ((trees, final), pr')).
Proof.
  intros HK0 Ex Hd Hn. pose proof (s_max _ _ _ _ SD) as HM. destruct (C44_prover F o L e M w SD K0 HK0) as (xi & Exi & HP). rewrite Ex in Exi. assert (xi = x_inv) by congruence. subst xi. clear Exi.
  induction layout as [|m layout IH]; intros K p v pr Hm HS HK Hv; [exists [], v, pr; reflexivity|].
  inversion Hm as [|? ? Hm1 Hm2]; subst. change (list_sum (m :: layout)) with (m + list_sum layout) in HS. set (K' := K - m). assert (EK : K = m + K') by (unfold K'; lia). rewrite EK in *. clearbody K'. clear EK. pose proof Hv as [Lv _].
  destruct (commit_runs K' (chunks m v) pr ltac:(lia) (chunks_length M K0 HK0 m K' v Lv)) as (t & Et & _).
  destruct (draw_one n (keccak (digest (pcoin pr) ++ c_hash (t_commitment t))) Hd Hn (Hk _)) as (x & c & Ed).
  destruct (HP m K' x p v Hm1 ltac:(lia) Hv) as (v' & Ev & Hv').
  destruct (IH K' (folds_poly o m x p) v' (Prover c (pproof (p_hash keccak pr (c_hash (t_commitment t))))) Hm2 ltac:(lia) ltac:(lia) Hv') as (trees & final & pr' & E).
  exists (FriTree t (2 ^ m) v :: trees), final, pr'. cbn [fri_commit]. eapply bind_runs; [apply lift_runs, (ushl1_small e M K0 HK0); lia|]. rewrite pow_nat.
  eapply bind_runs; [apply lift_runs, (fri_leaves_spec e M K0 HK0 m K' v Lv)|]. eapply bind_runs; [exact Et|]. eapply bind_runs; [apply chan_runs; reflexivity|].
  eapply bind_runs; [apply chan_runs; unfold p_coin, p_hash, p_write, coin_write; cbn [pcoin pproof digest]; rewrite Ed; reflexivity|]. eapply bind_runs; [apply lift_runs, Ev|]. eapply bind_runs; [exact E|]. reflexivity.
Qed.
Lemma decommit_fri_runs K0 x_inv (HK0 : 1 <= K0 <= M) layout K p v trees points Kend pend final : chain o w keccak enc orders x_inv layout K p v trees points Kend pend final ->
  forall prev pr, StronglySorted Z.le prev -> Forall (fun i => 0 <= i < 2 ^ Z.of_nat K)%Z prev -> (Z.of_nat (length prev) * 64 <= 2 ^ 64)%Z -> K <= K0 ->
  exists pr', decommit_fri e keccak enc sort_idx search trees prev pr = Some (Good (tt, pr')).
Proof.
  induction 1 as [K p v Hv|m layout K p v t x v' trees points Kend pend final Hm Hv Ct Ef Ch IH]; intros prev pr Sp Fp Lp HK; [exists pr; reflexivity|].
  cbn [decommit_fri ft_coset_size ft_tree ft_layer]. pose proof (pow2_pos m) as P2. pose proof Hv as [Lv _]. rewrite <- pow_Z'. pose proof (Z.pow_pos_nonneg 2 (Z.of_nat m) ltac:(lia) ltac:(lia)) as PZ.
  pose proof (div_sorted (2 ^ Z.of_nat m) prev PZ Sp) as Sd. destruct (dedup_props _ Sd) as (Sn' & Nd & Hin & Ld). rewrite map_length in Ld.
  set (new := dedup_by (fun x => x) (map (fun x => x / 2 ^ Z.of_nat m)%Z prev)) in *.
  assert (Fn : Forall (fun i => 0 <= i < 2 ^ Z.of_nat K)%Z new).
  { rewrite Forall_forall in *. intros i Hi. apply Hin in Hi. apply in_map_iff in Hi as (y & <- & Hy). specialize (Fp y Hy). rewrite Nat2Z.inj_add, Z.pow_add_r in Fp by lia. split; [apply Z.div_pos; lia|apply Z.div_lt_upper_bound; lia]. }
  destruct (iter_runs (E := perror) (fun i => act_iter (fun j =>
        let n := (i * 2 ^ Z.of_nat m + Z.of_nat j)%Z in
        match search prev n with
        | Some _ => ret tt
        | None => do x <- lift (nth_error v (Z.to_nat n)); chan (w_elem e keccak enc x)
        end) (seq 0 (2 ^ m))) (fun _ => True) new) with (s := pr) as (p1 & E1 & _); [|exact I|].
  { intros i s Hi _. apply iter_runs; [|exact I]. intros j s' Hj _. apply in_seq in Hj. cbv zeta. destruct (search prev _); [exists s'; split; [reflexivity|exact I]|].
    rewrite Forall_forall in Fn. specialize (Fn i Hi).
    assert (Ri : Z.to_nat i < 2 ^ K) by (rewrite <- pow_nat; apply Z2Nat.inj_lt; lia).
    assert (Ii : Z.to_nat (i * 2 ^ Z.of_nat m + Z.of_nat j) = Z.to_nat i * 2 ^ m + j) by (rewrite pow_Z'; lia).
    assert (Hlt : Z.to_nat (i * 2 ^ Z.of_nat m + Z.of_nat j) < length v) by (rewrite Ii, Lv, Nat.pow_add_r; nia).
    destruct (nth_error v (Z.to_nat (i * 2 ^ Z.of_nat m + Z.of_nat j))) as [y|] eqn:En; [|apply nth_error_None in En; lia].
    destruct (elem_runs y s') as (s2 & E2 & _). exists s2. split; [|exact I]. eapply bind_runs; [apply lift_runs; reflexivity|exact E2]. }
  destruct (decommit_runs p1 K (chunks m v) t new Ct Fn ltac:(lia)) as (p2 & E2).
  destruct (IH new p2 Sn' Fn ltac:(lia) ltac:(lia)) as (p3 & E3). exists p3.
  eapply bind_runs; [apply lift_runs, (udiv_all M K0 HK0)|]. cbv zeta. fold new. eapply bind_runs; [exact E1|]. eapply bind_runs; [exact E2|]. exact E3.
Qed.

(** ** Constraint systems without claim polynomials *)
Lemma args_total : forall ex : rexpr F, no_claims ex -> forall s, exists l, trace_arguments_impl ex s = Some l.
Proof.
  induction ex; intros H s; cbn [no_claims trace_arguments_impl] in *; try (eexists; reflexivity); try contradiction; try (apply IHex; exact H).
  all: destruct H as [H1 H2]; destruct (IHex1 H1 s) as (s1 & ->); apply IHex2; exact H2.
Qed.
Lemma c_args_total (c : constraints (F := F)) : (forall ex, In ex (c_exprs c) -> no_claims ex) -> exists args, c_trace_arguments c = Some args.
Proof.
  intros H. unfold c_trace_arguments. assert (G : exists l, option_all (map trace_arguments (c_exprs c)) = Some l); [|destruct G as (l & ->); eexists; reflexivity].
  revert H. induction (c_exprs c) as [|x l IH]; intros H; [exists []; reflexivity|]. destruct (args_total x (H x (or_introl eq_refl)) []) as (a & Ea). destruct (IH (fun y Hy => H y (or_intror Hy))) as (l' & El).
  exists (a :: l'). cbn [map option_all]. unfold trace_arguments at 1. rewrite Ea. cbn [bind]. rewrite El. reflexivity.
Qed.
Lemma leaves_total k b ps ldes : ps <> [] ->
  Forall2 (fun p v => length v = 2 ^ (k + b) /\ forall i, i < 2 ^ (k + b) -> nth i v (f0 o) = peval o p (fmul o (egen e) (fpw o (w (k + b)) (rev_bits (k + b) i)))) ps ldes ->
  lde_leaves ldes = Some (evaluations o e w k b ps).
Proof.
  intros N H. assert (G : exists l, lde_leaves ldes = Some l); [|destruct G as (l & El); rewrite El; f_equal; apply (leaves_spec o e w k b ps ldes l N H El)].
  unfold lde_leaves. destruct H as [|p v ps ldes Hp H]; [contradiction|]. destruct Hp as [Lv Hv]. rewrite Lv.
  assert (A : forall i, i < 2 ^ (k + b) -> exists l, option_all (map (fun l => nth_error l i) (v :: ldes)) = Some l).
  { intros i Hi. assert (A : Forall (fun l : list F => length l = 2 ^ (k + b)) (v :: ldes)). { constructor; [exact Lv|]. clear - H. induction H as [|? ? ? ? [? _]]; constructor; assumption. }
    clear - A Hi. induction A as [|l ls Ll A IH]; [exists []; reflexivity|]. destruct IH as (r & Er). cbn [map option_all]. destruct (nth_error l i) as [x|] eqn:En; [|apply nth_error_None in En; lia]. cbn [bind]. rewrite Er. eexists; reflexivity. }
  assert (A' : forall i, In i (seq 0 (2 ^ (k + b))) -> exists l, option_all (map (fun l => nth_error l i) (v :: ldes)) = Some l) by (intros i Hi; apply in_seq in Hi; apply A; lia).
  clear A Hv H. induction (seq 0 (2 ^ (k + b))) as [|i l IH]; [exists []; reflexivity|]. destruct (A' i (or_introl eq_refl)) as (x & Ex). destruct (IH (fun j Hj => A' j (or_intror Hj))) as (y & Ey). exists (x :: y). change (map (fun i => option_all (map (fun l0 => nth_error l0 i) (v :: ldes))) (i :: l)) with (option_all (map (fun l0 => nth_error l0 i) (v :: ldes)) :: map (fun i => option_all (map (fun l0 => nth_error l0 i) (v :: ldes))) l). cbn [option_all]. rewrite Ex. cbn [bind]. rewrite Ey. reflexivity.
Qed.
Lemma trace_values_total k tp args z : k <= M -> tp <> [] -> Forall (fun p => length p = 2 ^ k) tp -> (forall i j, In (i, j) args -> i < length tp /\ (- 2 ^ 63 < j < 2 ^ 63)%Z) ->
  exists tv, oods_trace_values o e tp args z = Some tv.
Proof.
  intros HkM Nt Htp Ha. unfold oods_trace_values. assert (Eg : oods_root e tp = Some (w k)). { destruct tp as [|p tp]; [contradiction|]. cbn [oods_root]. inversion Htp as [|? ? H1 H2]; subst. rewrite H1, (s_root _ _ _ _ SD k HkM). reflexivity. }
  rewrite Eg. cbn [bind]. induction args as [|[i j] args IH]; [exists []; reflexivity|]. destruct (IH (fun i' j' H => Ha i' j' (or_intror H))) as (tv & Etv). destruct (Ha i j (or_introl eq_refl)) as [Hi Hj]. cbn [map option_all fst snd].
  destruct (nth_error tp i) as [p|] eqn:En; [|apply nth_error_None in En; lia]. cbn [bind]. rewrite (pow_offset_spec o L e M w SD dbg k j HkM Hj). cbn [bind]. rewrite Etv. eexists; reflexivity.
Qed.

(** ** The prover *)
Theorem prover_total k b a t claims c n seed : proves_with o e M w k b a t claims c -> enough o a claims c n -> draws e keccak dec fuel n -> solvable solve (c_pow_bits c) ->
  lucky o e w keccak enc dec fuel kseed ktrace k b a t claims c seed ->
  exists proof cs z, transcript o e keccak enc dec sort_idx search fuel kseed ktrace solve orders c claims seed t = Some (Good (proof, (cs, z))) /\ good_with o e w kseed ktrace k a t claims c cs.
Proof.
  intros [Hm (Sh & HR & HC) (Hn & Hcol) (Hb & Hab) (Dg & ED & HD & HDl) HU (c' & Esb & Hch & Hex) (Nl & Fl & Sl) Hq Hg] (N1 & N2 & N3) Hdraw (Hbits & Hsolve) Hl.
  pose proof (s_max _ _ _ _ SD) as HM. rewrite HR in Hn. assert (Hk1 : 1 <= k). { destruct (c_fri c) as [|m l]; [contradiction|]. inversion Fl; subst. change (list_sum (m :: l)) with (m + list_sum l) in Sl. lia. }
  assert (Eb : Z.to_nat (c_blowup c) = 2 ^ b) by (rewrite Hb; apply Nat2Z.id).
  assert (G : exists cs z pf, prove_channel o e keccak enc dec sort_idx search fuel kseed ktrace solve orders c claims t (prover_new keccak seed) = Some (Good ((cs, z), pf)) /\ good_with o e w kseed ktrace k a t claims c cs).
  2: { destruct G as (cs & z & pf & E & GC). exists (pproof pf), cs, z. split; [|exact GC]. unfold transcript. rewrite E. reflexivity. }
  (* trace polynomials *)
  destruct (C46_interpolate F o L e M w SD t k Sh ltac:(lia) HR) as (tp & Ei & Lps & _ & Hps).
  assert (Htp : Forall (fun p => length p = 2 ^ k) tp). { apply Forall_forall. intros x Hx. apply In_nth_error in Hx as (j & Hj). assert (Hlt : j < length tp) by (apply nth_error_Some; congruence). rewrite Lps in Hlt. destruct (Hps j Hlt) as (p' & Ep & Lp & _). rewrite Hj in Ep. injection Ep as <-. exact Lp. }
  assert (Nt : tp <> []) by (destruct tp; [cbn in Lps; lia|discriminate]).
  destruct (ldes_spec o L e M w SD k b tp Hm Htp) as (ldes & El & Ll & Fld). pose proof (leaves_total k b tp ldes Nt Fld) as Elv.
  destruct (commit_runs (k + b) (evaluations o e w k b tp) (prover_new keccak seed) ltac:(lia)) as (tree & Et & Ct & Er); [unfold evaluations; rewrite map_length, seq_length; reflexivity|].
  set (q1 := p_hash keccak (prover_new keccak seed) (c_hash (t_commitment tree))).
  assert (Ec1 : pcoin q1 = Coin (keccak (keccak seed ++ trace_root o e w keccak enc k b tp)) 0) by (unfold trace_root; rewrite <- Er; reflexivity).
  destruct (draws_less n (2 * length (c_exprs c)) (keccak (keccak seed ++ trace_root o e w keccak enc k b tp)) Hdraw N2 (Hk _)) as (cs & c1 & Ed1).
  pose proof (Hl tp cs c1 Ei Ed1) as GC. pose proof GC as (E0 & E & Ec & EE & HRV & HNC). set (q2 := Prover c1 (pproof q1)).
  assert (D1 : p_coin (draw_elems e keccak dec fuel (2 * length (c_exprs c))) q1 = Some (cs, q2)) by (unfold p_coin; rewrite Ec1, Ed1; reflexivity).
  (* constraint polynomials *)
  assert (Hc : forall ex, In ex (c_exprs c') -> refers_within t ex /\ (forall i j, refers ex i j -> (j < 2 ^ 63)%Z) /\ exists rows, selects o (w k) k tp ex rows).
  { intros ex Hin. destruct (Hex ex Hin) as (A2 & A3 & A4). split; [exact A2|]. split; [exact A3|]. apply A4, Ei. }
  assert (NCl : forall ex, In ex (c_exprs c') -> no_claims ex) by (intros ex Hin; destruct (Hc ex Hin) as (_ & _ & rows & Fr & _); apply frac_no_claims, Fr).
  destruct (c_args_total c' NCl) as (args & Ea). specialize (N3 c' args Esb Ea).
  destruct (C54_completeness_claims F o L e M w SD dbg k b a t tp ldes claims c c' cs E0 args Dg Hm Hab Sh HR HC Hn Hg Ei Esb Hch HU Hc ED HD Ec Ea El) as (ct & E' & values & Hp & Ect & EE' & Ev & EH & LH & FH & _).
  rewrite EE in EE'. assert (E' = E) by congruence. subst E'. clear EE'.
  destruct (extract_spec o L e M w SD k b a tp ldes Hm Hab Nt Htp El) as (ct' & Ext & ERc & ECc & HT). rewrite Ect in Ext. assert (ct' = ct) by congruence. subst ct'. clear Ext.
  assert (UE : usizes E) by (apply (substitute_usizes o claims E0 E EE), (combine_usizes o c cs E0 Ec); intros ex Hin; apply (HU ex Hin)).
  assert (Egv : graph_values o e kseed ktrace JOB (egen e) ct (2 ^ a) E = Some values).
  { apply (C43_prover F o L e M w SD kseed ktrace (k + a) ct (2 ^ a) E values ltac:(lia) ERc UE); [intros i j R|exact HRV|apply (HNC tp ct Ei); split; [exact ERc|split; [exact ECc|exact HT]]|exact Ev].
    apply (substitute_refers o claims i j E0 E EE) in R. pose proof (proj1 (substitute_args o claims c c' args i j Esb Ea) (combine_refers o true c cs E0 i j Ec R)) as R'. apply (proj2 (c_trace_arguments_spec c' args Ea)) in R' as (ex & X1 & X2). destruct (Hc ex X1) as (W & _). destruct (W i j X2) as (_ & W' & _). rewrite HR in W'. rewrite ERc, Nat.pow_add_r, Nat2Z.inj_mul. pose proof (pow2_pos a). nia. }
  assert (Eg : get_constraint_polynomials o e kseed ktrace ldes c claims cs (2 ^ k) = Some (c', Hp)).
  { unfold get_constraint_polynomials. assert (EDd : c_degree o dbg c = Some Dg) by (destruct dbg; [exact ED|apply c_degree_rel, ED]).
    assert (Eun : unext e Dg = Some (2 ^ Z.of_nat a)%Z) by (apply least_power; [lia|exact HD|exact HDl]).
    assert (Ecb : combine o dbg c cs = Some E0) by (destruct dbg; [exact Ec|apply combine_rel, Ec]).
    rewrite EDd. cbn [bind]. rewrite Eun. cbn [bind]. rewrite <- pow_ZN, umul_pow by lia. cbn [bind]. rewrite <- (pow_ZN (k + a)), !Nat2Z.id, Ect. cbn [bind]. rewrite Ecb. cbn [bind]. rewrite EE. cbn [bind]. rewrite Esb. cbn [bind]. rewrite Egv. cbn [bind]. rewrite EH. reflexivity. }
  assert (NH : Hp <> []) by (pose proof (pow2_pos a); destruct Hp; [cbn in LH; lia|discriminate]).
  destruct (ldes_spec o L e M w SD k b Hp Hm FH) as (cldes & Ecl & Lcl & Fcl). pose proof (leaves_total k b Hp cldes NH Fcl) as Elcv.
  destruct (commit_runs (k + b) (evaluations o e w k b Hp) q2 ltac:(lia)) as (c_tree & Ect2 & Cc & _); [unfold evaluations; rewrite map_length, seq_length; reflexivity|].
  set (q3 := p_hash keccak q2 (c_hash (t_commitment c_tree))). pose proof (write_fresh q2 (c_hash (t_commitment c_tree))) as F3. change (p_write keccak q2 (c_hash (t_commitment c_tree))) with q3 in F3.
  (* the sample point *)
  destruct (draw_one n (digest (pcoin q3)) Hdraw N1 (proj1 F3)) as (z & c4 & Ed4). set (q4 := Prover c4 (pproof q3)).
  assert (D2 : p_coin (draw_elem e keccak dec fuel) q3 = Some (z, q4)) by (unfold p_coin; rewrite (fresh_coin q3 F3), Ed4; reflexivity).
  pose proof (c_trace_arguments_spec c' args Ea) as [Sa Ia].
  assert (Ha : forall i j, In (i, j) args -> i < length tp /\ (- 2 ^ 63 < j < 2 ^ 63)%Z). { intros i j Hin. apply Ia in Hin as (ex & X1 & X2). destruct (Hc ex X1) as (W & J & _). specialize (W i j X2). specialize (J i j X2). rewrite Lps. lia. }
  destruct (trace_values_total k tp args z ltac:(lia) Nt Htp Ha) as (tv & Etv).
  destruct (elems_run tv q4) as (q5 & W5 & _). destruct (elems_run (oods_constraint_values o Hp z) q5) as (q6 & W6 & F6).
  assert (Fr6 : fresh q6) by (apply F6; right; unfold oods_constraint_values; destruct Hp; [contradiction|discriminate]). clear F6.
  destruct (draws_less n (length args + length Hp) (digest (pcoin q6)) Hdraw ltac:(lia) (proj1 Fr6)) as (l7 & c8 & Ed7). apply draws_split in Ed7 as (tc & c7 & cc & Ed7 & Ed8).
  pose proof (draw_elems_length e keccak dec fuel _ _ _ _ Ed7) as Ltc. pose proof (draw_elems_length e keccak dec fuel _ _ _ _ Ed8) as Lcc.
  set (q7 := Prover c7 (pproof q6)). set (q8 := Prover c8 (pproof q7)).
  assert (D3 : p_coin (draw_elems e keccak dec fuel (length args)) q6 = Some (tc, q7)) by (unfold p_coin; rewrite (fresh_coin q6 Fr6), Ed7; reflexivity).
  assert (D4 : p_coin (draw_elems e keccak dec fuel (length Hp)) q7 = Some (cc, q8)) by (unfold p_coin; cbn [q7 pcoin]; rewrite Ed8; reflexivity).
  assert (LHB : (Z.of_nat (length Hp) < 2 ^ 64)%Z) by (rewrite LH, pow_ZN; apply Z.pow_lt_mono_r; lia).
  destruct (C54_quotient F o L e M w SD k tp args Hp z tv tc cc ltac:(lia) Nt Htp FH LHB Sa Ha Etv Ltc Lcc) as (P & EP & LP & _).
  destruct (lde_spec o L e M w SD k b P Hm LP) as (v & Elf & _). destruct (first_layer o L e M w SD k b P v Hm LP Elf) as (Lv & _ & Q & LQ & HQ).
  (* FRI *)
  destruct (C44_prover F o L e M w SD (k + b) ltac:(lia)) as (x_inv & Exi & _).
  destruct (fri_commit_runs (k + b) x_inv n ltac:(lia) Exi Hdraw N1 (c_fri c) (k + b) Q v q8 Fl ltac:(lia) ltac:(lia) HQ) as (trees & final & q9 & Efc).
  destruct (fri_commit_follows o L e M w SD keccak enc dec fuel orders Hcodec Hk Ho (k + b) ltac:(lia) x_inv Exi (c_fri c) (k + b) Q v q8 trees final q9 Fl ltac:(lia) ltac:(lia) HQ Efc) as (xs & Kend & pend & Ch & EK & _).
  set (d := k - list_sum (c_fri c)). assert (EKe : Kend = d + b) by (unfold d; lia).
  destruct (chain_end o L M w keccak enc orders (k + b) ltac:(lia) x_inv (c_fri c) (k + b) Q v trees xs Kend pend final Ch d) as (Hlast & Lpend & _); [rewrite LQ; f_equal; unfold d; lia|]. rewrite EKe in *.
  destruct (C44_last_layer F o L e M w SD d b pend final ltac:(lia) Lpend Hlast) as (Ell & _).
  destruct (layer_runs pend q9) as (q10 & W10 & F10).
  assert (Efri : perform_fri_layering o e keccak enc dec fuel orders v (c_fri c) (2 ^ b) q8 = Some (Good (trees, q10))).
  { unfold perform_fri_layering. rewrite Lv. eapply bind_runs; [apply lift_runs, Exi|]. eapply bind_runs; [exact Efc|]. cbn [fst snd]. eapply bind_runs; [apply lift_runs, Ell|]. eapply bind_runs; [exact W10|]. reflexivity. }
  (* proof of work *)
  set (s := digest (pcoin q10)). set (q11 := Prover (Coin s 1) (pproof q10)).
  assert (D5 : p_coin (draw_seed dbg) q10 = Some (s, q11)) by (unfold p_coin; rewrite (fresh_coin q10 F10); reflexivity).
  set (ch := Challenge (keccak ([0x01; 0x23; 0x45; 0x67; 0x89; 0xab; 0xcd; 0xed]%Z ++ s ++ [c_pow_bits c])) (c_pow_bits c)).
  assert (Edf : with_difficulty keccak s (c_pow_bits c) = Some ch). { unfold with_difficulty. destruct (Z.leb_spec 0 (c_pow_bits c)); [|lia]. destruct (Z.ltb_spec (c_pow_bits c) 256); [|lia]. reflexivity. }
  destruct (Hsolve _ (Hk ([0x01; 0x23; 0x45; 0x67; 0x89; 0xab; 0xcd; 0xed]%Z ++ s ++ [c_pow_bits c]))) as (nonce & Eso). fold ch in Eso. destruct (Hs ch nonce Eso) as [_ Hpow].
  set (q12 := p_nonce keccak q11 nonce).
  (* queries *)
  set (num := Z.to_nat (c_queries c)).
  destruct (C45_indices dbg keccak sort_idx sort_idx (2 ^ Z.of_nat (k + b)) (digest (pcoin q12)) 0 num (Z.of_nat (k + b)) Hk Si Si ltac:(lia) eq_refl ltac:(lia)) as (Eb1 & _ & queries & Ep & _ & Ll' & Sl' & Fl' & _).
  { assert ((num + 3) / 4 <= num + 3) by (apply Nat.div_le_upper_bound; lia). assert (Z.of_nat num <= 2 ^ 58)%Z by (unfold num; lia). lia. }
  assert (HQl : (Z.of_nat (length queries) * 64 <= 2 ^ 64)%Z) by (rewrite Ll'; unfold num; lia).
  set (q13 := Prover (Coin (digest (pcoin q12)) (0 + Z.of_nat ((num + 3) / 4))) (pproof q12)).
  assert (D6 : p_coin (p_get_indices dbg keccak sort_idx num (Z.of_nat (k + b))) q12 = Some (queries, q13)) by (unfold p_coin; change (pcoin q12) with (Coin (digest (pcoin q12)) 0); rewrite Ep; reflexivity).
  destruct (leaves_run q13 (k + b) _ tree queries Ct Fl') as (q14 & W14). destruct (decommit_runs q14 (k + b) _ tree queries Ct Fl' HQl) as (q15 & W15).
  destruct (leaves_run q15 (k + b) _ c_tree queries Cc Fl') as (q16 & W16). destruct (decommit_runs q16 (k + b) _ c_tree queries Cc Fl' HQl) as (q17 & W17).
  destruct (decommit_fri_runs (k + b) x_inv ltac:(lia) _ _ _ _ _ _ _ _ _ Ch queries q17 Sl' Fl' HQl ltac:(lia)) as (q18 & W18).
  (* the run *)
  exists cs, z, q18. split; [|exact GC]. unfold prove_channel. rewrite Eb, HR.
  eapply bind_runs; [apply lift_runs, Ei|]. eapply bind_runs; [apply lift_runs, El|]. eapply bind_runs; [apply lift_runs, Elv|]. eapply bind_runs; [exact Et|].
  eapply bind_runs; [apply chan_runs; reflexivity|]. eapply bind_runs; [apply chan_runs, D1|]. eapply bind_runs; [apply lift_runs, Eg|]. cbv beta iota.
  eapply bind_runs; [apply lift_runs, Ecl|]. eapply bind_runs; [apply lift_runs, Elcv|]. eapply bind_runs; [exact Ect2|]. eapply bind_runs; [apply chan_runs; reflexivity|]. eapply bind_runs; [apply lift_runs, Ea|].
  eapply bind_runs.
  { unfold oods_combine. eapply bind_runs; [apply chan_runs, D2|]. eapply bind_runs; [apply lift_runs, Etv|]. eapply bind_runs; [exact W5|]. eapply bind_runs; [exact W6|].
    eapply bind_runs; [apply chan_runs, D3|]. eapply bind_runs; [apply chan_runs, D4|]. eapply bind_runs; [apply lift_runs, EP|]. reflexivity. }
  cbv beta iota. eapply bind_runs; [apply lift_runs, Elf|]. eapply bind_runs; [exact Efri|].
  eapply bind_runs; [apply chan_runs, D5|]. eapply bind_runs; [apply lift_runs, Edf|]. eapply bind_runs; [apply lift_runs, Eso|].
  eapply bind_runs; [apply lift_runs; unfold dassert; rewrite Hpow, andb_false_r; reflexivity|]. eapply bind_runs; [apply chan_runs; reflexivity|].
  eapply bind_runs; [apply lift_runs; rewrite Hb; apply umul_pow; lia|]. eapply bind_runs; [apply lift_runs, Eb1|]. eapply bind_runs; [apply chan_runs, D6|].
  eapply bind_runs; [exact W14|]. eapply bind_runs; [exact W15|]. eapply bind_runs; [exact W16|]. eapply bind_runs; [exact W17|]. eapply bind_runs; [exact W18|]. reflexivity.
Qed.
End Total.
