(** The verifier on a proof written by the prover: the whole of verifier.rs [verify] after prover.rs [prove]. *)
Require Import ZArith Lia Bool List Sorted Permutation.
From Verif Require Import Word U256Model U256Spec BinaryModel KnuthModel FieldSig FieldAlgModel FieldAlgProofs Arr FftModel FftSpec PermuteProofs StarkBase PolyModel PolyProps TraceModel TraceProps ExprModel ExprSpec ExprProofs ExprProps CheckProps
  HashModel MerkleModel MerkleSpec MerkleProofs MerkleTreeProofs MerkleProps ChannelModel ChannelSpec ChannelProps PowModel QueryModel QueryProps FriModel FriProps OodsModel OodsProofs OodsProps OodsSatProps OodsClaimProps DagModel DagSpec DagProps
  StarkModel StarkSpec StarkProofs StarkOpen StarkFri StarkNum.
Import ListNotations.
Open Scope nat_scope.

(** ** The end of the proof *)
(** The prover goes from [p] to [pf]. What it writes is accepted by [m]; with more after it [m] stops with the error
    ProofTooLong, and with less it panics. *)
Definition leads (s : bool) (p pf : prover) (m : act verifier verror unit) : Prop :=
  exists data, pproof pf = pproof p ++ data /\
    (forall v, sync s p v data -> exists v', m v = Some (Good (tt, v'))) /\
    (forall v rest, rest <> [] -> sync s p v (data ++ rest) -> m v = Some (Bad ProofTooLong)) /\
    (forall v short cut, data = short ++ cut -> cut <> [] -> sync s p v short -> m v = None).
Lemma leads_step s s' p q pf {A} (m : act verifier verror A) a (k : A -> act verifier verror unit) : follows s s' p q m a -> leads s' q pf (k a) -> leads s p pf (act_bind m k).
Proof.
  intros (d1 & E1 & H1 & T1) (d2 & E2 & H2 & B2 & T2). exists (d1 ++ d2). split; [rewrite E2, E1, app_assoc; reflexivity|]. split; [|split].
  - intros v S. destruct (H1 v d2 S) as (v1 & R1 & S1). destruct (H2 v1 S1) as (v2 & R2). exists v2. unfold act_bind. rewrite R1. exact R2.
  - intros v rest N S. rewrite <- app_assoc in S. destruct (H1 v _ S) as (v1 & R1 & S1). unfold act_bind. rewrite R1. apply (B2 v1 rest N S1).
  - intros v short cut E N S. unfold act_bind. destruct (split_prefix d1 d2 short cut E N) as [(c' & -> & N')|(s1 & -> & ->)].
    + rewrite (T1 v short c' eq_refl N' S). reflexivity.
    + destruct (H1 v s1 S) as (v1 & R1 & S1). rewrite R1. apply (T2 v1 s1 cut eq_refl N S1).
Qed.
Lemma leads_end s p (m : act verifier verror unit) : (forall v, m v = Some (Good (tt, v))) ->
  leads s p p (do ended <- (fun v => Some (Good (at_end v, v))); if negb ended then fail ProofTooLong else m).
Proof.
  intros H. exists []. rewrite app_nil_r. split; [reflexivity|]. unfold act_bind, at_end. split; [|split].
  - intros v (_ & E & I). rewrite app_nil_r in E. rewrite I, E, Nat.eqb_refl. cbn [negb]. eexists. apply H.
  - intros v rest N (_ & E & I). rewrite I, E. cbn [app]. rewrite app_length. destruct (Nat.eqb_spec (length (pproof p)) (length (pproof p) + length rest)) as [X|_]; [destruct rest; [contradiction|cbn in X; lia]|]. reflexivity.
  - intros v short cut E N. destruct short; destruct cut; try discriminate E. contradiction.
Qed.

Section Protocol.
Context {F : Type} (o : ops F) (L : lawful o) (e : engine F) (M : nat) (w : nat -> F) (SD : sound o e M w).
Context (keccak : list Z -> list Z) (enc : F -> u256) (dec : u256 -> option F) (fuel : nat).
Context (sort_idx : list Z -> list Z) (sort_nodes : list (Z * hash) -> list (Z * hash)) (search : list Z -> Z -> option nat).
Context (kseed : F -> nat -> F) (ktrace : F -> nat -> Z -> F) (solve : challenge_ -> option Z) (orders : list (list F) -> nat -> list nat).
Context (Hcodec : codec enc dec) (Hk : forall y, is_hash (keccak y)) (Si : sorts (fun x => x) sort_idx) (Sn : sorts fst sort_nodes) (Sr : searches search).
Context (Hs : solves keccak solve) (Ho : forall leaves D, schedules (orders leaves) D).
Local Notation dbg := (edbg e).

(** ** Low degree extensions *)
Lemma ldes_spec k b ps : k + b <= M -> Forall (fun p => length p = 2 ^ k) ps -> exists ldes, option_all (map (fun p => low_degree_extension o e p (2 ^ b)) ps) = Some ldes /\ length ldes = length ps /\
  Forall2 (fun p v => length v = 2 ^ (k + b) /\ forall i, i < 2 ^ (k + b) -> nth i v (f0 o) = peval o p (fmul o (egen e) (fpw o (w (k + b)) (rev_bits (k + b) i)))) ps ldes.
Proof.
  intros Hm. induction 1 as [|p ps Hp Hps IH]; [exists []; repeat split; constructor|]. destruct IH as (ldes & E & Ll & Fl). destruct (lde_spec o L e M w SD k b p Hm Hp) as (v & Ev & Lv & Hv).
  exists (v :: ldes). cbn [map option_all]. rewrite Ev. cbn [bind]. rewrite E. split; [reflexivity|]. split; [cbn; rewrite Ll; reflexivity|]. constructor; [split; assumption|exact Fl].
Qed.
Definition row_at (k b : nat) (ps : list (list F)) (i : nat) : list F := map (fun p => peval o p (fmul o (egen e) (fpw o (w (k + b)) (rev_bits (k + b) i)))) ps.
Lemma leaves_spec k b ps ldes leaves : ps <> [] ->
  Forall2 (fun p v => length v = 2 ^ (k + b) /\ forall i, i < 2 ^ (k + b) -> nth i v (f0 o) = peval o p (fmul o (egen e) (fpw o (w (k + b)) (rev_bits (k + b) i)))) ps ldes ->
  lde_leaves ldes = Some leaves -> leaves = map (row_at k b ps) (seq 0 (2 ^ (k + b))).
Proof.
  intros N H. unfold lde_leaves. destruct H as [|p v ps ldes Hp H]; [contradiction|]. destruct Hp as [Lv Hv]. rewrite Lv. intros E.
  assert (X : option_all (map (fun i => option_all (map (fun l => nth_error l i) (v :: ldes))) (seq 0 (2 ^ (k + b)))) = Some (map (row_at k b (p :: ps)) (seq 0 (2 ^ (k + b))))); [|congruence].
  clear E N. assert (G : forall i, i < 2 ^ (k + b) -> option_all (map (fun l => nth_error l i) (v :: ldes)) = Some (row_at k b (p :: ps) i)).
  { intros i Hi. cbn [map option_all row_at]. rewrite (nth_error_nth' v (f0 o)) by (rewrite Lv; exact Hi). cbn [bind]. rewrite Hv by exact Hi.
    assert (G : option_all (map (fun l => nth_error l i) ldes) = Some (row_at k b ps i)); [|rewrite G; reflexivity].
    clear - H Hi. induction H as [|p' v' ps' ldes' [Lv' Hv'] H' IH']; [reflexivity|]. cbn [map option_all row_at]. rewrite (nth_error_nth' v' (f0 o)) by (rewrite Lv'; exact Hi). cbn [bind]. rewrite Hv' by exact Hi. rewrite IH'. reflexivity. }
  apply option_all_map. intros i Hi. apply in_seq in Hi. apply G. lia.
Qed.
Lemma leaves_nth k b ps i : i < 2 ^ (k + b) -> nth_error (map (row_at k b ps) (seq 0 (2 ^ (k + b)))) i = Some (row_at k b ps i).
Proof. intros Hi. apply map_nth_error. rewrite (nth_error_nth' _ 0) by (rewrite seq_length; exact Hi). rewrite seq_nth by exact Hi. reflexivity. Qed.
Lemma first_layer k b p v : k + b <= M -> length p = 2 ^ k -> low_degree_extension o e p (2 ^ b) = Some v ->
  length v = 2 ^ (k + b) /\ (forall i, i < 2 ^ (k + b) -> nth i v (f0 o) = peval o p (fmul o (egen e) (fpw o (w (k + b)) (rev_bits (k + b) i)))) /\ exists q, length q = 2 ^ k /\ layer_of o w (k + b) q v.
Proof.
  intros Hm Lp E. destruct (lde_spec o L e M w SD k b p Hm Lp) as (v' & Ev & Lv & Hv). rewrite E in Ev. assert (v' = v) by congruence. subst v'. split; [exact Lv|]. split; [exact Hv|].
  destruct (shift_eval o L (egen e) p) as (q & Lq & Hq). exists q. split; [congruence|]. split; [exact Lv|]. intros i Hi. rewrite Hv, Hq by exact Hi. reflexivity.
Qed.

(** ** Without claim polynomials *)
Lemma proves_none k b a t c : proves o e M w k b a t c -> proves_with o e M w k b a t [] c.
Proof.
  intros [H1 H2 H3 H4 H5 H6 H7 H8 H9 H10]. constructor; try assumption.
  - intros ex Hin. destruct (H6 ex Hin) as (U & _ & _ & Hsel). split; [exact U|]. destruct H2 as (Sh & HR & _). destruct (C46_interpolate F o L e M w SD t k Sh ltac:(lia) HR) as (tp & Ei & _). destruct (Hsel tp Ei) as (rows & Fr & _). eapply Forall_impl; [|apply Fr]. apply free_no_claims.
  - exists c. split; [reflexivity|]. split; [exact H7|]. intros ex Hin. destruct (H6 ex Hin) as (_ & A & B & C). auto.
Qed.
Lemma good_none k b a t c cs : proves o e M w k b a t c -> good_coefficients o e w kseed ktrace k a t c cs <-> good_with o e w kseed ktrace k a t [] c cs.
Proof.
  intros [H1 (Sh & HR & _) H3 H4 H5 H6 H7 H8 H9 H10]. destruct (C46_interpolate F o L e M w SD t k Sh ltac:(lia) HR) as (tp & Ei & _).
  assert (G : forall E, combine o true c cs = Some E -> substitute_claim o [] E = Some E). { intros E Ec. apply no_claims_sub, (combine_no_claims o c cs E Ec). intros ex Hin. destruct (H6 ex Hin) as (_ & _ & _ & Hsel). destruct (Hsel tp Ei) as (rows & Fr & _). apply frac_no_claims, Fr. }
  split; [intros (E & Ec & H); exists E, E; split; [exact Ec|]; split; [apply G, Ec|exact H]|]. intros (E0 & E & Ec & Es & H). rewrite (G E0 Ec) in Es. exists E0. split; [exact Ec|]. replace E0 with E by congruence. exact H.
Qed.

(** ** The verifier follows the prover *)
Theorem honest k b a t claims c p pf cs z : proves_with o e M w k b a t claims c ->
  prove_channel o e keccak enc dec sort_idx search fuel kseed ktrace solve orders c claims t p = Some (Good ((cs, z), pf)) ->
  good_with o e w kseed ktrace k a t claims c cs -> good_sample o e w k b a z ->
  leads true p pf (verify_channel o e keccak enc dec sort_idx sort_nodes search fuel c claims).
Proof.
  intros [Hm (Sh & HR & HC) (Hn & Hcol) (Hb & Hab) (Dg & ED & HD & HDl) HU (c1 & Esb & Hch & Hex) (Nl & Fl & Sl) Hq Hg] H (E0 & E & Ec & EE & HRV & HNC) (Hz1 & Hz2).
  pose proof (s_max _ _ _ _ SD) as HM. rewrite HR in Hn. assert (Hk1 : 1 <= k). { destruct (c_fri c) as [|m l]; [contradiction|]. inversion Fl; subst. change (list_sum (m :: l)) with (m + list_sum l) in Sl. lia. }
  assert (Eb : Z.to_nat (c_blowup c) = 2 ^ b) by (rewrite Hb; apply Nat2Z.id).
  unfold prove_channel in H. rewrite Eb, HR in H.
  (* trace polynomials *)
  apply bind_good in H as (tp & q & H1 & H). apply lift_good in H1 as [Ei ->].
  destruct (C46_interpolate F o L e M w SD t k Sh ltac:(lia) HR) as (ps & Eps & Lps & _ & Hps). rewrite Ei in Eps. assert (ps = tp) by congruence. subst ps.
  assert (Htp : Forall (fun p => length p = 2 ^ k) tp). { apply Forall_forall. intros x Hx. apply In_nth_error in Hx as (j & Hj). assert (Hlt : j < length tp) by (apply nth_error_Some; congruence). rewrite Lps in Hlt. destruct (Hps j Hlt) as (p' & Ep & Lp & _). rewrite Hj in Ep. injection Ep as <-. exact Lp. }
  assert (Nt : tp <> []) by (destruct tp; [cbn in Lps; lia|discriminate]).
  apply bind_good in H as (ldes & q & H1 & H). apply lift_good in H1 as [El ->].
  destruct (ldes_spec k b tp Hm Htp) as (ldes' & El' & Ll & Fld). rewrite El in El'. assert (ldes' = ldes) by congruence. subst ldes'. clear El'.
  apply bind_good in H as (leaves & q & H1 & H). apply lift_good in H1 as [Elv ->]. apply (leaves_spec k b tp ldes leaves Nt Fld) in Elv. subst leaves.
  apply bind_good in H as (tree & q & H1 & H). apply (commit_good keccak enc dec orders Hcodec Hk (k + b)) in H1 as [-> Ct]; [|lia|rewrite map_length, seq_length; reflexivity|apply Ho].
  apply bind_good in H as ([] & q1 & W1 & H). apply chan_good in W1. apply bind_good in H as (cs' & q2 & D1 & H). apply chan_good in D1.
  (* constraint polynomials *)
  apply bind_good in H as ([c' Hp] & q & H1 & H). apply lift_good in H1 as [Eg ->].
  unfold get_constraint_polynomials in Eg. assert (EDd : c_degree o dbg c = Some Dg) by (destruct dbg; [exact ED|apply c_degree_rel, ED]).
  assert (Eun : unext e Dg = Some (2 ^ Z.of_nat a)%Z) by (apply least_power; [lia|exact HD|exact HDl]).
  rewrite EDd in Eg. cbn [bind] in Eg. rewrite Eun in Eg. cbn [bind] in Eg. rewrite <- pow_ZN, umul_pow in Eg by lia. cbn [bind] in Eg. rewrite <- (pow_ZN (k + a)), Nat2Z.id in Eg.
  apply bind_some in Eg as (ct & Ect & Eg). apply bind_some in Eg as (E1 & Ec1 & Eg). apply bind_some in Eg as (E2 & Es & Eg). rewrite Esb in Eg. cbn [bind] in Eg. apply bind_some in Eg as (values & Egv & Eg). apply bind_some in Eg as (Hp' & EH & Eg).
  assert (Hp' = Hp /\ c' = c1) as [-> ->] by (split; congruence). clear Eg. rewrite Nat2Z.id in Egv, EH.
  apply bind_good in H as (cldes & q & H1 & H). apply lift_good in H1 as [Elc ->].
  apply bind_good in H as (cleaves & q & H1 & H). apply lift_good in H1 as [Elcv ->].
  apply bind_good in H as (c_tree & q & H1 & H). assert (Hct := H1). apply bind_good in H as ([] & q3 & W2 & H). apply chan_good in W2.
  apply bind_good in H as (args & q4 & H2 & H). apply lift_good in H2 as [Ea ->].
  apply bind_good in H as ([z' P] & q5 & Hoc & H).
  unfold oods_combine in Hoc. apply bind_good in Hoc as (z'' & q6 & D2 & Hoc). apply chan_good in D2.
  apply bind_good in Hoc as (tv & q7 & H2 & Hoc). apply lift_good in H2 as [Etv ->].
  apply bind_good in Hoc as ([] & q8 & W3 & Hoc). apply bind_good in Hoc as ([] & q9 & W4 & Hoc).
  apply bind_good in Hoc as (tc & q10 & D3 & Hoc). apply chan_good in D3. apply bind_good in Hoc as (cc & q11 & D4 & Hoc). apply chan_good in D4.
  apply bind_good in Hoc as (P' & q12 & H2 & Hoc). apply lift_good in H2 as [EP ->]. apply ret_good in Hoc. assert (z' = z'' /\ P = P' /\ q5 = q11) as (-> & -> & ->) by (repeat split; congruence). clear Hoc.
  apply bind_good in H as (v & q12 & H2 & H). apply lift_good in H2 as [Elf ->].
  apply bind_good in H as (trees & q13 & Hfri & H).
  apply bind_good in H as (seed & q14 & D5 & H). apply chan_good in D5. apply bind_good in H as (challenge & q15 & H2 & H). apply lift_good in H2 as [Edf ->].
  apply bind_good in H as (nonce & q15 & H2 & H). apply lift_good in H2 as [Eso ->]. apply bind_good in H as ([] & q15 & H2 & H). apply lift_good in H2 as [_ ->].
  apply bind_good in H as ([] & q15 & W5 & H). apply chan_good in W5.
  apply bind_good in H as (size & q16 & H2 & H). apply lift_good in H2 as [Esz ->]. rewrite Hb, umul_pow in Esz by lia. assert (size = (2 ^ Z.of_nat (k + b))%Z) by congruence. subst size. clear Esz.
  apply bind_good in H as (bits & q16 & H2 & H). apply lift_good in H2 as [Ebt ->].
  apply bind_good in H as (queries & q16 & D6 & H). apply chan_good in D6.
  apply bind_good in H as ([] & q17 & W6 & H). apply bind_good in H as ([] & q18 & W7 & H). apply bind_good in H as ([] & q19 & W8 & H). apply bind_good in H as ([] & q20 & W9 & H).
  apply bind_good in H as ([] & q21 & W10 & H). apply ret_good in H. assert (cs' = cs /\ z'' = z /\ q21 = pf) as (-> & -> & ->) by (repeat split; congruence). clear H.
  (* the combined constraint *)
  assert (E1 = E0). { assert (X : combine o dbg c cs = Some E0) by (destruct dbg; [exact Ec|apply combine_rel, Ec]). congruence. } subst E1. clear Ec1.
  rewrite EE in Es. assert (E2 = E) by congruence. subst E2. clear Es.
  assert (Hc : forall ex, In ex (c_exprs c1) -> refers_within t ex /\ (forall i j, refers ex i j -> (j < 2 ^ 63)%Z) /\ exists rows, selects o (w k) k tp ex rows).
  { intros ex Hin. destruct (Hex ex Hin) as (A2 & A3 & A4). split; [exact A2|]. split; [exact A3|]. apply A4, Ei. }
  destruct (C54_completeness_claims F o L e M w SD dbg k b a t tp ldes claims c c1 cs E0 args Dg Hm Hab Sh HR HC Hn Hg Ei Esb Hch HU Hc ED HD Ec Ea El) as (ct' & E' & values' & Hp' & Ect' & EE' & Ev' & EH' & LH & FH & HH).
  rewrite EE in EE'. assert (E' = E) by congruence. subst E'. clear EE'.
  rewrite Ect in Ect'. assert (ct' = ct) by congruence. subst ct'. clear Ect'.
  destruct (extract_spec o L e M w SD k b a tp ldes Hm Hab Nt Htp El) as (ct' & Et & ERc & ECc & HT). rewrite Ect in Et. assert (ct' = ct) by congruence. subst ct'. clear Et.
  assert (UE : usizes E) by (apply (substitute_usizes o claims E0 E EE), (combine_usizes o c cs E0 Ec); intros ex Hin; apply (HU ex Hin)).
  rewrite (C43_prover F o L e M w SD kseed ktrace (k + a) ct (2 ^ a) E values' ltac:(lia) ERc UE) in Egv; [|intros i j R|exact HRV|apply (HNC tp ct Ei); split; [exact ERc|split; [exact ECc|exact HT]]|exact Ev'].
  2: { apply (substitute_refers o claims i j E0 E EE) in R. pose proof (proj1 (substitute_args o claims c c1 args i j Esb Ea) (combine_refers o true c cs E0 i j Ec R)) as R'. apply (proj2 (c_trace_arguments_spec c1 args Ea)) in R' as (ex & X1 & X2). destruct (Hc ex X1) as (W & _). destruct (W i j X2) as (_ & W' & _). rewrite HR in W'. rewrite ERc, Nat.pow_add_r, Nat2Z.inj_mul. pose proof (pow2_pos a). nia. }
  assert (values' = values) by congruence. subst values'. rewrite EH in EH'. assert (Hp' = Hp) by congruence. subst Hp'. clear EH' Egv.
  assert (NH : Hp <> []) by (pose proof (pow2_pos a); destruct Hp; [cbn in LH; lia|discriminate]).
  destruct (ldes_spec k b Hp Hm FH) as (cl & Ecl & Lcl & Fcl). rewrite Elc in Ecl. assert (cl = cldes) by congruence. subst cl. clear Ecl.
  apply (leaves_spec k b Hp cldes cleaves NH Fcl) in Elcv. subst cleaves.
  apply (commit_good keccak enc dec orders Hcodec Hk (k + b)) in Hct as [-> Cc]; [|lia|rewrite map_length, seq_length; reflexivity|apply Ho].
  destruct (HH z Hz1) as (tv' & y & Etv' & Ey1 & Ey2). rewrite Etv in Etv'. assert (tv' = tv) by congruence. subst tv'. clear Etv'.
  (* the combined quotient *)
  pose proof (c_trace_arguments_spec c1 args Ea) as [Sa Ia].
  assert (Ha : forall i j, In (i, j) args -> i < length tp /\ (- 2 ^ 63 < j < 2 ^ 63)%Z). { intros i j Hin. apply Ia in Hin as (ex & X1 & X2). destruct (Hc ex X1) as (W & J & _). specialize (W i j X2). specialize (J i j X2). rewrite Lps. lia. }
  assert (Ltv : length tv = length args). { unfold oods_trace_values in Etv. apply bind_some in Etv as (r & _ & Etv). apply option_all_inv in Etv. symmetry. apply (Forall2_len _ _ _ Etv). }
  assert (Ltc : length tc = length args). { unfold p_coin in D3. destruct (draw_elems e keccak dec fuel (length args) (pcoin q9)) as [[x c0]|] eqn:Ed; [|discriminate]. injection D3 as <- _. apply (draw_elems_length e keccak dec fuel _ _ _ _ Ed). }
  assert (Lcc : length cc = length Hp). { unfold p_coin in D4. destruct (draw_elems e keccak dec fuel (length Hp) (pcoin q10)) as [[x c0]|] eqn:Ed; [|discriminate]. injection D4 as <- _. apply (draw_elems_length e keccak dec fuel _ _ _ _ Ed). }
  assert (LHB : (Z.of_nat (length Hp) < 2 ^ 64)%Z) by (rewrite LH, pow_ZN; apply Z.pow_lt_mono_r; lia).
  destruct (C54_quotient F o L e M w SD k tp args Hp z tv tc cc ltac:(lia) Nt Htp FH LHB Sa Ha Etv Ltc Lcc) as (P & EP2 & LP & HP). rewrite EP in EP2. assert (P' = P) by congruence. subst P'. clear EP2.
  destruct (first_layer k b P v Hm LP Elf) as (Lv & Hv & Q & LQ & HQ).
  (* FRI *)
  unfold perform_fri_layering in Hfri. apply bind_good in Hfri as (r & q & H2 & Hfri). apply lift_good in H2 as [Exi ->]. rewrite Lv in Exi.
  destruct r as [x_inv|]; [|discriminate Hfri]. apply bind_good in Hfri as ([trees' final] & q22 & Hfc & Hfri). cbn [fst snd] in Hfri. apply bind_good in Hfri as (points & q & H2 & Hfri). apply lift_good in H2 as [Ell ->].
  apply bind_good in Hfri as ([] & q23 & W11 & Hfri). apply chan_good in W11. apply ret_good in Hfri. assert (trees' = trees /\ q23 = q13) as (-> & ->) by (split; congruence). clear Hfri.
  set (eval_x := map (fun i => fpw o (w (k + b)) i) (seq 0 (2 ^ (k + b)))).
  destruct (fri_commit_follows o L e M w SD keccak enc dec fuel orders Hcodec Hk Ho (k + b) ltac:(lia) x_inv Exi (c_fri c) (k + b) Q v q11 trees final q22 Fl ltac:(lia) ltac:(lia) HQ Hfc) as (xs & Kend & pend & Ch & EK & Ffri).
  set (d := k - list_sum (c_fri c)). assert (EKe : Kend = d + b) by (unfold d; lia).
  destruct (chain_end o L M w keccak enc orders (k + b) ltac:(lia) x_inv (c_fri c) (k + b) Q v trees xs Kend pend final Ch d) as (Hlast & Lpend & Ltrees & Lxs); [rewrite LQ; f_equal; unfold d; lia|]. rewrite EKe in *.
  destruct (C44_last_layer F o L e M w SD d b pend final ltac:(lia) Lpend Hlast) as (Ell' & Hck). rewrite Ell' in Ell. assert (points = pend) by congruence. subst points. clear Ell.
  (* queries *)
  set (num := Z.to_nat (c_queries c)) in *.
  assert (Ecoin : exists dg, pcoin q15 = Coin dg 0). { unfold w_nonce, p_nonce, p_write, coin_write in W5. injection W5 as <-. eexists. reflexivity. } destruct Ecoin as (dg & Ecoin).
  destruct (C45_indices dbg keccak sort_idx sort_idx (2 ^ Z.of_nat (k + b)) dg 0 num (Z.of_nat (k + b)) Hk Si Si ltac:(lia) eq_refl ltac:(lia)) as (Eb1 & Eb2 & l & Ep & Ev & Ll' & Sl' & Fl' & _).
  { assert ((num + 3) / 4 <= num + 3) by (apply Nat.div_le_upper_bound; lia). assert (Z.of_nat num <= 2 ^ 58)%Z by (unfold num; lia). lia. }
  rewrite Ebt in Eb1. assert (bits = Z.of_nat (k + b)) by congruence. subst bits. clear Eb1.
  assert (l = queries /\ p_coin (v_get_indices dbg keccak sort_idx num (Z.of_nat (k + b))) q15 = Some (queries, q16)) as [-> D6'].
  { unfold p_coin in D6 |- *. rewrite Ecoin in D6 |- *. rewrite Ep in D6. rewrite Ev. injection D6 as -> <-. split; reflexivity. }
  assert (HQl : (Z.of_nat (length queries) * 64 <= 2 ^ 64)%Z) by (rewrite Ll'; unfold num; lia).
  destruct (decommit_follows keccak enc dec sort_idx sort_nodes orders Hcodec Hk Si Sn false q17 q18 (k + b) _ tree queries Ct Fl' HQl W7) as (mp & Fmp & Cmp).
  destruct (decommit_follows keccak enc dec sort_idx sort_nodes orders Hcodec Hk Si Sn false q19 q20 (k + b) _ c_tree queries Cc Fl' HQl W9) as (mpc & Fmpc & Cmpc).
  (* the walk *)
  destruct (Hs challenge nonce Eso) as [Hno Hpow].
  assert (Eroot : forall K, K <= M -> eroot e (Z.to_nat (2 ^ Z.of_nat K)) = Some (Some (w K))) by (intros K HK; rewrite pow_NZ; apply (s_root _ _ _ _ SD K HK)).
  assert (Eex : powers_from o (f1 o) (w (k + b)) (Z.to_nat (2 ^ Z.of_nat (k + b))) = eval_x).
  { rewrite pow_NZ. apply (list_ext0 o); [rewrite powers_from_length; unfold eval_x; rewrite map_length, seq_length; reflexivity|]. intros i Hi. rewrite powers_from_length in Hi. rewrite (powers_from_spec o L) by exact Hi. unfold eval_x.
    rewrite (nth_indep _ (f0 o) (fpw o (w (k + b)) 0)) by (rewrite map_length, seq_length; exact Hi). rewrite (map_nth (fun i => fpw o (w (k + b)) i)), seq_nth by exact Hi. apply (oods_one o L). }
  unfold w_hash in W1, W2. assert (q1 = p_hash keccak p (c_hash (t_commitment tree))) by congruence. assert (q3 = p_hash keccak q2 (c_hash (t_commitment c_tree))) by congruence. subst q1 q3. clear W1 W2.
  unfold verify_channel. rewrite Hn, Hb. unfold num in *.
  eapply leads_step; [apply follows_lift, umul_pow; lia|]. eapply leads_step; [apply follows_lift, Eroot; lia|]. eapply leads_step; [apply follows_lift; reflexivity|]. cbv zeta. rewrite Eex.
  eapply leads_step; [apply replay_hash_follows; apply Ct|]. eapply leads_step; [apply follows_merkle; apply Ct|].
  eapply leads_step; [apply draw_follows, D1|]. eapply leads_step; [apply replay_hash_follows; apply Cc|]. eapply leads_step; [apply follows_merkle; apply Cc|].
  eapply leads_step; [apply draw_follows, D2|]. eapply leads_step; [apply follows_lift, Esb|]. eapply leads_step; [apply follows_lift, Ea|].
  rewrite <- Ltv. eapply leads_step; [apply (replay_elems_follows e keccak enc dec Hcodec _ _ _ _ W3)|].
  eapply leads_step; [apply follows_lift, EDd|]. eapply leads_step; [apply follows_lift, Eun|].
  assert (Lcv : length (oods_constraint_values o Hp z) = Z.to_nat (2 ^ Z.of_nat a)) by (rewrite pow_NZ, <- LH; unfold oods_constraint_values; apply map_length).
  rewrite <- Lcv at 1. eapply leads_step; [apply (replay_elems_follows e keccak enc dec Hcodec _ _ _ _ W4)|].
  rewrite trace_map_length by assumption. rewrite Lcv, pow_NZ at 1.
  eapply leads_step; [apply draw_follows; rewrite <- LH; apply (draw_twice e keccak dec fuel _ _ _ _ _ _ _ D3 D4)|].
  eapply leads_step; [exact Ffri|]. cbn [fst snd].
  assert (Edv : udiv (2 ^ Z.of_nat (d + b)) (Z.of_nat (2 ^ b)) = Some (2 ^ Z.of_nat d)%Z).
  { unfold udiv. rewrite pow_ZN. pose proof (Z.pow_pos_nonneg 2 (Z.of_nat b) ltac:(lia) ltac:(lia)). destruct (Z.eqb_spec (2 ^ Z.of_nat b) 0); [lia|]. f_equal. rewrite Nat2Z.inj_add, Z.pow_add_r, Z.div_mul by lia. reflexivity. }
  eapply leads_step; [apply follows_lift, Edv|]. eapply leads_step; [apply (replay_layer_follows e keccak enc dec Hcodec _ _ pend); [rewrite pow_NZ; exact Lpend|exact W11]|].
  eapply leads_step; [apply draw_follows, D5|]. eapply leads_step; [apply follows_lift, Edf|]. eapply leads_step; [apply replay_nonce_follows; [exact Hno|exact W5]|]. rewrite Hpow. cbn [negb].
  rewrite Eb2. eapply leads_step; [apply draw_follows, D6'|].
  eapply leads_step; [apply (leaves_follow e keccak enc dec orders Hcodec true q16 q17 (k + b) _ tree queries (c_ncolumns c) Ct); [|exact W6]|].
  { intros x Hx. apply in_map_iff in Hx as (i & <- & _). unfold row_at. rewrite map_length, Hcol. exact Lps. }
  eapply leads_step; [exact Fmp|].
  assert (Ri : forall i, In i queries -> Z.to_nat i < 2 ^ (k + b)). { intros i Hi. rewrite Forall_forall in Fl'. specialize (Fl' i Hi). rewrite <- pow_NZ. apply Z2Nat.inj_lt; lia. }
  assert (Opened : forall ps i l, In (i, l) (map (fun i => (i, nth (Z.to_nat i) (map (row_at k b ps) (seq 0 (2 ^ (k + b)))) [])) queries) -> nth_error (map (row_at k b ps) (seq 0 (2 ^ (k + b)))) (Z.to_nat i) = Some l).
  { intros ps i l Hi. apply in_map_iff in Hi as (j & Ej & Hj). injection Ej as <- <-. apply nth_error_nth'. rewrite map_length, seq_length. apply Ri, Hj. }
  assert (Keys : forall (g : Z -> list F) i, In i (map fst (map (fun i => (i, g i)) queries)) <-> In i queries). { intros g i. rewrite map_map. cbn [fst]. rewrite map_id. reflexivity. }
  eapply leads_step; [apply follows_pure; intros u; apply Cmp; [apply Keys|apply Opened]|].
  eapply leads_step; [apply (leaves_follow e keccak enc dec orders Hcodec false q18 q19 (k + b) _ c_tree queries (Z.to_nat (2 ^ Z.of_nat a)) Cc); [|exact W8]|].
  { intros x Hx. apply in_map_iff in Hx as (i & <- & _). unfold row_at. rewrite map_length, pow_NZ. exact LH. }
  eapply leads_step; [exact Fmpc|]. eapply leads_step; [apply follows_pure; intros u; apply Cmpc; [apply Keys|apply Opened]|].
  eapply leads_step. { apply follows_lift. apply (option_all_map _ (fun n => 2 ^ Z.of_nat n)%Z). intros n Hin. rewrite Forall_forall in Fl. specialize (Fl n Hin). unfold ushl1. destruct (Z.ltb_spec (Z.of_nat n) 64); [reflexivity|lia]. }
  eapply leads_step. { apply follows_lift. apply (option_all_map _ (fun x => x / 2 ^ Z.of_nat (hd 0%nat (c_fri c)))%Z). intros x _. destruct (c_fri c) as [|m layout]; [contradiction|]. cbn [map nth_error bind hd]. unfold udiv. pose proof (Z.pow_pos_nonneg 2 (Z.of_nat m) ltac:(lia) ltac:(lia)). destruct (Z.eqb_spec (2 ^ Z.of_nat m) 0); [lia|]. reflexivity. }
  set (known := fun z0 : nat => _).
  destruct (fri_query o L e M w SD keccak enc dec sort_idx sort_nodes search orders Hcodec Hk Si Sn Sr (k + b) ltac:(lia) x_inv eval_x Exi eq_refl (c_fri c) (k + b) Q v trees xs (d + b) pend final Ch
    true queries (map (fun x => x / 2 ^ Z.of_nat (hd 0%nat (c_fri c)))%Z queries) [] q20 pf known) as (prev' & Fprev & Ffl).
  - lia.
  - intros X. contradiction.
  - exact Sl'.
  - exact Fl'.
  - exact HQl.
  - intros _ zi n Hzi u. pose proof (nth_error_In _ _ Hzi) as Hin. pose proof (Ri n Hin) as Rn. unfold known. unfold act_bind, lift. rewrite Hzi. cbv beta iota. rewrite pow_NZ, permute_index_spec by lia.
    rewrite (nth_error_nth' eval_x (fpw o (w (k + b)) 0)) by (unfold eval_x; rewrite map_length, seq_length; apply rev_lt). cbv beta iota. rewrite !nth_error_map, Hzi. cbn [option_map snd].
    unfold eval_x at 1. rewrite (map_nth (fun i => fpw o (w (k + b)) i)), seq_nth by apply rev_lt. cbn [Nat.add].
    rewrite !(nth_error_nth _ _ [] (leaves_nth k b _ _ Rn)). unfold row_at. rewrite HP; [rewrite Hv by exact Rn; reflexivity| |].
    + intros i j Hij. apply (proj2 (Hz2 _ (rev_lt (k + b) (Z.to_nat n)))). pose proof (Z.mod_pos_bound j (Z.of_nat (2 ^ k)) ltac:(pose proof (pow2_pos k); lia)). lia.
    + rewrite LH. apply (proj1 (Hz2 _ (rev_lt (k + b) (Z.to_nat n)))).
  - discriminate.
  - destruct (c_fri c); [exact I|reflexivity].
  - exact W10.
  - rewrite Nat.sub_diag in Ffl. change (2 ^ Z.of_nat 0)%Z with 1%Z in Ffl. eapply leads_step; [exact Ffl|]. apply leads_end. intros u.
    unfold act_bind at 1, lift at 1. rewrite Eroot by lia. cbv beta iota.
    assert (Eit : act_iter (check_last o e (Z.to_nat (2 ^ Z.of_nat (d + b))) (w (d + b)) pend (map (fun i => (i, nth (Z.to_nat i) final (f0 o))) prev')) prev' u = Some (Good (tt, u))).
    { rewrite pow_NZ. assert (G : forall l, (forall i, In i l -> In i prev') -> act_iter (check_last o e (2 ^ (d + b)) (w (d + b)) pend (map (fun i => (i, nth (Z.to_nat i) final (f0 o))) prev')) l u = Some (Good (tt, u))); [|apply G; trivial].
      induction l as [|i l IH]; intros Hl; [reflexivity|]. cbn [act_iter]. unfold act_bind at 1, check_last at 1. unfold act_bind at 1, lift at 1. rewrite folds_get_map. destruct (in_dec Z.eq_dec i prev') as [I|I]; [|exfalso; apply I, Hl; left; reflexivity].
      rewrite Forall_forall in Fprev. specialize (Fprev i I). destruct (Hck (Z.to_nat i) ltac:(rewrite <- pow_NZ; apply Z2Nat.inj_lt; lia) (nth (Z.to_nat i) final (f0 o))) as (r & Er & Hr). unfold act_bind at 1, lift at 1. rewrite Er. rewrite (proj2 Hr eq_refl). cbn [ret]. apply IH. intros j Hj. apply Hl. right. exact Hj. }
    unfold act_bind at 1. rewrite Eit. unfold act_bind, lift. rewrite Ey1, Ey2. rewrite (proj2 (law_eqb o L y y) eq_refl). reflexivity.
Qed.
End Protocol.
