(** C64: the Pedersen Merkle tree of the examples meets the requirements of the completeness theorem C57. *)
Require Import Ring Field ZArith NArith Lia Bool List.
From Verif Require Import Word U256Model KnuthModel FieldSig FieldInstance FieldAlgModel FieldAlgProofs Arr FftModel FftSpec PermuteProofs FftProofs FftProps StarkBase StarkInstance PolyModel PolyProps TraceModel TraceProps ExprModel ExprSpec ExprProofs ExprProps CheckProps OodsModel OodsProofs OodsSatProps LayoutProps StarkSpec
  ClaimModel ClaimSpec ClaimProofs ClaimProps ExampleProofs ExampleProps MimcProps VdfProps HashModel MerkleModel ChannelModel PowModel StarkModel StarkProps ComponentModel ComponentProofs CurveModel CurveSpec CurveGroup CurveProofs CurveInstance CurveOrder CurveBase CurveProps PedersenModel PedersenSpec PedersenProofs PedersenProps PedersenHash PedersenTraceProps PedersenFeltProps BindModel BindPedersenProps.
Import ListNotations.
Open Scope nat_scope.

Section Prove.
Context {F : Type} (o : ops F) (L : lawful o) (e : engine F) (M : nat) (w : nat -> F) (SD : sound o e M w).
Variables (k m : nat).
Hypothesis Hk : k + m <= M.
Let D := EExp (@EX F) (2 ^ Z.of_nat m).
Let HY : (D = EX /\ m = 0) \/ D = EExp EX (2 ^ Z.of_nat m) := or_intror eq_refl.
Lemma spotted_selects t tp c : t_rows t = 2 ^ (k + m) -> condition t (fst c) -> spot_ok k m (snd c) -> exists rows, selects o (w (k + m)) (k + m) tp (spotted o w k m D c) rows.
Proof using L SD Hk HY.
  intros HR Hc Sp. destruct (spotted_ok o e M w SD k m D Hk HY t c HR Hc) as (_ & Fr & _). pose proof Hc as (_ & Df & _). destruct (free_numerators _ Df) as [_ Dn]. pose proof (s_max _ _ _ _ SD) as HM. pose proof (pow2_pos k) as Pk. pose proof (pow2_pos m) as Pm. pose proof (pow2_pos (k + m)) as PK.
  assert (B64 : forall n, n <= k + m -> (2 ^ Z.of_nat n < 2 ^ 64)%Z) by (intros n Hn; apply Z.pow_lt_mono_r; lia).
  destruct c as [N [i|i| |]]; cbn [fst snd] in *.
  - destruct (C54_selects F o L e M w SD (k + m) tp (spotted o w k m D (N, At i)) (EConst (pow_usize o (w (k + m)) i)) (pow_usize o (w (k + m)) i) (Z.to_nat i) Hk Fr (or_introl eq_refl)) as [_ H]. cbn [spot_ok] in Sp. pose proof (B64 (k + m) ltac:(lia)).
    eexists. apply H; [rewrite <- (pow_to (k + m)); lia| |unfold spotted, e_div; cbn [fst snd denominators app]; rewrite Dn; reflexivity]. rewrite <- (pow_nat o L (w (k + m))) by lia. rewrite Z2Nat.id by lia. reflexivity.
  - destruct (C54_selects F o L e M w SD (k + m) tp (spotted o w k m D (N, Every i)) (EConst (pow_usize o (w k) i)) (pow_usize o (w k) i) (Z.to_nat i) Hk Fr (or_introl eq_refl)) as [H _]. cbn [spot_ok] in Sp. pose proof (B64 k ltac:(lia)).
    eexists. apply (H m); [lia|replace (k + m - m) with k by lia; rewrite <- (pow_to k); lia| |unfold spotted, e_div; cbn [fst snd denominators app]; rewrite Dn; reflexivity].
    rewrite Nat.mul_comm, <- (h_pow o L e M w SD k m Hk), <- (pow_nat o L (w k)) by lia. rewrite Z2Nat.id by lia. reflexivity.
  - exists (seq 0 (2 ^ (k + m))). assert (Ed : denominators (spotted o w k m D (N, Inner)) = [e_sub (EExp D (2 ^ Z.of_nat k)) (EConst (f1 o))]) by (unfold spotted, e_div; cbn [fst snd denominators app e_sub]; rewrite Dn; reflexivity).
    assert (Ze : forall x T, value o x T (EExp D (2 ^ Z.of_nat k)) (fpw o x (2 ^ (k + m)))).
    { intros x T. rewrite Nat.pow_add_r, Nat.mul_comm, (fpw_mul o L). replace (fpw o (fpw o x (2 ^ m)) (2 ^ k)) with (fexp o (fpw o x (2 ^ m)) (Z.to_N (2 ^ Z.of_nat k))) by (rewrite <- pow_ZN; apply exp_nat). constructor. apply (value_Y o L e M w SD k m D Hk HY). }
    split; [exact Fr|]. split; [apply seq_NoDup|]. split; [intros r Hr; apply in_seq in Hr; lia|]. split; [|split].
    + exists [2 ^ (k + m)]. split; [|cbn [list_sum fold_right]; rewrite seq_length; lia]. rewrite Ed. constructor; [|constructor]. unfold degree, e_sub, D. cbn [degree_impl bind]. pose proof (B64 k ltac:(lia)). pose proof (B64 m ltac:(lia)). pose proof (B64 (k + m) (le_n _)).
      rewrite !umul_0. assert (U1 : umul true (2 ^ Z.of_nat m) 1 = Some (2 ^ Z.of_nat m)%Z) by (unfold umul; rewrite Z.mul_1_r; destruct (Z.ltb_spec (2 ^ Z.of_nat m) B) as [|Hb]; [reflexivity|change B with (2 ^ 64)%Z in Hb; lia]). rewrite U1. cbn [bind].
      assert (U2 : umul true (2 ^ Z.of_nat k) (2 ^ Z.of_nat m) = Some (2 ^ Z.of_nat (k + m))%Z) by (unfold umul; rewrite <- Z.pow_add_r, <- Nat2Z.inj_add by lia; destruct (Z.ltb_spec (2 ^ Z.of_nat (k + m)) B) as [|Hb]; [reflexivity|change B with (2 ^ 64)%Z in Hb; lia]). rewrite U2. cbn [bind]. rewrite !umul_0. cbn [bind].
      rewrite uadd_0 by (change B with (2 ^ 64)%Z; split; [apply Z.pow_nonneg; lia|lia]). change (uadd true 0 0) with (Some 0%Z). cbn [bind]. rewrite Z.max_l by (apply Z.pow_nonneg; lia). rewrite pow_ZN. reflexivity.
    + intros r Hr. rewrite Ed. eexists. split; [left; reflexivity|]. apply (den_inner o L e M w SD k m D Hk HY).
    + exists (f0 o). rewrite Ed. intros d [<-|[]]. eexists. split; [apply v_add; [apply Ze|apply v_neg, v_const]|]. intros E. destruct (2 ^ (k + m)) as [|n]; [lia|]. cbn [fpw] in E. apply (f_1_neq_0 o L). apply (oods_neg_zero o L). transitivity (fadd o (fmul o (f0 o) (fpw o (f0 o) n)) (fneg o (f1 o))); [|exact E]. f_equal. symmetry. apply (proj2 (fmul_0_iff o L _ _)). left. reflexivity.
  - destruct (C54_selects F o L e M w SD (k + m) tp (spotted o w k m D (N, Links)) (EConst (pow_usize o (w (k + m)) (2 ^ Z.of_nat (k + m) - 2 ^ Z.of_nat m))) (pow_usize o (w (k + m)) (2 ^ Z.of_nat (k + m) - 2 ^ Z.of_nat m)) (2 ^ k - 1) Hk Fr (or_introl eq_refl)) as [H _].
    eexists. apply (H m); [lia|replace (k + m - m) with k by lia; lia| |unfold spotted, e_div; cbn [fst snd denominators app e_sub]; rewrite Dn; reflexivity].
    pose proof (B64 (k + m) (le_n _)). assert (E : (2 ^ Z.of_nat (k + m) - 2 ^ Z.of_nat m)%Z = Z.of_nat ((2 ^ k - 1) * 2 ^ m)). { rewrite <- !pow_ZN, Nat.pow_add_r. nia. }
    rewrite E. apply (pow_nat o L). rewrite <- E. pose proof (Z.pow_pos_nonneg 2 (Z.of_nat m)). lia.
Qed.
Lemma spotted_degree c d : trace_degree o true (fst c) = Some (d, 0%Z) -> (0 <= d < B)%Z -> net_degree o true (spotted o w k m D c) = Some d.
Proof using.
  clear Hk HY. intros Hd Hb. destruct c as [N s]. cbn [fst] in Hd. unfold net_degree, trace_degree in *.
  destruct s; unfold spotted, e_div, e_sub, D; cbn [fst snd degree_impl]; rewrite Hd; cbn [bind]; rewrite ?umul_0; cbn [bind]; rewrite ?umul_0; cbn [bind]; change (uadd true 0 0) with (Some 0%Z); cbn [bind]; rewrite ?(uadd_0 _ Hb); cbn [bind];
    change (uadd true 0 0) with (Some 0%Z); cbn [bind]; change (Z.max 0 0) with 0%Z; repeat (rewrite ?(uadd_0 _ Hb); change (uadd true 0 0) with (Some 0%Z); cbn [bind]); unfold usub; rewrite Z.sub_0_r; destruct (Z.leb_spec 0 d); try lia; reflexivity.
Qed.
Lemma degrees cs ds : Forall2 (fun c d => trace_degree o true (fst c) = Some (d, 0%Z) /\ (0 <= d < B)%Z) cs ds -> option_all (map (net_degree o true) (map (spotted o w k m D) cs)) = Some ds.
Proof using. intros H. induction H as [|c d cs ds [H1 H2] _ IH]; [reflexivity|]. cbn [map option_all]. rewrite (spotted_degree c d H1 H2). cbn [bind]. rewrite IH. reflexivity. Qed.
Lemma column_degree p : p <> [] -> trace_degree o true (EPoly p D) = Some (0, 0)%Z.
Proof using.
  intros Np. unfold trace_degree, D. cbn [degree_impl bind]. rewrite !umul_0. cbn [bind]. unfold poly_degree. destruct p as [|x p]; [contradiction|]. cbn [length]. cbn [bind]. rewrite !umul_0. reflexivity.
Qed.
End Prove.

(** A table that the tree accepts meets the requirements of completeness: the constraints have degree 2. *)
Theorem C64_tree_provable : forall F (o : ops F), lawful o -> forall e M w, sound o e M w -> forall dbg sx sy points lx ly rx ry k m bits to_uint from_uint leaf root t,
  1 <= k + m -> k + m + 4 <= M -> length lx = 2 ^ k -> length ly = 2 ^ k -> length rx = 2 ^ k -> length ry = 2 ^ k -> bits < 2 ^ k -> size t (2 ^ (k + m)) 8 -> fpw o (egen e) (2 ^ (k + m + 1)) <> f1 o ->
  exists c s, merkle_tree o e (APoint sx sy) points lx ly rx ry (2 ^ k) bits to_uint from_uint dbg (2 ^ m) = Some c /\ k_system e c (leaf, root) = Some s /\
  (check_constraints o e (c_exprs s) t = Some None -> proves o e M w (k + m) 4 1 t s).
Proof.
  intros F o L e M w SD dbg sx sy points lx ly rx ry k m bits to_uint from_uint leaf root t K1 KM L1 L2 L3 L4 Hb S8 Hg. assert (HK : k + m <= M) by lia. pose proof (s_max _ _ _ _ SD) as HM.
  destruct (poly_ok lx k L1) as [E1 N1]. destruct (poly_ok ly k L2) as [E2 N2]. destruct (poly_ok rx k L3) as [E3 N3]. destruct (poly_ok ry k L4) as [E4 N4]. pose proof (pow2_pos k) as Pk. pose proof (pow2_pos m) as Pm. pose proof (pow2_pos (k + m)) as PK.
  set (Y := EExp (@EX F) (2 ^ Z.of_nat m)). assert (HY : (Y = EX /\ m = 0) \/ Y = EExp EX (2 ^ Z.of_nat m)) by (right; reflexivity).
  set (conds := (EMul (e_sub (EConst leaf) (ETrace 0 0)) (e_sub (EConst leaf) (ETrace 4 0)), At 0) :: (e_sub (EConst root) (ETrace 6 0), At (Z.of_nat (2 ^ (k + m) - 1))) ::
    (EMul (e_sub (ETrace 6 0) (ETrace 0 1)) (e_sub (ETrace 6 0) (ETrace 4 1)), Links) :: layer_conds o (2 ^ Z.of_nat k) (Z.of_nat bits) sx sy (EPoly lx Y) (EPoly ly Y) (EPoly rx Y) (EPoly ry Y)).
  set (exprs := map (fun i => ETrace i 0) (seq 0 8) ++ map (spotted o w k m Y) conds).
  assert (Sys : exists c, merkle_tree o e (APoint sx sy) points lx ly rx ry (2 ^ k) bits to_uint from_uint dbg (2 ^ m) = Some c /\ k_system e c (leaf, root) = Some (Constraints (2 ^ (k + m)) 8 exprs 16 0 45 (default_fri_layout (Z.of_nat (2 ^ (k + m)))))).
  { eexists. split; [unfold merkle_tree, k_vertical; rewrite is_pow2; reflexivity|]. unfold k_system. cbn [k_polynomials k_size k_constraints merkle_layer bind fst snd]. destruct (2 ^ m) as [|m'] eqn:Em in |- * at 1; [lia|]. cbn [repeat]. unfold layer_constraints. rewrite E1, E2, E3, E4. cbn [bind]. rewrite (s_root _ _ _ _ SD k ltac:(lia)). cbn [bind]. rewrite (pow_ZN k), power_spotted. cbn [bind]. rewrite <- Nat.pow_add_r, (s_root _ _ _ _ SD (k + m) HK). cbn [bind].
    unfold from_expressions. rewrite (s_root _ _ _ _ SD (k + m) HK). cbn [bind]. fold Y. f_equal. f_equal. unfold tree_exprs, exprs, conds. rewrite <- !pow_ZN. f_equal. cbn [app map]. f_equal. f_equal; [|f_equal].
    - unfold spotted, on_layer_row, row_at. cbn [fst snd]. do 5 f_equal. rewrite Nat.pow_add_r. nia.
    - unfold spotted, row_at. cbn [fst snd]. rewrite <- !pow_ZN. reflexivity. }
  destruct Sys as (c & Ec & Es). exists c. eexists. split; [exact Ec|]. split; [exact Es|]. intros Ck.
  assert (CO : Forall (fun c => condition t (fst c) /\ spot_ok k m (snd c)) conds).
  { apply Forall_cons; [split|apply Forall_cons; [split|apply Forall_cons; [split|]]]; cbn [fst snd spot_ok]; try (rewrite <- pow_ZN; lia); try exact I; try (apply (cond_refl _ _ _ _ S8 ltac:(lia)); [cbn; tauto|cbn; tauto|intros i j; cbn; lia]).
    apply (conds_ok o L e M w SD k m t Y lx ly rx ry (fun r => (peval o lx (fpw o (w k) r), peval o ly (fpw o (w k) r))) (fun r => (peval o rx (fpw o (w k) r), peval o ry (fpw o (w k) r))) bits sx sy HK HY S8 (fun r Hr => eq_refl) (fun r Hr => eq_refl) Hb (conj N1 (conj N2 (conj N3 N4)))). }
  rewrite Forall_forall in CO. pose proof S8 as (Sh & HR & HC). destruct (C48_default_layout (k + m) ltac:(lia)) as (Y1 & Y2 & Y3).
  constructor; cbn [c_nrows c_ncolumns c_blowup c_exprs c_fri c_queries]; auto; try lia.
  - split; [exact Sh|]. split; [exact HR|lia].
  - exists 2%Z. split; [|split; [cbn; lia|intros [|a'] H; [cbn in H; lia|lia]]]. unfold c_degree. cbn [c_exprs]. unfold exprs. rewrite map_app.
    assert (DP := column_degree o m). fold Y in DP. 
    assert (Dc : option_all (map (net_degree o true) (map (spotted o w k m Y) conds)) = Some [2;1;2; 1;1;2;2;2;2;2;2;1;1;2;2;2;2;2;2;1;1]%Z).
    { apply degrees. unfold conds, layer_conds, bit_conds. cbn [app].
      pose proof (DP lx N1) as P1. pose proof (DP ly N2) as P2. pose proof (DP rx N3) as P3. pose proof (DP ry N4) as P4. unfold trace_degree in P1, P2, P3, P4 |- *. revert P1 P2 P3 P4. generalize (EPoly lx Y), (EPoly ly Y), (EPoly rx Y), (EPoly ry Y). intros e1 e2 e3 e4 P1 P2 P3 P4.
      repeat (apply Forall2_cons; [split; [cbn [fst]; unfold e_sub, bit_of; cbn [degree_impl bind]; rewrite ?P1, ?P2, ?P3, ?P4; reflexivity|unfold B; lia]|]). constructor. }
    assert (Ap : forall (l l' : list (option Z)) a b, option_all l = Some a -> option_all l' = Some b -> option_all (l ++ l') = Some (a ++ b)).
    { clear. induction l as [|[x|] l IH]; intros l' a b Ha Hb; cbn [option_all app] in *; [injection Ha as <-; exact Hb| |discriminate Ha]. cbn [bind] in *. destruct (option_all l) as [a'|] eqn:E; [|discriminate Ha]. cbn [bind] in Ha. injection Ha as <-. rewrite (IH l' a' b eq_refl Hb). reflexivity. }
    assert (De : option_all (map (net_degree o true) (map (fun i => ETrace i 0) (seq 0 8))) = Some [1;1;1;1;1;1;1;1]%Z) by reflexivity.
    rewrite (Ap _ _ _ _ De Dc). reflexivity.
  - intros ex Hin. unfold exprs in Hin. apply in_app_or in Hin as [Hin|Hin]; apply in_map_iff in Hin as (x & <- & Hin).
    + apply in_seq in Hin. split; [exact I|]. split; [intros i j [-> ->]; lia|]. split; [intros i j [_ ->]; lia|]. intros tp _. exists []. split; [split; repeat constructor|]. split; [constructor|]. split; [intros r []|]. split; [exists []; split; [constructor|reflexivity]|]. split; [intros r []|]. exists (f0 o). intros d [].
    + destruct (CO x Hin) as [Cx Sx]. destruct (spotted_ok o e M w SD k m Y HK HY t x HR Cx) as (A & _ & C & J). split; [exact A|]. split; [exact C|]. split; [exact J|]. intros tp _. apply (spotted_selects o L e M w SD k m HK t tp x HR Cx Sx).
  - split; [intros E; apply Y3 in E; lia|]. split; [eapply Forall_impl; [|exact Y1]; cbn; intros; lia|]. destruct (Nat.le_gt_cases (list_sum (default_fri_layout (Z.of_nat (2 ^ (k + m))))) (k + m)) as [|G]; [assumption|]. exfalso.
    pose proof (Nat.pow_lt_mono_r 2 _ _ ltac:(lia) G). destruct (8 <? k + m); cbn [Nat.pow] in Y2; nia.
Qed.
Print Assumptions C64_tree_provable.

(** The proof that the prover writes for the root of an honest path is returned, and it is accepted for the leaf and the
    root. *)
Theorem C64_tree_completeness : forall F (o : ops F), lawful o -> forall b, good_curve o b -> forall e M w, sound o e M w -> forall dbg shift points lx ly rx ry k m bits to_uint from_uint P Q leaf path,
  1 <= k + m -> k + m + 4 <= M -> length lx = 2 ^ k -> length ly = 2 ^ k -> length rx = 2 ^ k -> length ry = 2 ^ k -> bits < 2 ^ k -> fpw o (egen e) (2 ^ (k + m + 1)) <> f1 o ->
  (forall r, r < 2 ^ k -> let z := fpw o (w k) r in (peval o lx z, peval o ly z) = P r /\ (peval o rx z, peval o ry z) = Q r) ->
  conversions o to_uint from_uint bits -> (forall r, r < bits -> nth_error points (r + 1) = Some (point (P r)) /\ nth_error points (r + 1 + bits) = Some (point (Q r))) ->
  curve o b (point shift) -> (forall r, r < bits -> curve o b (point (P r)) /\ curve o b (point (Q r))) -> length path = 2 ^ m ->
  let P' r := point (P r) in let Q' r := point (Q r) in let hash := hash_of o (point shift) P' Q' bits to_uint in
  Forall (regular o (point shift) P' Q' (2 ^ k) bits to_uint) (tree_inputs hash leaf (map swap path)) ->
  let root := tree_root hash leaf (map swap path) in
  exists c t s, merkle_tree o e (point shift) points lx ly rx ry (2 ^ k) bits to_uint from_uint dbg (2 ^ m) = Some c /\
  trace_table o c (path, leaf, root) = Some t /\ k_system e c (leaf, root) = Some s /\ proves o e M w (k + m) 4 1 t s /\
  forall keccak enc dec sort_idx sort_nodes search solve orders, environment keccak enc dec sort_idx sort_nodes search solve orders ->
  forall fuel kseed ktrace proof cs z, transcript o e keccak enc dec sort_idx search fuel kseed ktrace solve orders s [] [] t = Some (Good (proof, (cs, z))) ->
  good_coefficients o e w kseed ktrace (k + m) 1 t s cs -> good_sample o e w (k + m) 4 1 z ->
  k_prove o e keccak enc dec sort_idx sort_nodes search fuel kseed ktrace solve orders c (path, leaf, root) = Some (Good proof) /\
  k_verify o e keccak enc dec sort_idx sort_nodes search fuel c (leaf, root) proof = Some (Good tt).
Proof.
  intros F o L b Sm e M w SD dbg [sx sy] points lx ly rx ry k m bits to_uint from_uint P Q leaf path K1 KM L1 L2 L3 L4 Hb Hg HPQ CV HPt Os On Hl P' Q' hash R root.
  destruct (C64_tree F o L b Sm e M w SD dbg (sx, sy) points lx ly rx ry k m bits to_uint from_uint P Q leaf path ltac:(lia) L1 L2 L3 L4 Hb HPQ CV HPt Os On Hl R) as (_ & c & Ec & Kc & Ck). fold P' Q' hash root in Kc, Ck.
  unfold k_check in Ck. destruct (k_size c) as [n|] eqn:En; [|discriminate Ck]. cbn [bind] in Ck. destruct (k_constraints c (k_claim c (path, leaf, root))) as [ex|] eqn:Ex; [|discriminate Ck]. cbn [bind] in Ck. destruct (from_expressions e n (k_polynomials c) ex) as [[s|]|] eqn:Es; [|discriminate Ck|discriminate Ck]. cbn [bind] in Ck.
  destruct (trace_table o c (path, leaf, root)) as [t|] eqn:Et; [|discriminate Ck]. cbn [bind] in Ck.
  assert (Ks : k_system e c (leaf, root) = Some s) by (unfold k_system; rewrite En; cbn [bind]; rewrite <- Kc, Ex; cbn [bind]; rewrite Es; reflexivity).
  assert (S8 : size t (2 ^ (k + m)) 8).
  { pose proof Et as Et'. unfold trace_table in Et'. rewrite En in Et'. cbn [bind] in Et'. assert (Dm : n = 2 ^ (k + m) /\ k_polynomials c = 8) by (clear - Ec En; unfold merkle_tree, k_vertical in Ec; rewrite is_pow2 in Ec; cbn [bind] in Ec; injection Ec as <-; cbn in En; injection En as <-; rewrite Nat.pow_add_r; split; reflexivity).
    destruct Dm as [-> Dm]. rewrite Dm in Et'. destruct (k_trace c 8 (2 ^ (k + m)) (path, leaf, root)) as [ws|]; [|discriminate Et']. cbn [bind] in Et'. destruct (apply_dims o _ _ ws _ _ (dims_new o (2 ^ (k + m)) 8) Et') as (D1 & D2 & D3). split; [|split]; assumption. }
  destruct (C64_tree_provable F o L e M w SD dbg sx sy points lx ly rx ry k m bits to_uint from_uint leaf root t K1 KM L1 L2 L3 L4 Hb S8 Hg) as (c' & s' & Ec' & Es' & Pr). change (APoint sx sy) with (point (sx, sy)) in Ec'. rewrite Ec in Ec'. injection Ec' as <-. rewrite Ks in Es'. injection Es' as <-. specialize (Pr Ck).
  exists c, t, s. split; [exact Ec|]. split; [exact Et|]. split; [exact Ks|]. split; [exact Pr|]. intros keccak enc dec sort_idx sort_nodes search solve orders Env fuel kseed ktrace proof cs z HT HC HZ.
  destruct (C57_completeness F o L e M w SD keccak enc dec sort_idx sort_nodes search solve orders Env fuel kseed ktrace (k + m) 4 1 t s [] proof cs z Pr HT HC HZ) as [V1 V2].
  unfold k_prove, k_verify. rewrite Kc, Ks, Et. split; [exact V2|exact V1].
Qed.
Print Assumptions C64_tree_completeness.
(** The leaf 1 beside the sibling 0, over the field of the crate. *)
Example C64_completeness_ex : exists lx ly c t s root,
  merkle_tree felt_ops felt_engine (point SHIFT) (repeat (point P_0) 506) lx ly lx ly (2 ^ 8) 252 fe_val phi true (2 ^ 0) = Some c /\
  trace_table felt_ops c ([(false, f0 felt_ops)], f1 felt_ops, root) = Some t /\ k_system felt_engine c (f1 felt_ops, root) = Some s /\ proves felt_ops felt_engine 63 (fe_w proth_good) 8 4 1 t s.
Proof.
  destruct C64_tree_ex as (_ & _ & _ & _ & _ & Fa & _). destruct (columns_exist (fun _ => P_0) 8 ltac:(lia)) as (lx & ly & L1 & L2 & HP). exists lx, ly.
  destruct (C64_tree_completeness _ felt_ops felt_lawful BETA stark_smooth felt_engine 63 _ felt_sound true SHIFT (repeat (point P_0) 506) lx ly lx ly 8 0 252 fe_val phi (fun _ => P_0) (fun _ => P_0) (f1 felt_ops) [(false, f0 felt_ops)] ltac:(lia) ltac:(lia) L1 L2 L1 L2 ltac:(cbn; lia)) as (c & t & s & Ec & Et & Es & Pr & _).
  - apply felt_coset. lia.
  - intros r Hr. split; apply HP, Hr. - apply C64_conversions.
  - intros r Hr. split; apply nth_error_repeat; lia.
  - exact shift_on. - intros r Hr. split; exact p0_on. - reflexivity. - exact Fa.
  - exists c, t, s. eexists. split; [exact Ec|]. split; [exact Et|]. split; [exact Es|]. exact Pr.
Qed.
