(** C62: the idioms in which constraint systems are written say what they are meant to say. *)
Require Import Field ZArith NArith Lia Bool List.
From Verif Require Import Word KnuthModel FieldSig FieldInstance FieldAlgModel FieldAlgProofs Arr FftModel FftSpec PermuteProofs FftProofs FftProps StarkBase StarkInstance PolyModel PolyProps TraceModel TraceProps ExprModel ExprSpec ExprProofs ExprProps CheckProps OodsProofs OodsSatProps LayoutProps StarkSpec ClaimModel ClaimSpec ClaimProofs.
Import ListNotations.
Open Scope nat_scope.

(** check_constraints on conditions placed on rows: Ok if no condition fails on a row it is placed on; otherwise the error
    names the first failure, by row and then by constraint. *)
Theorem C62_check : forall F (o : ops F), lawful o -> forall e M w, sound o e M w -> forall t k cs, shaped t -> k <= M -> t_rows t = 2 ^ k ->
  (forall c, In c cs -> condition t (fst c) /\ sensible k (snd c)) ->
  exists res, check_constraints o e (map (placed o (w k) k) cs) t = Some res /\
  let broken row which := exists N p, nth_error cs which = Some (N, p) /\ covers k p row /\ ~ satisfied o (w k) t row N in
  match res with
  | None => forall row which, row < 2 ^ k -> ~ broken row which
  | Some (row, which) => row < 2 ^ k /\ broken row which /\ forall row' which', row' < row \/ row' = row /\ which' < which -> ~ broken row' which'
  end.
Proof.
  intros F o L e M w SD t k cs Sh Hk HR Hc. destruct (C53_check_constraints F o L e M w SD t k (map (placed o (w k) k) cs) Sh Hk HR) as (res & E & H).
  { intros c Hin. apply in_map_iff in Hin as (c' & <- & Hin). destruct (Hc c' Hin) as [H1 H2]. destruct (placed_ok o e M w SD k Hk t c' HR H1 H2) as (A & B & C & _). auto. }
  assert (Eq : forall row which, row < 2 ^ k -> ((exists c, nth_error (map (placed o (w k) k) cs) which = Some c /\ violated o (fpw o (w k) row) (row_trace t row) c) <->
     exists N p, nth_error cs which = Some (N, p) /\ covers k p row /\ ~ satisfied o (w k) t row N)).
  { intros row which Hrow. rewrite nth_error_map. split.
    - intros (c & Ec & V). destruct (nth_error cs which) as [[N p]|] eqn:En; [|discriminate]. injection Ec as <-. exists N, p. split; [reflexivity|]. destruct (Hc (N, p) (nth_error_In _ _ En)) as [H1 H2].
      apply (violated_placed o L e M w SD k Hk t row (N, p) Sh HR Hrow H1 H2), V.
    - intros (N & p & En & H3). rewrite En. eexists. split; [reflexivity|]. destruct (Hc (N, p) (nth_error_In _ _ En)) as [H1 H2]. apply (violated_placed o L e M w SD k Hk t row (N, p) Sh HR Hrow H1 H2), H3. }
  exists res. split; [exact E|]. cbn zeta in H |- *. destruct res as [[row which]|].
  - destruct H as (H1 & H2 & H3). split; [exact H1|]. split; [apply Eq; assumption|]. intros row' which' Hlt. rewrite <- Eq by lia. apply H3, Hlt.
  - intros row which Hrow. rewrite <- Eq by exact Hrow. apply H, Hrow.
Qed.
Print Assumptions C62_check.
(** So the table is accepted exactly if all conditions hold on all rows they are placed on. *)
Theorem C62_accepts : forall F (o : ops F), lawful o -> forall e M w, sound o e M w -> forall t k cs, shaped t -> k <= M -> t_rows t = 2 ^ k ->
  (forall c, In c cs -> condition t (fst c) /\ sensible k (snd c)) ->
  (check_constraints o e (map (placed o (w k) k) cs) t = Some None <-> forall N p, In (N, p) cs -> forall row, row < 2 ^ k -> covers k p row -> satisfied o (w k) t row N).
Proof.
  intros F o L e M w SD t k cs Sh Hk HR Hc. destruct (C62_check F o L e M w SD t k cs Sh Hk HR Hc) as (res & E & H). rewrite E. cbn zeta in H. destruct res as [[row which]|].
  - split; [discriminate|]. intros A. exfalso. destruct H as (Hr & (N & p & En & C & S) & _). apply S. apply (A N p (nth_error_In _ _ En) row Hr C).
  - split; [|reflexivity]. intros _ N p Hin row Hr C. apply In_nth_error in Hin as (which & En). destruct (Hc (N, p) (nth_error_In _ _ En)) as [(U & D & Rf) _]. cbn [fst] in *.
    destruct (check_free o L (fpw o (w k) row) (row_trace t row) N U D) as (v & _ & V).
    { intros i j R. destruct (Rf i j R) as (Hi & _). unfold row_trace. rewrite (t_get_ok o); [discriminate|exact Sh| |exact Hi]. pose proof (Z.mod_pos_bound (Z.of_nat row + j) (Z.of_nat (t_rows t)) ltac:(lia)). lia. }
    destruct (feq_dec o L v (f0 o)) as [->|Nv]; [exact V|]. exfalso. apply (H row which Hr). exists N, p. split; [exact En|]. split; [exact C|]. intros V0. apply Nv. exact (value_fun o _ _ _ _ _ V V0).
Qed.
Print Assumptions C62_accepts.
(** A periodic column has the given values in turn, and is an expression that conditions may use. *)
Theorem C62_periodic : forall F (o : ops F), lawful o -> forall e M w, sound o e M w -> forall k j values, k <= M -> j <= k -> length values = 2 ^ j ->
  exists c, periodic o e (2 ^ Z.of_nat k) values = Some c /\ usizes c /\ division_free c /\ (forall i j, ~ refers c i j) /\
  forall row T, value o (fpw o (w k) row) T c (nth (row mod 2 ^ j) values (f0 o)).
Proof.
  intros F o L e M w SD k j v Hk Hj Lv. pose proof (s_max _ _ _ _ SD) as HM. pose proof (pow2_pos j) as Pj. unfold periodic.
  destruct (interp o L e M w SD j v ltac:(lia) Lv) as (p & Lp & Hp). destruct (e_ifft_spec o L e M w SD j p v ltac:(lia) Lp Lv Hp) as (u & Eu & Lu & Hu). rewrite Eu. cbn [bind].
  destruct (permute_spec (f0 o) (edbg e) j u ltac:(lia) Lu) as (q & Eq & Lq & Hq). rewrite Eq. cbn [bind]. unfold poly_new. rewrite Lq, is_pow2.
  assert (q = p). { apply (list_ext0 o); [congruence|]. intros i Hi. rewrite Lq in Hi. rewrite Hq by exact Hi. rewrite Hu by apply rev_lt. rewrite rev_rev by exact Hi. reflexivity. } subst q.
  cbn [bind]. rewrite Lv, pow_ZN, pow_div by exact Hj. eexists. split; [reflexivity|]. split; [|split; [|split]].
  - cbn [usizes]. split; [destruct p; [cbn in Lp; lia|discriminate]|]. split; [|exact I]. pose proof (pow_le_64 (k - j) ltac:(lia)). lia.
  - exact I.
  - intros i j' R. exact R.
  - intros row T. rewrite Hp by (apply Nat.mod_upper_bound; lia). replace (fpw o (w j) (row mod 2 ^ j)) with (fexp o (fpw o (w k) row) (Z.to_N (2 ^ Z.of_nat (k - j)))); [constructor; constructor; constructor|].
    rewrite (w_mod o L e M w SD) by lia. rewrite exp_pow by (pose proof (pow_le_64 (k - j) ltac:(lia)); lia). rewrite pow_to, <- (fpw_mul o L), Nat.mul_comm, (fpw_mul o L). f_equal.
    rewrite <- (w_pow o L e M w SD j (k - j)) by lia. f_equal. f_equal. lia.
Qed.
Print Assumptions C62_periodic.
(** The placed conditions are constraints of the kind that the prover and the verifier handle (C54). *)
Theorem C62_selects : forall F (o : ops F), lawful o -> forall e M w, sound o e M w -> forall t k tp N p, k <= M -> t_rows t = 2 ^ k -> condition t N -> sensible k p ->
  selects o (w k) k tp (placed o (w k) k (N, p)) (match p with Row index => [Z.to_nat (index mod 2 ^ Z.of_nat k)] | Starts j => map (fun i => i * 2 ^ j) (seq 0 (2 ^ (k - j))) | _ => seq 0 (2 ^ k) end).
Proof.
  intros F o L e M w SD t k tp N p Hk HR Hc Sp. destruct (placed_ok o e M w SD k Hk t (N, p) HR Hc Sp) as (_ & Fr & _). pose proof (pow2_pos k) as P2. pose proof Hc as (_ & D & _). destruct (free_numerators N D) as [_ Dn].
  assert (Q : forall r : nat, fpw o (w k) r = fexp o (w k) (Z.to_N (Z.of_nat r))) by (intros r; rewrite exp_pow by lia; rewrite Nat2Z.id; reflexivity).
  assert (All : denominators (placed o (w k) k (N, p)) = [e_sub (EExp EX (2 ^ Z.of_nat k)) (EConst (f1 o))] -> selects o (w k) k tp (placed o (w k) k (N, p)) (seq 0 (2 ^ k))).
  { intros Ed. destruct (C54_selects F o L e M w SD k tp _ (EConst (f1 o)) (f1 o) 0 Hk Fr (or_introl eq_refl)) as [H _]. specialize (H k (le_n _)). rewrite Nat.sub_diag in H. specialize (H ltac:(cbn; lia) eq_refl Ed).
    replace (seq 0 (2 ^ k)) with (map (fun i => 0 + i * 2 ^ 0) (seq 0 (2 ^ k))); [exact H|]. rewrite <- map_id. apply map_ext. intros i. cbn. lia. }
  destruct p as [|index|j|j]; [apply All| |apply All|]; try (unfold placed; cbn [fst snd]; unfold every_row, on_loop_rows, e_div; cbn [denominators app e_sub]; rewrite ?Dn; reflexivity).
  2: { cbn [sensible] in Sp. destruct (C54_selects F o L e M w SD k tp (placed o (w k) k (N, Starts j)) (EConst (f1 o)) (f1 o) 0 Hk Fr (or_introl eq_refl)) as [H _]. specialize (H (k - j) ltac:(lia) ltac:(apply pow2_pos) eq_refl).
    replace (k - (k - j)) with j in H by lia. apply H. unfold placed. cbn [fst snd]. unfold on_loop_start_rows, e_div. rewrite pow_div by exact Sp. cbn [denominators app e_sub]. rewrite Dn. reflexivity. }
  cbn [sensible] in Sp. destruct (C54_selects F o L e M w SD k tp (placed o (w k) k (N, Row index)) (EExp (EConst (w k)) index) (fexp o (w k) (Z.to_N index)) (Z.to_nat (index mod 2 ^ Z.of_nat k)) Hk Fr) as [_ H].
  { right. exists (w k), index. split; [reflexivity|]. split; [exact Sp|reflexivity]. }
  assert (Pz : (0 < 2 ^ Z.of_nat k)%Z) by (apply Z.pow_pos_nonneg; lia). pose proof (Z.mod_pos_bound index _ Pz) as Hb.
  apply H; [rewrite <- (pow_to k); lia| |].
  - rewrite exp_pow by lia. rewrite <- (w_mod o L e M w SD k (Z.to_nat index)) by exact Hk. f_equal. rewrite <- pow_ZN. rewrite <- (Z2Nat.id index) at 2 by lia. rewrite <- Nat2Z.inj_mod, Nat2Z.id. reflexivity.
  - unfold placed. cbn [fst snd denominators]. unfold on_row. cbn [denominators]. rewrite Dn. reflexivity.
Qed.
Print Assumptions C62_selects.
(** A system made of placed conditions by from_expressions, with its defaults, on a table that passes the check meets the
    requirements of the completeness theorem C57. *)
Theorem C62_provable : forall F (o : ops F), lawful o -> forall e M w, sound o e M w -> forall t k a cs Dg, shaped t -> 1 <= k -> k + 4 <= M -> t_rows t = 2 ^ k -> 0 < t_cols t ->
  (forall c, In c cs -> condition t (fst c) /\ sensible k (snd c)) -> check_constraints o e (map (placed o (w k) k) cs) t = Some None ->
  fpw o (egen e) (2 ^ (k + a)) <> f1 o -> a <= 4 -> (forall a', (Dg <= 2 ^ Z.of_nat a')%Z <-> a <= a') ->
  exists c, system e (2 ^ k) (t_cols t) (map (placed o (w k) k) cs) = Some c /\ (c_degree o true c = Some Dg -> proves o e M w k 4 a t c).
Proof.
  intros F o L e M w SD t k a cs Dg Sh K1 KM HR HC Hc Ck Hg Ha HD. pose proof (s_max _ _ _ _ SD) as HM. unfold system, from_expressions. rewrite (s_root _ _ _ _ SD k ltac:(lia)). cbn [bind].
  eexists. split; [reflexivity|]. intros ED. destruct (C48_default_layout k ltac:(lia)) as (L1 & L2 & L3). pose proof (pow2_pos k) as P2.
  constructor; cbn [c_nrows c_ncolumns c_blowup c_exprs c_fri c_queries]; auto.
  - exists Dg. split; [exact ED|]. split; [apply HD; lia|]. intros a' H. apply HD, H.
  - intros ex Hin. apply in_map_iff in Hin as ([N p] & <- & Hin). destruct (Hc (N, p) Hin) as [H1 H2]. destruct (placed_ok o e M w SD k ltac:(lia) t (N, p) HR H1 H2) as (A & _ & C & J). split; [exact A|]. split; [exact C|]. split; [exact J|].
    intros tp _. eexists. apply (C62_selects F o L e M w SD t k tp N p); (assumption || lia).
  - split; [intros E; apply L3 in E; lia|]. split; [eapply Forall_impl; [|exact L1]; cbn; intros; lia|]. destruct (Nat.le_gt_cases (list_sum (default_fri_layout (Z.of_nat (2 ^ k)))) k) as [|G]; [assumption|]. exfalso.
    pose proof (Nat.pow_lt_mono_r 2 _ _ ltac:(lia) G). destruct (8 <? k); cbn [Nat.pow] in L2; nia.
  - lia.
Qed.
Print Assumptions C62_provable.
(** A periodic column of two values in a table of four rows, and a table with 3, 4 in turn but for the last row: it passes the
    check against the column on all rows but the last, and on the rows but the last of each block of two, but not on row 3. *)
Example C62_ex : exists c, periodic tiny_ops tiny_engine 4 [tiny 3; tiny 4] = Some c /\
  let t := Table 4 1 [tiny 3; tiny 4; tiny 3; tiny 9] in let g := fe_w tiny_good 2 in let N := e_sub (ETrace 0 0) c in
  check_constraints tiny_ops tiny_engine (map (placed tiny_ops g 2) [(N, AllButLast); (N, Blocks 1); (N, Row 2)]) t = Some None /\
  check_constraints tiny_ops tiny_engine (map (placed tiny_ops g 2) [(N, Row 3)]) t <> Some None.
Proof.
  destruct (C62_periodic _ tiny_ops tiny_lawful tiny_engine 5 (fe_w tiny_good) tiny_sound 2 1 [tiny 3; tiny 4] ltac:(lia) ltac:(lia) eq_refl) as (c & E & U & D & Rf & V). exists c. split; [exact E|].
  intros t g N. assert (Cd : condition t N). { split; [split; [exact I|exact U]|]. split; [split; [exact I|exact D]|]. intros i j [[-> ->]|R]; [|exfalso; exact (Rf i j R)]. cbn. lia. }
  assert (Sa : forall row, row < 4 -> (satisfied tiny_ops g t row N <-> nth row [tiny 3; tiny 4; tiny 3; tiny 9] (tiny 0) = nth (row mod 2 ^ 1) [tiny 3; tiny 4] (f0 tiny_ops))).
  { intros row Hr. refine (value_sub tiny_ops tiny_lawful _ _ _ _ _ _ _ (V row _)). constructor. do 4 (destruct row as [|row]; [reflexivity|]). lia. }
  assert (H5 : 2 <= 5) by lia. split.
  - apply (C62_accepts _ tiny_ops tiny_lawful tiny_engine 5 (fe_w tiny_good) tiny_sound t 2 _ eq_refl H5 eq_refl).
    + intros x [<-|[<-|[<-|[]]]]; (split; [exact Cd|cbn; lia || exact I]).
    + intros N' p Hin row Hr Hc. assert (E' : N' = N /\ row <> 3). { destruct Hin as [Hin|[Hin|[Hin|[]]]]; injection Hin as <- <-; (split; [reflexivity|]); intros ->; vm_compute in Hc; first [lia|discriminate Hc|apply Hc; reflexivity]. }
      destruct E' as [-> N3]. apply Sa; [exact Hr|]. do 3 (destruct row as [|row]; [reflexivity|]). cbn in Hr. lia.
  - intros C. assert (S3 : satisfied tiny_ops g t 3 N).
    { refine (proj1 (C62_accepts _ tiny_ops tiny_lawful tiny_engine 5 (fe_w tiny_good) tiny_sound t 2 _ eq_refl H5 eq_refl _) C N (Row 3) (or_introl eq_refl) 3 _ _); [|cbn; lia|reflexivity]. intros x [<-|[]]. split; [exact Cd|cbn; lia]. }
    apply Sa in S3; [|lia]. apply (f_equal fe_val) in S3. vm_compute in S3. discriminate S3.
Qed.
