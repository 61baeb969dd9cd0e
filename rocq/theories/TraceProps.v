(** C46: trace tables. *)
Require Import ZArith Lia Bool List.
From Verif Require Import Word KnuthModel FieldSig FieldInstance FieldAlgModel Arr FftModel FftSpec PermuteProofs FftProofs FftProps StarkBase StarkInstance PolyModel PolyProps TraceModel.
Import ListNotations.
Open Scope nat_scope.

(** The shape invariant of every table that [new] and index writes produce. *)
Definition shaped {F} (t : table F) : Prop := length (t_values t) = t_rows t * t_cols t.
Lemma cell_lt R C i j : i < R -> j < C -> i * C + j < R * C.
Proof. intros. assert ((i + 1) * C <= R * C) by (apply Nat.mul_le_mono_r; lia). lia. Qed.
Lemma cell_inj C i j i' j' : j < C -> j' < C -> i * C + j = i' * C + j' -> i = i' /\ j = j'.
Proof.
  intros H H' E. assert (i = i').
  { rewrite (Nat.mul_comm i), (Nat.mul_comm i') in E. transitivity ((C * i + j) / C); [|rewrite E]; [|symmetry]; rewrite Nat.mul_comm, Nat.div_add_l, Nat.div_small by lia; lia. }
  subst. lia.
Qed.
Section Proofs.
Context {F : Type} (o : ops F).
Lemma t_get_ok t i j : shaped t -> i < t_rows t -> j < t_cols t -> t_get t i j = Some (nth (i * t_cols t + j) (t_values t) (f0 o)).
Proof.
  intros S Hi Hj. unfold t_get. apply Nat.ltb_lt in Hi as Hi', Hj as Hj'. rewrite Hi', Hj'. cbn [andb]. apply get_nth. unfold shaped in S. rewrite S. apply cell_lt; assumption.
Qed.
Lemma step_by_spec {A} (d : A) s : 0 < s -> forall n v fuel, length v <= fuel -> n * s <= length v + (s - 1) < (n + 1) * s ->
  length (step_by fuel s v) = n /\ forall i, i < n -> nth i (step_by fuel s v) d = nth (i * s) v d.
Proof.
  intros Hs. induction n as [|n IH]; intros v fuel Hf Hn; rewrite Nat.mul_add_distr_r, ?Nat.mul_succ_l in Hn.
  - assert (length v = 0) by lia. destruct v; [|discriminate]. destruct fuel; cbn; (split; [reflexivity|intros i Hi; lia]).
  - destruct v as [|a v]; [cbn in Hn; lia|]. destruct fuel as [|fuel]; [cbn in Hf; lia|]. cbn [step_by].
    destruct (IH (skipn s (a :: v)) fuel) as [H1 H2].
    + rewrite skipn_length. cbn [length] in *. lia.
    + rewrite skipn_length. cbn [length] in *. destruct (Nat.le_gt_cases (S (length v)) s).
      * replace (S (length v) - s) with 0 by lia. assert (n = 0) by nia. subst n. lia.
      * nia.
    + split; [cbn [length]; rewrite H1; reflexivity|]. intros [|i] Hi; [reflexivity|]. cbn [nth]. rewrite H2 by lia. rewrite nth_skipn. reflexivity.
Qed.
Lemma t_column_spec t j : shaped t -> j < t_cols t -> 0 < t_rows t -> exists v, t_column t j = Some v /\ length v = t_rows t /\ forall i, i < t_rows t -> t_get t i j = Some (nth i v (f0 o)).
Proof.
  intros Sh Hj HR. unfold t_column. pose proof Sh as Sh'. unfold shaped in Sh'. assert (j <= length (t_values t)) by nia. destruct (Nat.leb_spec j (length (t_values t))); [|lia]. destruct (Nat.eqb_spec (t_cols t) 0); [lia|].
  eexists. split; [reflexivity|]. destruct (step_by_spec (f0 o) (t_cols t) ltac:(lia) (t_rows t) (skipn j (t_values t)) (length (t_values t))) as [H1 H2].
  - rewrite skipn_length. lia.
  - rewrite skipn_length, Sh'. nia.
  - split; [exact H1|]. intros i Hi. rewrite (t_get_ok t i j Sh Hi Hj), H2 by exact Hi. rewrite nth_skipn. f_equal. f_equal. lia.
Qed.
Lemma option_all_ok {A} (f : nat -> option A) (P : nat -> A -> Prop) : forall n a, (forall j, a <= j < a + n -> exists x, f j = Some x /\ P j x) ->
  exists l, option_all (map f (seq a n)) = Some l /\ length l = n /\ forall j, j < n -> exists x, nth_error l j = Some x /\ P (a + j) x.
Proof.
  induction n as [|n IH]; intros a H; [exists []; split; [reflexivity|]; split; [reflexivity|]; intros j Hj; lia|]. cbn [seq map option_all].
  destruct (H a ltac:(lia)) as (x & -> & Hx). destruct (IH (S a)) as (l & -> & Ll & Hl); [intros j Hj; apply H; lia|]. cbn [bind]. exists (x :: l). split; [reflexivity|]. split; [cbn; lia|].
  intros [|j] Hj; [exists x; rewrite Nat.add_0_r; split; [reflexivity|exact Hx]|]. destruct (Hl j ltac:(lia)) as (y & E & Hy). exists y. split; [exact E|]. replace (a + S j) with (S a + j) by lia. exact Hy.
Qed.
End Proofs.

(** A new table has the given shape and is zero; a write changes exactly its cell and keeps the shape;
    accesses outside panic. *)
Theorem C46_cells : forall F (o : ops F) R C, shaped (t_new o R C) /\ (forall i j, i < R -> j < C -> t_get (t_new o R C) i j = Some (f0 o)) /\
  forall (t : table F) i j x, shaped t ->
    (~ (i < t_rows t /\ j < t_cols t) -> t_get t i j = None /\ t_set t i j x = None) /\
    (i < t_rows t -> j < t_cols t -> exists t', t_set t i j x = Some t' /\ shaped t' /\ t_rows t' = t_rows t /\ t_cols t' = t_cols t /\ t_get t' i j = Some x /\
      forall i' j', (i', j') <> (i, j) -> t_get t' i' j' = t_get t i' j').
Proof.
  intros F o R C. split; [unfold shaped, t_new; cbn; apply repeat_length|]. split.
  - intros i j Hi Hj. rewrite (t_get_ok o); [|unfold shaped; cbn; apply repeat_length|exact Hi|exact Hj]. cbn [t_values t_new]. f_equal. apply nth_repeat.
  - intros t i j x Sh. split.
    + intros N. unfold t_get, t_set. destruct (Nat.ltb_spec i (t_rows t)), (Nat.ltb_spec j (t_cols t)); cbn [andb]; try (split; reflexivity). exfalso. apply N. split; assumption.
    + intros Hi Hj. unfold t_set. apply Nat.ltb_lt in Hi as Hi', Hj as Hj'. rewrite Hi', Hj'. cbn [andb]. pose proof (cell_lt (t_rows t) (t_cols t) i j Hi Hj) as Lt. unfold shaped in Sh.
      rewrite set_ok by lia. cbn [bind]. eexists. split; [reflexivity|]. assert (Sh' : shaped (Table (t_rows t) (t_cols t) (upd (t_values t) (i * t_cols t + j) x))) by (unfold shaped; cbn; rewrite upd_length; exact Sh).
      split; [exact Sh'|]. split; [reflexivity|]. split; [reflexivity|]. split.
      * rewrite (t_get_ok o _ i j Sh') by assumption. cbn [t_values t_cols]. rewrite nth_upd by lia. rewrite Nat.eqb_refl. reflexivity.
      * intros i' j' N. unfold t_get. cbn [t_rows t_cols t_values]. destruct (Nat.ltb_spec i' (t_rows t)); [|reflexivity]. destruct (Nat.ltb_spec j' (t_cols t)); [|reflexivity]. cbn [andb].
        pose proof (cell_lt (t_rows t) (t_cols t) i' j' ltac:(lia) ltac:(lia)) as Lt'. rewrite !(get_nth _ _ (f0 o)) by (rewrite ?upd_length; lia). f_equal. rewrite nth_upd by lia.
        destruct (Nat.eqb_spec (i' * t_cols t + j') (i * t_cols t + j)) as [E|]; [|reflexivity]. exfalso. apply N. destruct (cell_inj (t_cols t) i' j' i j) as [-> ->]; auto.
Qed.
Print Assumptions C46_cells.

(** Rows and columns. *)
Theorem C46_rows_columns : forall F (o : ops F) (t : table F), shaped t ->
  (forall i, i < t_rows t -> exists v, t_row t i = Some v /\ length v = t_cols t /\ forall j, j < t_cols t -> t_get t i j = Some (nth j v (f0 o))) /\
  (forall j, j < t_cols t -> 0 < t_rows t -> exists v, t_column t j = Some v /\ length v = t_rows t /\ forall i, i < t_rows t -> t_get t i j = Some (nth i v (f0 o))).
Proof.
  intros F o t Sh. split; [|intros j Hj HR; apply t_column_spec; assumption].
  intros i Hi. unfold t_row. apply Nat.ltb_lt in Hi as Hi'. rewrite Hi'. pose proof Sh as Sh'. unfold shaped in Sh'. assert (Le : (i + 1) * t_cols t <= t_rows t * t_cols t) by (apply Nat.mul_le_mono_r; lia).
  destruct (Nat.leb_spec ((i + 1) * t_cols t) (length (t_values t))); [|lia]. eexists. split; [reflexivity|]. split; [rewrite firstn_length, skipn_length; lia|].
  intros j Hj. rewrite (t_get_ok o t i j Sh Hi Hj). f_equal. rewrite nth_firstn, nth_skipn by exact Hj. reflexivity.
Qed.
Print Assumptions C46_rows_columns.
(** Deviation: a column number beyond the table is not rejected (as long as it is within the data):
    column C starts one row down. *)
Theorem C46_column_deviation : forall F (o : ops F) (t : table F), shaped t -> 0 < t_cols t -> 1 < t_rows t ->
  exists v, t_column t (t_cols t) = Some v /\ length v = t_rows t - 1 /\ forall i, i + 1 < t_rows t -> t_get t (i + 1) 0 = Some (nth i v (f0 o)).
Proof.
  intros F o t Sh HC HR. unfold t_column. pose proof Sh as Sh'. unfold shaped in Sh'. destruct (Nat.leb_spec (t_cols t) (length (t_values t))); [|nia]. destruct (Nat.eqb_spec (t_cols t) 0); [lia|].
  eexists. split; [reflexivity|]. destruct (step_by_spec (f0 o) (t_cols t) HC (t_rows t - 1) (skipn (t_cols t) (t_values t)) (length (t_values t))) as [H1 H2].
  - rewrite skipn_length. lia.
  - rewrite skipn_length, Sh'. assert (t_rows t * t_cols t - t_cols t = (t_rows t - 1) * t_cols t) as -> by (rewrite Nat.mul_sub_distr_r; lia). nia.
  - split; [exact H1|]. intros i Hi. rewrite (t_get_ok o t (i + 1) 0 Sh) by lia. rewrite H2 by lia. rewrite nth_skipn. f_equal. f_equal. nia.
Qed.
Print Assumptions C46_column_deviation.
(** interpolate returns, for every column, the polynomial of degree below the number of rows whose
    values at the powers of the trace generator are the column. *)
Theorem C46_interpolate : forall F (o : ops F), lawful o -> forall e M w, sound o e M w -> forall t k, shaped t -> k <= M -> t_rows t = 2 ^ k ->
  exists ps, interpolate o e t = Some ps /\ length ps = t_cols t /\ t_generator e t = Some (w k) /\
  forall j, j < t_cols t -> exists p, nth_error ps j = Some p /\ length p = 2 ^ k /\
    forall i, i < 2 ^ k -> t_get t i j = Some (evaluate o p (fpw o (w k) i)).
Proof.
  intros F o L e M w SD t k Sh Hk HR. pose proof (pow2_pos k) as P2. pose proof (s_max _ _ _ _ SD) as HM.
  assert (I : forall j, j < t_cols t -> exists p, interpolate_column o e t j = Some p /\ length p = 2 ^ k /\ forall i, i < 2 ^ k -> t_get t i j = Some (evaluate o p (fpw o (w k) i))).
  { intros j Hj. unfold interpolate_column. destruct (t_column_spec o t j Sh Hj ltac:(lia)) as (v & -> & Lv & Hv). cbn [bind]. rewrite HR in Lv, Hv.
    destruct (interp o L e M w SD k v Hk Lv) as (p & Lp & Hp). destruct (e_ifft_spec o L e M w SD k p v Hk Lp Lv Hp) as (u & Eu & Lu & Hu). rewrite Eu. cbn [bind].
    destruct (permute_spec (f0 o) (edbg e) k u ltac:(lia) Lu) as (q & Eq & Lq & Hq). rewrite Eq. cbn [bind]. unfold poly_new. rewrite Lq, is_pow2.
    assert (q = p). { apply (list_ext0 o); [congruence|]. intros i Hi. rewrite Lq in Hi. rewrite Hq by exact Hi. rewrite Hu by apply rev_lt. rewrite rev_rev by exact Hi. reflexivity. } subst q.
    exists p. split; [reflexivity|]. split; [exact Lp|]. intros i Hi. rewrite Hv by exact Hi. f_equal. rewrite (evaluate_spec o L). apply Hp, Hi. }
  destruct (option_all_ok (interpolate_column o e t) (fun j p => length p = 2 ^ k /\ forall i, i < 2 ^ k -> t_get t i j = Some (evaluate o p (fpw o (w k) i))) (t_cols t) 0) as (ps & E & Lps & Hps).
  - intros j Hj. apply I. lia.
  - exists ps. split; [exact E|]. split; [exact Lps|]. split; [unfold t_generator; rewrite HR, (s_root _ _ _ _ SD k Hk); reflexivity|]. exact Hps.
Qed.
Print Assumptions C46_interpolate.
Definition ex_table : option (table (fe tiny_field)) :=
  let? t := t_set (t_new tiny_ops 4 2) 0 1 (tiny 7) in let? t := t_set t 3 0 (tiny 5) in t_set t 2 1 (tiny 9).
Example C46_ex : option_map (fun t => (length (t_values t), t_rows t, t_cols t)) ex_table = Some (8, 4, 2) /\
  option_map (map fe_val) (let? t := ex_table in t_column t 1) = Some [7%Z; 0%Z; 9%Z; 0%Z] /\
  option_map (map fe_val) (let? t := ex_table in t_row t 3) = Some [5%Z; 0%Z] /\
  option_map (map (map fe_val)) (let? t := ex_table in interpolate tiny_ops tiny_engine t) = Some [[74%Z; 76%Z; 23%Z; 21%Z]; [4%Z; 48%Z; 4%Z; 48%Z]].
Proof. repeat split; vm_compute; reflexivity. Qed.
