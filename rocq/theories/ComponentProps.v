(** C47: the component combinators. *)
Require Import Field ZArith NArith Lia Bool List.
From Verif Require Import Word KnuthModel FieldSig FieldInstance FieldAlgModel Arr FftModel FftSpec PermuteProofs StarkBase StarkInstance PolyModel TraceModel TraceProps ExprModel ExprSpec ComponentModel ComponentProofs.
Import ListNotations.
Open Scope nat_scope.

(** Side by side: the left columns, then the right ones. *)
Theorem C47_horizontal_cells : forall F (o : ops F) dbg C W C' W' (left : component F C W) (right : component F C' W') wl wr rows tl tr,
  k_size left = Some rows -> k_size right = Some rows -> trace_table o left wl = Some tl -> trace_table o right wr = Some tr ->
  exists T, trace_table o (k_horizontal dbg left right) (wl, wr) = Some T /\ shaped T /\ t_rows T = rows /\ t_cols T = k_polynomials left + k_polynomials right /\
  forall r c, t_get T r c = if c <? k_polynomials left then t_get tl r c else t_get tr r (c - k_polynomials left).
Proof.
  intros F o dbg C W C' W' left right wl wr s tl tr Sl Sr El Er. unfold trace_table in *. cbn [k_horizontal k_size k_polynomials k_trace fst snd]. rewrite Sl, Sr in *. cbn [bind] in *. rewrite Nat.eqb_refl. cbn [bind].
  set (n := k_polynomials left) in *. set (n' := k_polynomials right) in *.
  destruct (k_trace left n s wl) as [lw|] eqn:Elw; [|discriminate]. destruct (k_trace right n' s wr) as [rw|] eqn:Erw; [|discriminate]. cbn [bind] in *.
  pose proof (apply_dims o s n lw _ _ (dims_new o s n) El) as Dl. pose proof (apply_dims o s n' rw _ _ (dims_new o s n') Er) as Dr.
  destruct (apply_mapped o dbg n s s (n + n') (fun p l => Some (p, l)) (fun p l => (p, l))) with (ws := lw) (t := t_new o s n) (t' := tl) (T := t_new o s (n + n')) as (lw' & T1 & M1 & A1 & D1 & G1 & H1); try assumption; try apply dims_new.
  { intros p l Hp Hl. cbn. split; [reflexivity|lia]. } { intros p l p' l' _ _ _ _ E. exact E. }
  destruct (apply_mapped o dbg n' s s (n + n') (fun p l => Some (p + n, l)) (fun p l => (p + n, l))) with (ws := rw) (t := t_new o s n') (t' := tr) (T := T1) as (rw' & T2 & M2 & A2 & D2 & G2 & H2); try assumption; try apply dims_new.
  { intros p l Hp Hl. cbn. split; [reflexivity|lia]. } { intros p l p' l' _ _ _ _ E. injection E as E E'. f_equal; lia. }
  rewrite M1. cbn [bind]. rewrite M2. cbn [bind]. rewrite apply_app, A1. cbn [bind]. exists T2. split; [exact A2|]. destruct D2 as (Sh & R2 & C2). split; [exact Sh|]. split; [exact R2|]. split; [exact C2|].
  destruct (C46_cells F o s (n + n')) as (_ & Z0 & _). destruct (C46_cells F o s n) as (_ & Zl & _). destruct (C46_cells F o s n') as (_ & Zr & _).
  assert (OUT : forall (t : table F) rows cols r c, dims t rows cols -> ~ (r < rows /\ c < cols) -> t_get t r c = None).
  { intros t rows cols r c (Sh' & R' & C'') N. destruct (C46_cells F o 0 0) as (_ & _ & H). apply (H t r c (f0 o) Sh'). rewrite R', C''. exact N. }
  intros r c. destruct (Nat.ltb_spec c n) as [Hc|Hc].
  - rewrite H2 by (intros p l _ _ E; injection E; lia). destruct (Nat.ltb_spec r s) as [Hr|Hr].
    + apply (G1 c r Hc Hr). cbn [fst snd]. rewrite Z0, Zl by lia. reflexivity.
    + rewrite (OUT T1 s (n + n')), (OUT tl s n) by (try assumption; lia). reflexivity.
  - destruct (Nat.ltb_spec r s) as [Hr|Hr]; [destruct (Nat.ltb_spec c (n + n')) as [Hc'|Hc']|].
    + replace c with (c - n + n) at 1 by lia. apply (G2 (c - n) r); [lia|exact Hr|]. cbn [fst snd]. rewrite H1 by (intros p l Hp _ E; injection E; lia). rewrite Z0, Zr by lia. reflexivity.
    + rewrite (OUT T2 s (n + n')), (OUT tr s n') by (try assumption; try (repeat split; assumption); lia). reflexivity.
    + rewrite (OUT T2 s (n + n')), (OUT tr s n') by (try assumption; try (repeat split; assumption); lia). reflexivity.
Qed.
Print Assumptions C47_horizontal_cells.

Lemma vertical_loop F (o : ops F) dbg C W (element : component F C W) rows size : k_size element = Some rows ->
  let n := k_polynomials element in
  forall ws tables i0 T, Forall2 (fun w t => trace_table o element w = Some t) ws tables -> i0 + length ws <= size -> dims T (rows * size) n ->
  (forall row c, i0 * rows <= row < rows * size -> c < n -> t_get T row c = Some (f0 o)) ->
  exists l T', option_all (map (fun iw => match iw with (i, w) => let? ew := k_trace element n rows w in mapped dbg n rows (fun p l => Some (p, l + i * rows)) ew end) (List.combine (seq i0 (length ws)) ws)) = Some l /\
    apply_writes T (concat l) = Some T' /\ dims T' (rows * size) n /\
    (forall row c, row < i0 * rows -> t_get T' row c = t_get T row c) /\
    (forall i t r c, nth_error tables i = Some t -> r < rows -> c < n -> t_get T' ((i0 + i) * rows + r) c = t_get t r c) /\
    (forall row c, (i0 + length ws) * rows <= row < rows * size -> c < n -> t_get T' row c = Some (f0 o)).
Proof.
  intros Es n. induction ws as [|w ws IH]; intros tables i0 T HF Hl D Z.
  - inversion HF; subst. exists [], T. cbn [length seq List.combine map option_all concat apply_writes for_each]. split; [reflexivity|]. split; [reflexivity|]. split; [exact D|]. split; [auto|]. split.
    + intros i t r c Hi. destruct i; discriminate Hi.
    + intros row c Hr Hc. rewrite Nat.add_0_r in Hr. apply Z; assumption.
  - inversion HF as [|w' t ws' tables' Et HF' E1 E2]; subst. cbn [length] in *.
    unfold trace_table in Et. rewrite Es in Et. cbn [bind] in Et. fold n in Et. destruct (k_trace element n rows w) as [ew|] eqn:Eew; [|discriminate]. cbn [bind] in Et.
    destruct (apply_mapped o dbg n rows (rows * size) n (fun p l => Some (p, l + i0 * rows)) (fun p l => (p, l + i0 * rows))) with (ws := ew) (t := t_new o rows n) (t' := t) (T := T) as (ew' & T1 & M1 & A1 & D1 & G1 & H1); try assumption; try apply dims_new.
    { intros p l Hp Hl'. cbn [fst snd]. split; [reflexivity|]. split; [exact Hp|]. assert ((i0 + 1) * rows <= size * rows) by (apply Nat.mul_le_mono_r; lia). lia. }
    { intros p l p' l' _ _ _ _ E. injection E as E E'. f_equal; lia. }
    destruct (IH tables' (S i0) T1 HF' ltac:(lia) D1) as (l & T2 & M2 & A2 & D2 & K1 & K2 & K3).
    { intros row c Hr Hc. rewrite H1 by (intros p l _ Hl' E; injection E; lia). apply Z; [lia|exact Hc]. }
    exists (ew' :: l), T2. cbn [seq List.combine map option_all]. rewrite Eew. cbn [bind]. rewrite M1. cbn [bind]. rewrite M2. cbn [bind concat]. split; [reflexivity|]. rewrite apply_app, A1. cbn [bind]. split; [exact A2|]. split; [exact D2|]. split; [|split].
    + intros row c Hr. rewrite K1 by lia. apply H1. intros p l' _ Hl' E; injection E; lia.
    + intros i t' r c Hi Hr Hc. destruct i as [|i].
      * cbn in Hi. injection Hi as <-. rewrite K1 by lia. replace ((i0 + 0) * rows + r) with (r + i0 * rows) by lia. apply (G1 c r Hc Hr). cbn [fst snd]. destruct (C46_cells F o rows n) as (_ & Zn & _). rewrite Zn by assumption. apply Z; [|exact Hc].
        assert ((i0 + 1) * rows <= size * rows) by (apply Nat.mul_le_mono_r; lia). lia.
      * cbn in Hi. replace (i0 + S i) with (S i0 + i) by lia. apply K2; assumption.
    + intros row c Hr Hc. apply K3; [|exact Hc]. replace (S i0 + length ws) with (i0 + S (length ws)) by lia. exact Hr.
Qed.
(** On top of each other: row [i * rows + r] is row [r] of the i-th element; rows of missing elements are zero. *)
Theorem C47_vertical_cells : forall F (o : ops F) dbg C W (element : component F C W) size vertical rows ws tables,
  k_vertical dbg element size = Some vertical -> k_size element = Some rows -> length ws <= size -> Forall2 (fun w t => trace_table o element w = Some t) ws tables ->
  exists T, trace_table o vertical ws = Some T /\ shaped T /\ t_rows T = rows * size /\ t_cols T = k_polynomials element /\
  forall row c, row < rows * size -> c < k_polynomials element ->
    t_get T row c = match nth_error tables (row / rows) with Some t => t_get t (row mod rows) c | None => Some (f0 o) end.
Proof.
  intros F o dbg C W element size vertical rows ws tables Ev Es Hl HF. unfold k_vertical in Ev. destruct (is_power_of_two size); [|discriminate]. injection Ev as <-. unfold trace_table. cbn [k_size k_polynomials k_trace]. rewrite Es. cbn [bind].
  destruct (vertical_loop F o dbg C W element rows size Es ws tables 0 (t_new o (rows * size) (k_polynomials element)) HF Hl (dims_new o _ _)) as (l & T & M & A & D & K1 & K2 & K3).
  { intros row c Hr Hc. apply (C46_cells F o (rows * size) (k_polynomials element)); [lia|exact Hc]. }
  rewrite M. cbn [bind]. exists T. split; [exact A|]. destruct D as (Sh & R & Cc). split; [exact Sh|]. split; [exact R|]. split; [exact Cc|].
  intros row c Hr Hc. assert (Hn : rows <> 0) by lia. pose proof (Nat.div_mod row rows Hn) as DM. pose proof (Nat.mod_upper_bound row rows Hn) as UB.
  destruct (nth_error tables (row / rows)) as [t|] eqn:Et.
  - rewrite DM at 1. replace (rows * (row / rows) + row mod rows) with ((0 + row / rows) * rows + row mod rows) by lia. apply K2; assumption.
  - apply nth_error_None in Et. apply K3; [|exact Hc]. split; [|exact Hr]. assert (length ws = length tables) as -> by (clear - HF; induction HF; cbn; lia). apply (Nat.mul_le_mono_r _ _ rows) in Et. lia.
Qed.
Print Assumptions C47_vertical_cells.

(** Folded: the cell (row [r], column [c]) of the element is in column [c / 2^folds], in the [2^folds] rows from
    [r * 2^folds] on, at the bit-reversed position of [c mod 2^folds]; [map_up] tells where; all other cells are zero. *)
Theorem C47_fold_cells : forall F (o : ops F) dbg C W (element : component F C W) folds folded rows w t,
  folds < 64 -> k_fold dbg element folds = Some folded -> k_size element = Some rows -> trace_table o element w = Some t ->
  exists T, trace_table o folded w = Some T /\ shaped T /\ t_rows T = rows * 2 ^ folds /\ t_cols T = ceil_div (k_polynomials element) (2 ^ folds) /\
  (forall r c, r < rows -> c < k_polynomials element -> exists row col, map_up dbg (2 ^ folds) r c = Some (row, col) /\ row < t_rows T /\ col < t_cols T /\ t_get T row col = t_get t r c) /\
  (forall row col, row < t_rows T -> col < t_cols T ->
    t_get T row col = let c := col * 2 ^ folds + rev_bits folds (row mod 2 ^ folds) in if c <? k_polynomials element then t_get t (row / 2 ^ folds) c else Some (f0 o)).
Proof.
  intros F o dbg C W element folds folded rows w t Hf Ek Es Et. unfold k_fold, reduction in Ek. rewrite (proj2 (Nat.ltb_lt folds 64) Hf) in Ek. cbn [bind] in Ek. injection Ek as <-.
  unfold trace_table in *. cbn [k_size k_polynomials k_trace]. rewrite Es in *. cbn [bind] in *. set (n := k_polynomials element) in *. destruct (k_trace element n rows w) as [ew|] eqn:Ew; [|discriminate]. cbn [bind] in *.
  pose proof (pow2_pos folds) as P. set (red := 2 ^ folds) in *. assert (Pn : red <> 0) by lia.
  assert (CD : forall p, p < n -> p / red < ceil_div n red).
  { intros p Hp. unfold ceil_div. destruct (Nat.eqb_spec n 0); [lia|]. assert (p / red <= (n - 1) / red) by (apply Nat.div_le_mono; lia). lia. }
  assert (RL : forall p, rev_bits folds p < red) by (intros p; apply rev_lt).
  destruct (apply_mapped o dbg n rows (rows * red) (ceil_div n red) (fun p l => let? folded := permute_index dbg red (p mod red) in Some (p / red, l * red + folded)) (fun p l => (p / red, l * red + rev_bits folds (p mod red)))) with (ws := ew) (t := t_new o rows n) (t' := t) (T := t_new o (rows * red) (ceil_div n red)) as (ew' & T & M & A & D & G & H); try assumption; try apply dims_new.
  { intros p l Hp Hl. cbn [fst snd]. unfold red. rewrite permute_index_spec; [|exact Hf|apply Nat.mod_upper_bound; exact Pn]. cbn [bind]. fold red. split; [reflexivity|]. split; [apply CD, Hp|]. pose proof (RL (p mod red)). apply cell_lt; assumption. }
  { intros p l p' l' Hp Hl Hp' Hl' E. injection E as E1 E2. apply cell_inj in E2 as [-> E2]; [|apply RL|apply RL]. f_equal. apply (f_equal (rev_bits folds)) in E2. rewrite !rev_rev in E2 by (apply Nat.mod_upper_bound; exact Pn). rewrite (Nat.div_mod p red Pn), (Nat.div_mod p' red Pn), E1, E2. reflexivity. }
  rewrite M. cbn [bind]. exists T. split; [exact A|]. destruct D as (Sh & R & Cc). split; [exact Sh|]. split; [exact R|]. split; [exact Cc|].
  destruct (C46_cells F o (rows * red) (ceil_div n red)) as (_ & ZT & _). destruct (C46_cells F o rows n) as (_ & Zt & _).
  assert (CELL : forall p l, p < n -> l < rows -> t_get T (l * red + rev_bits folds (p mod red)) (p / red) = t_get t l p).
  { intros p l Hp Hl. apply (G p l Hp Hl). cbn [fst snd]. rewrite Zt by assumption. apply ZT; [apply cell_lt; [exact Hl|apply RL]|apply CD, Hp]. }
  split.
  - intros r c Hr Hc. exists (r * red + rev_bits folds (c mod red)), (c / red). unfold map_up, red. rewrite permute_index_spec; [|exact Hf|apply Nat.mod_upper_bound; exact Pn]. cbn [bind]. fold red. split; [reflexivity|]. rewrite R, Cc. split; [apply cell_lt; [exact Hr|apply RL]|]. split; [apply CD, Hc|]. apply CELL; assumption.
  - rewrite R, Cc. intros row col Hr Hc. cbv zeta. set (c := col * red + rev_bits folds (row mod red)).
    assert (Q1 : c / red = col) by (unfold c; rewrite Nat.div_add_l by exact Pn; rewrite (Nat.div_small _ _ (RL _)); lia).
    assert (Q2 : c mod red = rev_bits folds (row mod red)) by (unfold c; rewrite Nat.add_comm, Nat.mod_add by exact Pn; apply Nat.mod_small, RL).
    pose proof (Nat.mod_upper_bound row red Pn) as UB. assert (Hd : row / red < rows) by (apply Nat.div_lt_upper_bound; [exact Pn|lia]).
    destruct (Nat.ltb_spec c n) as [Hcn|Hcn].
    + rewrite <- (CELL c (row / red) Hcn Hd). rewrite Q1, Q2, rev_rev by exact UB. f_equal. rewrite (Nat.div_mod row red Pn) at 1. lia.
    + rewrite H; [apply ZT; assumption|]. intros p l Hp Hl E. injection E as E1 E2. assert (p = c); [|lia]. rewrite (Nat.div_mod p red Pn), E1. unfold c. f_equal; [lia|].
      rewrite <- E2. rewrite Nat.add_comm, Nat.mod_add by exact Pn. rewrite (Nat.mod_small _ _ (RL _)). symmetry. apply rev_rev. apply Nat.mod_upper_bound; exact Pn.
Qed.
Print Assumptions C47_fold_cells.
