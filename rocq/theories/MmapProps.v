(** C50: MmapVec behaves as a bounded vector; what its destructors do. *)
Require Import ZArith Lia Bool List.
From Verif Require Import Word U256Model Arr MmapModel MmapSpec.
Import ListNotations.
Open Scope nat_scope.

(** One operation of the model. *)
Definition mv_step {T} (m : @mmap_vec T) (c : operation T) : option mmap_vec :=
  match c with
  | Push v => mv_push m v
  | Truncate n => Some (mv_truncate m n)
  | Clear => Some (mv_clear m)
  | Resize n v => mv_resize m n v
  | ExtendFromSlice l => mv_extend_from_slice m l
  | Extend l => mv_extend m l
  | Assign i v => mv_set m i v
  end.
Fixpoint mv_run {T} (m : @mmap_vec T) (cs : list (operation T)) : option mmap_vec :=
  match cs with [] => Some m | c :: cs => let? m := mv_step m c in mv_run m cs end.

Section Proofs.
Context {T : Type} (zero : T).
Record rel (m : mmap_vec) (cap : nat) (items : list T) : Prop := {
  rel_mem : length (mem m) = capacity m;
  rel_cap : capacity m = cap;
  rel_len : length_ m <= capacity m;
  rel_items : as_slice zero m = items
}.
Lemma as_slice_length m : length (mem m) = capacity m -> length_ m <= capacity m -> length (as_slice zero m) = length_ m.
Proof. intros E H. unfold as_slice, as_slots. rewrite map_length, firstn_length. lia. Qed.
Lemma rel_length m cap items : rel m cap items -> length items = length_ m.
Proof. intros [E1 E2 H E]. rewrite <- E. apply as_slice_length; assumption. Qed.
Lemma upd_split {A} (l : list A) i x : i < length l -> upd l i x = firstn i l ++ x :: skipn (S i) l.
Proof. revert i. induction l as [|a l IH]; intros [|i] H; cbn in *; try lia; [reflexivity|]. rewrite IH by lia. reflexivity. Qed.
Lemma firstn_upd {A} (l : list A) i n x : i < n -> firstn n (upd l i x) = upd (firstn n l) i x.
Proof. revert i n. induction l as [|a l IH]; intros [|i] [|n] H; cbn; try lia; try reflexivity. f_equal. apply IH. lia. Qed.
Lemma map_upd {A C} (f : A -> C) l i x : map f (upd l i x) = upd (map f l) i (f x).
Proof. revert i. induction l as [|a l IH]; intros [|i]; cbn; try reflexivity. f_equal. apply IH. Qed.
Lemma nth_firstn_lt {A} (l : list A) n i d : i < n -> nth i (firstn n l) d = nth i l d.
Proof. revert n i. induction l as [|a l IH]; intros [|n] [|i] Hi; cbn; try lia; try reflexivity. apply IH. lia. Qed.
Lemma set_some (m : @mmap_vec T) i v : length (mem m) = capacity m -> length_ m <= capacity m -> i < length_ m ->
  mv_set m i v = Some (MV (upd (mem m) i (Bytes v)) (length_ m) (capacity m) (dropped m ++ [nth i (mem m) Zeroed])).
Proof.
  intros E H Hi. unfold mv_set, mv_get, as_slots, get. rewrite nth_error_nth' with (d := Zeroed) by (rewrite firstn_length; lia). cbn [bind].
  rewrite set_ok by lia. cbn [bind]. rewrite nth_firstn_lt by lia. reflexivity.
Qed.
Lemma set_none (m : @mmap_vec T) i v : length_ m <= i -> mv_set m i v = None.
Proof. intros H. unfold mv_set, mv_get, as_slots, get. rewrite (proj2 (nth_error_None _ _)); [reflexivity|]. rewrite firstn_length. lia. Qed.
Lemma set_rel m cap items i v : rel m cap items -> i < length_ m -> exists m', mv_set m i v = Some m' /\ rel m' cap (upd items i v) /\ length_ m' = length_ m.
Proof.
  intros [E1 E2 H E] Hi. rewrite set_some by assumption. eexists. split; [reflexivity|]. split; [|reflexivity]. constructor; cbn [mem capacity length_]; [rewrite upd_length; exact E1|exact E2|exact H|].
  rewrite <- E. unfold as_slice, as_slots. cbn [mem length_]. rewrite firstn_upd, map_upd by exact Hi. reflexivity.
Qed.
Lemma firstn_more {A} (l : list A) n d : n < length l -> firstn (n + 1) l = firstn n l ++ [nth n l d].
Proof. revert n. induction l as [|a l IH]; intros [|n] H; cbn in *; try lia; [reflexivity|]. f_equal. apply IH. lia. Qed.
Lemma upd_last {A} (l : list A) x y : upd (l ++ [x]) (length l) y = l ++ [y].
Proof. induction l; cbn; congruence. Qed.
Lemma push_rel m cap items v : rel m cap items ->
  match mv_push m v, list_step cap items (Push v) with Some m', Some items' => rel m' cap items' | None, None => True | _, _ => False end.
Proof.
  intros R. pose proof (rel_length _ _ _ R) as Ln. destruct R as [E1 E2 H E]. unfold mv_push. cbn [list_step]. destruct (Nat.eqb_spec (length_ m) (capacity m)) as [C|N].
  - destruct (Nat.ltb_spec (length items) cap); [lia|exact I].
  - destruct (Nat.ltb_spec (length items) cap); [|lia].
    set (x := slot_value zero (nth (length_ m) (mem m) Zeroed)).
    destruct (set_rel (MV (mem m) (length_ m + 1) (capacity m) (dropped m)) cap (items ++ [x]) (length_ m) v) as (m' & -> & R & _).
    + constructor; cbn [mem capacity length_]; try assumption; [lia|]. unfold as_slice, as_slots. cbn [mem length_]. rewrite firstn_more with (d := Zeroed) by lia. rewrite map_app. cbn [map]. fold x. rewrite <- E. reflexivity.
    + cbn [length_]. lia.
    + rewrite <- Ln, upd_last in R. exact R.
Qed.
Lemma extend_rel l : forall m cap items, rel m cap items ->
  match mv_extend m l, (if length items + length l <=? cap then Some (items ++ l) else None) with Some m', Some items' => rel m' cap items' | None, None => True | _, _ => False end.
Proof.
  induction l as [|v l IH]; intros m cap items R; cbn [mv_extend length].
  - rewrite Nat.add_0_r. pose proof (rel_length _ _ _ R). destruct R as [E1 E2 HH E]. destruct (Nat.leb_spec (length items) cap); [|lia]. rewrite app_nil_r. constructor; assumption.
  - pose proof (push_rel m cap items v R) as P. cbn [list_step] in P. destruct (mv_push m v) as [m'|]; cbn [bind].
    + destruct (Nat.ltb_spec (length items) cap); [|contradiction]. specialize (IH m' cap _ P). rewrite app_length in IH. cbn [length] in IH. rewrite <- app_assoc in IH. cbn [app] in IH.
      replace (length items + S (length l)) with (length items + 1 + length l) by lia. exact IH.
    + destruct (Nat.ltb_spec (length items) cap); [contradiction|]. destruct (Nat.leb_spec (length items + S (length l)) cap); [lia|exact I].
Qed.
Lemma truncate_rel m cap items n : rel m cap items -> rel (mv_truncate m n) cap (firstn n items).
Proof.
  intros R. pose proof (rel_length _ _ _ R) as Ln. destruct R as [E1 E2 H E]. unfold mv_truncate. destruct (Nat.leb_spec (length_ m) n).
  - rewrite firstn_all2 by lia. constructor; assumption.
  - constructor; cbn [mem capacity length_]; [exact E1|exact E2|lia|]. rewrite <- E. unfold as_slice, as_slots. cbn [mem length_].
    rewrite firstn_map, firstn_firstn, Nat.min_l by lia. reflexivity.
Qed.
Lemma assign_rel l : forall m cap pre old, rel m cap (pre ++ old) -> length l = length old ->
  exists m', mv_assign m (length pre) l = Some m' /\ rel m' cap (pre ++ l).
Proof.
  induction l as [|v l IH]; intros m cap pre [|x old] R El; try discriminate El; cbn [mv_assign]; [exists m; split; [reflexivity|exact R]|].
  pose proof (rel_length _ _ _ R) as Ln. rewrite app_length in Ln. cbn [length] in Ln.
  destruct (set_rel m cap _ (length pre) v R ltac:(lia)) as (m1 & -> & R1 & _). cbn [bind].
  assert (E : upd (pre ++ x :: old) (length pre) v = (pre ++ [v]) ++ old) by (rewrite <- app_assoc; cbn [app]; clear; induction pre; cbn; congruence).
  rewrite E in R1. cbn [length] in El. destruct (IH m1 cap (pre ++ [v]) old R1 ltac:(lia)) as (m2 & E2 & R2). rewrite app_length in E2. cbn [length] in E2. exists m2. split; [exact E2|]. rewrite <- app_assoc in R2. exact R2.
Qed.
Lemma step_rel m cap items c : rel m cap items ->
  match mv_step m c, list_step cap items c with Some m', Some items' => rel m' cap items' | None, None => True | _, _ => False end.
Proof.
  intros R. pose proof (rel_length _ _ _ R) as Ln. destruct c as [v|n| |n v|l|l|i v]; cbn [mv_step].
  - apply push_rel, R.
  - cbn [list_step]. apply truncate_rel, R.
  - cbn [list_step]. exact (truncate_rel m cap items 0 R).
  - cbn [list_step]. unfold mv_resize. rewrite (rel_cap _ _ _ R). destruct (Nat.ltb_spec cap n) as [C|C].
    + destruct (Nat.leb_spec n cap); [lia|exact I].
    + destruct (Nat.leb_spec n cap); [|lia]. pose proof (extend_rel (repeat v (n - length_ m)) m cap items R) as X. rewrite repeat_length in X.
      destruct (mv_extend m (repeat v (n - length_ m))) as [m'|].
      * cbn [bind]. destruct (Nat.leb_spec (length items + (n - length_ m)) cap); [|contradiction]. pose proof (rel_length _ _ _ X) as Lx. rewrite app_length, repeat_length in Lx. destruct X as [X1 X2 X3 X4].
        constructor; cbn [mem capacity length_]; [exact X1|exact X2|lia|]. unfold as_slice, as_slots in *. cbn [mem length_].
        destruct (Nat.le_gt_cases n (length_ m)).
        -- replace (n - length_ m) with 0 in * by lia. replace (n - length items) with 0 by lia. cbn [repeat] in *. rewrite app_nil_r in *. rewrite <- X4. rewrite firstn_map, firstn_firstn, Nat.min_l by lia. reflexivity.
        -- replace n with (length_ m') at 1 by lia. rewrite X4. f_equal; [symmetry; apply firstn_all2; lia|]. f_equal. lia.
      * pose proof (rel_len _ _ _ R). pose proof (rel_cap _ _ _ R). destruct (Nat.leb_spec (length items + (n - length_ m)) cap); [contradiction|lia].
  - cbn [list_step]. unfold mv_extend_from_slice. rewrite (rel_cap _ _ _ R), Ln. destruct (Nat.ltb_spec cap (length_ m + length l)), (Nat.leb_spec (length_ m + length l) cap); try lia; try exact I.
    rewrite <- Ln. destruct R as [E1 E2 H1 E].
    set (m1 := MV (mem m) (length items + length l) cap (dropped m)).
    assert (R1 : rel m1 cap (items ++ skipn (length items) (as_slice zero m1))).
    { constructor; unfold m1; cbn [mem capacity length_]; try lia. set (k := length items) in *. transitivity (as_slice zero m ++ skipn k (as_slice zero (MV (mem m) (k + length l) cap (dropped m)))); [|rewrite E; reflexivity]. unfold as_slice, as_slots. cbn [mem length_]. rewrite skipn_map, <- Ln. rewrite <- map_app. f_equal.
      rewrite <- (firstn_skipn k (firstn (k + length l) (mem m))) at 1. f_equal. rewrite firstn_firstn, Nat.min_l by lia. reflexivity. }
    destruct (assign_rel l m1 cap items _ R1) as (m2 & -> & R2); [|exact R2].
    rewrite skipn_length. rewrite as_slice_length; unfold m1; cbn [mem length_ capacity]; lia.
  - cbn [list_step]. apply extend_rel, R.
  - cbn [list_step]. rewrite Ln. destruct (Nat.ltb_spec i (length_ m)).
    + destruct (set_rel m cap items i v R ltac:(lia)) as (m' & -> & R' & _). rewrite upd_split in R' by lia. exact R'.
    + rewrite set_none by assumption. exact I.
Qed.
End Proofs.

(** Every history of operations on a fresh MmapVec has the effect it has on the list of elements,
    and panics exactly when the bounded list would be exceeded or indexed out of range. *)
Theorem C50_history : forall T (zero : T) cap cs,
  match mv_run (with_capacity cap) cs, list_run cap [] cs with
  | Some m, Some items => as_slice zero m = items /\ mv_len m = length items /\ mv_is_empty m = (length items =? 0) /\ capacity m = cap /\
      (forall i, option_map (slot_value zero) (mv_get m i) = nth_error items i)
  | None, None => True
  | _, _ => False
  end.
Proof.
  intros T zero cap cs.
  assert (K : forall m items, rel zero m cap items -> match mv_run m cs, list_run cap items cs with Some m', Some items' => rel zero m' cap items' | None, None => True | _, _ => False end).
  { induction cs as [|c cs IH]; intros m items R; cbn [mv_run list_run]; [exact R|]. pose proof (step_rel zero m cap items c R) as X.
    destruct (mv_step m c) as [m'|], (list_step cap items c) as [items'|]; cbn [bind]; try contradiction; [|exact I]. apply IH, X. }
  specialize (K (with_capacity cap) []). assert (R0 : rel zero (with_capacity cap) cap []) by (constructor; cbn; [apply repeat_length|reflexivity|lia|reflexivity]).
  specialize (K R0). destruct (mv_run (with_capacity cap) cs) as [m|], (list_run cap [] cs) as [items|]; try assumption.
  pose proof (rel_length _ _ _ _ K) as Ln. destruct K as [E1 E2 H E]. split; [exact E|]. split; [unfold mv_len; lia|]. split; [unfold mv_is_empty; rewrite Ln; reflexivity|]. split; [exact E2|].
  intros i. rewrite <- E. unfold mv_get, get, as_slice. rewrite nth_error_map. reflexivity.
Qed.
Print Assumptions C50_history.

(** The same from a zero-initialised vector. *)
Theorem C50_zero_initialized : forall T (zero : T) len cs,
  match mv_run (zero_initialized len) cs, list_run len (repeat zero len) cs with
  | Some m, Some items => as_slice zero m = items
  | None, None => True
  | _, _ => False
  end.
Proof.
  intros T zero len cs.
  assert (K : forall m items, rel zero m len items -> match mv_run m cs, list_run len items cs with Some m', Some items' => rel zero m' len items' | None, None => True | _, _ => False end).
  { induction cs as [|c cs IH]; intros m items R; cbn [mv_run list_run]; [exact R|]. pose proof (step_rel zero m len items c R) as X.
    destruct (mv_step m c) as [m'|], (list_step len items c) as [items'|]; cbn [bind]; try contradiction; [|exact I]. apply IH, X. }
  specialize (K (zero_initialized len) (repeat zero len)). assert (R0 : rel zero (zero_initialized len) len (repeat zero len)).
  { constructor; cbn; [apply repeat_length|reflexivity|lia|]. unfold as_slice, as_slots. cbn. rewrite firstn_all2 by (rewrite repeat_length; lia). clear. induction len as [|len IH]; cbn; [reflexivity|]. rewrite IH. reflexivity. }
  specialize (K R0). destruct (mv_run (zero_initialized len) cs), (list_run len (repeat zero len) cs); try assumption. apply (rel_items _ _ _ _ K).
Qed.
Print Assumptions C50_zero_initialized.

(** Reachable vectors: clone never panics and has the same elements and capacity; equality is
    equality of the element lists. *)
Definition reachable {T} (m : @mmap_vec T) : Prop := exists cap cs, mv_run (with_capacity cap) cs = Some m \/ mv_run (zero_initialized cap) cs = Some m.
Lemma reachable_inv {T} (zero : T) m : reachable m -> rel zero m (capacity m) (as_slice zero m).
Proof.
  intros (cap & cs & H). revert H.
  assert (K : forall m0 m items, rel zero m0 cap items -> mv_run m0 cs = Some m -> exists items', rel zero m cap items').
  { induction cs as [|c cs IH]; intros m0 m1 items R; cbn [mv_run]; [intros [= <-]; exists items; exact R|]. pose proof (step_rel zero m0 cap items c R) as X.
    destruct (mv_step m0 c) as [m'|]; cbn [bind]; [|discriminate]. destruct (list_step cap items c) as [items'|]; [|contradiction].
    apply (IH m' m1 items' X). }
  intros H. assert (R0 : exists items', rel zero m cap items').
  { destruct H as [H|H].
    - apply (K (with_capacity cap) m []); [constructor; cbn; [apply repeat_length|reflexivity|lia|reflexivity]|exact H].
    - apply (K (zero_initialized cap) m (as_slice zero (zero_initialized cap))); [constructor; cbn; [apply repeat_length|reflexivity|lia|reflexivity]|exact H]. }
  destruct R0 as (items & R0). destruct R0 as [E1 E2 E3 E4]. constructor; auto.
Qed.
Theorem C50_clone_eq : forall T (zero : T) eqb (m n : @mmap_vec T), (forall a b, eqb a b = true <-> a = b) -> reachable m -> reachable n ->
  (exists c, mv_clone zero m = Some c /\ as_slice zero c = as_slice zero m /\ capacity c = capacity m) /\
  (mv_eqb eqb zero m n = true <-> as_slice zero m = as_slice zero n).
Proof.
  intros T zero eqb m n Heq Rm Rn. apply (reachable_inv zero) in Rm. apply (reachable_inv zero) in Rn. pose proof (rel_length _ _ _ _ Rm) as Lm. pose proof (rel_length _ _ _ _ Rn) as Ln. split.
  - unfold mv_clone. assert (R0 : rel zero (with_capacity (capacity m)) (capacity m) []) by (constructor; cbn; [apply repeat_length|reflexivity|lia|reflexivity]).
    pose proof (extend_rel zero (as_slice zero m) _ _ _ R0) as X. cbn [length Nat.add] in X. pose proof (rel_len _ _ _ _ Rm).
    destruct (mv_extend (with_capacity (capacity m)) (as_slice zero m)) as [c|].
    + destruct (Nat.leb_spec (length (as_slice zero m)) (capacity m)); [|contradiction]. exists c. split; [reflexivity|]. split; [apply (rel_items _ _ _ _ X)|apply (rel_cap _ _ _ _ X)].
    + destruct (Nat.leb_spec (length (as_slice zero m)) (capacity m)); [contradiction|lia].
  - unfold mv_eqb, mv_len. rewrite <- Lm, <- Ln. destruct (Nat.eqb_spec (length (as_slice zero m)) (length (as_slice zero n))) as [E|N]; cbn [negb]; [|split; [discriminate|congruence]].
    revert E. generalize (as_slice zero m) (as_slice zero n). clear - Heq. induction l as [|a l IH]; intros [|b k] E; try discriminate E; cbn [combine forallb]; [split; reflexivity|].
    rewrite andb_true_iff, Heq, IH by (cbn in E; congruence). split; [intros [-> ->]; reflexivity|]. intros [= -> ->]. split; reflexivity.
Qed.
Print Assumptions C50_clone_eq.

(** Destructors. [truncate] destroys exactly the removed elements, in order. *)
Theorem C50_truncate_drops : forall T (m : @mmap_vec T) n, dropped (mv_truncate m n) = dropped m ++ skipn n (as_slots m).
Proof.
  intros T m n. unfold mv_truncate. destruct (Nat.leb_spec (length_ m) n) as [H|H]; [|reflexivity].
  rewrite skipn_all2; [rewrite app_nil_r; reflexivity|]. unfold as_slots. rewrite firstn_length. lia.
Qed.
Print Assumptions C50_truncate_drops.
(** But [push] assigns to its slot, and assignment destroys what the slot held: a value removed by
    [truncate] or [clear] is destroyed a second time when the slot is used again. *)
Theorem C50_double_drop_refuted : forall T (v w : T) cap, 0 < cap -> exists m,
  mv_run (with_capacity cap) [Push v; Clear; Push w] = Some m /\ dropped m = [Zeroed; Bytes v; Bytes v].
Proof. intros T v w [|cap] H; [lia|]. eexists. split; reflexivity. Qed.
Print Assumptions C50_double_drop_refuted.
(** Shrinking with [resize] does not destroy the removed element. *)
Theorem C50_resize_leak : forall T (v w : T) cap, 0 < cap -> exists m,
  mv_run (with_capacity cap) [Push v; Resize 0 w] = Some m /\ as_slots m = [] /\ dropped m = [Zeroed].
Proof. intros T v w [|cap] H; [lia|]. eexists. split; [reflexivity|]. split; reflexivity. Qed.
Print Assumptions C50_resize_leak.

(** The map is large enough for every slot below the capacity, unless the product overflows; then
    the debug build panics and the release build allocates too little. *)
Theorem C50_allocation : forall dbg cap size, (0 <= cap)%Z -> (0 <= size)%Z ->
  ((cap * size < B)%Z -> exists n, map_bytes dbg cap size = Some n /\ forall i, (0 <= i < cap)%Z -> ((i + 1) * size <= n)%Z) /\
  ((B <= cap * size)%Z -> map_bytes true cap size = None).
Proof.
  intros dbg cap size Hc Hs. unfold map_bytes. split.
  - intros H. exists (Z.max 1 (cap * size)). destruct dbg.
    + destruct (Z.ltb_spec (cap * size) B); [|lia]. split; [reflexivity|]. intros i Hi. nia.
    + rewrite Z.mod_small by nia. split; [reflexivity|]. intros i Hi. nia.
  - intros H. destruct (Z.ltb_spec (cap * size) B); [lia|reflexivity].
Qed.
Print Assumptions C50_allocation.
Theorem C50_allocation_refuted : exists cap size n, (0 < cap < B)%Z /\ (0 < size)%Z /\ map_bytes false cap size = Some n /\ (n < 2 * size)%Z /\ (2 <= cap)%Z.
Proof. exists (2 ^ 61 + 1)%Z, 8%Z, 8%Z. vm_compute. repeat split; discriminate. Qed.
Print Assumptions C50_allocation_refuted.

Example C50_ex : option_map (as_slice 0) (mv_run (with_capacity 5) [Push 1; Extend [2; 3]; Assign 1 7; Resize 5 9; Truncate 4; ExtendFromSlice [8]]) = Some [1; 7; 3; 9; 8] /\
  mv_run (with_capacity 2) [Push 1; Push 2; Push 3] = None.
Proof. split; reflexivity. Qed.
