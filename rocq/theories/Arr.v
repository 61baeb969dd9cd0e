(** Slices: a [&mut [T]] is a list, indexing out of bounds is a panic (None). *)
Require Import Arith Lia Bool List.
From Verif Require Import Word.
Import ListNotations.

Fixpoint upd {A} (v : list A) (i : nat) (x : A) : list A :=
  match v, i with
  | [], _ => []
  | _ :: r, O => x :: r
  | a :: r, S i => a :: upd r i x
  end.
(** [v[i]] *)
Definition get {A} (v : list A) (i : nat) : option A := nth_error v i.
(** [v[i] = x] *)
Definition set {A} (v : list A) (i : nat) (x : A) : option (list A) :=
  if i <? length v then Some (upd v i x) else None.
(** [v.swap(i, j)] *)
Definition swap {A} (v : list A) (i j : nat) : option (list A) :=
  let? a := get v i in let? b := get v j in let? v := set v i b in set v j a.
(** [for x in l { body }] over a mutable state; a panic of the body ends the loop. *)
Fixpoint for_each {X S} (l : list X) (body : S -> X -> option S) (s : S) : option S :=
  match l with [] => Some s | x :: r => let? s := body s x in for_each r body s end.
(** [(a..b).step_by(s)] *)
Definition range_step (a b s : nat) : list nat := map (fun k => a + k * s) (seq 0 ((b - a + (s - 1)) / s)).

Lemma upd_length {A} (v : list A) i x : length (upd v i x) = length v.
Proof. revert i. induction v; intros [|i]; cbn; auto. Qed.
Lemma nth_upd {A} (v : list A) i x j d : i < length v -> nth j (upd v i x) d = if j =? i then x else nth j v d.
Proof.
  revert i j. induction v as [|a v IH]; intros [|i] [|j] H; cbn in *; try lia; auto. apply IH. lia.
Qed.
Lemma get_nth {A} (v : list A) i d : i < length v -> get v i = Some (nth i v d).
Proof. intros H. apply nth_error_nth'. exact H. Qed.
Lemma set_ok {A} (v : list A) i x : i < length v -> set v i x = Some (upd v i x).
Proof. intros H. unfold set. apply Nat.ltb_lt in H. rewrite H. reflexivity. Qed.
Lemma bind_ok {A C} (a : A) (f : A -> option C) : bind (Some a) f = f a. Proof. reflexivity. Qed.

Lemma swap_ok {A} (v : list A) i j d : i < length v -> j < length v ->
  exists v', swap v i j = Some v' /\ length v' = length v /\
  forall p, nth p v' d = if p =? j then nth i v d else if p =? i then nth j v d else nth p v d.
Proof.
  intros Hi Hj. unfold swap. rewrite (get_nth v i d), (get_nth v j d) by assumption. cbn [bind].
  rewrite set_ok by assumption. cbn [bind]. rewrite set_ok by (rewrite upd_length; assumption).
  eexists. split; [reflexivity|]. split; [rewrite !upd_length; reflexivity|].
  intros p. rewrite !nth_upd by (rewrite ?upd_length; assumption). reflexivity.
Qed.

Lemma for_each_app {X S} (l l' : list X) (body : S -> X -> option S) s :
  for_each (l ++ l') body s = let? s := for_each l body s in for_each l' body s.
Proof. revert s. induction l as [|x l IH]; intros s; [reflexivity|]. cbn. destruct (body s x); [cbn; apply IH|reflexivity]. Qed.
Lemma for_each_map {X Y S} (f : X -> Y) l (body : S -> Y -> option S) s :
  for_each (map f l) body s = for_each l (fun s x => body s (f x)) s.
Proof. revert s. induction l as [|x l IH]; intros s; [reflexivity|]. cbn. destruct (body s (f x)); [cbn; apply IH|reflexivity]. Qed.
Lemma for_each_ext {X S} l (f g : S -> X -> option S) s : (forall s x, In x l -> f s x = g s x) -> for_each l f s = for_each l g s.
Proof.
  revert s. induction l as [|x l IH]; intros s H; [reflexivity|]. cbn. rewrite (H s x) by (left; reflexivity).
  destruct (g s x); [cbn; apply IH; intros; apply H; right; assumption|reflexivity].
Qed.

(** Loop rule for [for i in a..a+n]. *)
Lemma for_range {S} (P : nat -> S -> Prop) (body : S -> nat -> option S) a n s :
  P a s -> (forall i s, a <= i < a + n -> P i s -> exists s', body s i = Some s' /\ P (i + 1) s') ->
  exists s', for_each (seq a n) body s = Some s' /\ P (a + n) s'.
Proof.
  revert a s. induction n as [|n IH]; intros a s H0 Hs.
  - exists s. rewrite Nat.add_0_r. auto.
  - cbn [seq for_each]. destruct (Hs a s) as (s1 & -> & H1); [lia|assumption|]. cbn [bind].
    destruct (IH (Datatypes.S a) s1) as (s' & E & H').
    { replace (Datatypes.S a) with (a + 1) by lia. exact H1. }
    { intros i s2 Hi. apply Hs. lia. }
    exists s'. split; [exact E|]. replace (a + Datatypes.S n) with (Datatypes.S a + n) by lia. exact H'.
Qed.

(** Row-major coordinates determine the index. *)
Lemma coord_inj m a r b s : r < m -> s < m -> a * m + r = b * m + s -> a = b /\ r = s.
Proof. intros Hr Hs E. apply (Nat.div_mod_unique m a b r s); lia. Qed.

Lemma list_ext {A} (u v : list A) d : length u = length v -> (forall i, i < length u -> nth i u d = nth i v d) -> u = v.
Proof. intros. apply nth_ext with (d := d) (d' := d); assumption. Qed.
Lemma nth_map {A C} (f : A -> C) l i d d' : i < length l -> nth i (map f l) d' = f (nth i l d).
Proof. revert i. induction l as [|a l IH]; intros [|i] H; cbn in *; try lia; auto. apply IH. lia. Qed.
Lemma nth_map_seq {C} (f : nat -> C) a n i d : i < n -> nth i (map f (seq a n)) d = f (a + i).
Proof. intros H. rewrite (nth_map f _ _ 0) by (rewrite seq_length; assumption). rewrite seq_nth by assumption. reflexivity. Qed.

Lemma range_step_exact a n s : 0 < s -> range_step a (a + n * s) s = map (fun k => a + k * s) (seq 0 n).
Proof.
  intros H. unfold range_step. do 2 f_equal. replace (a + n * s - a + (s - 1)) with (n * s + (s - 1)) by lia.
  rewrite Nat.div_add_l by lia. rewrite Nat.div_small by lia. lia.
Qed.

(** ** In-place application of an involution by disjoint swaps. [D] marks the positions done. *)
Section Swapped.
Context {A : Type} (d : A) (sigma : nat -> nat) (v0 : list A).
Definition swapped (D : nat -> Prop) (v : list A) : Prop :=
  length v = length v0 /\
  forall p, p < length v0 -> (D p -> nth p v d = nth (sigma p) v0 d) /\ (~ D p -> nth p v d = nth p v0 d).
Lemma swapped_start D : (forall p, p < length v0 -> ~ D p) -> swapped D v0.
Proof. intros H. split; [reflexivity|]. intros p Hp. split; [intros C; exfalso; exact (H p Hp C)|reflexivity]. Qed.
Lemma swapped_step D D' v i j : swapped D v -> i < length v0 -> j < length v0 -> j = sigma i -> i = sigma j -> ~ D i -> ~ D j ->
  (forall p, p < length v0 -> (D' p <-> D p \/ p = i \/ p = j)) ->
  exists v', swap v i j = Some v' /\ swapped D' v'.
Proof.
  intros [L H] Hi Hj Ej Ei Di Dj HD. destruct (swap_ok v i j d) as (v' & E & L' & Hv); [lia|lia|].
  exists v'. split; [exact E|]. split; [lia|]. intros p Hp. rewrite Hv.
  destruct (H i Hi) as [_ Hi']. destruct (H j Hj) as [_ Hj'].
  destruct (Nat.eqb_spec p j) as [->|N1].
  - split; intros C; [rewrite Hi', <- Ei by assumption; reflexivity|exfalso; apply C, HD; auto].
  - destruct (Nat.eqb_spec p i) as [->|N2].
    + split; intros C; [rewrite Hj', <- Ej by assumption; reflexivity|exfalso; apply C, HD; auto].
    + destruct (H p Hp) as [H1 H2]. split; intros C.
      * apply HD in C; [|assumption]. destruct C as [C|[C|C]]; [auto|contradiction|contradiction].
      * apply H2. intros C'. apply C, HD; auto.
Qed.
Lemma swapped_ext (D D' : nat -> Prop) v : swapped D v -> (forall p, p < length v0 -> sigma p = p \/ (D p <-> D' p)) ->
  (forall p, D p \/ ~ D p) -> swapped D' v.
Proof.
  intros [L H] HE Dec. split; [exact L|]. intros p Hp. destruct (H p Hp) as [H1 H2].
  destruct (HE p Hp) as [E|E]; [|split; intros C; [apply H1|apply H2]; tauto].
  assert (nth p v d = nth p v0 d) by (destruct (Dec p) as [C|C]; [rewrite H1, E by assumption; reflexivity|auto]).
  rewrite E. split; auto.
Qed.
Lemma swapped_end D v : swapped D v -> (forall p, p < length v0 -> D p) ->
  length v = length v0 /\ forall p, p < length v0 -> nth p v d = nth (sigma p) v0 d.
Proof. intros [L H] HD. split; [exact L|]. intros p Hp. apply H; auto. Qed.
End Swapped.
