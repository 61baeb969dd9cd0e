(** Invariants of the allocator's counters, for C69. *)
Require Import ZArith Lia Bool List.
From Verif Require Import Word AllocModel AllocSpec.
Import ListNotations.
Open Scope Z_scope.

Fixpoint weigh {A} (f : A -> Z) (l : list A) : Z := match l with [] => 0 | t :: l => f t + weigh f l end.
Lemma weigh_app {A} (f : A -> Z) l1 l2 : weigh f (l1 ++ l2) = weigh f l1 + weigh f l2.
Proof. induction l1; cbn; lia. Qed.
Lemma weigh_zero {A} (f : A -> Z) l : (forall t, In t l -> f t = 0) -> weigh f l = 0.
Proof. induction l as [|t l IH]; intros H; cbn; [reflexivity|]. rewrite (H t), IH; [reflexivity| |left; reflexivity]. intros; apply H; right; assumption. Qed.
Lemma weigh_nonneg {A} (f : A -> Z) l : Forall (fun t => 0 <= f t) l -> 0 <= weigh f l.
Proof. induction 1; cbn; lia. Qed.
Definition w_add t := match t with AddAllocated size _ => size | _ => 0 end.
Definition w_total t := match t with AddAllocated size _ | AddTotal size _ _ => size | _ => 0 end.
Definition w_count t := match t with AddAllocated _ _ | AddTotal _ _ _ | AddCount _ _ _ => 1 | _ => 0 end.
(** Bytes that a thread is about to return or to free *)
Definition w_flight t :=
  match t with
  | Idle | Alloc _ => 0
  | AddAllocated size _ | AddTotal size _ _ | AddCount size _ _ | LoadPeak size _ _ | MaxPeak size _ _ _ | LoadLargest size _ | MaxLargest size _ _ | Dealloc size _ | SubAllocated size _ => size
  | Return size ptr => if ptr =? 0 then 0 else size
  end.
Section Invariants.
Context (n : nat).
(** Induction over executions, thread steps only *)
Lemma exec_invariant (P : trace -> shared -> list thread -> Prop) :
  P [] new (repeat Idle n) ->
  (forall tr s e s' l1 t t' l2, exec n tr (s, l1 ++ t :: l2) -> P tr s (l1 ++ t :: l2) -> tstep s t e s' t' -> P ((e, (s', l1 ++ t' :: l2)) :: tr) s' (l1 ++ t' :: l2)) ->
  forall tr s, exec n tr s -> P tr (fst s) (snd s).
Proof.
  intros H0 H1 tr s E. induction E as [|tr s e s' E IH St]; [exact H0|]. destruct St as [s e s' l1 t t' l2 T]. cbn [fst snd] in *. eapply H1; eassumption.
Qed.
Ltac counts := cbn [bytes given given_times freed received given_back weigh w_add w_total w_count w_flight allocated total count held] in *.
Lemma inv_allocated tr s : exec n tr s -> allocated (fst s) = (bytes given tr - weigh w_add (snd s) - bytes freed tr) mod 2 ^ 64.
Proof.
  apply (exec_invariant (fun tr s ths => allocated s = (bytes given tr - weigh w_add ths - bytes freed tr) mod 2 ^ 64)).
  - rewrite weigh_zero; [reflexivity|]. intros t Ht. apply repeat_spec in Ht as ->. reflexivity.
  - clear tr s. intros tr s e s' l1 t t' l2 _ I T. rewrite weigh_app in *. destruct T; counts; try (rewrite I; f_equal; lia).
    + rewrite I, Zplus_mod_idemp_l. f_equal. lia.
    + rewrite I, Zminus_mod_idemp_l. f_equal. lia.
Qed.
Lemma inv_total tr s : exec n tr s -> total (fst s) = (bytes given tr - weigh w_total (snd s)) mod 2 ^ 64.
Proof.
  apply (exec_invariant (fun tr s ths => total s = (bytes given tr - weigh w_total ths) mod 2 ^ 64)).
  - rewrite weigh_zero; [reflexivity|]. intros t Ht. apply repeat_spec in Ht as ->. reflexivity.
  - clear tr s. intros tr s e s' l1 t t' l2 _ I T. rewrite weigh_app in *. destruct T; counts; try (rewrite I; f_equal; lia). rewrite I, Zplus_mod_idemp_l. f_equal. lia.
Qed.
Lemma inv_count tr s : exec n tr s -> count (fst s) = (bytes given_times tr - weigh w_count (snd s)) mod 2 ^ 64.
Proof.
  apply (exec_invariant (fun tr s ths => count s = (bytes given_times tr - weigh w_count ths) mod 2 ^ 64)).
  - rewrite weigh_zero; [reflexivity|]. intros t Ht. apply repeat_spec in Ht as ->. reflexivity.
  - clear tr s. intros tr s e s' l1 t t' l2 _ I T. rewrite weigh_app in *. destruct T; counts; try (rewrite I; f_equal; lia). rewrite I, Zplus_mod_idemp_l. f_equal. lia.
Qed.
(** Sizes are not negative; pointers that the system gave are not null. *)
Definition t_ok (t : thread) : Prop :=
  match t with
  | Idle => True
  | Alloc size | Return size _ | Dealloc size _ | SubAllocated size _ => 0 <= size
  | AddAllocated size ptr | AddTotal size ptr _ | AddCount size ptr _ | LoadPeak size ptr _ | MaxPeak size ptr _ _ | LoadLargest size ptr | MaxLargest size ptr _ => 0 <= size /\ ptr <> 0
  end.
Lemma inv_ok tr s : exec n tr s -> Forall t_ok (snd s) /\ Forall (fun b => 0 <= snd b) (held (fst s)).
Proof.
  apply (exec_invariant (fun tr s ths => Forall t_ok ths /\ Forall (fun b => 0 <= snd b) (held s))).
  - split; [|constructor]. apply Forall_forall. intros t Ht. apply repeat_spec in Ht as ->. exact I.
  - clear tr s. intros tr s e s' l1 t t' l2 _ [I1 I2] T. apply Forall_app in I1 as [A B]. inversion B as [|? ? C D]; subst.
    assert (K : t_ok t' -> Forall t_ok (l1 ++ t' :: l2)) by (intros; apply Forall_app; auto).
    destruct T; cbn [held t_ok snd] in *; try (split; [apply K; cbn [t_ok]; try tauto; lia|try assumption]).
    + destruct (ptr =? 0); [assumption|]. constructor; assumption.
    + apply Forall_app in I2 as [E F]. inversion F; subst. split; [apply K; assumption|apply Forall_app; auto].
Qed.
Lemma inv_flight tr s : exec n tr s -> bytes given tr - bytes freed tr = weigh snd (held (fst s)) + weigh w_flight (snd s) /\ bytes received tr - bytes given_back tr = weigh snd (held (fst s)).
Proof.
  apply (exec_invariant (fun tr s ths => bytes given tr - bytes freed tr = weigh snd (held s) + weigh w_flight ths /\ bytes received tr - bytes given_back tr = weigh snd (held s))).
  - cbn. split; [|reflexivity]. rewrite weigh_zero; [reflexivity|]. intros t Ht. apply repeat_spec in Ht as ->. reflexivity.
  - clear tr s. intros tr s e s' l1 t t' l2 Ex I T. destruct (inv_ok _ _ Ex) as [Ok _]. cbn [snd] in Ok. apply Forall_app in Ok as [_ Ok]. inversion Ok as [|? ? Ok1 _]; subst. rewrite weigh_app in *.
    destruct T; counts; cbn [t_ok] in *; try (replace (ptr =? 0) with false by (symmetry; apply Z.eqb_neq; tauto)); cbn [Z.eqb] in *; try lia.
    + destruct (ptr =? 0); cbn [weigh snd]; lia.
    + rewrite weigh_app in *. cbn [weigh snd] in *. lia.
Qed.
Lemma bytes_nonneg f tr : (forall e s, In (Some e, s) tr -> 0 <= f e) -> 0 <= bytes f tr.
Proof. induction tr as [|[[e|] s] tr IH]; intros H; cbn [bytes]; [lia| |apply IH; intros; eapply H; right; eassumption]. assert (0 <= f e) by (apply (H e s); left; reflexivity). assert (0 <= bytes f tr) by (apply IH; intros; eapply H; right; eassumption). lia. Qed.
(** While the bytes in use are less than 2^64, the counter does not wrap. *)
Lemma flight_split ths : Forall t_ok ths -> 0 <= weigh w_add ths <= weigh w_flight ths.
Proof. induction 1 as [|t l Ht _ IH]; cbn [weigh]; [lia|]. destruct t; cbn in *; try lia. destruct (ptr =? 0); lia. Qed.
Lemma allocated_exact tr s : exec n tr s -> bytes given tr - bytes freed tr < 2 ^ 64 -> allocated (fst s) = weigh snd (held (fst s)) + (weigh w_flight (snd s) - weigh w_add (snd s)).
Proof.
  intros E R. rewrite (inv_allocated _ _ E). destruct (inv_flight _ _ E) as [Fl _], (inv_ok _ _ E) as [Ok1 Ok2]. pose proof (flight_split _ Ok1). pose proof (weigh_nonneg snd _ Ok2).
  rewrite Z.mod_small by lia. lia.
Qed.
Lemma allocated_nonneg tr s : exec n tr s -> 0 <= allocated (fst s).
Proof. intros E. rewrite (inv_allocated _ _ E). apply Z.mod_pos_bound. lia. Qed.

(** ** The maxima *)
Definition t_seen (s : shared) (t : thread) : Prop :=
  match t with MaxPeak _ _ _ prev => prev <= peak s | MaxLargest _ _ prev => prev <= largest s | _ => True end.
Definition monotone (s s' : shared) : Prop := peak s <= peak s' /\ largest s <= largest s'.
Lemma t_seen_mono s s' t : monotone s s' -> t_seen s t -> t_seen s' t.
Proof. intros [A B]. destruct t; cbn; auto; lia. Qed.
Lemma inv_seen tr s : exec n tr s -> (In (peak (fst s)) (peaks (fst s)) /\ Forall (fun v => v <= peak (fst s)) (peaks (fst s))) /\ (In (largest (fst s)) (largests (fst s)) /\ Forall (fun v => v <= largest (fst s)) (largests (fst s))) /\ Forall (t_seen (fst s)) (snd s).
Proof.
  apply (exec_invariant (fun tr s ths => (In (peak s) (peaks s) /\ Forall (fun v => v <= peak s) (peaks s)) /\ (In (largest s) (largests s) /\ Forall (fun v => v <= largest s) (largests s)) /\ Forall (t_seen s) ths)).
  - cbn. split; [|split]; try (split; [left; reflexivity|repeat constructor; lia]). apply Forall_forall. intros t Ht. apply repeat_spec in Ht as ->. exact I.
  - clear tr s. intros tr s e s' l1 t t' l2 _ ([P1 P2] & [L1 L2] & I) T. apply Forall_app in I as [A B]. inversion B as [|? ? C D]; subst.
    assert (K : forall s', monotone s s' -> t_seen s' t' -> Forall (t_seen s') (l1 ++ t' :: l2)).
    { intros s0 M Ht. apply Forall_app; split; [|constructor; [exact Ht|]]; (eapply Forall_impl; [|eassumption]); intros; eapply t_seen_mono; eassumption. }
    pose proof (fun (v : Z) => proj1 (Forall_forall _ _) P2 v) as P3. pose proof (fun (v : Z) => proj1 (Forall_forall _ _) L2 v) as L3.
    destruct T; cbn [peak peaks largest largests t_seen] in *;
      (split; [split; [try assumption; left; reflexivity|try assumption]|split; [split; [try assumption; left; reflexivity|try assumption]|apply K; [split; cbn; lia|cbn; auto]]]).
    + constructor; [lia|]. eapply Forall_impl; [|exact P2]. cbn. lia.
    + constructor; [lia|]. eapply Forall_impl; [|exact L2]. cbn. lia.
Qed.
(** Threads that have not yet reached the maximum *)
Definition peak_pending (old : Z) (t : thread) : Prop := match t with AddTotal _ _ v | AddCount _ _ v | LoadPeak _ _ v | MaxPeak _ _ v _ => v = old | _ => False end.
Definition largest_pending (v : Z) (t : thread) : Prop :=
  match t with AddAllocated size _ | AddTotal size _ _ | AddCount size _ _ | LoadPeak size _ _ | MaxPeak size _ _ _ | LoadLargest size _ | MaxLargest size _ _ => size = v | _ => False end.
Definition peak_reached s (ths : list thread) v := v <= peak s \/ Exists (peak_pending v) ths.
Definition largest_reached s (ths : list thread) v := v <= largest s \/ Exists (largest_pending v) ths.
Lemma exists_step (P : thread -> Prop) l1 t t' l2 : Exists P (l1 ++ t :: l2) -> (P t -> P t') -> Exists P (l1 ++ t' :: l2).
Proof. intros E H. apply Exists_app. apply Exists_app in E as [E|E]; [left; exact E|right]. inversion E; subst; [left; auto|right; assumption]. Qed.
Lemma exists_step' (P : thread -> Prop) l1 t t' l2 (Q : Prop) : Exists P (l1 ++ t :: l2) -> (P t -> Q \/ P t') -> Q \/ Exists P (l1 ++ t' :: l2).
Proof. intros E H. rewrite Exists_app. apply Exists_app in E as [E|E]; [auto|]. inversion E; subst; [destruct (H H1); auto|auto]. Qed.
Lemma peak_reached_step s e s' t t' l1 l2 v : t_seen s t -> tstep s t e s' t' -> peak_reached s (l1 ++ t :: l2) v -> peak_reached s' (l1 ++ t' :: l2) v.
Proof.
  intros S T [H|H].
  - left. destruct T; cbn in *; lia.
  - apply (exists_step' _ _ _ _ _ (v <= peak s') H). destruct T; cbn in *; intros; subst; try tauto; left; lia.
Qed.
Lemma largest_reached_step s e s' t t' l1 l2 v : t_seen s t -> tstep s t e s' t' -> largest_reached s (l1 ++ t :: l2) v -> largest_reached s' (l1 ++ t' :: l2) v.
Proof.
  intros S T [H|H].
  - left. destruct T; cbn in *; lia.
  - apply (exists_step' _ _ _ _ _ (v <= largest s') H). destruct T; cbn in *; intros; subst; try tauto; left; lia.
Qed.
Lemma seen_at tr s l1 t l2 : exec n tr (s, l1 ++ t :: l2) -> t_seen s t.
Proof. intros E. destruct (inv_seen _ _ E) as (_ & _ & H). cbn [fst snd] in H. apply Forall_app in H as [_ H]. inversion H; assumption. Qed.
Lemma inv_largest tr s : exec n tr s -> (forall v, observed (Got v) tr -> largest_reached (fst s) (snd s) v) /\ (forall t v, In t (snd s) -> largest_pending v t -> observed (Got v) tr) /\ (largest (fst s) = 0 \/ observed (Got (largest (fst s))) tr) /\ 0 <= largest (fst s).
Proof.
  apply (exec_invariant (fun tr s ths => (forall v, observed (Got v) tr -> largest_reached s ths v) /\ (forall t v, In t ths -> largest_pending v t -> observed (Got v) tr) /\ (largest s = 0 \/ observed (Got (largest s)) tr) /\ 0 <= largest s)).
  - cbn. split; [intros v [s0 []]|]. split; [|split; [left; reflexivity|lia]]. intros t v Ht. apply repeat_spec in Ht as ->. intros [].
  - clear tr s. intros tr s e s' l1 t t' l2 Ex (I1 & I2 & I3 & I4) T. pose proof (seen_at _ _ _ _ _ Ex) as S.
    assert (Ob : forall v, observed (Got v) tr -> observed (Got v) ((e, (s', l1 ++ t' :: l2)) :: tr)) by (intros v [s0 H]; exists s0; right; exact H).
    split; [|split; [|split]].
    + intros v [s0 [H|H]]; [|eapply largest_reached_step; [exact S|exact T|apply I1; exists s0; exact H]].
      injection H as -> _. inversion T; subst. right. apply Exists_app. right. left. reflexivity.
    + intros u v Hu Hp. apply in_app_or in Hu. assert (Hu' : u = t' \/ In u (l1 ++ t :: l2)) by (destruct Hu as [Hu|[Hu|Hu]]; [right; apply in_or_app; auto|left; auto|right; apply in_or_app; right; right; exact Hu]).
      destruct Hu' as [->|Hu']; [|apply Ob; eapply I2; eassumption]. specialize (I2 t v (in_elt _ _ _)).
      destruct T; cbn in *; subst; try tauto; try (apply Ob, I2; reflexivity). eexists. left. reflexivity.
    + specialize (fun v => I2 t v (in_elt _ _ _)). destruct T; cbn [largest] in *; try (destruct I3; [left; assumption|right; apply Ob; assumption]).
      right. apply Ob, I2. reflexivity.
    + destruct T; cbn [largest] in *; lia.
Qed.
Lemma inv_peak tr s : exec n tr s -> (exists s', In s' (visited n tr) /\ peak (fst s) = allocated (fst s')) /\ (forall t v, In t (snd s) -> peak_pending v t -> exists s', In s' (visited n tr) /\ v = allocated (fst s')) /\ In s (visited n tr) /\ 0 <= peak (fst s).
Proof.
  intros E. destruct s as [s ths]. revert tr s ths E.
  enough (H : forall tr s, exec n tr s -> (fun tr s ths => (exists s', In s' (visited n tr) /\ peak s = allocated (fst s')) /\ (forall t v, In t ths -> peak_pending v t -> exists s', In s' (visited n tr) /\ v = allocated (fst s')) /\ In (s, ths) (visited n tr) /\ 0 <= peak s) tr (fst s) (snd s)) by (intros tr s ths E; exact (H tr (s, ths) E)).
  apply (exec_invariant (fun tr s ths => (exists s', In s' (visited n tr) /\ peak s = allocated (fst s')) /\ (forall t v, In t ths -> peak_pending v t -> exists s', In s' (visited n tr) /\ v = allocated (fst s')) /\ In (s, ths) (visited n tr) /\ 0 <= peak s)).
  - split; [exists (new, repeat Idle n); split; [left; reflexivity|reflexivity]|]. split; [|split; [left; reflexivity|cbn; lia]]. intros t v Ht. apply repeat_spec in Ht as ->. intros [].
  - intros tr s e s' l1 t t' l2 Ex (I1 & I2 & I3 & I4) T.
    assert (Vi : forall z, In z (visited n tr) -> In z (visited n ((e, (s', l1 ++ t' :: l2)) :: tr))) by (intros z [Hz|Hz]; [left; exact Hz|right; right; exact Hz]).
    assert (Vn : In (s', l1 ++ t' :: l2) (visited n ((e, (s', l1 ++ t' :: l2)) :: tr))) by (right; left; reflexivity).
    split; [|split; [|split; [exact Vn|destruct T; cbn [peak] in *; lia]]].
    + assert (I2' := fun v => I2 t v (in_elt _ _ _)). destruct T; cbn [peak] in *; try (destruct I1 as (z & Hz & Ez); exists z; auto; fail).
      destruct (I2' old eq_refl) as (z & Hz & Ez). exists z. auto.
    + intros u v Hu Hp. apply in_app_or in Hu. assert (Hu' : u = t' \/ In u (l1 ++ t :: l2)) by (destruct Hu as [Hu|[Hu|Hu]]; [right; apply in_or_app; auto|left; auto|right; apply in_or_app; right; right; exact Hu]).
      destruct Hu' as [->|Hu']; [|destruct (I2 u v Hu' Hp) as (z & Hz & Ez); exists z; auto].
      specialize (I2 t v (in_elt _ _ _)). destruct T; cbn [peak_pending] in *; subst; try tauto; try (destruct (I2 eq_refl) as (z & Hz & Ez); exists z; auto; fail).
      eexists. split; [apply Vi, I3|reflexivity].
Qed.
(** Every value of the counter is bounded by the value before an addition and its size. *)
Lemma inv_bound tr s : exec n tr s -> in_range tr -> forall s', In s' (visited n tr) -> exists a z, allocated (fst s') <= a + z /\ peak_reached (fst s) (snd s) a /\ largest_reached (fst s) (snd s) z.
Proof.
  apply (exec_invariant (fun tr s ths => in_range tr -> forall s', In s' (visited n tr) -> exists a z, allocated (fst s') <= a + z /\ peak_reached s ths a /\ largest_reached s ths z)).
  - intros _ s' [<-|[]]. exists 0, 0. cbn. split; [lia|]. split; left; cbn; lia.
  - clear tr s. intros tr s e s' l1 t t' l2 Ex IH T [R1 R2] q Hq. pose proof (seen_at _ _ _ _ _ Ex) as S. specialize (IH R2).
    assert (Old : forall q, In q (visited n tr) -> exists a z, allocated (fst q) <= a + z /\ peak_reached s' (l1 ++ t' :: l2) a /\ largest_reached s' (l1 ++ t' :: l2) z).
    { intros q0 H0. destruct (IH q0 H0) as (a & z & H1 & H2 & H3). exists a, z. split; [exact H1|]. split; [eapply peak_reached_step|eapply largest_reached_step]; eassumption. }
    assert (Hq' : q = (s', l1 ++ t' :: l2) \/ In q (visited n tr)) by (destruct Hq as [Hq|[Hq|Hq]]; [right; left; exact Hq|left; symmetry; exact Hq|right; right; exact Hq]).
    destruct Hq' as [->|Hq']; [|apply Old, Hq']. destruct (inv_peak _ _ Ex) as (_ & _ & Cur & _). destruct (Old _ Cur) as (a0 & z0 & H1 & H2 & H3).
    pose proof (allocated_nonneg _ _ Ex) as Na.
    assert (Rr : bytes given tr - bytes freed tr < 2 ^ 64) by (destruct tr; exact (proj1 R2)).
    destruct (inv_ok _ _ Ex) as [Ok1 Ok2]. pose proof (allocated_exact _ _ Ex Rr) as Ea. cbn [fst snd] in *.
    destruct T; cbn [allocated] in *; try (exists a0, z0; auto; fail).
    + exists a, size. split; [|split; right; apply Exists_app; right; left; reflexivity].
      apply Z.mod_le; [|lia]. apply Forall_app in Ok1 as [_ Ok1]. inversion Ok1 as [|? ? O1 _]; subst. cbn in O1. lia.
    + exists a0, z0. split; [|auto]. rewrite !weigh_app in Ea. cbn [weigh w_flight w_add held] in Ea. apply Forall_app in Ok1 as [Ok0 Ok1]. inversion Ok1 as [|? ? O1 O3]; subst. cbn in O1.
      pose proof (flight_split _ Ok0). pose proof (flight_split _ O3). pose proof (weigh_nonneg snd _ Ok2). cbn [held] in *. transitivity (weigh snd h + (weigh w_flight l1 + (size + weigh w_flight l2) - (weigh w_add l1 + (0 + weigh w_add l2))) - size); [apply Z.mod_le; lia|lia].
Qed.
End Invariants.
