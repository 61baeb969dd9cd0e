(** The counters of the logging allocator: utils/logging-allocator/src/logging_allocator.rs. *)
Require Import ZArith Lia Bool List.
From Verif Require Import Word AllocModel AllocSpec AllocProofs.
Import ListNotations.
Open Scope Z_scope.

(** When no call is in progress, whatever the interleaving before: the counters are those of the pointers that the
    system has given and taken back. *)
Theorem C69_quiet : forall n tr s, exec n tr s -> quiet s ->
  allocated (fst s) = (bytes given tr - bytes freed tr) mod 2 ^ 64 /\ total (fst s) = bytes given tr mod 2 ^ 64 /\ count (fst s) = bytes given_times tr mod 2 ^ 64
  /\ (forall size, observed (Got size) tr -> size <= largest (fst s)) /\ (largest (fst s) = 0 \/ observed (Got (largest (fst s))) tr).
Proof.
  intros n tr s E Q. rewrite (inv_allocated n _ _ E), (inv_total n _ _ E), (inv_count n _ _ E). rewrite !weigh_zero by (intros t Ht; rewrite (Q t Ht); reflexivity). rewrite !Z.sub_0_r. destruct (inv_largest n _ _ E) as (I1 & _ & I3 & _).
  repeat (split; [reflexivity|]). split; [|exact I3]. intros size Ho. destruct (I1 size Ho) as [H|H]; [exact H|]. exfalso. apply Exists_exists in H as (t & Ht & Hp). rewrite (Q t Ht) in Hp. exact Hp.
Qed.
Print Assumptions C69_quiet.

(** At every moment the counter is at least what the program owns, and at most what the system has given and [dealloc]
    has not yet returned. *)
Theorem C69_any_moment : forall n tr s, exec n tr s -> bytes given tr - bytes freed tr < 2 ^ 64 ->
  bytes received tr - bytes given_back tr <= allocated (fst s) <= bytes given tr - bytes freed tr.
Proof.
  intros n tr s E R. rewrite (allocated_exact n _ _ E R). destruct (inv_flight n _ _ E) as [A B], (inv_ok n _ _ E) as [C D]. pose proof (flight_split _ C). lia.
Qed.
Print Assumptions C69_any_moment.

(** The peak is a value that the counter has had, and no value of the counter exceeds it by more than the largest
    allocation. *)
Theorem C69_peak : forall n tr s, exec n tr s -> quiet s -> in_range tr ->
  (exists s', In s' (visited n tr) /\ peak (fst s) = allocated (fst s')) /\ (forall s', In s' (visited n tr) -> allocated (fst s') <= peak (fst s) + largest (fst s)).
Proof.
  intros n tr s E Q R. split; [apply (inv_peak n _ _ E)|]. intros s' Hs. destruct (inv_bound n _ _ E R s' Hs) as (a & z & H1 & H2 & H3).
  assert (A : a <= peak (fst s)) by (destruct H2 as [H|H]; [exact H|]; exfalso; apply Exists_exists in H as (t & Ht & Hp); rewrite (Q t Ht) in Hp; exact Hp).
  assert (Z0 : z <= largest (fst s)) by (destruct H3 as [H|H]; [exact H|]; exfalso; apply Exists_exists in H as (t & Ht & Hp); rewrite (Q t Ht) in Hp; exact Hp). lia.
Qed.
Print Assumptions C69_peak.

(** A request of 10^12 bytes or more returns null and never reaches the system; a pointer that is returned came from
    the system. *)
Theorem C69_reject : forall n tr s, exec n tr s ->
  (forall size, observed (Got size) tr -> size < 10 ^ 12) /\ (forall size ptr, observed (ReturnAlloc size ptr) tr -> 10 ^ 12 <= size -> ptr = 0) /\ (forall size ptr, observed (ReturnAlloc size ptr) tr -> ptr <> 0 -> observed (Got size) tr).
Proof.
  intros n tr s E. set (back := fun size ptr t => match t with AddAllocated z p | AddTotal z p _ | AddCount z p _ | LoadPeak z p _ | MaxPeak z p _ _ | LoadLargest z p | MaxLargest z p _ | Return z p => z = size /\ p = ptr | _ => False end).
  enough (H : (forall size, observed (Got size) tr -> size < 10 ^ 12) /\ (forall size ptr t, In t (snd s) -> back size ptr t -> ptr <> 0 -> observed (Got size) tr) /\ (forall size ptr, observed (ReturnAlloc size ptr) tr -> ptr <> 0 -> observed (Got size) tr)).
  { destruct H as (A & _ & C). split; [exact A|split; [|exact C]]. intros size ptr Ho Hs. destruct (Z.eq_dec ptr 0) as [e|Ne]; [exact e|]. specialize (A size (C size ptr Ho Ne)). lia. }
  revert tr s E. apply (exec_invariant n (fun tr s ths => (forall size, observed (Got size) tr -> size < 10 ^ 12) /\ (forall size ptr t, In t ths -> back size ptr t -> ptr <> 0 -> observed (Got size) tr) /\ (forall size ptr, observed (ReturnAlloc size ptr) tr -> ptr <> 0 -> observed (Got size) tr))).
  - split; [intros size [? []]|]. split; [|intros size ptr [? []]]. intros size ptr t Ht. apply repeat_spec in Ht as ->. intros [].
  - intros tr s e s' l1 t t' l2 Ex (I1 & I2 & I3) T.
    assert (Ob : forall ev, observed ev tr -> observed ev ((e, (s', l1 ++ t' :: l2)) :: tr)) by (intros ev [s0 H]; exists s0; right; exact H).
    assert (I2' := fun size ptr => I2 size ptr t (in_elt _ _ _)). split; [|split].
    + intros size [s0 [H|H]]; [|apply I1; exists s0; exact H]. injection H as -> _. inversion T; subst. assumption.
    + intros size ptr u Hu Hb Np. apply in_app_or in Hu. assert (Hu' : u = t' \/ In u (l1 ++ t :: l2)) by (destruct Hu as [Hu|[Hu|Hu]]; [right; apply in_or_app; auto|left; auto|right; apply in_or_app; right; right; exact Hu]).
      destruct Hu' as [->|Hu']; [|apply Ob; eapply I2; eassumption]. destruct T; cbn [back] in *; try tauto; destruct Hb as [<- <-]; try contradiction; try (apply Ob; eapply I2'; [split; reflexivity|exact Np]). eexists. left. reflexivity.
    + intros size ptr [s0 [H|H]] Np; [|apply Ob; eapply I3; [exists s0; exact H|exact Np]]. injection H as -> _. inversion T; subst. apply Ob. eapply I2'; [split; reflexivity|exact Np].
Qed.
Print Assumptions C69_reject.

(** No thread ever waits: from every moment all calls that are in progress can return, without new calls. *)
Definition no_call (m : option event * state) : Prop := match fst m with Some (CallAlloc _) | Some (CallDealloc _ _) => False | _ => True end.
Lemma go n tr s e s' l1 t t' l2 : exec n tr (s, l1 ++ t :: l2) -> tstep s t e s' t' -> exec n ((e, (s', l1 ++ t' :: l2)) :: tr) (s', l1 ++ t' :: l2).
Proof. intros E T. eapply exec_step; [exact E|]. constructor. exact T. Qed.
Definition finishes n t := forall l1 l2 tr s, exec n tr (s, l1 ++ t :: l2) -> exists tr' s', Forall no_call tr' /\ exec n (tr' ++ tr) (s', l1 ++ Idle :: l2).
Lemma finish_by n t (Q : shared -> Prop) : (forall tr s l, exec n tr (s, l) -> Q s) -> (forall s, Q s -> exists e s' t', tstep s t e s' t' /\ no_call (e, (s', [])) /\ finishes n t') -> finishes n t.
Proof.
  intros Hq H l1 l2 tr s E. destruct (H s (Hq _ _ _ E)) as (e & s' & t' & T & Nc & Fi). destruct (Fi l1 l2 _ _ (go _ _ _ _ _ _ _ _ _ E T)) as (tr' & s1 & F & E').
  exists (tr' ++ [(e, (s', l1 ++ t' :: l2))]), s1. split; [apply Forall_app; split; [exact F|constructor; [exact Nc|constructor]]|]. rewrite <- app_assoc. exact E'.
Qed.
Definition has_max (s : shared) : Prop := In (peak s) (peaks s) /\ In (largest s) (largests s).
Lemma has_max_at n tr s l : exec n tr (s, l) -> has_max s.
Proof. intros E. destruct (inv_seen n _ _ E) as ((A & _) & (B & _) & _). split; assumption. Qed.
Ltac by_step tac := apply (finish_by _ _ has_max); [apply has_max_at|intros [aa pp tt ll cc ps ls hh] [Hp Hl]; cbn [peak peaks largest largests] in *; do 3 eexists; split; [tac|split; [exact I|]]].
Lemma finish n t : finishes n t.
Proof.
  assert (F0 : finishes n Idle) by (intros l1 l2 tr s E; exists [], s; split; [constructor|exact E]).
  assert (F1 : forall size ptr, finishes n (Return size ptr)) by (intros; by_step ltac:(constructor); exact F0).
  assert (F2 : forall size ptr, finishes n (SubAllocated size ptr)) by (intros; by_step ltac:(constructor); exact F0).
  assert (F3 : forall size ptr, finishes n (Dealloc size ptr)) by (intros; by_step ltac:(constructor); apply F2).
  assert (F4 : forall size ptr prev, finishes n (MaxLargest size ptr prev)).
  { intros size ptr prev. destruct (Z_le_gt_dec size prev) as [H|H]; [by_step ltac:(apply t_largest_end; exact H); apply F1|].
    intros l1 l2 tr s E. destruct s as [a p tt l c ps ls h]. destruct (has_max_at n _ _ _ E) as [_ Hl]. cbn [largest largests] in Hl.
    pose proof (go _ _ _ _ _ _ _ _ _ E (t_largest_fail a p tt l c ps ls h size ptr prev l ltac:(lia) Hl)) as E1.
    assert (K : exists s' t', tstep (Shared a p tt l c ps ls h) (MaxLargest size ptr l) None s' t' /\ t' = Return size ptr) by (destruct (Z_lt_ge_dec l size); do 2 eexists; (split; [|reflexivity]); [apply t_largest_ok; assumption|apply t_largest_end; lia]).
    destruct K as (s' & t' & T & ->). destruct (F1 size ptr l1 l2 _ _ (go _ _ _ _ _ _ _ _ _ E1 T)) as (tr' & s1 & Nc & E2). eexists (tr' ++ [_; _]), s1. split; [apply Forall_app; split; [exact Nc|]|rewrite <- app_assoc; exact E2]. repeat constructor. }
  assert (F5 : forall size ptr, finishes n (LoadLargest size ptr)) by (intros; by_step ltac:(apply t_load_largest; exact Hl); apply F4).
  assert (F6 : forall size ptr old prev, finishes n (MaxPeak size ptr old prev)).
  { intros size ptr old prev. destruct (Z_le_gt_dec old prev) as [H|H]; [by_step ltac:(apply t_peak_end; exact H); apply F5|].
    intros l1 l2 tr s E. destruct s as [a p tt l c ps ls h]. destruct (has_max_at n _ _ _ E) as [Hp _]. cbn [peak peaks] in Hp.
    pose proof (go _ _ _ _ _ _ _ _ _ E (t_peak_fail a p tt l c ps ls h size ptr old prev p ltac:(lia) Hp)) as E1.
    assert (K : exists s' t', tstep (Shared a p tt l c ps ls h) (MaxPeak size ptr old p) None s' t' /\ t' = LoadLargest size ptr) by (destruct (Z_lt_ge_dec p old); do 2 eexists; (split; [|reflexivity]); [apply t_peak_ok; assumption|apply t_peak_end; lia]).
    destruct K as (s' & t' & T & ->). destruct (F5 size ptr l1 l2 _ _ (go _ _ _ _ _ _ _ _ _ E1 T)) as (tr' & s1 & Nc & E2). eexists (tr' ++ [_; _]), s1. split; [apply Forall_app; split; [exact Nc|]|rewrite <- app_assoc; exact E2]. repeat constructor. }
  assert (F7 : forall size ptr old, finishes n (LoadPeak size ptr old)) by (intros; by_step ltac:(apply t_load_peak; exact Hp); apply F6).
  assert (F8 : forall size ptr old, finishes n (AddCount size ptr old)) by (intros; by_step ltac:(constructor); apply F7).
  assert (F9 : forall size ptr old, finishes n (AddTotal size ptr old)) by (intros; by_step ltac:(constructor); apply F8).
  destruct t; auto.
  - destruct (Z_lt_ge_dec size reject); [by_step ltac:(apply t_null; assumption)|by_step ltac:(apply t_reject; lia)]; apply F1.
  - by_step ltac:(constructor). apply F9.
Qed.
Theorem C69_progress : forall n tr s, exec n tr s -> exists tr' s', Forall no_call tr' /\ exec n (tr' ++ tr) s' /\ quiet s'.
Proof.
  intros n tr [s ths] E. enough (H : forall l2 l1 tr s, exec n tr (s, l1 ++ l2) -> (forall t, In t l1 -> t = Idle) -> exists tr' s', Forall no_call tr' /\ exec n (tr' ++ tr) s' /\ quiet s') by (apply (H ths [] tr s E); intros t []).
  clear. induction l2 as [|t l2 IH]; intros l1 tr s E H1.
  - exists [], (s, l1 ++ []). split; [constructor|]. split; [exact E|]. intros t Ht. rewrite app_nil_r in Ht. apply H1, Ht.
  - destruct (finish n t l1 l2 tr s E) as (tr1 & s1 & Nc & E1). destruct (IH (l1 ++ [Idle]) (tr1 ++ tr) s1) as (tr2 & s2 & Nc2 & E2 & Q).
    + rewrite <- app_assoc. exact E1.
    + intros u Hu. apply in_app_or in Hu as [Hu|[Hu|[]]]; auto.
    + exists (tr2 ++ tr1), s2. split; [apply Forall_app; auto|]. rewrite <- app_assoc. auto.
Qed.
Print Assumptions C69_progress.

(** The peak is the value before the last addition: after one allocation it is zero. *)
Theorem C69_peak_refuted : exists tr s, exec 1 tr s /\ quiet s /\ in_range tr /\ allocated (fst s) = 100 /\ peak (fst s) = 0.
Proof.
  pose proof (go 1 _ _ _ _ [] _ _ [] (exec_start 1) (t_call 0 0 0 0 0 [0] [0] [] 100 ltac:(lia))) as E. cbn [app] in E.
  pose proof (go 1 _ _ _ _ [] _ _ [] E (t_got 0 0 0 0 0 [0] [0] [] 100 4096 ltac:(unfold reject; lia) ltac:(lia))) as E1. clear E.
  pose proof (go 1 _ _ _ _ [] _ _ [] E1 (t_allocated _ _ _ _ _ _ _ _ _ _)) as E. clear E1.
  pose proof (go 1 _ _ _ _ [] _ _ [] E (t_total _ _ _ _ _ _ _ _ _ _ _)) as E1. clear E.
  pose proof (go 1 _ _ _ _ [] _ _ [] E1 (t_count _ _ _ _ _ _ _ _ _ _ _)) as E. clear E1.
  pose proof (go 1 _ _ _ _ [] _ _ [] E (t_load_peak _ _ _ _ _ _ _ _ _ _ _ 0 (in_eq 0 []))) as E1. clear E.
  pose proof (go 1 _ _ _ _ [] _ _ [] E1 (t_peak_end _ _ _ _ _ _ _ _ _ _ 0 0 ltac:(lia))) as E. clear E1.
  pose proof (go 1 _ _ _ _ [] _ _ [] E (t_load_largest _ _ _ _ _ _ _ _ _ _ 0 (in_eq 0 []))) as E1. clear E.
  pose proof (go 1 _ _ _ _ [] _ _ [] E1 (t_largest_ok _ _ _ 0 _ _ _ _ 100 _ ltac:(lia))) as E. clear E1.
  pose proof (go 1 _ _ _ _ [] _ _ [] E (t_return _ _ _ _ _ _ _ _ _ _)) as E1. clear E.
  eexists _, _. split; [exact E1|]. split; [intros t [<-|[]]; reflexivity|]. split; [cbn; lia|]. split; reflexivity.
Qed.
Print Assumptions C69_peak_refuted.
(** Two threads, a failed exchange, a rejected request and a deallocation: the counters are 7, 5, 12, 7 and 2. *)
Example C69_ex : exists tr s, exec 2 tr s /\ quiet s /\ in_range tr /\ allocated (fst s) = 7 /\ peak (fst s) = 5 /\ total (fst s) = 12 /\ largest (fst s) = 7 /\ count (fst s) = 2 /\ observed (ReturnAlloc (10 ^ 12) 0) tr /\ observed (ReturnDealloc 5) tr.
Proof.
  Ltac one E T := let E' := fresh in pose proof (go 2 _ _ _ _ [] _ _ _ E T) as E'; clear E; rename E' into E; cbn [app] in E.
  Ltac two E T := let E' := fresh in pose proof (go 2 _ _ _ _ [_] _ _ [] E T) as E'; clear E; rename E' into E; cbn [app] in E.
  pose proof (exec_start 2) as E. cbn [repeat] in E. one E (t_call 0 0 0 0 0 [0] [0] [] 5 ltac:(lia)). two E (t_call 0 0 0 0 0 [0] [0] [] 7 ltac:(lia)).
  one E (t_got 0 0 0 0 0 [0] [0] [] 5 4096 ltac:(unfold reject; lia) ltac:(lia)). two E (t_got 0 0 0 0 0 [0] [0] [] 7 8192 ltac:(unfold reject; lia) ltac:(lia)).
  one E (t_allocated 0 0 0 0 0 [0] [0] [] 5 4096). two E (t_allocated 5 0 0 0 0 [0] [0] [] 7 8192).
  one E (t_total 12 0 0 0 0 [0] [0] [] 5 4096 0). one E (t_count 12 0 5 0 0 [0] [0] [] 5 4096 0). two E (t_total 12 0 5 0 1 [0] [0] [] 7 8192 5). two E (t_count 12 0 12 0 1 [0] [0] [] 7 8192 5).
  two E (t_load_peak 12 0 12 0 2 [0] [0] [] 7 8192 5 0 (in_eq 0 [])). two E (t_peak_fail 12 0 12 0 2 [0] [0] [] 7 8192 5 0 0 ltac:(lia) (in_eq 0 [])). two E (t_peak_ok 12 0 12 0 2 [0] [0] [] 7 8192 5 ltac:(lia)).
  one E (t_load_peak 12 5 12 0 2 [5; 0] [0] [] 5 4096 0 0 ltac:(right; left; reflexivity)). one E (t_peak_end 12 5 12 0 2 [5; 0] [0] [] 5 4096 0 0 ltac:(lia)).
  one E (t_load_largest 12 5 12 0 2 [5; 0] [0] [] 5 4096 0 (in_eq 0 [])). two E (t_load_largest 12 5 12 0 2 [5; 0] [0] [] 7 8192 0 (in_eq 0 [])).
  one E (t_largest_ok 12 5 12 0 2 [5; 0] [0] [] 5 4096 ltac:(lia)). two E (t_largest_fail 12 5 12 5 2 [5; 0] [5; 0] [] 7 8192 0 5 ltac:(lia) (in_eq 5 [0])). two E (t_largest_ok 12 5 12 5 2 [5; 0] [5; 0] [] 7 8192 ltac:(lia)).
  one E (t_return 12 5 12 7 2 [5; 0] [7; 5; 0] [] 5 4096). two E (t_return 12 5 12 7 2 [5; 0] [7; 5; 0] [(4096, 5)] 7 8192).
  two E (t_free 12 5 12 7 2 [5; 0] [7; 5; 0] [(8192, 7)] [] 5 4096). one E (t_call 12 5 12 7 2 [5; 0] [7; 5; 0] [(8192, 7)] (10 ^ 12) ltac:(lia)). one E (t_reject 12 5 12 7 2 [5; 0] [7; 5; 0] [(8192, 7)] (10 ^ 12) ltac:(unfold reject; lia)).
  two E (t_dealloc 12 5 12 7 2 [5; 0] [7; 5; 0] [(8192, 7)] 5 4096). one E (t_return 12 5 12 7 2 [5; 0] [7; 5; 0] [(8192, 7)] (10 ^ 12) 0). two E (t_sub 12 5 12 7 2 [5; 0] [7; 5; 0] [(8192, 7)] 5 4096).
  eexists _, _. split; [exact E|]. split; [intros t [<-|[<-|[]]]; reflexivity|]. split; [cbn; lia|]. do 5 (split; [reflexivity|]).
  split; eexists; repeat (first [left; reflexivity|right]).
Qed.
