(** The ring buffer of merkle.sol against the queue of proof.rs, for C70. *)
Require Import ZArith Arith Lia Bool List Sorted.
From Verif Require Import Word KnuthModel BinaryModel Arr MerkleModel MerkleSpec MerkleProofs MerkleSolModel.
Import ListNotations.
Open Scope Z_scope.

Lemma mod_ne n a d : (0 < d < n)%nat -> ((a + d) mod n <> a mod n)%nat.
Proof.
  intros Hd E. assert (Hn : n <> 0%nat) by lia. rewrite (Nat.add_mod a d n Hn), (Nat.mod_small d n) in E by lia. pose proof (Nat.mod_upper_bound a n Hn) as Hr. set (r := (a mod n)%nat) in *.
  destruct (le_lt_dec n (r + d)) as [L|L]; [|rewrite Nat.mod_small in E; lia]. replace (r + d)%nat with ((r + d - n) + 1 * n)%nat in E by lia. rewrite Nat.mod_add in E by lia. rewrite Nat.mod_small in E; lia.
Qed.
Lemma mod_ne2 n R a b : (a < b < a + n)%nat -> ((R + b) mod n <> (R + a) mod n)%nat.
Proof. intros Hd. replace (R + b)%nat with (R + a + (b - a))%nat by lia. apply mod_ne. lia. Qed.
Section Ring.
Context {H : Type} (heqb : H -> H -> bool) (node : H -> H -> H).
(** The queue lies in the ring from position R on. *)
Definition holds (n : nat) (ind : nat -> Z) (lf : nat -> H) (R : nat) (q : list (Z * H)) : Prop :=
  (length q <= n)%nat /\ forall k x, nth_error q k = Some x -> ind ((R + k) mod n)%nat = fst x /\ lf ((R + k) mod n)%nat = snd x.
Lemma upd_same {A} (f : nat -> A) i v : upd f i v i = v.
Proof. unfold upd. rewrite Nat.eqb_refl. reflexivity. Qed.
Lemma upd_other {A} (f : nat -> A) i j v : j <> i -> upd f i v j = f j.
Proof. intros N. unfold upd. destruct (Nat.eqb_spec j i); [contradiction|reflexivity]. Qed.
Lemma holds_advance n ind lf R c q x y : holds n ind lf R (c ++ q) -> (1 <= length c <= 2)%nat -> (2 <= n)%nat ->
  let w := ((R + length (c ++ q)) mod n)%nat in
  holds n (upd ind w x) (upd lf w y) (R + length c) (q ++ [(x, y)])
  /\ forall j, (length (q ++ [(x, y)]) <= j < n)%nat ->
       (exists j', (length (c ++ q) <= j' < n)%nat /\ upd ind w x ((R + length c + j) mod n)%nat = ind ((R + j') mod n)%nat)
       \/ (exists e, In e c /\ upd ind w x ((R + length c + j) mod n)%nat = fst e).
Proof.
  intros [Hl Ha] Hc Hn w. unfold w. rewrite app_length in *. split; [split|].
  - rewrite app_length. cbn [length]. lia.
  - intros k e Hk. replace (R + length c + k)%nat with (R + (length c + k))%nat by lia. destruct (lt_dec k (length q)) as [L|L].
    + rewrite nth_error_app1 in Hk by exact L. rewrite !upd_other by (apply not_eq_sym, mod_ne2; lia). apply Ha. rewrite nth_error_app2 by lia. replace (length c + k - length c)%nat with k by lia. exact Hk.
    + rewrite nth_error_app2 in Hk by lia. destruct (k - length q)%nat as [|z] eqn:E; [|destruct z; discriminate Hk]. injection Hk as <-. replace k with (length q) by lia. rewrite !upd_same. split; reflexivity.
  - intros j Hj. rewrite app_length in Hj. cbn [length] in Hj. replace (R + length c + j)%nat with (R + (length c + j))%nat by lia. destruct (lt_dec (length c + j) n) as [L|L].
    + left. exists (length c + j)%nat. split; [lia|]. apply upd_other. apply mod_ne2. lia.
    + right. assert (Hz : (length c + j - n < length c)%nat) by lia. destruct (nth_error c (length c + j - n)) as [e|] eqn:E; [|apply nth_error_None in E; lia]. exists e. split; [eapply nth_error_In; exact E|].
      rewrite upd_other.
      * replace (R + (length c + j))%nat with (R + (length c + j - n) + 1 * n)%nat by lia. rewrite Nat.mod_add by lia. apply Ha. rewrite nth_error_app1 by exact Hz. exact E.
      * replace (R + (length c + j))%nat with (R + (length c + j - n) + 1 * n)%nat by lia. rewrite Nat.mod_add by lia. apply not_eq_sym, mod_ne2. lia.
Qed.

(** The queue: nodes of one layer, then parents of nodes of this layer; what is left over in the ring is of lower
    layers or smaller. *)
Definition increasing (q : list (Z * H)) : Prop := StronglySorted (fun a b => fst a < fst b) q.
Record layered (l : nat) (i : Z) (h : H) (t q2 : list (Z * H)) : Prop := {
  la_sorted : increasing ((i, h) :: t);
  la_range : Forall (fun e => 2 ^ Z.of_nat l <= fst e < 2 * 2 ^ Z.of_nat l) ((i, h) :: t);
  la_sorted2 : increasing q2;
  la_range2 : Forall (fun e => 2 ^ Z.of_nat l <= 2 * fst e /\ fst e < i / 2) q2 }.
Definition left_over (l : nat) (i v : Z) : Prop := 2 ^ Z.of_nat l <= v /\ (v < i \/ 2 * 2 ^ Z.of_nat l <= v).
Lemma sorted_snoc q x : increasing q -> Forall (fun e => fst e < fst x) q -> increasing (q ++ [x]).
Proof. intros S. induction S as [|a q S IH F]; intros Hx; cbn [app]; [repeat constructor|]. inversion Hx; subst. constructor; [apply IH; assumption|]. apply Forall_app; auto. Qed.
(** One step: the consumed nodes [c] are the head, or the head and its right sibling. *)
Lemma layered_advance l i h c t q2 y : layered (S l) i h t q2 -> (c = [(i, h)] /\ (forall j g, In (j, g) t -> i mod 2 = 0 -> j <> i + 1)) /\ c ++ t = (i, h) :: t \/ (exists g t', t = (i + 1, g) :: t' /\ i mod 2 = 0 /\ c = [(i, h); (i + 1, g)]) ->
  let t' := skipn (length c - 1) t in
  exists l' i' h' t'' q2'', t' ++ q2 ++ [(i / 2, y)] = (i', h') :: t'' ++ q2'' /\ layered l' i' h' t'' q2''
    /\ (forall v, left_over (S l) i v -> left_over l' i' v) /\ (forall e, In e c -> left_over l' i' (fst e)).
Proof.
  intros [S1 R1 S2 R2] Hc t'. assert (P2 : 2 ^ Z.of_nat (S l) = 2 * 2 ^ Z.of_nat l) by (rewrite Nat2Z.inj_succ, Z.pow_succ_r by lia; reflexivity). rewrite P2 in *. set (p := 2 ^ Z.of_nat l) in *. assert (Pp : 0 < p) by (apply Z.pow_pos_nonneg; lia).
  inversion S1 as [|? ? S1' F1]; subst. inversion R1 as [|? ? Ri R1']; subst. cbn [fst] in *. pose proof (Z.div_mod i 2 ltac:(lia)) as Di. pose proof (Z.mod_pos_bound i 2 ltac:(lia)) as Mi.
  (* what is consumed, and that later nodes of the layer have larger parents *)
  assert (C : (forall e, In e c -> 2 * p <= fst e /\ forall e', In e' t' -> fst e < fst e') /\ increasing t' /\ Forall (fun e => 2 * p <= fst e < 2 * (2 * p) /\ i / 2 < fst e / 2 /\ i < fst e) t').
  { destruct Hc as [[[-> Hn] _]|(g & t0 & -> & Ev & ->)].
    - unfold t'. cbn [length Nat.sub skipn]. split; [|split; [exact S1'|]].
      + intros e [<-|[]]. cbn [fst]. split; [lia|]. intros e' He. rewrite Forall_forall in F1. apply (F1 e' He).
      + apply Forall_forall. intros [j g] Hj. cbn [fst]. rewrite Forall_forall in F1, R1'. specialize (F1 _ Hj). specialize (R1' _ Hj). cbn [fst] in *. split; [lia|]. split; [|lia]. assert (i mod 2 = 0 -> j <> i + 1) by (apply (Hn j g Hj)).
        pose proof (Z.div_mod j 2 ltac:(lia)). pose proof (Z.mod_pos_bound j 2 ltac:(lia)). lia.
    - unfold t'. cbn [length Nat.sub skipn]. inversion S1' as [|? ? S1'' F1']; subst. inversion F1 as [|? ? _ F1'']; subst. inversion R1' as [|? ? Ri1 R1'']; subst. cbn [fst] in *. split; [|split; [exact S1''|]].
      + intros e [<-|[<-|[]]]; cbn [fst]; (split; [lia|]); intros e' He; rewrite Forall_forall in F1', F1''; [apply (F1'' e' He)|apply (F1' e' He)].
      + apply Forall_forall. intros [j g'] Hj. cbn [fst]. rewrite Forall_forall in F1', R1''. specialize (F1' _ Hj). specialize (R1'' _ Hj). cbn [fst] in *. split; [lia|]. split; [|lia]. pose proof (Z.div_mod j 2 ltac:(lia)). pose proof (Z.mod_pos_bound j 2 ltac:(lia)). lia. }
  destruct C as (Cc & Ct & Cr). assert (Sq : increasing (q2 ++ [(i / 2, y)])) by (apply sorted_snoc; [exact S2|]; eapply Forall_impl; [|exact R2]; cbn; lia).
  destruct t' as [|[i' h'] t''] eqn:Et.
  - cbn [app]. destruct (q2 ++ [(i / 2, y)]) as [|[i' h'] t''] eqn:Eq; [destruct q2; discriminate Eq|]. exists l, i', h', t'', []. rewrite app_nil_r. split; [reflexivity|].
    assert (Rq : Forall (fun e => p <= fst e < 2 * p) ((i', h') :: t'')).
    { rewrite <- Eq. apply Forall_app. split; [eapply Forall_impl; [|exact R2]; cbn; lia|]. repeat constructor; cbn; lia. }
    split; [constructor; [exact Sq|fold p; exact Rq|constructor|constructor]|]. unfold left_over. rewrite P2. fold p. split; [intros v Hv; lia|intros e He; destruct (Cc e He); lia].
  - cbn [app]. exists (S l), i', h', t'', (q2 ++ [(i / 2, y)]). split; [reflexivity|]. inversion Cr as [|? ? Cri Cr']; subst. cbn [fst] in *. split; [constructor|].
    + exact Ct.
    + rewrite P2. eapply Forall_impl; [|exact Cr]. cbn. tauto.
    + exact Sq.
    + rewrite P2. apply Forall_app. split; [eapply Forall_impl; [|exact R2]; cbn; lia|]. repeat constructor; cbn; lia.
    + unfold left_over. rewrite P2. fold p. split; [intros v Hv; lia|]. intros e He. destruct (Cc e He) as [A B]. specialize (B (i', h') (or_introl eq_refl)). cbn [fst] in B. lia.
Qed.
Definition outcome (r : res unit) (b : option bool) : Prop :=
  match r with Ok _ => b = Some true | Err RootHashMismatch => b = Some false | Err NotEnoughHashes => True | Err _ => False end.
Lemma odd_land i : (Z.land i 1 =? 1) = negb (is_left i).
Proof. unfold is_left. change 1 with (Z.ones 1) at 1. rewrite Z.land_ones by lia. change (2 ^ 1) with 2. pose proof (Z.mod_pos_bound i 2 ltac:(lia)). destruct (Z.eqb_spec (i mod 2) 1), (Z.eqb_spec (i mod 2) 0); cbn; lia. Qed.
Lemma lor_one i : Z.lor i 1 = if is_left i then i + 1 else i.
Proof.
  unfold is_left. pose proof (Z.div_mod i 2 ltac:(lia)) as D. pose proof (Z.mod_pos_bound i 2 ltac:(lia)) as M. destruct (Z.eqb_spec (i mod 2) 0) as [E|E].
  - assert (Z.land i 1 = 0) by (change 1 with (Z.ones 1); rewrite Z.land_ones by lia; exact E). symmetry. rewrite <- Z.lxor_lor by assumption. apply Z.add_nocarry_lxor. assumption.
  - apply Z.bits_inj'. intros b Hb. rewrite Z.lor_spec. destruct (Z.eq_dec b 0) as [->|Nb].
    + rewrite Z.bit0_odd. cbn [Z.testbit]. rewrite orb_true_r. symmetry. rewrite Z.odd_spec. exists (i / 2). lia.
    + replace (Z.testbit 1 b) with false; [apply orb_false_r|]. symmetry. change 1 with (2 ^ 0). apply Z.pow2_bits_false. lia.
Qed.
Lemma sibling_left i : i <> 1 -> is_left i = true -> i_sibling i = Some (i + 1).
Proof. intros N E. unfold i_sibling, is_root. destruct (Z.eqb_spec i 1); [contradiction|]. f_equal. unfold is_left in E. apply Z.eqb_eq in E. symmetry. apply Z.add_nocarry_lxor. change 1 with (Z.ones 1). rewrite Z.land_ones by lia. exact E. Qed.
Lemma sim n root dec : (2 <= n)%nat -> forall fuel l i h t q2 R s hashes log r log',
  holds n (r_indices s) (r_leaves s) R ((i, h) :: t ++ q2) -> layered l i h t q2 ->
  (forall j, (length ((i, h) :: t ++ q2) <= j < n)%nat -> left_over l i (r_indices s ((R + j) mod n)%nat)) ->
  r_read s = (R mod n)%nat -> r_write s = ((R + length ((i, h) :: t ++ q2)) mod n)%nat ->
  (forall k x, nth_error hashes k = Some x -> dec (r_next s + k)%nat = x) ->
  verify_loop heqb node fuel root ((i, h) :: t ++ q2) hashes log = Some (r, log') -> outcome r (sol_loop heqb node fuel n root dec s).
Proof.
  intros Hn. induction fuel as [|fuel IH]; intros l i h t q2 R s hashes log r log' Ho La Lo Hr Hw Hd V; [discriminate V|].
  destruct (proj2 Ho 0%nat (i, h) eq_refl) as [Ei Eh]. rewrite Nat.add_0_r in Ei, Eh. cbn [fst snd] in Ei, Eh.
  cbn [sol_loop]. rewrite Hr, Ei, Eh, odd_land, lor_one. rewrite (Nat.add_mod_idemp_l R 1 n) by lia.
  cbn [verify_loop] in V. unfold i_parent, is_root in V. destruct (Z.eqb_spec i 1) as [->|N1].
  - (* the root *)
    destruct l as [|l].
    2:{ exfalso. pose proof (la_range _ _ _ _ _ La) as Rg. inversion Rg as [|? ? Rg1 _]; subst. cbn [fst] in Rg1. rewrite Nat2Z.inj_succ, Z.pow_succ_r in Rg1 by lia. assert (0 < 2 ^ Z.of_nat l) by (apply Z.pow_pos_nonneg; lia). lia. }
    assert (Et : t = []). { destruct t as [|[j g] t]; [reflexivity|exfalso]. pose proof (la_range _ _ _ _ _ La) as Rg. pose proof (la_sorted _ _ _ _ _ La) as So. inversion So as [|? ? _ F]; subst. inversion F; subst. inversion Rg as [|? ? _ Rg2]; subst. inversion Rg2; subst. cbn in *. lia. }
    assert (E2 : q2 = []). { destruct q2 as [|[j g] q2]; [reflexivity|exfalso]. pose proof (la_range2 _ _ _ _ _ La) as Rg. apply Forall_inv in Rg. cbn [fst] in Rg. change (2 ^ Z.of_nat 0) with 1 in Rg. change (1 / 2) with 0 in Rg. lia. }
    subst t q2. cbn [app] in V. change (is_left 1) with false. cbn [negb]. destruct (heqb h root); cbn [negb] in V.
    + destruct fuel; cbn in V; injection V as <- _; reflexivity.
    + injection V as <- _. reflexivity.
  - destruct l as [|l].
    { exfalso. pose proof (la_range _ _ _ _ _ La) as Rg. inversion Rg as [|? ? Rg1 _]; subst. cbn in Rg1. lia. }
    assert (Hi : 2 * 2 ^ Z.of_nat l <= i < 2 * (2 * 2 ^ Z.of_nat l)). { pose proof (la_range _ _ _ _ _ La) as Rg. inversion Rg as [|? ? Rg1 _]; subst. cbn [fst] in Rg1. rewrite Nat2Z.inj_succ, Z.pow_succ_r in Rg1 by lia. exact Rg1. }
    assert (Pp : 0 < 2 ^ Z.of_nat l) by (apply Z.pow_pos_nonneg; lia).
    assert (P2 : 2 ^ Z.of_nat (S l) = 2 * 2 ^ Z.of_nat l) by (rewrite Nat2Z.inj_succ, Z.pow_succ_r by lia; reflexivity).
    assert (Ev : is_left i = true <-> i mod 2 = 0) by (unfold is_left; apply Z.eqb_eq).
    pose proof (Z.div_mod i 2 ltac:(lia)) as Di. pose proof (Z.mod_pos_bound i 2 ltac:(lia)) as Mi.
    assert (Sh : Z.shiftr i 1 = i / 2) by (rewrite Z.shiftr_div_pow2 by lia; reflexivity). rewrite ?Sh. rewrite ?Sh in V.
    (* the common end of a step *)
    assert (Go : forall c y s' hashes' log0, (c = [(i, h)] /\ (forall j g, In (j, g) t -> i mod 2 = 0 -> j <> i + 1)) /\ c ++ t = (i, h) :: t \/ (exists g t', t = (i + 1, g) :: t' /\ i mod 2 = 0 /\ c = [(i, h); (i + 1, g)]) ->
      r_indices s' = upd (r_indices s) (r_write s) (i / 2) -> r_leaves s' = upd (r_leaves s) (r_write s) y -> r_read s' = ((R + length c) mod n)%nat -> r_write s' = ((r_write s + 1) mod n)%nat ->
      (forall k x, nth_error hashes' k = Some x -> dec (r_next s' + k)%nat = x) ->
      verify_loop heqb node fuel root ((skipn (length c - 1) t ++ q2) ++ [(i / 2, y)]) hashes' log0 = Some (r, log') -> outcome r (sol_loop heqb node fuel n root dec s')).
    { intros c y s' hashes' log0 Hc E1 E2 E3 E4 Hd' V'. destruct (layered_advance l i h c t q2 y La Hc) as (l' & i' & h' & t'' & q2'' & Eq & La' & L1 & L2).
      assert (Lc : (1 <= length c <= 2)%nat) by (destruct Hc as [[[-> _] _]|(g & t' & _ & _ & ->)]; cbn; lia).
      assert (Ec : (i, h) :: t ++ q2 = c ++ (skipn (length c - 1) t ++ q2)). { destruct Hc as [[[-> _] _]|(g & t' & -> & _ & ->)]; reflexivity. }
      rewrite Ec in Ho, Hw, Lo. destruct (holds_advance n _ _ R c (skipn (length c - 1) t ++ q2) (i / 2) y Ho Lc Hn) as [Ho' St]. rewrite <- Hw in Ho', St. rewrite <- E1 in Ho', St. rewrite <- E2 in Ho'.
      assert (Lq : length ((skipn (length c - 1) t ++ q2) ++ [(i / 2, y)]) = length ((i', h') :: t'' ++ q2'')) by (rewrite <- app_assoc, Eq; reflexivity).
      rewrite <- app_assoc, Eq in Ho', V', St.
      apply (IH l' i' h' t'' q2'' (R + length c)%nat s' hashes' log0 r log').
      - exact Ho'.
      - exact La'.
      - intros j Hj. destruct (St j Hj) as [(j' & Hj' & ->)|(e & He & ->)]; [apply L1, Lo, Hj'|apply L2, He].
      - exact E3.
      - rewrite E4, Hw, Nat.add_mod_idemp_l by lia. f_equal. rewrite <- Lq. rewrite !app_length. cbn [length]. lia.
      - exact Hd'.
      - exact V'. }
    (* the word behind the head in the ring *)
    assert (Nx : match t ++ q2 with (j, g) :: _ => r_indices s ((R + 1) mod n)%nat = j /\ r_leaves s ((R + 1) mod n)%nat = g | [] => r_indices s ((R + 1) mod n)%nat < i \/ 2 * (2 * 2 ^ Z.of_nat l) <= r_indices s ((R + 1) mod n)%nat end).
    { destruct (t ++ q2) as [|[j g] rest] eqn:Er.
      - assert (L0 := Lo 1%nat). cbn [length] in L0. destruct (L0 ltac:(lia)) as [_ L1]. rewrite P2 in L1. exact L1.
      - exact (proj2 Ho 1%nat (j, g) eq_refl). }
    assert (Ts : forall j g, In (j, g) t -> i < j). { intros j g Hj. pose proof (la_sorted _ _ _ _ _ La) as So. inversion So as [|? ? _ F]; subst. rewrite Forall_forall in F. apply (F (j, g) Hj). }
    assert (Q2s : forall j g, In (j, g) q2 -> j < i). { intros j g Hj. pose proof (la_range2 _ _ _ _ _ La) as F. rewrite Forall_forall in F. specialize (F (j, g) Hj). cbn [fst] in F. lia. }
    assert (Fst : forall j g rest, t ++ q2 = (j, g) :: rest -> j <> i). { intros j g rest E. assert (In (j, g) (t ++ q2)) as Hin by (rewrite E; left; reflexivity). apply in_app_or in Hin as [Hin|Hin]; [specialize (Ts j g Hin); lia|specialize (Q2s j g Hin); lia]. }
    (* no merge *)
    assert (Pop : (forall j g, In (j, g) t -> i mod 2 = 0 -> j <> i + 1) -> ((if is_left i then i + 1 else i) =? r_indices s ((R + 1) mod n)%nat) = false ->
      match hashes with [] => Some (Err NotEnoughHashes, log) | x :: hs => verify_loop heqb node fuel root ((t ++ q2) ++ [(i / 2, if is_left i then node h x else node x h)]) hs (log ++ [if is_left i then (h, x) else (x, h)]) end = Some (r, log') ->
      outcome r (sol_loop heqb node fuel n root dec
        (Ring (upd (r_indices s) (r_write s) (i / 2)) (upd (r_leaves s) (r_write s) (node (if negb (is_left i) then dec (r_next s) else h) (if negb (is_left i) then h else dec (r_next s))))
           ((R + 1) mod n)%nat ((r_write s + 1) mod n)%nat (if negb (is_left i) then dec (r_next s) else h) (if negb (is_left i) then h else dec (r_next s)) (S (r_next s))))).
    { intros Nm _ V'. destruct hashes as [|x hs]; [injection V' as <- _; exact I|]. assert (Ed : dec (r_next s) = x) by (rewrite <- (Nat.add_0_r (r_next s)); apply Hd; reflexivity). rewrite Ed.
      apply (Go [(i, h)] (if is_left i then node h x else node x h) _ hs (log ++ [if is_left i then (h, x) else (x, h)])); cbn [r_indices r_leaves r_read r_write r_next length Nat.sub skipn]; try reflexivity.
      - left. split; [split; [reflexivity|exact Nm]|reflexivity].
      - destruct (is_left i); reflexivity.
      - intros k z Hk. replace (S (r_next s) + k)%nat with (r_next s + S k)%nat by lia. apply Hd. exact Hk.
      - exact V'. }
    destruct (is_left i) eqn:El; cbn [negb] in *.
    + rewrite (sibling_left i N1 El) in V. cbn [bind] in V. destruct (t ++ q2) as [|[j g] rest] eqn:Er.
      * assert (M : (i + 1 =? r_indices s ((R + 1) mod n)%nat) = false) by (apply Z.eqb_neq; assert (i mod 2 = 0) by tauto; lia). rewrite M. apply Pop; [|exact M|].
        -- intros j g Hj. destruct t; [destruct Hj|discriminate Er].
        -- destruct hashes; exact V.
      * destruct Nx as [Nj Ng]. rewrite Nj. destruct (Z.eqb_spec (i + 1) j) as [<-|Nm].
        -- (* merge *)
           destruct t as [|[j' g'] t]. { exfalso. cbn [app] in Er. specialize (Q2s (i + 1) g). rewrite Er in Q2s. specialize (Q2s (or_introl eq_refl)). lia. }
           cbn [app] in Er. injection Er as -> -> <-. rewrite Ng. apply (Go [(i, h); (i + 1, g)] (node h g) _ hashes (log ++ [(h, g)])); cbn [r_indices r_leaves r_read r_write r_next length Nat.sub skipn]; try reflexivity.
           ++ right. exists g, t. split; [reflexivity|]. split; [tauto|reflexivity].
           ++ rewrite Nat.add_mod_idemp_l by lia. f_equal. lia.
           ++ exact Hd.
           ++ exact V.
        -- apply Pop; [|rewrite Nj; apply Z.eqb_neq; exact Nm|destruct hashes; exact V].
           intros j' g' Hj _ ->. destruct t as [|[j0 g0] t]; [destruct Hj|]. pose proof (Ts j0 g0 (or_introl eq_refl)) as T1. cbn [app] in Er. injection Er as -> -> _. destruct Hj as [Hj|Hj]; [injection Hj; intros; subst; lia|].
           pose proof (la_sorted _ _ _ _ _ La) as So. inversion So as [|? ? So' _]; subst. inversion So' as [|? ? _ F]; subst. rewrite Forall_forall in F. specialize (F _ Hj). cbn [fst] in F. lia.
    + assert (M : (i =? r_indices s ((R + 1) mod n)%nat) = false).
      { apply Z.eqb_neq. destruct (t ++ q2) as [|[j g] rest] eqn:Er; [lia|]. destruct Nx as [-> _]. specialize (Fst j g rest eq_refl). lia. }
      rewrite M. apply Pop; [|exact M|].
      * intros j g _ E0. exfalso. assert (false = true) by (apply Ev; exact E0). discriminate.
      * destruct hashes; exact V.
Qed.
(** More steps than needed change nothing. *)
Lemma sol_loop_mono n root dec fuel k s b : sol_loop heqb node fuel n root dec s = Some b -> sol_loop heqb node (fuel + k) n root dec s = Some b.
Proof.
  revert s. induction fuel as [|fuel IH]; intros s E; [discriminate E|]. cbn [sol_loop Nat.add] in *. destruct (r_indices s (r_read s) =? 1); [exact E|]. apply IH. exact E.
Qed.
(** With as many hashes as steps the hashes do not run out. *)
Lemma enough_hashes root fuel nodes hashes log log' : (fuel <= length hashes)%nat -> verify_loop heqb node fuel root nodes hashes log <> Some (Err NotEnoughHashes, log').
Proof.
  revert nodes hashes log. induction fuel as [|fuel IH]; intros nodes hashes log Hl; [destruct nodes as [|[i h] nodes]; discriminate|].
  destruct nodes as [|[i h] nodes]; [discriminate|]. cbn [verify_loop]. destruct hashes as [|x hs]; [cbn in Hl; lia|]. cbn [length] in Hl. destruct (i_parent i) as [p|].
  - destruct (is_left i).
    + destruct nodes as [|[j g] nodes]; [apply IH; lia|]. destruct (i_sibling i); cbn [bind]; [|discriminate]. destruct (_ =? _); apply IH; cbn; lia.
    + apply IH; lia.
  - destruct (negb _); [discriminate|]. apply IH; cbn; lia.
Qed.
(** The contract on a sorted list of at least two nodes of one layer. *)
Lemma start D (L : list (Z * H)) root hashes dec s0 s1 fuel r log' : (2 <= length L)%nat -> in_layer (Z.of_nat D) (map fst L) -> strict (map fst L) ->
  (forall k x, nth_error hashes k = Some x -> dec k = x) -> verify_loop heqb node fuel root (map (kidx (Z.of_nat D)) L) hashes [] = Some (r, log') ->
  outcome r (verify_merkle_proof heqb node fuel s0 s1 root (map snd L) (map (fun e => 2 ^ Z.of_nat D + fst e) L) dec).
Proof.
  intros HL F S Hd V. unfold verify_merkle_proof. rewrite !map_length, Nat.eqb_refl. destruct (Nat.eqb_spec (length L) 0); [lia|]. cbn [negb andb].
  set (s := Ring _ _ _ _ _ _ _). assert (Pp : 0 < 2 ^ Z.of_nat D) by (apply Z.pow_pos_nonneg; lia).
  assert (Ho : holds (length L) (r_indices s) (r_leaves s) 0 (map (kidx (Z.of_nat D)) L)).
  { split; [rewrite map_length; lia|]. intros k e He. cbn [s r_indices r_leaves]. rewrite nth_error_map in He. destruct (nth_error L k) as [[x y]|] eqn:E; [|discriminate He]. injection He as <-.
    assert (k < length L)%nat by (apply nth_error_Some; congruence). rewrite Nat.add_0_l, Nat.mod_small by lia. unfold kidx, idx. cbn [fst snd].
    split; apply nth_error_nth; rewrite nth_error_map, E; reflexivity. }
  assert (So : increasing (map (kidx (Z.of_nat D)) L)).
  { clear - S. induction L as [|a L IH]; cbn [map] in *; [constructor|]. inversion S as [|? ? S' F']; subst. constructor; [apply IH; exact S'|]. apply Forall_map. rewrite Forall_map in F'. eapply Forall_impl; [|exact F']. unfold kidx, idx. cbn. lia. }
  assert (Ra : Forall (fun e => 2 ^ Z.of_nat D <= fst e < 2 * 2 ^ Z.of_nat D) (map (kidx (Z.of_nat D)) L)).
  { apply Forall_map. unfold in_layer in F. rewrite Forall_map in F. eapply Forall_impl; [|exact F]. unfold kidx, idx. cbn. lia. }
  assert (Ln : length (map (kidx (Z.of_nat D)) L) = length L) by apply map_length.
  destruct (map (kidx (Z.of_nat D)) L) as [|[i h] t] eqn:Em; [cbn in Ln; lia|].
  assert (Hi : 0 <= i / 2) by (apply Z.div_pos; inversion Ra; subst; cbn in *; lia).
  apply (sim (length L) root dec HL fuel D i h t [] 0%nat s hashes [] r log'); rewrite ?app_nil_r.
  - exact Ho.
  - constructor; [exact So|exact Ra|constructor|constructor].
  - intros j Hj. rewrite Ln in Hj. lia.
  - cbn. rewrite Nat.mod_0_l by lia. reflexivity.
  - rewrite Ln, Nat.add_0_l, Nat.mod_same by lia. reflexivity.
  - exact Hd.
  - exact V.
Qed.
(** Sorted lists are determined by their elements. *)
Lemma strict_same (L L' : list (Z * H)) : strict (map fst L) -> strict (map fst L') -> (forall k h, In (k, h) L <-> In (k, h) L') -> L = L'.
Proof.
  revert L'. induction L as [|[a x] L IH]; intros [|[b y] L'] S S' E; [reflexivity|exfalso; apply (E b y); left; reflexivity|exfalso; apply (E a x); left; reflexivity|].
  cbn [map fst] in S, S'. apply strict_inv in S as [S Sa]. apply strict_inv in S' as [S' Sb].
  assert (Eab : (a, x) = (b, y)).
  { destruct (proj1 (E a x) (or_introl eq_refl)) as [->|I1]; [reflexivity|]. destruct (proj2 (E b y) (or_introl eq_refl)) as [E2|I2]; [congruence|].
    apply (in_map fst) in I1, I2. cbn in I1, I2. specialize (Sa b I2). specialize (Sb a I1). lia. }
  injection Eab as -> ->. f_equal. apply IH; [exact S|exact S'|]. intros k h. split; intros I.
  - destruct (proj1 (E k h) (or_intror I)) as [Eq|]; [|assumption]. injection Eq as -> ->. apply (in_map fst) in I. specialize (Sa _ I). cbn in Sa. lia.
  - destruct (proj2 (E k h) (or_intror I)) as [Eq|]; [|assumption]. injection Eq as -> ->. apply (in_map fst) in I. specialize (Sb _ I). cbn in Sb. lia.
Qed.
End Ring.
