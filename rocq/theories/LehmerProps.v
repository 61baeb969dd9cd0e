(** Property theorems: greatest common divisor and modular inverse of U256 values. C06, C07.

    [dbg] is the build profile (true: debug, false: release); the outer option of the model is a
    panic, the inner one the Option returned by the API. *)
Require Import ZArith Lia Bool List Arith Znumtheory.
From Verif Require Import Word U256Model U256Spec U256Proofs BinaryModel KnuthModel KnuthProofs DivisionProps LehmerModel LehmerSpec
  LehmerProofs LehmerLoop LehmerDouble LehmerMain.
Import ListNotations.
Open Scope Z_scope.

(** Euclid's algorithm started on (a, b) needs a division c / d, with d no larger than c, on which
    the division of C03 fails. *)
Definition unlucky (a b : Z) : Prop := exists c d, remainders a b c d /\ 0 < d <= c /\ leading_limbs_collide 4 c d.

Lemma remainders_le a b c d : 0 <= b <= a -> remainders a b c d -> 0 <= d <= c.
Proof. intros H. induction 1; [assumption|]. pose proof (Z.mod_pos_bound c d ltac:(lia)). lia. Qed.
Lemma remainders_small a b c d : 0 <= b <= a -> remainders a b c d -> d <= b.
Proof. intros H R. pose proof (remainders_le a b c d H R). revert H0. induction R; intros; [lia|]. pose proof (remainders_le _ _ _ _ H R). specialize (IHR H2). lia. Qed.
Lemma not_unlucky_small a b : 0 <= b <= a -> b < 2 ^ 128 -> ~ unlucky a b.
Proof.
  intros H Hb (c & d & R & Hd & C). pose proof (remainders_small _ _ _ _ H R). revert C. apply no_clash_small. lia.
Qed.
Lemma unlucky_swap a b : 0 < b -> unlucky b (a mod b) -> unlucky a b.
Proof.
  intros Hb (c & d & R & H). exists c, d. split; [|exact H]. apply (remainders_trans a b b (a mod b)); [|exact R].
  apply (rem_next a b a b); [constructor|assumption].
Qed.

Lemma denotes_unique x a y b : denotes x a -> denotes y b -> a = b -> x = y.
Proof. intros [H <-] [G <-] E. apply val_inj; assumption. Qed.

(** The result of the extended loop, started on N >= M. *)
Lemma ext_start dbg x y : wf x -> wf y -> val y <= val x ->
  (exists r, ext_loop dbg 520 x y ONE ZERO ZERO ONE true = Some r /\ finished (val x) (val y) r) \/
  (unlucky (val x) (val y) /\ (dbg = true -> ext_loop dbg 520 x y ONE ZERO ZERO ONE true = None)).
Proof.
  intros Hx Hy Hle. pose proof (val_range x Hx). pose proof (val_range y Hy).
  destruct (ext_loop_ok dbg (val x) (val y) ltac:(lia) 520 x y ONE ZERO ZERO ONE true []) as [H1|[(c & d & R & Hd & C) H1]]; try assumption; try reflexivity.
  - constructor.
  - split; [apply wf_ONE|]. split; [apply wf_ZERO|]. split; reflexivity.
  - split; [apply wf_ZERO|]. split; [apply wf_ONE|]. split; reflexivity.
  - constructor.
  - assert (val x * val y <= W * W) by nia. assert (W * W < 2 ^ Z.of_nat 520) by reflexivity. lia.
  - left. exact H1.
  - right. split; [|exact H1]. exists c, d. split; [exact R|]. split; [|exact C]. pose proof (remainders_le _ _ _ _ ltac:(split; [|exact Hle]; lia) R). lia.
Qed.
(** The cofactors at the end are at most the operands. *)
Lemma finished_cofactors N M r : 0 < N < W -> 0 <= M <= N -> finished N M r ->
  exists u v, 0 <= u < W /\ 0 <= v <= N /\ val (fst (fst (fst r))) = Z.gcd N M /\
    (if snd r then u * N - v * M else v * M - u * N) = Z.gcd N M /\
    val (snd (fst (fst r))) = (if snd r then u else - u) mod W /\ val (snd (fst r)) = (if snd r then - v else v) mod W /\ (v = 0 -> M = 0).
Proof.
  intros HN HM (Q & HQ & Ep & W0 & W1 & W2 & ER & ES & ET & EM & EG).
  pose proof (rem_lin Q N M) as L. pose proof (rem_lin Q 1 0) as LS. pose proof (rem_lin Q 0 1) as LT. destruct (rem_inv Q N M) as [I1 I2].
  cbv zeta in *. rewrite ER in *. cbn [fst snd] in I1, I2. rewrite Ep. destruct (cof_pos Q HQ) as (P0 & P1 & P2 & P3 & P4 & P5).
  pose proof (Z.gcd_nonneg N M) as GN. assert (G1 : 1 <= Z.gcd N M).
  { destruct (Z.eq_dec (Z.gcd N M) 0) as [E|]; [|lia]. apply Z.gcd_eq_0_l in E. lia. }
  rewrite <- EG in *. set (g := Z.gcd N M) in *. 
  assert (VB : cv1 (cof Q) <= N) by nia.
  exists (cu0 (cof Q)), (cv0 (cof Q)).
  assert (UB : cu0 (cof Q) < W /\ (cv0 (cof Q) = 0 -> M = 0)).
  { destruct Q as [|q Q]; [cbn [cof cu0 cv0]; split; [reflexivity|]; intros _; cbn [rem] in ER; congruence|].
    destruct (P5 ltac:(discriminate)) as (P6 & P7 & P8 & P9 & P10). split; lia. }
  split; [lia|]. split; [lia|]. split; [reflexivity|].
  destruct (par Q).
  - apply (f_equal fst) in L. cbn [fst] in L. split; [lia|]. rewrite ES, ET, LS, LT. cbn [fst]. split; [f_equal; ring|]. split; [f_equal; ring|apply UB].
  - apply (f_equal fst) in L. cbn [fst] in L. split; [lia|]. rewrite ES, ET, LS, LT. cbn [fst]. split; [f_equal; ring|]. split; [f_equal; ring|apply UB].
Qed.

(** ** C07 *)
Lemma gcd_cases dbg x y a b : denotes x a -> denotes y b ->
  (exists g, u_gcd dbg x y = Some g /\ denotes g (Z.gcd a b)) \/ (unlucky (Z.max a b) (Z.min a b) /\ (dbg = true -> u_gcd dbg x y = None)).
Proof.
  intros [Hx <-] [Hy <-]. unfold u_gcd. rewrite u_gtb_spec by assumption.
  assert (GO : forall x y, wf x -> wf y -> val y <= val x ->
    let r := (let? _ := dassert dbg (u_geb x y) in gcd_loop dbg 520 x y) in
    (exists g, r = Some g /\ denotes g (Z.gcd (val x) (val y))) \/ (unlucky (val x) (val y) /\ (dbg = true -> r = None))).
  { clear. intros x y Hx Hy Hle. cbv zeta. rewrite dassert_ok by (rewrite u_geb_spec by assumption; apply Z.leb_le; assumption). rewrite bnd.
    rewrite (gcd_loop_ext dbg 520 x y ONE ZERO ZERO ONE true).
    destruct (ext_start dbg x y Hx Hy Hle) as [(r & E & F)|[U E]].
    - left. rewrite E. exists (fst (fst (fst r))). split; [reflexivity|]. destruct F as (Q & _ & _ & W0 & _ & _ & _ & _ & _ & _ & G). split; [assumption|congruence].
    - right. split; [assumption|]. intros D. rewrite (E D). reflexivity. }
  destruct (Z.ltb_spec (val x) (val y)).
  - rewrite Z.max_r, Z.min_l, Z.gcd_comm by lia. apply GO; [assumption|assumption|lia].
  - rewrite Z.max_l, Z.min_r by lia. apply GO; [assumption|assumption|lia].
Qed.
(** In both profiles gcd returns the greatest common divisor, unless Euclid's algorithm on the
    operands needs a division on which C03 fails. *)
Theorem C07_gcd : forall dbg x y a b, denotes x a -> denotes y b -> ~ unlucky (Z.max a b) (Z.min a b) ->
  exists g, u_gcd dbg x y = Some g /\ denotes g (Z.gcd a b).
Proof. intros dbg x y a b Hx Hy N. destruct (gcd_cases dbg x y a b Hx Hy) as [H|[U _]]; [exact H|contradiction]. Qed.
Print Assumptions C07_gcd.
(** No division of that kind occurs when one operand is below 2^128. *)
Theorem C07_gcd_small : forall dbg x y a b, denotes x a -> denotes y b -> Z.min a b < 2 ^ 128 ->
  exists g, u_gcd dbg x y = Some g /\ denotes g (Z.gcd a b).
Proof.
  intros dbg x y a b Hx Hy H. apply C07_gcd; [assumption|assumption|]. destruct Hx as [Hx <-], Hy as [Hy <-].
  pose proof (val_range x Hx). pose proof (val_range y Hy). apply not_unlucky_small; [lia|assumption].
Qed.
Print Assumptions C07_gcd_small.
(** A debug build never returns anything else. *)
Theorem C07_gcd_debug_sound : forall x y a b g, denotes x a -> denotes y b -> u_gcd true x y = Some g -> denotes g (Z.gcd a b).
Proof.
  intros x y a b g Hx Hy E. destruct (gcd_cases true x y a b Hx Hy) as [(g' & E' & D)|[_ N]]; [congruence|]. rewrite (N eq_refl) in E. discriminate.
Qed.
Print Assumptions C07_gcd_debug_sound.

(** What gcd_extended promises: the integer identity, without wrap-around. *)
Definition bezout (a b : Z) (r : u256 * u256 * u256 * bool) : Prop :=
  exists u v, let '(g, x, y, even) := r in denotes g (Z.gcd a b) /\ denotes x u /\ denotes y v /\
    (if even : bool then u * a - v * b else v * b - u * a) = Z.gcd a b.
Lemma u_sub_zero x v : wf x -> val x = (- v) mod W -> 0 <= v < W -> denotes (u_sub ZERO x) v.
Proof.
  intros Hx E Hv. destruct (u_sub_spec ZERO x wf_ZERO Hx) as [H1 H2]. split; [assumption|]. rewrite H2, E. change (val ZERO) with 0.
  rewrite Zminus_mod_idemp_r. replace (0 - - v) with v by ring. apply Z.mod_small. assumption.
Qed.
Lemma ext_ordered dbg x y : wf x -> wf y -> val y <= val x ->
  let res := (let? _ := dassert dbg (u_geb x y) in
    let? r := ext_loop dbg 520 x y ONE ZERO ZERO ONE true in
    match r with (r0, s0, t0, even) =>
      Some (let '(s0, t0) := if (even : bool) then (s0, u_sub ZERO t0) else (u_sub ZERO s0, t0) in (r0, s0, t0, even)) end) in
  (exists r, res = Some r /\ bezout (val x) (val y) r) \/ (unlucky (val x) (val y) /\ (dbg = true -> res = None)).
Proof.
  intros Hx Hy Hle res. subst res. pose proof (val_range x Hx). pose proof (val_range y Hy).
  rewrite dassert_ok by (rewrite u_geb_spec by assumption; apply Z.leb_le; assumption). rewrite bnd.
  destruct (Z.eq_dec (val x) 0) as [Zx|Nx].
  { left. assert (x = ZERO) by (apply val_inj; [assumption|apply wf_ZERO|exact Zx]). assert (y = ZERO) by (apply val_inj; [assumption|apply wf_ZERO|change (val ZERO) with 0; lia]).
    subst x y. exists (ZERO, ONE, ZERO, true). split; [reflexivity|]. exists 1, 0. split; [split; [apply wf_ZERO|reflexivity]|].
    split; [split; [apply wf_ONE|reflexivity]|]. split; [split; [apply wf_ZERO|reflexivity]|]. reflexivity. }
  destruct (ext_start dbg x y Hx Hy Hle) as [(r & E & F)|[U E]].
  - left. rewrite E, bnd. destruct (finished_cofactors (val x) (val y) r ltac:(lia) ltac:(lia) F) as (u & v & Hu & Hv & EG & EI & ES & ET & _).
    destruct F as (Q & _ & _ & W0 & W1 & W2 & _). destruct r as [[[g s] t] e]. cbn [fst snd] in *. destruct e.
    + exists (g, s, u_sub ZERO t, true). split; [reflexivity|]. exists u, v.
      split; [split; assumption|]. split; [split; [assumption|rewrite ES; apply Z.mod_small; lia]|]. split; [apply u_sub_zero; [assumption|assumption|lia]|assumption].
    + exists (g, u_sub ZERO s, t, false). split; [reflexivity|]. exists u, v.
      split; [split; assumption|]. split; [apply u_sub_zero; [assumption|assumption|lia]|]. split; [split; [assumption|rewrite ET; apply Z.mod_small; lia]|assumption].
  - right. split; [assumption|]. intros D. rewrite (E D). reflexivity.
Qed.
Lemma ext_cases dbg x y a b : denotes x a -> denotes y b ->
  (exists r, u_gcd_extended dbg x y = Some r /\ bezout a b r) \/ (unlucky (Z.max a b) (Z.min a b) /\ (dbg = true -> u_gcd_extended dbg x y = None)).
Proof.
  intros [Hx <-] [Hy <-]. unfold u_gcd_extended. rewrite u_gtb_spec by assumption. cbv zeta.
  destruct (Z.ltb_spec (val x) (val y)).
  - rewrite Z.max_r, Z.min_l by lia. pose proof (ext_ordered dbg y x Hy Hx ltac:(lia)) as EO. cbv zeta in EO. cbv beta iota. revert EO.
    generalize (ext_loop dbg 520 y x ONE ZERO ZERO ONE true) as L. generalize (dassert dbg (u_geb y x)) as D. intros D L [(r & E & Bz)|[U E]].
    + left. destruct D; [|discriminate]. cbn [bind] in *. destruct L as [[[[g s] t] e]|]; [|discriminate]. cbn [bind] in *.
      destruct Bz as (u0 & v0 & Bz).
      destruct e; apply (f_equal (fun o => match o with Some r => r | None => r end)) in E; cbn beta iota in E; subst r; destruct Bz as (Dg & Du & Dv & I);
        (eexists; split; [reflexivity|]); exists v0, u0; rewrite Z.gcd_comm; cbn [negb]; auto.
    + right. split; [assumption|]. intros Hd. specialize (E Hd). destruct D; [|reflexivity]. cbn [bind] in *. destruct L as [[[[g s] t] e]|]; [|reflexivity]. discriminate.
  - rewrite Z.max_l, Z.min_r by lia. pose proof (ext_ordered dbg x y Hx Hy ltac:(lia)) as EO. cbv zeta in EO. cbv beta iota. revert EO.
    generalize (ext_loop dbg 520 x y ONE ZERO ZERO ONE true) as L. generalize (dassert dbg (u_geb x y)) as D. intros D L [(r & E & Bz)|[U E]].
    + left. destruct D; [|discriminate]. cbn [bind] in *. destruct L as [[[[g s] t] e]|]; [|discriminate]. cbn [bind] in *.
      exists r. split; [|exact Bz]. destruct e; exact E.
    + right. split; [assumption|]. intros Hd. specialize (E Hd). destruct D; [|reflexivity]. cbn [bind] in *. destruct L as [[[[g s] t] e]|]; [|reflexivity]. discriminate.
Qed.
(** gcd_extended(a, b) = (g, u, v, even): g is the gcd and u*a - v*b = g when even, v*b - u*a = g otherwise. *)
Theorem C07_gcd_extended : forall dbg x y a b, denotes x a -> denotes y b -> ~ unlucky (Z.max a b) (Z.min a b) ->
  exists r, u_gcd_extended dbg x y = Some r /\ bezout a b r.
Proof. intros dbg x y a b Hx Hy N. destruct (ext_cases dbg x y a b Hx Hy) as [H|[U _]]; [exact H|contradiction]. Qed.
Print Assumptions C07_gcd_extended.
Theorem C07_gcd_extended_small : forall dbg x y a b, denotes x a -> denotes y b -> Z.min a b < 2 ^ 128 ->
  exists r, u_gcd_extended dbg x y = Some r /\ bezout a b r.
Proof.
  intros dbg x y a b Hx Hy H. apply C07_gcd_extended; [assumption|assumption|]. destruct Hx as [Hx <-], Hy as [Hy <-].
  pose proof (val_range x Hx). pose proof (val_range y Hy). apply not_unlucky_small; [lia|assumption].
Qed.
Print Assumptions C07_gcd_extended_small.
Theorem C07_gcd_extended_debug_sound : forall x y a b r, denotes x a -> denotes y b -> u_gcd_extended true x y = Some r -> bezout a b r.
Proof.
  intros x y a b r Hx Hy E. destruct (ext_cases true x y a b Hx Hy) as [(r' & E' & D)|[_ N]]; [congruence|]. rewrite (N eq_refl) in E. discriminate.
Qed.
Print Assumptions C07_gcd_extended_debug_sound.

(** ** C06 *)
(** [r] is what inverting a modulo n returns. *)
Definition is_inverse (a n : Z) (r : option u256) : Prop :=
  match r with
  | Some y => exists b, denotes y b /\ 0 <= b < n /\ (a * b) mod n = 1
  | None => Z.gcd a n <> 1
  end.
Lemma inv_cases dbg x m a n : denotes x a -> denotes m n -> 2 <= n ->
  (exists r, u_inv_mod dbg m x = Some r /\ is_inverse a n r /\ (r = None <-> Z.gcd a n <> 1)) \/ (unlucky a n /\ (dbg = true -> u_inv_mod dbg m x = None)).
Proof.
  intros [Hx <-] [Hm <-] Hn. pose proof (val_range x Hx) as Rx. pose proof (val_range m Hm) as Rm. unfold u_inv_mod.
  rewrite u_geb_spec by assumption.
  assert (GO : forall r1, denotes r1 (val x mod val m) ->
    let res := (let? r := inv_loop dbg 520 m r1 ZERO ONE true in
      match r with (r0, t0, even) => Some (if u_eqb r0 ONE then Some (if even : bool then u_add m t0 else t0) else None) end) in
    (exists r, res = Some r /\ is_inverse (val x) (val m) r /\ (r = None <-> Z.gcd (val x) (val m) <> 1)) \/ (unlucky (val x) (val m) /\ (dbg = true -> res = None))).
  { intros r1 [Hr Er]. cbv zeta. pose proof (Z.mod_pos_bound (val x) (val m) ltac:(lia)) as MB.
    rewrite (inv_loop_ext dbg 520 m r1 ONE ZERO ZERO ONE true).
    destruct (ext_start dbg m r1 Hm Hr ltac:(lia)) as [(r & E & F)|[U E]].
    - left. rewrite E. cbn [option_map bind]. destruct (finished_cofactors (val m) (val r1) r ltac:(lia) ltac:(lia) F) as (u & v & Hu & Hv & EG & EI & ES & ET & EZ).
      destruct F as (Q & _ & _ & W0 & W1 & W2 & _). destruct r as [[[g s] t] e]. cbn [fst snd] in *.
      assert (GG : Z.gcd (val m) (val r1) = Z.gcd (val x) (val m)) by (rewrite Er, Z.gcd_comm, Z.gcd_mod, Z.gcd_comm by lia; reflexivity).
      rewrite GG in *.
      destruct (u_eqb g ONE) eqn:EO.
      + apply u_eqb_spec in EO. subst g. change (val ONE) with 1 in EG.
        assert (INV : forall b, 0 <= b <= val m -> (val x * b) mod val m = 1 -> 0 <= b < val m).
        { intros b Hb E1. destruct (Z.eq_dec b (val m)) as [->|]; [|lia]. rewrite Z.mod_mul in E1 by lia. discriminate. }
        assert (MM : forall b k, val r1 * b = 1 + k * val m -> (val x * b) mod val m = 1).
        { intros b k E1. rewrite <- Zmult_mod_idemp_l, <- Er, E1, Z.mod_add by lia. apply Z.mod_small. lia. }
        eexists. split; [reflexivity|]. split; [|split; [discriminate|intros C; elim C; symmetry; assumption]].
        destruct e; cbn [is_inverse].
        * exists (val m - v). destruct (u_add_spec m t Hm W2) as [A1 A2]. split; [split; [assumption|]|].
          -- rewrite A2, ET, Zplus_mod_idemp_r. replace (val m + - v) with (val m - v) by ring. apply Z.mod_small. lia.
          -- assert (IM : (val x * (val m - v)) mod val m = 1) by (apply (MM _ (val r1 - u)); nia). split; [apply INV; [lia|assumption]|assumption].
        * exists v. split; [split; [assumption|rewrite ET; apply Z.mod_small; lia]|].
          assert (IM : (val x * v) mod val m = 1) by (apply (MM _ u); nia). split; [apply INV; [lia|assumption]|assumption].
      + assert (NG : Z.gcd (val x) (val m) <> 1).
        { intros E1. rewrite E1 in EG. assert (E2 : g = ONE) by (apply val_inj; [assumption|apply wf_ONE|exact EG]). rewrite (proj2 (u_eqb_spec g ONE) E2) in EO. discriminate. }
        exists None. split; [reflexivity|]. split; [exact NG|]. split; [intros _; exact NG|reflexivity].
    - right. split; [apply unlucky_swap; [lia|]; rewrite <- Er; assumption|]. intros D. rewrite (E D). reflexivity. }
  destruct (Z.leb_spec (val m) (val x)) as [Hge|Hlt].
  - destruct (u_rem dbg x m) as [r1|] eqn:ER.
    + rewrite bnd. destruct (collide_dec (val x) (val m)) as [C|NC].
      * right. split; [exists (val x), (val m); split; [constructor|split; [lia|assumption]]|]. intros ->. exfalso.
        unfold u_rem in ER. rewrite (C03_collision_panics x m _ _ (conj Hx eq_refl) (conj Hm eq_refl) ltac:(lia) C) in ER. discriminate.
      * destruct (C03_operators dbg x m _ _ (conj Hx eq_refl) (conj Hm eq_refl) ltac:(lia) NC) as (q & r & _ & E & _ & D). apply GO. replace r1 with r by congruence. assumption.
    + right. split; [|reflexivity]. exists (val x), (val m). split; [constructor|]. split; [lia|].
      destruct (collide_dec (val x) (val m)) as [C|NC]; [assumption|exfalso].
      destruct (C03_operators dbg x m _ _ (conj Hx eq_refl) (conj Hm eq_refl) ltac:(lia) NC) as (q & r & _ & E & _). congruence.
  - rewrite bnd. apply GO. split; [assumption|]. symmetry. apply Z.mod_small. lia.
Qed.
(** In both profiles, for a modulus n >= 2: the inverse below n when a and n are coprime, None when
    they are not; unless Euclid's algorithm on (a, n) needs a division on which C03 fails. *)
Theorem C06_inv_mod : forall dbg x m a n, denotes x a -> denotes m n -> 2 <= n -> ~ unlucky a n ->
  exists r, u_inv_mod dbg m x = Some r /\ is_inverse a n r /\ (r = None <-> Z.gcd a n <> 1).
Proof. intros dbg x m a n Hx Hm Hn N. destruct (inv_cases dbg x m a n Hx Hm Hn) as [H|[U _]]; [exact H|contradiction]. Qed.
Print Assumptions C06_inv_mod.
Theorem C06_inv_mod_small : forall dbg x m a n, denotes x a -> denotes m n -> 2 <= n < 2 ^ 128 ->
  exists r, u_inv_mod dbg m x = Some r /\ is_inverse a n r /\ (r = None <-> Z.gcd a n <> 1).
Proof.
  intros dbg x m a n Hx Hm Hn. apply C06_inv_mod; [assumption|assumption|lia|].
  destruct Hx as [Hx <-], Hm as [Hm <-]. pose proof (val_range x Hx). pose proof (val_range m Hm).
  intros (c & d & R & Hd & C). revert C. apply no_clash_small. split; [lia|].
  assert (RR : remainders (val x) (val m) c d -> d <= val m /\ 0 <= d).
  { clear - H H0 Hn. induction 1; [lia|]. pose proof (Z.mod_pos_bound c d ltac:(lia)). lia. }
  specialize (RR R). lia.
Qed.
Print Assumptions C06_inv_mod_small.
(** A debug build never returns a wrong answer, for any operands. *)
Theorem C06_debug_sound : forall x m a n r, denotes x a -> denotes m n -> 2 <= n -> u_inv_mod true m x = Some r ->
  is_inverse a n r /\ (r = None <-> Z.gcd a n <> 1).
Proof.
  intros x m a n r Hx Hm Hn E. destruct (inv_cases true x m a n Hx Hm Hn) as [(r' & E' & D)|[_ N]]; [|rewrite (N eq_refl) in E; discriminate].
  replace r with r' by congruence. exact D.
Qed.
Print Assumptions C06_debug_sound.
(** The degenerate moduli. *)
Theorem C06_modulus_one : forall dbg x, wf x -> u_inv_mod dbg ONE x = Some (Some ONE).
Proof.
  intros dbg x Hx. pose proof (val_range x Hx). unfold u_inv_mod. rewrite u_geb_spec by (assumption || apply wf_ONE). change (val ONE) with 1.
  assert (L : (if 1 <=? val x then u_rem dbg x ONE else Some x) = Some ZERO).
  { destruct (Z.leb_spec 1 (val x)).
    - destruct (C03_operators dbg x ONE (val x) 1 (conj Hx eq_refl) (conj wf_ONE eq_refl) ltac:(lia) (no_clash_small 4 (val x) 1 ltac:(lia))) as (q & r & _ & E & _ & D).
      rewrite E. f_equal. rewrite Z.mod_1_r in D. apply (denotes_unique r 0 ZERO 0); [exact D|split; [apply wf_ZERO|reflexivity]|reflexivity].
    - f_equal. apply val_inj; [assumption|apply wf_ZERO|]. change (val ZERO) with 0. lia. }
  rewrite L. reflexivity.
Qed.
Print Assumptions C06_modulus_one.
Theorem C06_modulus_zero_panics : forall dbg x, wf x -> u_inv_mod dbg ZERO x = None.
Proof.
  intros dbg x Hx. pose proof (val_range x Hx). unfold u_inv_mod. rewrite u_geb_spec by (assumption || apply wf_ZERO). change (val ZERO) with 0.
  destruct (Z.leb_spec 0 (val x)); [reflexivity|lia].
Qed.
Print Assumptions C06_modulus_zero_panics.

(** Finding: there are residues of the library's own field prime that a debug build panics on, and
    for which a release build returns a value that is not the inverse and not even reduced. *)
Theorem C06_own_prime_refuted : exists x m a n y,
  denotes m n /\ n = 0x0800000000000011000000000000000000000000000000000000000000000001 /\ denotes x a /\ 0 < a < n /\ Z.gcd a n = 1 /\
  u_inv_mod true m x = None /\ u_inv_mod false m x = Some (Some y) /\ n <= val y /\ (a * val y) mod n <> 1.
Proof.
  exists (mk 0x5555555555555556 0x5555555555555555 0x2aaaaaaaaaaaab0 0), (mk 1 0 0 0x0800000000000011),
    0x02aaaaaaaaaaaab055555555555555555555555555555556, 0x0800000000000011000000000000000000000000000000000000000000000001,
    (mk 2402982825301244099 7399844068009457462 1425521717691147207 4322935692035922454).
  split; [unfold denotes, wf, u64; vm_compute; repeat split; congruence|]. split; [reflexivity|].
  split; [unfold denotes, wf, u64; vm_compute; repeat split; congruence|]. split; [lia|].
  split; [vm_compute; reflexivity|]. split; [vm_compute; reflexivity|]. split; [vm_compute; reflexivity|].
  split; [vm_compute; discriminate|vm_compute; discriminate].
Qed.
Print Assumptions C06_own_prime_refuted.

(** ** Examples *)
(** A checker for [unlucky], to show that the theorems apply to given operands. *)
Definition collideb (x y : Z) : bool :=
  (limbs y =? 3) && ((((x * scale y / 2 ^ (64 * (0 + 1))) mod (y * scale y)) / 2 ^ (64 * (limbs y - 2))) =? ((y * scale y) / 2 ^ (64 * (limbs y - 2)))).
Fixpoint luckyb (fuel : nat) (c d : Z) : bool :=
  match fuel with
  | O => false
  | S fuel => if d <=? 0 then true else if (d <=? c) && collideb c d then false else luckyb fuel d (c mod d)
  end.
Lemma remainders_first a b c d : remainders a b c d -> (c = a /\ d = b) \/ (0 < b /\ remainders b (a mod b) c d).
Proof.
  induction 1 as [|c d R IH Hd]; [left; split; reflexivity|right]. destruct IH as [[-> ->]|[Hb IH]].
  - split; [assumption|constructor].
  - split; [assumption|]. constructor; assumption.
Qed.
Lemma luckyb_spec : forall fuel a b, luckyb fuel a b = true -> ~ unlucky a b.
Proof.
  induction fuel as [|fuel IH]; intros a b; cbn [luckyb]; [discriminate|]. intros E (c & d & R & Hd & Co).
  destruct (remainders_first _ _ _ _ R) as [[-> ->]|[Hb R']].
  - destruct (Z.leb_spec b 0); [lia|]. destruct (Z.leb_spec b a); [|lia]. cbn [andb] in E.
    assert (K : collideb a b = true).
    { destruct Co as (H3 & k & Hk & Ek). unfold collideb. rewrite (proj2 (Z.eqb_eq _ _)) by lia. cbn [andb]. apply Z.eqb_eq. replace k with 0 in Ek by lia. exact Ek. }
    rewrite K in E. discriminate.
  - destruct (Z.leb_spec b 0); [lia|]. destruct ((b <=? a) && collideb a b); [discriminate|]. apply (IH _ _ E). exists c, d. auto.
Qed.
(** Four-limb operands that need several double-word steps. *)
Example C07_example : let a := 3 * 7 ^ 80 in let b := 2 ^ 5 * 7 ^ 70 in
  ~ unlucky (Z.max a b) (Z.min a b) /\ Z.gcd a b = 7 ^ 70 /\
  denotes (mk 14976992830848621187 17620133238222303613 13273565466277492386 19373375152) a /\ denotes (mk 8128232792492618272 3373731003243666720 10443923322515184575 731) b /\
  option_map val (u_gcd true (mk 14976992830848621187 17620133238222303613 13273565466277492386 19373375152) (mk 8128232792492618272 3373731003243666720 10443923322515184575 731)) = Some (7 ^ 70).
Proof. cbv zeta. split; [apply (luckyb_spec 300); vm_compute; reflexivity|]. split; [vm_compute; reflexivity|].
  split; [unfold denotes, wf, u64; vm_compute; repeat split; congruence|]. split; [unfold denotes, wf, u64; vm_compute; repeat split; congruence|]. vm_compute. reflexivity.
Qed.
Example C06_example : let p := 0x0800000000000011000000000000000000000000000000000000000000000001 in
  let a := 0x123456789abcdef0fedcba98765432100f1e2d3c4b5a69788796a5b4c3d2e1f in
  ~ unlucky a p /\ Z.gcd a p = 1 /\
  match u_inv_mod true (mk 1 0 0 0x0800000000000011) (mk 0x88796a5b4c3d2e1f 0x00f1e2d3c4b5a697 0x0fedcba987654321 0x0123456789abcdef) with
  | Some (Some y) => (a * val y) mod p = 1
  | _ => False
  end.
Proof. cbv zeta. split; [apply (luckyb_spec 300); vm_compute; reflexivity|]. split; vm_compute; reflexivity. Qed.
