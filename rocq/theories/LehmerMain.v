(** The loops of gcd, gcd_extended and inv_mod: proofs for C06, C07. *)
Require Import ZArith Lia Bool List Arith.
From Verif Require Import Word U256Model U256Spec U256Proofs BinaryModel BinaryProofs KnuthModel KnuthProofs DivisionProps LehmerModel LehmerSpec
  LehmerProofs LehmerLoop LehmerDouble.
Import ListNotations.
Open Scope Z_scope.

(** The two other loops compute parts of what [ext_loop] computes. *)
Lemma gcd_loop_ext dbg : forall fuel r0 r1 s0 s1 t0 t1 e,
  gcd_loop dbg fuel r0 r1 = option_map (fun r => fst (fst (fst r))) (ext_loop dbg fuel r0 r1 s0 s1 t0 t1 e).
Proof.
  induction fuel as [|fuel IH]; intros r0 r1 s0 s1 t0 t1 e; cbn [gcd_loop ext_loop]; destruct (u_eqb r1 ZERO); try reflexivity.
  destruct (lehmer_double dbg r0 r1) as [q|]; [|reflexivity]. cbn [bind]. destruct (m_eqb q IDENTITY).
  - destruct (u_div dbg r0 r1) as [d|]; [|reflexivity]. cbn [bind]. apply IH.
  - destruct (lehmer_update r0 r1 q), (lehmer_update s0 s1 q), (lehmer_update t0 t1 q). apply IH.
Qed.
Lemma inv_loop_ext dbg : forall fuel r0 r1 s0 s1 t0 t1 e,
  inv_loop dbg fuel r0 r1 t0 t1 e = option_map (fun r => (fst (fst (fst r)), snd (fst r), snd r)) (ext_loop dbg fuel r0 r1 s0 s1 t0 t1 e).
Proof.
  induction fuel as [|fuel IH]; intros r0 r1 s0 s1 t0 t1 e; cbn [inv_loop ext_loop]; destruct (u_eqb r1 ZERO); try reflexivity.
  destruct (lehmer_double dbg r0 r1) as [q|]; [|reflexivity]. cbn [bind]. destruct (m_eqb q IDENTITY).
  - destruct (u_div dbg r0 r1) as [d|]; [|reflexivity]. cbn [bind]. apply IH.
  - destruct (lehmer_update r0 r1 q), (lehmer_update s0 s1 q), (lehmer_update t0 t1 q). apply IH.
Qed.

Lemma collide_dec x y : {leading_limbs_collide 4 x y} + {~ leading_limbs_collide 4 x y}.
Proof.
  destruct (Z.eq_dec (limbs y) 3) as [E|N].
  - destruct (Z.eq_dec (((x * scale y / 2 ^ (64 * (0 + 1))) mod (y * scale y)) / 2 ^ (64 * (limbs y - 2))) ((y * scale y) / 2 ^ (64 * (limbs y - 2)))) as [C|C].
    + left. split; [lia|]. exists 0. split; [lia|exact C].
    + right. intros (_ & k & Hk & Ek). apply C. replace k with 0 in Ek by lia. exact Ek.
  - right. intros (H & k & Hk & _). lia.
Qed.

(** Remainders modulo W *)
Lemma rem_mod qs x y : fst (rem qs (x mod W) (y mod W)) mod W = fst (rem qs x y) mod W /\ snd (rem qs (x mod W) (y mod W)) mod W = snd (rem qs x y) mod W.
Proof.
  induction qs as [|q qs [IH1 IH2]]; cbn [rem fst snd]; [split; apply Z.mod_mod; discriminate|].
  split; [exact IH2|]. rewrite Zminus_mod, IH1, Zmult_mod, IH2, <- Zmult_mod, <- Zminus_mod. reflexivity.
Qed.
Definition cong (a b : u256) (p : Z * Z) : Prop := wf a /\ wf b /\ val a = fst p mod W /\ val b = snd p mod W.
Lemma cong_update a b Q x y qs : cong a b (rem Q x y) -> pos qs -> cv1 (cof qs) < B -> cu1 (cof qs) < B ->
  cong (fst (lehmer_update a b (mx qs))) (snd (lehmer_update a b (mx qs))) (rem (qs ++ Q) x y).
Proof.
  intros (Wa & Wb & Ea & Eb) Hp Hv Hu. destruct (update_spec a b qs Wa Wb Hp Hv Hu) as (W1 & W2 & E1 & E2).
  rewrite Ea, Eb in E1, E2. destruct (rem_mod qs (fst (rem Q x y)) (snd (rem Q x y))) as [M1 M2]. rewrite M1 in E1. rewrite M2 in E2.
  unfold cong. rewrite rem_app. auto.
Qed.
Lemma cong_div a b Q x y d q : cong a b (rem Q x y) -> denotes d q -> cong b (u_sub a (u_mul d b)) (rem (q :: Q) x y).
Proof.
  intros (Wa & Wb & Ea & Eb) [Wd Ed]. destruct (u_mul_spec d b Wd Wb) as [Wm Em]. destruct (u_sub_spec a (u_mul d b) Wa Wm) as [Ws Es].
  unfold cong. cbn [rem fst snd]. split; [assumption|]. split; [assumption|]. split; [assumption|].
  rewrite Es, Em, Ed, Ea, Eb. rewrite (Zmult_mod q (snd (rem Q x y) mod W)), Z.mod_mod, <- Zmult_mod by discriminate. rewrite <- Zminus_mod. reflexivity.
Qed.

(** One step of the loop halves the product of the pair. *)
Lemma halves qs R0 R1 : pos qs -> qs <> [] -> 0 <= snd (rem qs R0 R1) < fst (rem qs R0 R1) ->
  2 * (fst (rem qs R0 R1) * snd (rem qs R0 R1)) <= R0 * R1.
Proof.
  intros Hp Hn Ho. destruct (rem_inv qs R0 R1) as [I1 I2]. destruct (cof_pos qs Hp) as (P0 & P1 & P2 & P3 & P4 & P5). destruct (P5 Hn) as (P6 & P7 & P8 & _).
  set (c := fst (rem qs R0 R1)) in *. set (d := snd (rem qs R0 R1)) in *. clearbody c d.
  assert (c + d <= R0) by (rewrite I1; apply Z.add_le_mono; nia). assert (c <= R1) by (rewrite I2; nia).
  transitivity ((c + d) * c); [nia|]. apply Z.mul_le_mono_nonneg; lia.
Qed.

Definition finished (N M : Z) (r : u256 * u256 * u256 * bool) : Prop :=
  exists Q, pos Q /\ snd r = par Q /\ wf (fst (fst (fst r))) /\ wf (snd (fst (fst r))) /\ wf (snd (fst r)) /\
    rem Q N M = (val (fst (fst (fst r))), 0) /\
    val (snd (fst (fst r))) = fst (rem Q 1 0) mod W /\ val (snd (fst r)) = fst (rem Q 0 1) mod W /\
    (M = 0 -> Q = []) /\ Z.gcd N M = val (fst (fst (fst r))).
Lemma remainders_trans a b c d x y : remainders a b c d -> remainders c d x y -> remainders a b x y.
Proof. intros H. induction 1; [assumption|]. constructor; assumption. Qed.
Lemma remainders_gcd a b c d : remainders a b c d -> Z.gcd a b = Z.gcd c d.
Proof. induction 1; [reflexivity|]. rewrite IHremainders, (Z.gcd_comm d), Z.gcd_mod, Z.gcd_comm by lia. reflexivity. Qed.

Lemma ext_loop_ok dbg N M : 0 <= M -> forall fuel r0 r1 s0 s1 t0 t1 e Q, pos Q -> e = par Q -> wf r0 -> wf r1 -> rem Q N M = (val r0, val r1) ->
  cong s0 s1 (rem Q 1 0) -> cong t0 t1 (rem Q 0 1) -> remainders N M (val r0) (val r1) -> val r1 <= val r0 -> (M = 0 -> Q = []) ->
  val r0 * val r1 < 2 ^ Z.of_nat fuel ->
  (exists r, ext_loop dbg fuel r0 r1 s0 s1 t0 t1 e = Some r /\ finished N M r) \/
  ((exists c d, remainders N M c d /\ 0 < d /\ leading_limbs_collide 4 c d) /\ (dbg = true -> ext_loop dbg fuel r0 r1 s0 s1 t0 t1 e = None)).
Proof.
  intros HM. induction fuel as [|fuel IH]; intros r0 r1 s0 s1 t0 t1 e Q HQ He W0 W1 ER CS CT HE Hle HM0 Hf;
    pose proof (val_range r0 W0) as V0; pose proof (val_range r1 W1) as V1;
    (assert (END : val r1 = 0 -> exists r, Some (r0, s0, t0, e) = Some r /\ finished N M r);
    [intros Z1; exists (r0, s0, t0, e); split; [reflexivity|]; exists Q; cbn [fst snd]; destruct CS as (S1 & S2 & S3 & S4); destruct CT as (T1 & T2 & T3 & T4);
      rewrite Z1 in ER; split; [exact HQ|]; split; [exact He|]; split; [exact W0|]; split; [exact S1|]; split; [exact T1|]; split; [exact ER|];
      split; [exact S3|]; split; [exact T3|]; split; [exact HM0|]; rewrite (remainders_gcd _ _ _ _ HE), Z1, Z.gcd_0_r, Z.abs_eq by lia; reflexivity|]);
    cbn [ext_loop].
  - assert (Z1 : val r1 = 0) by (change (2 ^ Z.of_nat 0) with 1 in Hf; nia).
    assert (E1 : r1 = ZERO) by (apply val_inj; [assumption|apply wf_ZERO|rewrite Z1; reflexivity]).
    rewrite (proj2 (u_eqb_spec r1 ZERO) E1). left. apply END. assumption.
  - destruct (u_eqb r1 ZERO) eqn:EZ.
    { apply u_eqb_spec in EZ. left. apply END. rewrite EZ. reflexivity. }
    assert (P1 : 0 < val r1).
    { destruct (Z.eq_dec (val r1) 0) as [Z1|]; [|lia]. exfalso.
      assert (E1 : r1 = ZERO) by (apply val_inj; [assumption|apply wf_ZERO|rewrite Z1; reflexivity]). rewrite (proj2 (u_eqb_spec r1 ZERO) E1) in EZ. discriminate. }
    assert (MN : M = 0 -> False).
    { intros E. rewrite (HM0 E) in ER. cbn [rem] in ER. assert (M = val r1) by congruence. lia. }
    rewrite Nat2Z.inj_succ, Z.pow_succ_r in Hf by lia.
    destruct (lehmer_double_ok dbg r0 r1 W0 W1 Hle) as (m & ED & qs & Pq & Em & Bv & Bu & Ho & HR). rewrite ED, bnd.
    destruct (m_eqb m IDENTITY) eqn:EI.
    + clear m ED qs Pq Em Bv Bu Ho HR EI.
      assert (HRn : remainders N M (val r1) (val r0 mod val r1)) by (constructor; assumption).
      assert (DM : val r0 - val r0 / val r1 * val r1 = val r0 mod val r1) by (rewrite Z.mod_eq by lia; ring).
      pose proof (Z.mod_pos_bound (val r0) (val r1) P1) as MB.
      assert (Q1 : 1 <= val r0 / val r1) by (apply Z.div_le_lower_bound; lia).
      assert (STEP : forall q, denotes q (val r0 / val r1) -> wf (u_sub r0 (u_mul q r1)) /\ val (u_sub r0 (u_mul q r1)) = val r0 mod val r1).
      { intros q Dq. assert (C : cong r0 r1 (rem [] (val r0) (val r1))).
        { split; [assumption|]. split; [assumption|]. cbn [rem fst snd]. rewrite !Z.mod_small by assumption. split; reflexivity. }
        destruct (cong_div _ _ _ _ _ _ _ C Dq) as (_ & C1 & _ & C2). split; [assumption|]. rewrite C2. cbn [rem fst snd]. rewrite DM. apply Z.mod_small. lia. }
      assert (GO : forall q, denotes q (val r0 / val r1) ->
        let next := ext_loop dbg fuel r1 (u_sub r0 (u_mul q r1)) s1 (u_sub s0 (u_mul q s1)) t1 (u_sub t0 (u_mul q t1)) (negb e) in
        (exists r, next = Some r /\ finished N M r) \/ ((exists c d, remainders N M c d /\ 0 < d /\ leading_limbs_collide 4 c d) /\ (dbg = true -> next = None))).
      { intros q Dq. destruct (STEP q Dq) as [Wn Vn]. cbv zeta.
        apply (IH _ _ _ _ _ _ _ ((val r0 / val r1) :: Q)); rewrite ?Vn; try assumption.
        - constructor; assumption.
        - rewrite par_cons, He. reflexivity.
        - cbn [rem]. rewrite ER. cbn [fst snd]. rewrite DM. reflexivity.
        - apply (cong_div _ _ Q 1 0); assumption.
        - apply (cong_div _ _ Q 0 1); assumption.
        - lia.
        - intros E. elim (MN E).
        - assert (2 * (val r1 * (val r0 mod val r1)) <= val r0 * val r1); [|lia].
          assert (val r1 + val r0 mod val r1 <= val r0) by nia. nia. }
      destruct (u_div dbg r0 r1) as [q|] eqn:EQ.
      * rewrite bnd. destruct dbg.
        -- apply GO. unfold u_div in EQ. destruct (u_div_rem true r0 r1) as [[[q' r']|]|] eqn:ED; cbn [bind] in EQ; try discriminate.
           assert (q' = q) by congruence. subst q'. apply (C03_debug_sound r0 r1 _ _ q r' (conj W0 eq_refl) (conj W1 eq_refl) P1 ED).
        -- assert (DEC : denotes q (val r0 / val r1) \/ ~ denotes q (val r0 / val r1)).
           { destruct (Z.eq_dec (val q) (val r0 / val r1)) as [E|NE]; [|right; intros [_ E]; exact (NE E)].
             unfold denotes, wf, u64.
             assert (D : forall x, {0 <= x < B} + {~ 0 <= x < B}).
             { intros x. destruct (Z_le_dec 0 x), (Z_lt_dec x B); [left; lia|right; lia|right; lia|right; lia]. }
             destruct (D (l0 q)), (D (l1 q)), (D (l2 q)), (D (l3 q)); tauto. }
           destruct DEC as [Dq|ND]; [apply GO; assumption|]. right. split; [|discriminate].
           exists (val r0), (val r1). split; [assumption|]. split; [assumption|].
           destruct (collide_dec (val r0) (val r1)) as [C|NC]; [assumption|exfalso].
           destruct (C03_operators false r0 r1 _ _ (conj W0 eq_refl) (conj W1 eq_refl) P1 NC) as (q' & r' & E1 & _ & E2 & _).
           apply ND. replace q with q' by congruence. assumption.
      * right. split; [|reflexivity]. exists (val r0), (val r1). split; [assumption|]. split; [assumption|].
        destruct (collide_dec (val r0) (val r1)) as [C|NC]; [assumption|exfalso].
        destruct (C03_operators dbg r0 r1 _ _ (conj W0 eq_refl) (conj W1 eq_refl) P1 NC) as (q' & r' & E1 & _). congruence.
    + assert (Nq : qs <> []) by (intros ->; rewrite Em in EI; discriminate). specialize (Ho Nq).
      subst m. destruct (update_rem r0 r1 qs W0 W1 Hle Pq Bv Bu Ho) as (a & b & EU & Wa & Wb & Va & Vb). rewrite EU.
      pose proof (cong_update _ _ _ _ _ qs CS Pq Bv Bu) as CS'. pose proof (cong_update _ _ _ _ _ qs CT Pq Bv Bu) as CT'.
      destruct (lehmer_update s0 s1 (mx qs)) as [s0' s1']. destruct (lehmer_update t0 t1 (mx qs)) as [t0' t1']. cbn [fst snd] in CS', CT'.
      apply (IH _ _ _ _ _ _ _ (qs ++ Q)); try assumption.
      * apply Forall_app; split; assumption.
      * rewrite par_app, He. cbn [evenp mx]. destruct (par qs), (par Q); reflexivity.
      * rewrite rem_app, ER. cbn [fst snd]. rewrite Va, Vb. destruct (rem qs (val r0) (val r1)); reflexivity.
      * rewrite Va, Vb. exact (remainders_trans _ _ _ _ _ _ HE HR).
      * lia.
      * intros E. elim (MN E).
      * pose proof (halves qs _ _ Pq Nq Ho) as HH. rewrite Va, Vb. lia.
Qed.
