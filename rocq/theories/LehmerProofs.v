(** Lehmer's algorithm follows Euclid's: proofs for C06, C07. *)
Require Import ZArith Lia Bool List Znumtheory Arith.
From Verif Require Import Word U256Model U256Spec U256Proofs BinaryModel BinaryProofs KnuthModel LehmerModel LehmerSpec.
Import ListNotations.
Open Scope Z_scope.

(** ** Cofactors of a list of quotients, the last one first *)
Record cofs : Set := CF { cu0 : Z; cv0 : Z; cu1 : Z; cv1 : Z }.
Fixpoint cof (qs : list Z) : cofs :=
  match qs with
  | [] => CF 1 0 0 1
  | q :: qs => let c := cof qs in CF (cu1 c) (cv1 c) (cu0 c + q * cu1 c) (cv0 c + q * cv1 c)
  end.
Fixpoint rem (qs : list Z) (R0 R1 : Z) : Z * Z :=
  match qs with [] => (R0, R1) | q :: qs => let cd := rem qs R0 R1 in (snd cd, fst cd - q * snd cd) end.
Definition par (qs : list Z) : bool := Nat.even (length qs).
Definition pos (qs : list Z) : Prop := Forall (fun q => 1 <= q) qs.
Definition mx (qs : list Z) : matrix := let c := cof qs in Mx (cu0 c) (cv0 c) (cu1 c) (cv1 c) (par qs).

Lemma par_cons q qs : par (q :: qs) = negb (par qs).
Proof. unfold par. cbn [length]. rewrite Nat.even_succ, <- Nat.negb_even. reflexivity. Qed.
Lemma par_app p q : par (p ++ q) = xorb (par p) (negb (par q)).
Proof.
  induction p; cbn [app]; [destruct (par q); reflexivity|].
  rewrite !par_cons, IHp. destruct (par p), (par q); reflexivity.
Qed.

Lemma cof_pos qs : pos qs -> 0 <= cu0 (cof qs) /\ 0 <= cv0 (cof qs) /\ 0 <= cu1 (cof qs) /\ 1 <= cv1 (cof qs) /\
  cv0 (cof qs) <= cv1 (cof qs) /\
  (qs <> [] -> cu0 (cof qs) <= cu1 (cof qs) /\ 1 <= cv0 (cof qs) /\ 1 <= cu1 (cof qs) /\ cu0 (cof qs) <= cv0 (cof qs) /\ cu1 (cof qs) <= cv1 (cof qs)).
Proof.
  induction 1 as [|q qs Hq Hqs IH]; cbn [cof cu0 cv0 cu1 cv1]; [repeat split; try lia; intros; congruence|].
  destruct IH as (H0 & H1 & H2 & H3 & H4 & H5).
  set (c := cof qs) in *.
  destruct qs as [|q' qs'].
  - subst c. cbn [cof cu0 cv0 cu1 cv1]. repeat split; try lia.
  - destruct H5 as (H5 & H6 & H7 & H8 & H9); [discriminate|]. repeat split; nia.
Qed.
Lemma rem_lin qs R0 R1 : let c := cof qs in
  rem qs R0 R1 = if par qs then (cu0 c * R0 - cv0 c * R1, cv1 c * R1 - cu1 c * R0) else (cv0 c * R1 - cu0 c * R0, cu1 c * R0 - cv1 c * R1).
Proof.
  cbv zeta. induction qs as [|q qs IH]; [cbn [cof rem par length Nat.even cu0 cv0 cu1 cv1]; change (par []) with true; f_equal; ring|].
  rewrite par_cons. cbn [rem cof cu0 cv0 cu1 cv1]. rewrite IH. destruct (par qs); cbn [negb fst snd]; f_equal; ring.
Qed.
Lemma rem_inv qs R0 R1 : R0 = cv1 (cof qs) * fst (rem qs R0 R1) + cv0 (cof qs) * snd (rem qs R0 R1) /\
  R1 = cu1 (cof qs) * fst (rem qs R0 R1) + cu0 (cof qs) * snd (rem qs R0 R1).
Proof.
  induction qs as [|q qs [IH1 IH2]]; cbn [rem cof cu0 cv0 cu1 cv1 fst snd]; [split; ring|].
  split; [rewrite IH1 at 1|rewrite IH2 at 1]; ring.
Qed.
Lemma rem_app p qs R0 R1 : rem (p ++ qs) R0 R1 = rem p (fst (rem qs R0 R1)) (snd (rem qs R0 R1)).
Proof. induction p; cbn [app rem]; [destruct (rem qs R0 R1); reflexivity|]. rewrite IHp. reflexivity. Qed.
Lemma cof_app p qs : let n := cof p in let c := cof qs in
  cof (p ++ qs) = CF (cu0 n * cu0 c + cv0 n * cu1 c) (cu0 n * cv0 c + cv0 n * cv1 c) (cu1 n * cu0 c + cv1 n * cu1 c) (cu1 n * cv0 c + cv1 n * cv1 c).
Proof.
  cbv zeta. induction p; cbn [app cof].
  - destruct (cof qs). cbn [cu0 cv0 cu1 cv1]. f_equal; ring.
  - rewrite IHp. cbn [cu0 cv0 cu1 cv1]. f_equal; ring.
Qed.
Lemma rem_scale qs k R0 R1 : rem qs (R0 * k) (R1 * k) = (fst (rem qs R0 R1) * k, snd (rem qs R0 R1) * k).
Proof. induction qs; cbn [rem fst snd]; [reflexivity|]. rewrite IHqs. cbn [fst snd]. f_equal; ring. Qed.

(** A chain that ends in an ordered pair of positive numbers is Euclid's. *)
Lemma chain_euclid qs R0 R1 : pos qs -> 0 < snd (rem qs R0 R1) < fst (rem qs R0 R1) -> remainders R0 R1 (fst (rem qs R0 R1)) (snd (rem qs R0 R1)).
Proof.
  induction 1 as [|q qs Hq Hqs IH]; cbn [rem fst snd]; [constructor|].
  set (c := fst (rem qs R0 R1)) in *. set (d := snd (rem qs R0 R1)) in *. intros H.
  replace (c - q * d) with (c mod d).
  - constructor; [|lia]. apply IH. nia.
  - symmetry. apply Z.mod_unique with (q := q); lia.
Qed.

(** ** Jebelean's condition *)
Definition jcond (qs : list Z) (c d : Z) : Prop :=
  if par qs then cu1 (cof qs) <= d /\ cv0 (cof qs) + cv1 (cof qs) <= c - d
  else cv1 (cof qs) <= d /\ cu0 (cof qs) + cu1 (cof qs) <= c - d.
Lemma jebelean qs a b S x y : pos qs -> qs <> [] -> 0 <= x < S -> 0 <= y < S ->
  jcond qs (fst (rem qs a b)) (snd (rem qs a b)) -> 0 < snd (rem qs a b) ->
  let R := rem qs (a * S + x) (b * S + y) in
  0 < snd R < fst R /\ fst (rem qs a b) * S <= 2 * fst R /\
  (par qs = false -> snd R <= (snd (rem qs a b) + cu1 (cof qs)) * S).
Proof.
  intros Hp Hn Hx Hy. destruct (cof_pos qs Hp) as (P0 & P1 & P2 & P3 & P4 & P5). destruct (P5 Hn) as (P6 & P7 & P8 & P9 & P10).
  unfold jcond. rewrite !(rem_lin qs). set (c := cof qs) in *. destruct (par qs); cbn [fst snd]; intros [J1 J2] _.
  - set (A := cu0 c * a - cv0 c * b) in *. set (D := cv1 c * b - cu1 c * a) in *.
    replace (cv1 c * (b * S + y) - cu1 c * (a * S + x)) with (D * S + cv1 c * y - cu1 c * x) by (unfold D; ring).
    replace (cu0 c * (a * S + x) - cv0 c * (b * S + y)) with (A * S + cu0 c * x - cv0 c * y) by (unfold A; ring).
    clearbody A D. split; [split|split].
    + assert (cu1 c * x < cu1 c * S) by nia. assert (cu1 c * S <= D * S) by nia. assert (0 <= cv1 c * y) by nia. lia.
    + assert ((cv0 c + cv1 c) * y < (cv0 c + cv1 c) * S) by nia. assert ((cv0 c + cv1 c) * S <= (A - D) * S) by nia.
      assert (0 <= (cu0 c + cu1 c) * x) by nia. nia.
    + assert (0 <= cu0 c * x) by nia. assert (cv0 c * y <= cv0 c * S) by nia. assert (2 * (cv0 c * S) <= A * S) by nia. lia.
    + discriminate.
  - set (A := cv0 c * b - cu0 c * a) in *. set (D := cu1 c * a - cv1 c * b) in *.
    replace (cu1 c * (a * S + x) - cv1 c * (b * S + y)) with (D * S + cu1 c * x - cv1 c * y) by (unfold D; ring).
    replace (cv0 c * (b * S + y) - cu0 c * (a * S + x)) with (A * S + cv0 c * y - cu0 c * x) by (unfold A; ring).
    clearbody A D. split; [split|split].
    + assert (cv1 c * y < cv1 c * S) by nia. assert (cv1 c * S <= D * S) by nia. assert (0 <= cu1 c * x) by nia. lia.
    + assert ((cu0 c + cu1 c) * x < (cu0 c + cu1 c) * S) by nia. assert ((cu0 c + cu1 c) * S <= (A - D) * S) by nia.
      assert (0 <= (cv0 c + cv1 c) * y) by nia. nia.
    + assert (0 <= cv0 c * y) by nia. assert (cu0 c * x <= cu0 c * S) by nia. assert (2 * (cu0 c * S) <= A * S) by nia. lia.
    + intros _. assert (cu1 c * x <= cu1 c * S) by nia. assert (0 <= cv1 c * y) by nia. nia.
Qed.

(** ** Words *)
Lemma ladd_ok dbg a b : 0 <= a + b < B -> ladd dbg a b = Some (a + b).
Proof. intros H. unfold ladd. destruct (Z.ltb_spec (a + b) B); [|lia]. rewrite w64_small by exact H. destruct dbg; reflexivity. Qed.
Lemma lsub_ok dbg a b : 0 <= a - b < B -> lsub dbg a b = Some (a - b).
Proof. intros H. unfold lsub. destruct (Z.ltb_spec a b); [lia|]. rewrite w64_small by exact H. destruct dbg; reflexivity. Qed.
Lemma lmul_ok dbg a b : 0 <= a * b < B -> lmul dbg a b = Some (a * b).
Proof. intros H. unfold lmul. destruct (Z.ltb_spec (a * b) B); [|lia]. rewrite w64_small by exact H. destruct dbg; reflexivity. Qed.
Lemma ldiv_ok a b : 0 < b -> ldiv a b = Some (a / b).
Proof. intros H. unfold ldiv. destruct (Z.eqb_spec b 0); [lia|reflexivity]. Qed.
Lemma dassert_ok dbg c : c = true -> dassert dbg c = Some tt.
Proof. intros ->. unfold dassert. destruct dbg; reflexivity. Qed.
Lemma bnd {A C} (x : A) (f : A -> option C) : bind (Some x) f = f x. Proof. reflexivity. Qed.

Lemma div_sub_1 a b : 0 < b -> a / b = 1 + (a - b) / b.
Proof. intros. replace a with ((a - b) + 1 * b) at 1 by ring. rewrite Z.div_add by lia. ring. Qed.
Lemma div1_loop_ok dbg b : 0 < b -> forall k i a, b <= a < B -> i + Z.of_nat k = 20 -> 1 <= i -> i - 1 + a / b < B ->
  div1_loop dbg k i a b = Some (i - 1 + a / b).
Proof.
  intros Hb. induction k as [|k IH]; intros i a Ha Hi Hi1 Hlt; cbn [div1_loop].
  - rewrite ldiv_ok by lia. rewrite bnd. assert (1 <= a / b) by (apply Z.div_le_lower_bound; lia).
    rewrite ladd_ok by lia. f_equal; lia.
  - rewrite lsub_ok by lia. rewrite bnd. pose proof (div_sub_1 a b Hb) as E.
    destruct (Z.ltb_spec (a - b) b).
    + rewrite E, Z.div_small by lia. f_equal; lia.
    + rewrite IH by lia. f_equal; lia.
Qed.
Lemma div1_ok dbg a b : 0 < b <= a -> a < B -> div1 dbg a b = Some (a / b) /\ 1 <= a / b /\ 0 <= a - a / b * b < b /\ a - a / b * b = a mod b.
Proof.
  intros H Ha. assert (1 <= a / b) by (apply Z.div_le_lower_bound; lia). assert (a / b <= a) by (apply Z.div_le_upper_bound; nia).
  pose proof (Z.div_mod a b ltac:(lia)). pose proof (Z.mod_pos_bound a b ltac:(lia)).
  split; [|lia]. unfold div1. rewrite !dassert_ok by (apply Z.leb_le || apply Z.ltb_lt; lia). rewrite !bnd.
  rewrite div1_loop_ok by lia. f_equal; lia.
Qed.
Lemma unroll_loop_ok dbg a2 k2 : 0 < a2 -> 0 <= k2 -> forall n a3 k3, a2 <= a3 < B -> 0 <= k3 -> k3 + a3 / a2 * k2 < B ->
  unroll_loop dbg n a2 a3 k2 k3 = Some (a3 mod a2, k3 + a3 / a2 * k2).
Proof.
  intros Ha Hk. induction n as [|n IH]; intros a3 k3 H3 Hk3 Hlt; cbn [unroll_loop];
    assert (Q1 : 1 <= a3 / a2) by (apply Z.div_le_lower_bound; lia); assert (Q2 : a3 / a2 <= a3) by (apply Z.div_le_upper_bound; nia);
    pose proof (Z.div_mod a3 a2 ltac:(lia)) as DM; pose proof (Z.mod_pos_bound a3 a2 ltac:(lia)) as MB.
  - rewrite ldiv_ok by lia. rewrite bnd. rewrite lmul_ok by lia. rewrite bnd. rewrite lsub_ok by lia. rewrite bnd.
    rewrite lmul_ok by nia. rewrite bnd. rewrite ladd_ok by nia. rewrite bnd. f_equal. f_equal; lia.
  - rewrite lsub_ok by lia. rewrite bnd. rewrite ladd_ok by nia. rewrite bnd.
    pose proof (div_sub_1 a3 a2 Ha) as E. assert (M : (a3 - a2) mod a2 = a3 mod a2).
    { replace a3 with ((a3 - a2) + 1 * a2) at 2 by ring. rewrite Z.mod_add by lia. reflexivity. }
    destruct (Z.ltb_spec (a3 - a2) a2).
    + f_equal. f_equal; [rewrite <- M, Z.mod_small by lia; reflexivity|]. rewrite E, Z.div_small by lia. lia.
    + rewrite IH by nia. f_equal. f_equal; [exact M|]. rewrite E. ring.
Qed.
Lemma unroll_ok dbg a2 a3 k2 k3 : 0 < a2 < a3 -> a3 < B -> 0 <= k2 -> 0 <= k3 -> k3 + a3 / a2 * k2 < B ->
  lehmer_unroll dbg a2 a3 k2 k3 = Some (a3 mod a2, k3 + a3 / a2 * k2).
Proof.
  intros. unfold lehmer_unroll. rewrite !dassert_ok by (apply Z.ltb_lt; lia). rewrite !bnd. apply unroll_loop_ok; lia.
Qed.

(** ** [lehmer_small] *)
(** What a returned matrix means for the pair (R0, R1). *)
Definition good_matrix (R0 R1 : Z) (m : matrix) : Prop :=
  exists qs, pos qs /\ m = mx qs /\ cv1 (cof qs) < B /\ cu1 (cof qs) < B /\ (qs <> [] -> 0 <= snd (rem qs R0 R1) < fst (rem qs R0 R1)) /\
    remainders R0 R1 (fst (rem qs R0 R1)) (snd (rem qs R0 R1)).

Lemma bounds_small qs R0 R1 c d : pos qs -> rem qs R0 R1 = (c, d) -> 0 <= R1 <= R0 -> R0 < B -> 0 <= d -> 1 <= c -> cv1 (cof qs) < B /\ cu1 (cof qs) < B.
Proof.
  intros Hp E HR HB Hd Hc. destruct (rem_inv qs R0 R1) as [I1 I2]. rewrite E in I1, I2. cbn [fst snd] in I1, I2.
  destruct (cof_pos qs Hp) as (P0 & P1 & P2 & P3 & _). split; nia.
Qed.
Lemma small_loop_ok dbg R0 R1 : 0 < R1 <= R0 -> R0 < B -> forall fuel qs r0 r1, pos qs -> par qs = true ->
  rem qs R0 R1 = (r0, r1) -> remainders R0 R1 r0 r1 -> 0 < r1 <= r0 -> r1 < 2 ^ (Z.of_nat fuel - 1) ->
  exists m, small_loop dbg fuel r0 r1 (cu0 (cof qs)) (cv0 (cof qs)) (cu1 (cof qs)) (cv1 (cof qs)) = Some m /\ good_matrix R0 R1 m.
Proof.
  intros HR HB. induction fuel as [|fuel IH]; intros qs r0 r1 Hp Hpar E HE Hr Hlt; [change (2 ^ (Z.of_nat 0 - 1)) with 0 in Hlt; lia|].
  assert (R0r : r0 <= R0).
  { destruct (rem_inv qs R0 R1) as [I1 I2]. rewrite E in I1, I2. cbn [fst snd] in I1, I2. destruct (cof_pos qs Hp) as (P0 & P1 & P2 & P3 & _). nia. }
  cbn [small_loop]. destruct (div1_ok dbg r0 r1 ltac:(lia) ltac:(lia)) as (D1 & Q1 & M1 & EM1). rewrite D1, bnd. set (q := r0 / r1) in *.
  assert (Hp1 : pos (q :: qs)) by (constructor; assumption).
  assert (E1 : rem (q :: qs) R0 R1 = (r1, r0 - q * r1)) by (cbn [rem]; rewrite E; reflexivity).
  destruct (bounds_small _ _ _ _ _ Hp1 E1 ltac:(lia) ltac:(lia) ltac:(lia) ltac:(lia)) as [B1 B2].
  destruct (cof_pos qs Hp) as (P0 & P1 & P2 & P3 & _). cbn [cof cu0 cv0 cu1 cv1] in B1, B2.
  rewrite lmul_ok by nia. rewrite bnd. rewrite lsub_ok by nia. rewrite bnd.
  rewrite lmul_ok by nia. rewrite bnd. rewrite ladd_ok by nia. rewrite bnd.
  rewrite lmul_ok by nia. rewrite bnd. rewrite ladd_ok by nia. rewrite bnd.
  assert (HE1 : remainders R0 R1 r1 (r0 - q * r1)) by (rewrite EM1; constructor; [assumption|lia]).
  destruct (Z.eqb_spec (r0 - q * r1) 0) as [Z1|NZ1].
  - exists (mx (q :: qs)). split; [unfold mx; rewrite par_cons, Hpar; reflexivity|].
    exists (q :: qs). rewrite E1. cbn [fst snd]. split; [assumption|]. split; [reflexivity|]. split; [exact B1|]. split; [exact B2|]. split; [lia|assumption].
  - set (s := r0 - q * r1) in *.
    destruct (div1_ok dbg r1 s ltac:(lia) ltac:(lia)) as (D2 & Q2 & M2 & EM2). rewrite D2, bnd. set (q' := r1 / s) in *.
    assert (Hp2 : pos (q' :: q :: qs)) by (constructor; assumption).
    assert (E2 : rem (q' :: q :: qs) R0 R1 = (s, r1 - q' * s)) by (cbn [rem]; rewrite E; reflexivity).
    destruct (bounds_small _ _ _ _ _ Hp2 E2 ltac:(lia) ltac:(lia) ltac:(lia) ltac:(lia)) as [B3 B4]. cbn [cof cu0 cv0 cu1 cv1] in B3, B4.
    rewrite lmul_ok by nia. rewrite bnd. rewrite lsub_ok by nia. rewrite bnd.
    rewrite lmul_ok by nia. rewrite bnd. rewrite ladd_ok by nia. rewrite bnd.
    rewrite lmul_ok by nia. rewrite bnd. rewrite ladd_ok by nia. rewrite bnd.
    assert (HE2 : remainders R0 R1 s (r1 - q' * s)) by (rewrite EM2; constructor; [assumption|lia]).
    destruct (Z.eqb_spec (r1 - q' * s) 0) as [Z2|NZ2].
    + exists (mx (q' :: q :: qs)). split; [unfold mx; rewrite !par_cons, Hpar; reflexivity|].
      exists (q' :: q :: qs). rewrite E2. cbn [fst snd]. split; [assumption|]. split; [reflexivity|]. split; [exact B3|]. split; [exact B4|]. split; [lia|assumption].
    + apply (IH (q' :: q :: qs) s (r1 - q' * s)); [assumption|rewrite !par_cons, Hpar; reflexivity|assumption|assumption|lia|].
      assert (2 * (r1 - q' * s) < r1) by nia. replace (Z.of_nat (S fuel) - 1) with (Z.of_nat fuel - 1 + 1) in Hlt by lia.
      destruct fuel as [|fuel]; [change (2 ^ (Z.of_nat 0 - 1 + 1)) with 1 in Hlt; lia|]. rewrite Z.pow_add_r, Z.pow_1_r in Hlt by lia. lia.
Qed.
Lemma good_identity R0 R1 : good_matrix R0 R1 IDENTITY.
Proof.
  exists []. split; [constructor|]. split; [reflexivity|]. split; [reflexivity|]. split; [reflexivity|]. split; [congruence|]. constructor.
Qed.
Lemma lehmer_small_ok dbg R0 R1 : 0 <= R1 <= R0 -> R0 < B -> exists m, lehmer_small dbg R0 R1 = Some m /\ good_matrix R0 R1 m.
Proof.
  intros H HB. unfold lehmer_small. rewrite dassert_ok by (apply Z.leb_le; lia). rewrite bnd.
  destruct (Z.eqb_spec R1 0); [exists IDENTITY; split; [reflexivity|apply good_identity]|].
  apply (small_loop_ok dbg R0 R1 ltac:(lia) HB 65 [] R0 R1); [constructor|reflexivity|reflexivity|constructor|lia|].
  change (2 ^ (Z.of_nat 65 - 1)) with B. lia.
Qed.
