(** Lemmas for C64. *)
Require Import Ring Field ZArith NArith Lia Bool List.
From Verif Require Import Word KnuthModel FieldSig FieldInstance FieldAlgModel FieldAlgProofs Arr FftModel FftSpec PermuteProofs FftProofs FftProps StarkBase StarkInstance PolyModel PolyProps TraceModel TraceProps ExprModel ExprSpec ExprProofs ExprProps CheckProps OodsProofs OodsSatProps LayoutProps StarkSpec ClaimModel ClaimSpec ClaimProofs ClaimProps ExampleProofs ExampleProps MimcProps VdfProps ComponentModel CurveModel CurveSpec PedersenModel PedersenSpec.
Import ListNotations.
Open Scope nat_scope.

(** ** One bit *)
Section Bit.
Context {F : Type} (o : ops F) (L : lawful o).
Add Field Pfield : (law_field o L).
Notation "x + y" := (fadd o x y). Notation "x * y" := (fmul o x y). Notation "- x" := (fneg o x).
Notation "0" := (f0 o). Notation "1" := (f1 o).
Lemma sub_eq0 a b : a + - b = 0 <-> a = b. Proof. apply (sub_zero o L). Qed.
Lemma eq_sub a b : a = b <-> a + - b = 0. Proof. symmetry. apply sub_eq0. Qed.
(** The six conditions that the constraints impose on a bit, say that it is a bit and that the point advances. *)
Definition bit_conditions (c0 d0 s q0 q1 p0 p1 r0 r1 : F) : Prop :=
  let bit := c0 + - (d0 * (1 + 1)) in
  bit * (bit + - (1)) = 0 /\ bit * (q1 + - p1) + - (s * (q0 + - p0)) = 0 /\ s * s + - (bit * (q0 + p0 + r0)) = 0 /\ bit * (q1 + r1) + - (s * (q0 + - r0)) = 0 /\
  (1 + - bit) * (q0 + - r0) = 0 /\ (1 + - bit) * (q1 + - r1) = 0.
Lemma fsub_eq a b : fsub o a b = a + - b. Proof. ring. Qed.
Lemma bit_iff c0 d0 s q0 q1 p0 p1 r0 r1 : bit_conditions c0 d0 s q0 q1 p0 p1 r0 r1 <->
  exists b : bool, c0 = (if b then 1 else 0) + (1 + 1) * d0 /\ advance o b s (q0, q1) (p0, p1) (r0, r1).
Proof.
  unfold bit_conditions. cbv zeta. split.
  - intros (H1 & H2 & H3 & H4 & H5 & H6). set (bit := c0 + - (d0 * (1 + 1))) in *. assert (Ec : c0 = bit + (1 + 1) * d0) by (unfold bit; ring). apply (fmul_0_iff o L) in H1 as [E|E].
    + exists false. cbn [advance]. clearbody bit. subst bit. split; [rewrite Ec; ring|]. assert (s * s = 0) by (replace (s * s) with (s * s + - (0 * (q0 + p0 + r0))) by ring; exact H3). split; [apply (fmul_0_iff o L) in H as [H|H]; exact H|].
      f_equal; symmetry; apply sub_eq0; [rewrite <- H5|rewrite <- H6]; ring.
    + apply (proj1 (sub_eq0 _ _)) in E. exists true. cbn [advance]. unfold chord. cbn [fst snd]. clearbody bit. subst bit. split; [rewrite Ec; ring|]. rewrite !fsub_eq. split; [|split].
      * apply eq_sub. replace (s * (q0 + - p0) + - (q1 + - p1)) with (- (1 * (q1 + - p1) + - (s * (q0 + - p0)))) by ring. rewrite H2. ring.
      * apply eq_sub. rewrite <- H3. ring.
      * apply eq_sub. replace (s * (q0 + - r0) + - (q1 + r1)) with (- (1 * (q1 + r1) + - (s * (q0 + - r0)))) by ring. rewrite H4. ring.
  - intros (b & -> & H). destruct b; cbn [advance] in H.
    + destruct H as (H1 & H2 & H3). cbn [fst snd] in *. rewrite fsub_eq in H1, H3. rewrite fsub_eq in H1. replace (1 + (1 + 1) * d0 + - (d0 * (1 + 1))) with (1) by ring. rewrite H1, H2, H3. repeat split; ring.
    + destruct H as [-> H]. injection H as -> ->. replace (0 + (1 + 1) * d0 + - (d0 * (1 + 1))) with (0) by ring. repeat split; ring.
Qed.
End Bit.

(** ** Guarded conditions *)
Section Guard.
Context {F : Type} (o : ops F) (L : lawful o).
Lemma violated_guarded x T c N nums dens : usizes N -> division_free N -> (forall i j, refers N i j -> T i j <> None) -> numerators c = numerators N ++ nums -> denominators c = dens ->
  (violated o x T c <-> (exists d, In d dens /\ value o x T d (f0 o)) /\ (forall m, In m nums -> ~ value o x T m (f0 o)) /\ ~ value o x T N (f0 o)).
Proof.
  intros U D R En Ed. unfold violated. rewrite En, Ed. pose proof (zero_iff o L x T N U D R) as ZI. split.
  - intros (Hd & Hn). split; [exact Hd|]. split; [intros m Hm; apply Hn, in_or_app; right; exact Hm|]. intros V. apply ZI in V as (m & Hm & V). apply (Hn m); [apply in_or_app; left; exact Hm|exact V].
  - intros (Hd & Hm & Hn). split; [exact Hd|]. intros m Hin V. apply in_app_or in Hin as [Hin|Hin]; [apply Hn, ZI; exists m; split; assumption|exact (Hm m Hin V)].
Qed.
Lemma accepts_iff e M w (SD : sound o e M w) t k exprs : shaped t -> k <= M -> t_rows t = 2 ^ k -> (forall c, In c exprs -> usizes c /\ fraction c /\ refers_within t c) ->
  (check_constraints o e exprs t = Some None <-> forall c, In c exprs -> forall row, row < 2 ^ k -> ~ violated o (fpw o (w k) row) (row_trace t row) c).
Proof.
  intros Sh Hk HR Hc. destruct (C53_check_constraints F o L e M w SD t k exprs Sh Hk HR Hc) as (res & E & H). rewrite E. cbn zeta in H. destruct res as [[row which]|].
  - split; [discriminate|]. intros A. exfalso. destruct H as (Hr & (c & En & V) & _). exact (A c (nth_error_In _ _ En) row Hr V).
  - split; [|reflexivity]. intros _ c Hin row Hr V. apply In_nth_error in Hin as (which & En). apply (H row which Hr). exists c. split; assumption.
Qed.
End Guard.

(** ** The rows that the factors of the constraints select *)
Inductive spot : Type := At (i : Z) | Every (i : Z) | Inner | Links.
Definition spots (k m : nat) (s : spot) (row : nat) : Prop :=
  match s with
  | At i => Z.of_nat row = i
  | Every i => Z.of_nat (row mod 2 ^ k) = i
  | Inner => (row + 1) mod 2 ^ k <> 0
  | Links => (row + 1) mod 2 ^ k = 0 /\ row + 1 <> 2 ^ (k + m)
  end.
Definition spot_ok (k m : nat) (s : spot) : Prop :=
  match s with At i => (0 <= i < 2 ^ Z.of_nat (k + m))%Z | Every i => (0 <= i < 2 ^ Z.of_nat k)%Z | _ => True end.
Section Spots.
Context {F : Type} (o : ops F) (L : lawful o) (e : engine F) (M : nat) (w : nat -> F) (SD : sound o e M w).
Variables (k m : nat) (Y : rexpr F).
Hypothesis Hk : k + m <= M.
Hypothesis HY : (Y = EX /\ m = 0) \/ Y = EExp EX (2 ^ Z.of_nat m).
Let g := w (k + m).
Let h := w k.
Definition spotted (c : rexpr F * spot) : rexpr F :=
  match snd c with
  | At i => e_div (fst c) (e_sub EX (EConst (pow_usize o g i)))
  | Every i => e_div (fst c) (e_sub Y (EConst (pow_usize o h i)))
  | Inner => e_div (EMul (fst c) (e_sub Y (EConst (pow_usize o h (2 ^ Z.of_nat k - 1))))) (e_sub (EExp Y (2 ^ Z.of_nat k)) (EConst (f1 o)))
  | Links => e_div (EMul (fst c) (e_sub EX (EConst (pow_usize o g (2 ^ Z.of_nat (k + m) - 1))))) (e_sub (EExp EX (2 ^ Z.of_nat m)) (EConst (pow_usize o g (2 ^ Z.of_nat (k + m) - 2 ^ Z.of_nat m))))
  end.
Lemma m64 : k + m < 64. Proof using SD Hk. clear HY. pose proof (s_max _ _ _ _ SD). lia. Qed.
Lemma exp_nat x n : fexp o x (Z.to_N (Z.of_nat n)) = fpw o x n. Proof using. clear. rewrite <- (fpw_N o), Z_N_nat, Nat2Z.id. reflexivity. Qed.
Lemma pow_nat x n : (Z.of_nat n < 2 ^ 64)%Z -> pow_usize o x (Z.of_nat n) = fpw o x n.
Proof using L. clear HY Hk. intros H. rewrite (pow_usize_spec o L) by (change B with (2 ^ 64)%Z; lia). apply exp_nat. Qed.
Lemma h_pow i : fpw o h i = fpw o g (2 ^ m * i).
Proof using L SD Hk. clear HY. unfold h, g. rewrite <- (w_pow o L e M w SD k m Hk), (fpw_mul o L). reflexivity. Qed.
Lemma value_Y x T : value o x T Y (fpw o x (2 ^ m)).
Proof using HY L SD Hk.
  destruct HY as [[-> ->]| ->]; [replace (fpw o x (2 ^ 0)) with x; [constructor|]; cbn [Nat.pow fpw]; pose proof (F_R (law_field o L)) as R; rewrite (Rmul_comm R), (Rmul_1_l R); reflexivity|].
  rewrite <- exp_nat, pow_ZN. constructor. constructor.
Qed.
Lemma Y_row T row : value o (fpw o g row) T Y (fpw o h row).
Proof using HY L SD Hk. rewrite h_pow, Nat.mul_comm, (fpw_mul o L). apply value_Y. Qed.
Lemma eq_g a b : fpw o g a = fpw o g b <-> a mod 2 ^ (k + m) = b mod 2 ^ (k + m). Proof using L SD Hk. clear HY. apply (row_eq o L e M w SD (k + m) Hk). Qed.
Lemma eq_h a b : fpw o h a = fpw o h b <-> a mod 2 ^ k = b mod 2 ^ k. Proof using L SD Hk. clear HY. apply (row_eq o L e M w SD k ltac:(lia)). Qed.
Lemma den_at T row i : row < 2 ^ (k + m) -> (0 <= i < 2 ^ Z.of_nat (k + m))%Z -> (value o (fpw o g row) T (e_sub EX (EConst (pow_usize o g i))) (f0 o) <-> Z.of_nat row = i).
Proof using L SD Hk.
  clear HY. intros Hr Hi. rewrite (value_sub o L); [|constructor|constructor]. pose proof m64. pose proof (pow_le_64 (k + m) ltac:(assumption)). rewrite <- pow_ZN in *. rewrite <- (Z2Nat.id i) at 1 by lia. rewrite pow_nat by lia. rewrite eq_g, !Nat.mod_small by lia. lia.
Qed.
Lemma mod_k row : row mod 2 ^ k < 2 ^ k. Proof using. clear. apply Nat.mod_upper_bound. pose proof (pow2_pos k). lia. Qed.
Lemma den_every T row i : (0 <= i < 2 ^ Z.of_nat k)%Z -> (value o (fpw o g row) T (e_sub Y (EConst (pow_usize o h i))) (f0 o) <-> Z.of_nat (row mod 2 ^ k) = i).
Proof using L SD Hk HY.
  intros Hi. rewrite (value_sub o L); [|apply Y_row|constructor]. pose proof m64. pose proof (pow_le_64 k ltac:(lia)). rewrite <- pow_ZN in *. rewrite <- (Z2Nat.id i) at 1 by lia. rewrite pow_nat by lia. rewrite eq_h, (Nat.mod_small (Z.to_nat i)) by lia. lia.
Qed.
Lemma last_iff row : row mod 2 ^ k = 2 ^ k - 1 <-> (row + 1) mod 2 ^ k = 0.
Proof using.
  clear. pose proof (pow2_pos k). pose proof (mod_k row). rewrite Nat.add_mod by lia. destruct (Nat.eq_dec (2 ^ k) 1) as [E|N]; [rewrite E in *; rewrite !Nat.mod_1_r; lia|]. rewrite (Nat.mod_small 1) by lia.
  destruct (Nat.eq_dec (row mod 2 ^ k + 1) (2 ^ k)) as [E|Ne]; [rewrite E, Nat.mod_same by lia; lia|rewrite (Nat.mod_small (row mod 2 ^ k + 1)) by lia; lia].
Qed.
Lemma num_inner T row : value o (fpw o g row) T (e_sub Y (EConst (pow_usize o h (2 ^ Z.of_nat k - 1)))) (f0 o) <-> (row + 1) mod 2 ^ k = 0.
Proof using L SD Hk HY.
  assert (0 < 2 ^ Z.of_nat k)%Z by (apply Z.pow_pos_nonneg; lia). rewrite den_every by lia. rewrite <- last_iff, <- pow_ZN in *. lia.
Qed.
Lemma den_inner T row : value o (fpw o g row) T (e_sub (EExp Y (2 ^ Z.of_nat k)) (EConst (f1 o))) (f0 o).
Proof using L SD Hk HY.
  eapply (value_sub o L); [constructor; apply Y_row|constructor|]. rewrite <- pow_ZN, exp_nat, <- (fpw_mul o L). change (f1 o) with (fpw o h 0). apply eq_h. rewrite Nat.mod_mul, Nat.mod_0_l; [reflexivity| |]; pose proof (pow2_pos k); lia.
Qed.
Lemma den_links T row : value o (fpw o g row) T (e_sub (EExp EX (2 ^ Z.of_nat m)) (EConst (pow_usize o g (2 ^ Z.of_nat (k + m) - 2 ^ Z.of_nat m)))) (f0 o) <-> (row + 1) mod 2 ^ k = 0.
Proof using L SD Hk.
  clear HY. pose proof m64. pose proof (pow_le_64 (k + m) ltac:(assumption)). pose proof (pow2_pos k). pose proof (pow2_pos m). assert (Ek : 2 ^ (k + m) = 2 ^ m * 2 ^ k) by (rewrite Nat.pow_add_r; lia).
  rewrite (value_sub o L); [|constructor; constructor|constructor]. replace (2 ^ Z.of_nat (k + m) - 2 ^ Z.of_nat m)%Z with (Z.of_nat (2 ^ m * (2 ^ k - 1))) by (rewrite <- !pow_ZN, Ek; nia). rewrite pow_nat by (rewrite <- pow_ZN, Ek in *; nia). rewrite <- pow_ZN, exp_nat, <- (fpw_mul o L).
  rewrite (Nat.mul_comm row), <- !h_pow, eq_h, <- last_iff. rewrite (Nat.mod_small (2 ^ k - 1)) by lia. reflexivity.
Qed.
Lemma num_links T row : row < 2 ^ (k + m) -> (value o (fpw o g row) T (e_sub EX (EConst (pow_usize o g (2 ^ Z.of_nat (k + m) - 1)))) (f0 o) <-> row + 1 = 2 ^ (k + m)).
Proof using L SD Hk. clear HY. intros Hr. assert (0 < 2 ^ Z.of_nat (k + m))%Z by (apply Z.pow_pos_nonneg; lia). rewrite den_at by lia. rewrite <- pow_ZN in *. lia. Qed.

Lemma violated_spotted t row c : shaped t -> t_rows t = 2 ^ (k + m) -> row < 2 ^ (k + m) -> condition t (fst c) -> spot_ok k m (snd c) ->
  (violated o (fpw o g row) (row_trace t row) (spotted c) <-> spots k m (snd c) row /\ ~ satisfied o g t row (fst c)).
Proof using L SD Hk HY.
  intros Sh HR Hr (U & D & Rf) Sp. destruct c as [N s]. cbn [fst snd] in *. pose proof (pow2_pos (k + m)) as P2. destruct (free_numerators N D) as [_ Dn].
  assert (Tok : forall i j, refers N i j -> row_trace t row i j <> None).
  { intros i j R. destruct (Rf i j R) as (Hi & _). unfold row_trace. rewrite (t_get_ok o); [discriminate|exact Sh| |exact Hi]. pose proof (Z.mod_pos_bound (Z.of_nat row + j) (Z.of_nat (t_rows t)) ltac:(lia)). lia. }
  assert (One : forall (P : rexpr F -> Prop) d, (exists x, In x [d] /\ P x) <-> P d) by (intros P d; split; [intros (x & [<-|[]] & H); exact H|intros H; exists d; split; [left; reflexivity|exact H]]).
  assert (All1 : forall (P : rexpr F -> Prop) d, (forall x, In x [d] -> ~ P x) <-> ~ P d) by (intros P d; split; [intros H; apply H; left; reflexivity|intros H x [<-|[]]; exact H]).
  assert (All0 : forall (P : rexpr F -> Prop), (forall x, In x [] -> ~ P x) <-> True) by (intros P; split; [trivial|intros _ x []]).
  unfold satisfied. destruct s as [i|i| |]; cbn [spots spot_ok] in *.
  - rewrite (violated_guarded o L _ _ _ N [] [e_sub EX (EConst (pow_usize o g i))] U D Tok); [|unfold spotted, e_div; cbn [snd fst numerators]; rewrite ?app_nil_r; reflexivity|unfold spotted, e_div; cbn [snd fst denominators]; rewrite Dn; reflexivity].
    rewrite One, All0, den_at by assumption. tauto.
  - rewrite (violated_guarded o L _ _ _ N [] [e_sub Y (EConst (pow_usize o h i))] U D Tok); [|unfold spotted, e_div; cbn [snd fst numerators]; rewrite ?app_nil_r; reflexivity|unfold spotted, e_div; cbn [snd fst denominators]; rewrite Dn; reflexivity].
    rewrite One, All0, den_every by assumption. tauto.
  - rewrite (violated_guarded o L _ _ _ N [e_sub Y (EConst (pow_usize o h (2 ^ Z.of_nat k - 1)))] [e_sub (EExp Y (2 ^ Z.of_nat k)) (EConst (f1 o))] U D Tok); [|unfold spotted, e_div; cbn [snd fst numerators e_sub]; rewrite ?app_nil_r; reflexivity|unfold spotted, e_div; cbn [snd fst denominators e_sub]; rewrite Dn; reflexivity].
    rewrite One, All1, num_inner. pose proof (den_inner (row_trace t row) row). tauto.
  - rewrite (violated_guarded o L _ _ _ N [e_sub EX (EConst (pow_usize o g (2 ^ Z.of_nat (k + m) - 1)))] [e_sub (EExp EX (2 ^ Z.of_nat m)) (EConst (pow_usize o g (2 ^ Z.of_nat (k + m) - 2 ^ Z.of_nat m)))] U D Tok); [|unfold spotted, e_div; cbn [snd fst numerators e_sub]; rewrite ?app_nil_r; reflexivity|unfold spotted, e_div; cbn [snd fst denominators e_sub]; rewrite Dn; reflexivity].
    rewrite One, All1, den_links, num_links by exact Hr. tauto.
Qed.
Lemma usizes_Y : usizes Y. Proof using HY SD Hk. pose proof m64. pose proof (pow_le_64 m ltac:(lia)). destruct HY as [[-> _]| ->]; cbn; [exact I|lia]. Qed.
Lemma free_Y : division_free Y. Proof using HY. destruct HY as [[-> _]| ->]; cbn; exact I. Qed.
Lemma refers_Y i j : ~ refers Y i j. Proof using HY. destruct HY as [[-> _]| ->]; cbn; tauto. Qed.
Lemma spotted_ok t c : t_rows t = 2 ^ (k + m) -> condition t (fst c) -> usizes (spotted c) /\ fraction (spotted c) /\ refers_within t (spotted c) /\ forall i j, refers (spotted c) i j -> (j < 2 ^ 63)%Z.
Proof using HY SD Hk.
  intros HR (U & D & Rf). destruct c as [N s]. cbn [fst snd] in *. destruct (free_numerators N D) as [Fn Dn]. pose proof m64. pose proof (pow_le_64 k ltac:(lia)). pose proof (pow_le_64 m ltac:(lia)). pose proof (pow2_pos (k + m)). pose proof usizes_Y. pose proof free_Y.
  assert (Rp : forall i j, refers (spotted (N, s)) i j -> refers N i j).
  { intros i j. pose proof (refers_Y i j). destruct s; cbn; tauto. }
  split; [|split; [|split]].
  - destruct s; cbn; repeat split; (assumption || lia).
  - unfold fraction, spotted, e_div, e_sub. destruct s; cbn [fst snd numerators denominators app]; rewrite Dn; cbn [app]; (split; [repeat (apply Forall_app; split); try exact Fn|]); repeat constructor; cbn; assumption.
  - intros i j R. destruct (Rf i j (Rp i j R)) as (H1' & H2' & H3'). split; [exact H1'|]. split; [exact H2'|lia].
  - intros i j R. destruct (Rf i j (Rp i j R)) as (H1' & H2' & H3'). lia.
Qed.
End Spots.

Ltac valo o S := repeat first [apply v_x | apply v_const | apply v_mul | apply v_add | apply v_neg | apply v_exp | apply v_trace; (eapply (row_here o _ _ _ _ _ S) || eapply (row_next o _ _ _ _ _ S)); lia | eassumption ].
(** ** The conditions on a layer *)
Section Layer.
Context {F : Type} (o : ops F) (L : lawful o) (e : engine F) (M : nat) (w : nat -> F) (SD : sound o e M w).
Definition bit_conds (column slope : nat) (q0 q1 p0 p1 r0 r1 : rexpr F) : list (rexpr F * spot) :=
  [ (EMul (bit_of o column) (e_sub (bit_of o column) (EConst (f1 o))), Inner);
    (e_sub (EMul (bit_of o column) (e_sub q1 p1)) (EMul (ETrace slope 1) (e_sub q0 p0)), Inner);
    (e_sub (EMul (ETrace slope 1) (ETrace slope 1)) (EMul (bit_of o column) (EAdd (EAdd q0 p0) r0)), Inner);
    (e_sub (EMul (bit_of o column) (EAdd q1 r1)) (EMul (ETrace slope 1) (e_sub q0 r0)), Inner);
    (EMul (e_sub (EConst (f1 o)) (bit_of o column)) (e_sub q0 r0), Inner);
    (EMul (e_sub (EConst (f1 o)) (bit_of o column)) (e_sub q1 r1), Inner) ].
Definition layer_conds (n bits : Z) (sx sy : F) (plx ply prx pry : rexpr F) : list (rexpr F * spot) :=
  [ (e_sub (ETrace 6 0) (EConst sx), Every 0); (e_sub (ETrace 7 0) (EConst sy), Every 0) ] ++
  bit_conds 0 1 (ETrace 6 0) (ETrace 7 0) plx ply (ETrace 2 1) (ETrace 3 1) ++ [ (ETrace 0 0, Every bits); (ETrace 0 0, Every (n - 1)) ] ++
  bit_conds 4 5 (ETrace 2 1) (ETrace 3 1) prx pry (ETrace 6 1) (ETrace 7 1) ++ [ (ETrace 4 0, Every bits); (ETrace 4 0, Every (n - 1)) ].
Lemma layer_spotted k m bits sx sy plx ply prx pry :
  layer_exprs o (w k) (2 ^ Z.of_nat k) bits sx sy plx ply prx pry = map (spotted o w k m EX) (layer_conds (2 ^ Z.of_nat k) bits sx sy plx ply prx pry).
Proof. reflexivity. Qed.
Lemma power_spotted k m bits sx sy lx ly rx ry : let D := EExp EX (2 ^ Z.of_nat m) in
  option_all (map (power_x (2 ^ m)) (layer_exprs o (w k) (2 ^ Z.of_nat k) bits sx sy (EPoly lx EX) (EPoly ly EX) (EPoly rx EX) (EPoly ry EX))) =
  Some (map (spotted o w k m D) (layer_conds (2 ^ Z.of_nat k) bits sx sy (EPoly lx D) (EPoly ly D) (EPoly rx D) (EPoly ry D))).
Proof. cbv zeta. rewrite <- (pow_ZN m). reflexivity. Qed.

(** A quantifier over the rows of all blocks. *)
Lemma blocks_iff k m (P : nat -> Prop) : (forall row, row < 2 ^ (k + m) -> P row) <-> (forall b, b < 2 ^ m -> forall r, r < 2 ^ k -> P (b * 2 ^ k + r)).
Proof using.
  clear. pose proof (pow2_pos k). rewrite Nat.pow_add_r. split.
  - intros H0 b Hb r Hr. apply H0. nia.
  - intros H0 row Hr. rewrite (Nat.div_mod row (2 ^ k)) by lia. rewrite Nat.mul_comm. apply H0; [apply Nat.div_lt_upper_bound; lia|apply Nat.mod_upper_bound; lia].
Qed.
Lemma block_mod k b r : r < 2 ^ k -> (b * 2 ^ k + r) mod 2 ^ k = r. Proof using. clear. intros Hr. rewrite Nat.add_comm, Nat.mod_add by lia. apply Nat.mod_small, Hr. Qed.
Lemma block_last k b r : r < 2 ^ k -> ((b * 2 ^ k + r + 1) mod 2 ^ k = 0 <-> r + 1 = 2 ^ k).
Proof using.
  clear. intros Hr. destruct (Nat.eq_dec (r + 1) (2 ^ k)) as [E|N].
  - rewrite <- Nat.add_assoc, E. replace (b * 2 ^ k + 2 ^ k) with ((b + 1) * 2 ^ k) by lia. rewrite Nat.mod_mul by lia. tauto.
  - rewrite <- Nat.add_assoc, block_mod by lia. lia.
Qed.
Lemma inner_iff k m (P : nat -> Prop) : (forall row, row < 2 ^ (k + m) -> spots k m Inner row -> P row) <-> (forall b, b < 2 ^ m -> forall r, r + 1 < 2 ^ k -> P (b * 2 ^ k + r)).
Proof using.
  clear. rewrite blocks_iff. cbn [spots]. split; intros H0 b Hb r Hr.
  - apply H0; [exact Hb|lia|]. rewrite block_last by lia. lia.
  - intros Ne. apply H0; [exact Hb|]. rewrite block_last in Ne by lia. lia.
Qed.
Lemma every_iff k m i (P : nat -> Prop) : i < 2 ^ k -> ((forall row, row < 2 ^ (k + m) -> spots k m (Every (Z.of_nat i)) row -> P row) <-> (forall b, b < 2 ^ m -> P (b * 2 ^ k + i))).
Proof using.
  clear. intros Hi. rewrite blocks_iff. cbn [spots]. split; intros H0 b Hb.
  - apply H0; [exact Hb|exact Hi|]. rewrite block_mod by exact Hi. reflexivity.
  - intros r Hr E. rewrite block_mod in E by exact Hr. apply Nat2Z.inj in E as ->. apply H0, Hb.
Qed.
Lemma links_iff k m (P : nat -> Prop) : (forall row, row < 2 ^ (k + m) -> spots k m Links row -> P row) <-> (forall b, b + 1 < 2 ^ m -> P (b * 2 ^ k + (2 ^ k - 1))).
Proof using.
  clear. pose proof (pow2_pos k). rewrite blocks_iff. cbn [spots]. rewrite Nat.pow_add_r. split.
  - intros H0 b Hb. apply H0; [lia|lia|]. rewrite block_last by lia. split; [lia|nia].
  - intros H0 b Hb r Hr [E N]. apply block_last in E; [|exact Hr]. replace r with (2 ^ k - 1) by lia. apply H0. assert (b + 1 <> 2 ^ m) by (intros Eb; apply N; rewrite <- Eb; nia). lia.
Qed.
Lemma at_iff k m i (P : nat -> Prop) : i < 2 ^ (k + m) -> ((forall row, row < 2 ^ (k + m) -> spots k m (At (Z.of_nat i)) row -> P row) <-> P i).
Proof using. clear. intros Hi. cbn [spots]. split; [intros H0; apply H0; [exact Hi|reflexivity]|intros H0 row _ E; apply Nat2Z.inj in E as ->; exact H0]. Qed.
Lemma sat_iff g t row N v : value o (fpw o g row) (row_trace t row) N v -> (satisfied o g t row N <-> v = f0 o).
Proof using. intros V. unfold satisfied. split; [intros V'; exact (value_fun o _ _ _ _ _ V V')|intros <-; exact V]. Qed.

(** What the equations on the rows of a layer say together: the remaining bits are numbers. *)
Lemma bits_num (n : nat) (T : nat -> F) (b : nat -> bool) : 0 < n -> T (n - 1) = f0 o -> (forall r, S r < n -> T r = fadd o (if b r then f1 o else f0 o) (fmul o (fadd o (f1 o) (f1 o)) (T (S r)))) ->
  forall r, r < n -> T r = num o (map b (seq r (n - 1 - r))).
Proof using.
  clear. intros Hn HE HS r Hr. remember (n - 1 - r) as d eqn:Ed. revert r Hr Ed. induction d as [|d IH]; intros r Hr Ed; [replace r with (n - 1) by lia; exact HE|]. rewrite (HS r) by lia. cbn [seq map num]. rewrite (IH (S r)) by lia. reflexivity.
Qed.
Lemma layer_iff n bits shift P Q T : 0 < n -> (layer_rows o n bits shift P Q T <->
  T 0 6 = fst shift /\ T 0 7 = snd shift /\ T bits 0 = f0 o /\ T (n - 1) 0 = f0 o /\ T bits 4 = f0 o /\ T (n - 1) 4 = f0 o /\
  (forall r, r + 1 < n -> exists b : bool, T r 0 = fadd o (if b then f1 o else f0 o) (fmul o (fadd o (f1 o) (f1 o)) (T (r + 1) 0)) /\ advance o b (T (r + 1) 1) (T r 6, T r 7) (P r) (T (r + 1) 2, T (r + 1) 3)) /\
  (forall r, r + 1 < n -> exists b : bool, T r 4 = fadd o (if b then f1 o else f0 o) (fmul o (fadd o (f1 o) (f1 o)) (T (r + 1) 4)) /\ advance o b (T (r + 1) 5) (T (r + 1) 2, T (r + 1) 3) (Q r) (T (r + 1) 6, T (r + 1) 7))).
Proof using L.
  intros Hn. split.
  - intros (lb & rb & E0 & E1 & E2 & E3 & E4). split; [rewrite <- E0; reflexivity|]. split; [rewrite <- E0; reflexivity|]. destruct (E1 (n - 1) ltac:(lia)) as [A1 A2]. rewrite Nat.sub_diag in A1, A2. split; [exact E2|]. split; [exact A1|]. split; [exact E3|]. split; [exact A2|].
    split; intros r Hr; rewrite Nat.add_1_r in *; destruct (E4 r ltac:(lia)) as [B1 B2]; destruct (E1 r ltac:(lia)) as [C1 C2]; destruct (E1 (S r) ltac:(lia)) as [D1 D2]; replace (n - 1 - r) with (S (n - 1 - S r)) in C1, C2 by lia; cbn [seq map num] in C1, C2.
    + exists (lb r). rewrite D1, C1. split; [reflexivity|exact B1].
    + exists (rb r). rewrite D2, C2. split; [reflexivity|exact B2].
  - intros (E0 & E0' & Eb & En & Eb' & En' & H1 & H2). 
    assert (Ch : forall R : nat -> bool -> Prop, (forall r, r + 1 < n -> exists b, R r b) -> exists f : nat -> bool, forall r, r + 1 < n -> R r (f r)).
    { clear. intros R. induction n as [|n IH]; intros H0; [exists (fun _ => true); intros r Hr; lia|]. destruct IH as (f & Hf); [intros r Hr; apply H0; lia|]. destruct n as [|n]; [exists f; intros r Hr; lia|].
      destruct (H0 n ltac:(lia)) as (b & Hb). exists (fun r => if r =? n then b else f r). intros r Hr. destruct (Nat.eqb_spec r n) as [->|Ne]; [exact Hb|apply Hf; lia]. }
    destruct (Ch _ H1) as (lb & Hl). destruct (Ch _ H2) as (rb & Hr). exists lb, rb. split; [destruct shift; cbn in *; congruence|]. split; [|split; [exact Eb|split; [exact Eb'|]]].
    + intros r Hr'. split.
      * apply (bits_num n (fun r => T r 0) lb Hn En); [|exact Hr']. intros i Hi. rewrite <- (Nat.add_1_r i). apply Hl. lia.
      * apply (bits_num n (fun r => T r 4) rb Hn En'); [|exact Hr']. intros i Hi. rewrite <- (Nat.add_1_r i). apply Hr. lia.
    + intros r Hr'. rewrite <- (Nat.add_1_r r). split; [apply Hl; lia|apply Hr; lia].
Qed.

Section Rows.
Variables (k m : nat) (t : table F) (Y : rexpr F) (lx ly rx ry : list F) (P Q : nat -> F * F) (bits : nat) (sx sy : F).
Hypothesis Hk : k + m <= M.
Hypothesis HY : (Y = EX /\ m = 0) \/ Y = EExp EX (2 ^ Z.of_nat m).
Hypothesis S8 : size t (2 ^ (k + m)) 8.
Hypothesis HP : forall r, r < 2 ^ k -> (peval o lx (fpw o (w k) r), peval o ly (fpw o (w k) r)) = P r.
Hypothesis HQ : forall r, r < 2 ^ k -> (peval o rx (fpw o (w k) r), peval o ry (fpw o (w k) r)) = Q r.
Hypothesis Hb : bits < 2 ^ k.
Hypothesis Hne : lx <> [] /\ ly <> [] /\ rx <> [] /\ ry <> [].
Let g := w (k + m).
Let cel b r i := cell o t (b * 2 ^ k + r) i.
Lemma h_block b r : fpw o (w k) (b * 2 ^ k + r) = fpw o (w k) r.
Proof using L SD Hk. clear HP HQ Hb HY Hne. apply (row_eq o L e M w SD k ltac:(lia)). rewrite Nat.add_comm, Nat.mod_add; [reflexivity|]. pose proof (pow2_pos k). lia. Qed.
Lemma v_poly_row T b r p : value o (fpw o g (b * 2 ^ k + r)) T (EPoly p Y) (peval o p (fpw o (w k) r)).
Proof using L SD Hk HY. rewrite <- (h_block b). constructor. apply (Y_row o L e M w SD k m Y Hk HY). Qed.
Lemma left_iff b r : b < 2 ^ m -> r + 1 < 2 ^ k -> (Forall (fun c => satisfied o g t (b * 2 ^ k + r) (fst c)) (bit_conds 0 1 (ETrace 6 0) (ETrace 7 0) (EPoly lx Y) (EPoly ly Y) (ETrace 2 1) (ETrace 3 1)) <->
  bit_conditions o (cel b r 0) (cel b (r + 1) 0) (cel b (r + 1) 1) (cel b r 6) (cel b r 7) (peval o lx (fpw o (w k) r)) (peval o ly (fpw o (w k) r)) (cel b (r + 1) 2) (cel b (r + 1) 3)).
Proof using All.
  intros Hb' Hr. assert (b * 2 ^ k + r + 1 < 2 ^ (k + m)) by (rewrite Nat.pow_add_r; nia). unfold cel. rewrite Nat.add_assoc. unfold bit_conds. repeat (rewrite Forall_cons_iff). rewrite Forall_nil_iff. cbn [fst].
  pose proof (v_poly_row (row_trace t (b * 2 ^ k + r)) b r lx). pose proof (v_poly_row (row_trace t (b * 2 ^ k + r)) b r ly). unfold bit_conditions, bit_of, e_sub. cbv zeta.
  rewrite 6!sat_iff; [|valo o S8 ..]. tauto.
Qed.
Lemma right_iff b r : b < 2 ^ m -> r + 1 < 2 ^ k -> (Forall (fun c => satisfied o g t (b * 2 ^ k + r) (fst c)) (bit_conds 4 5 (ETrace 2 1) (ETrace 3 1) (EPoly rx Y) (EPoly ry Y) (ETrace 6 1) (ETrace 7 1)) <->
  bit_conditions o (cel b r 4) (cel b (r + 1) 4) (cel b (r + 1) 5) (cel b (r + 1) 2) (cel b (r + 1) 3) (peval o rx (fpw o (w k) r)) (peval o ry (fpw o (w k) r)) (cel b (r + 1) 6) (cel b (r + 1) 7)).
Proof using All.
  intros Hb' Hr. assert (b * 2 ^ k + r + 1 < 2 ^ (k + m)) by (rewrite Nat.pow_add_r; nia). unfold cel. rewrite Nat.add_assoc. unfold bit_conds. repeat (rewrite Forall_cons_iff). rewrite Forall_nil_iff. cbn [fst].
  pose proof (v_poly_row (row_trace t (b * 2 ^ k + r)) b r rx). pose proof (v_poly_row (row_trace t (b * 2 ^ k + r)) b r ry). unfold bit_conditions, bit_of, e_sub. cbv zeta.
  rewrite 6!sat_iff; [|valo o S8 ..]. tauto.
Qed.
Lemma cell_sat row i v : row < 2 ^ (k + m) -> i < 8 -> (satisfied o g t row (e_sub (ETrace i 0) (EConst v)) <-> cell o t row i = v).
Proof using L S8. clear HY HP HQ Hb Hne Hk. intros Hr Hi. eapply (sub_iff o L); valo o S8. Qed.
Lemma cell_zero row i : row < 2 ^ (k + m) -> i < 8 -> (satisfied o g t row (ETrace i 0) <-> cell o t row i = f0 o).
Proof using S8. clear HY HP HQ Hb Hne Hk. intros Hr Hi. apply sat_iff. valo o S8. Qed.
Definition holds (c : rexpr F * spot) : Prop := forall row, row < 2 ^ (k + m) -> spots k m (snd c) row -> satisfied o g t row (fst c).
Lemma inner_all cs : Forall (fun c => snd c = Inner) cs -> (Forall holds cs <-> forall b, b < 2 ^ m -> forall r, r + 1 < 2 ^ k -> Forall (fun c => satisfied o g t (b * 2 ^ k + r) (fst c)) cs).
Proof using.
  clear. intros HI. rewrite Forall_forall in HI. split.
  - intros H0 b Hb r Hr. rewrite Forall_forall in *. intros c Hc. specialize (H0 c Hc). unfold holds in H0. rewrite (HI c Hc) in H0. rewrite (inner_iff k m (fun row => satisfied o g t row (fst c))) in H0. apply H0; assumption.
  - intros H0. rewrite Forall_forall. intros c Hc. unfold holds. rewrite (HI c Hc). rewrite (inner_iff k m (fun row => satisfied o g t row (fst c))). intros b Hb r Hr. specialize (H0 b Hb r Hr). rewrite Forall_forall in H0. apply H0, Hc.
Qed.
Lemma layer_holds : Forall holds (layer_conds (2 ^ Z.of_nat k) (Z.of_nat bits) sx sy (EPoly lx Y) (EPoly ly Y) (EPoly rx Y) (EPoly ry Y)) <->
  forall b, b < 2 ^ m -> layer_rows o (2 ^ k) bits (sx, sy) P Q (cel b).
Proof using All.
  pose proof (pow2_pos k) as Pk. unfold layer_conds. rewrite !Forall_app. rewrite !(inner_all (bit_conds _ _ _ _ _ _ _ _)) by (repeat constructor). repeat (rewrite Forall_cons_iff). rewrite !Forall_nil_iff.
  assert (Ek : (2 ^ Z.of_nat k - 1 = Z.of_nat (2 ^ k - 1))%Z) by (rewrite <- pow_ZN; lia).
  assert (EV : forall N i, i < 2 ^ k -> holds (N, Every (Z.of_nat i)) <-> forall b, b < 2 ^ m -> satisfied o g t (b * 2 ^ k + i) N) by (intros N i Hi; apply (every_iff k m i (fun row => satisfied o g t row N) Hi)).
  rewrite Ek. change 0%Z with (Z.of_nat 0). rewrite !EV by lia.
  assert (Rw : forall b r, b < 2 ^ m -> r < 2 ^ k -> b * 2 ^ k + r < 2 ^ (k + m)) by (intros b r ? ?; rewrite Nat.pow_add_r; nia).
  split.
  - intros ((A1 & A2 & _) & B1 & (A3 & A4 & _) & B2 & (A5 & A6 & _)) b Hb'. apply (layer_iff (2 ^ k) bits (sx, sy) P Q (cel b) Pk). cbn [fst snd].
    split; [apply cell_sat; [apply Rw; lia|lia|apply A1, Hb']|]. split; [apply cell_sat; [apply Rw; lia|lia|apply A2, Hb']|]. split; [apply cell_zero; [apply Rw; lia|lia|apply A3, Hb']|]. split; [apply cell_zero; [apply Rw; lia|lia|apply A4, Hb']|].
    split; [apply cell_zero; [apply Rw; lia|lia|apply A5, Hb']|]. split; [apply cell_zero; [apply Rw; lia|lia|apply A6, Hb']|]. split; intros r Hr.
    + specialize (B1 b Hb' r Hr). apply left_iff in B1; [|exact Hb'|exact Hr]. apply (bit_iff o L) in B1. rewrite <- HP by lia. exact B1.
    + specialize (B2 b Hb' r Hr). apply right_iff in B2; [|exact Hb'|exact Hr]. apply (bit_iff o L) in B2. rewrite <- HQ by lia. exact B2.
  - intros H0. assert (H1 := fun b Hb' => proj1 (layer_iff (2 ^ k) bits (sx, sy) P Q (cel b) Pk) (H0 b Hb')). clear H0. cbn [fst snd] in H1.
    split; [|split; [|split; [|split]]]; try (split; [|split; [|exact I]]).
    1,2: intros b Hb'; apply cell_sat; [apply Rw; lia|lia|apply (H1 b Hb')].
    2,3,5,6: intros b Hb'; apply cell_zero; [apply Rw; lia|lia|apply (H1 b Hb')].
    + intros b Hb' r Hr. apply left_iff; [exact Hb'|exact Hr|]. apply (bit_iff o L). destruct (H1 b Hb') as (_ & _ & _ & _ & _ & _ & H2 & _). rewrite HP by lia. apply H2, Hr.
    + intros b Hb' r Hr. apply right_iff; [exact Hb'|exact Hr|]. apply (bit_iff o L). destruct (H1 b Hb') as (_ & _ & _ & _ & _ & _ & _ & H2). rewrite HQ by lia. apply H2, Hr.
Qed.
Lemma conds_ok : Forall (fun c => condition t (fst c) /\ spot_ok k m (snd c)) (layer_conds (2 ^ Z.of_nat k) (Z.of_nat bits) sx sy (EPoly lx Y) (EPoly ly Y) (EPoly rx Y) (EPoly ry Y)).
Proof using All.
  pose proof (usizes_Y o e M w SD k m Y Hk HY) as UY. pose proof (free_Y m Y HY) as FY. pose proof (refers_Y m Y HY) as RY. pose proof (pow2_pos (k + m)). pose proof (pow2_pos k). destruct Hne as (N1 & N2 & N3 & N4). rewrite Forall_forall. intros c Hc. split.
  - unfold layer_conds, bit_conds in Hc. cbn [app] in Hc.
    repeat (destruct Hc as [<-|Hc]; [apply (cond_refl _ _ _ _ S8 ltac:(lia)); [cbn; tauto|cbn; tauto|intros i j; pose proof (RY i j) as Ny; clear -Ny; cbn; intuition lia]|]). destruct Hc.
  - unfold layer_conds, bit_conds in Hc; cbn [app] in Hc; repeat (destruct Hc as [<-|Hc]; [cbn [snd spot_ok]; rewrite <- ?pow_ZN; (exact I || lia)|]); destruct Hc.
Qed.
End Rows.
End Layer.
