(** Proofs for C68. *)
Require Import Field ZArith NArith Lia Bool List Permutation Znumtheory Zpow_facts.
From Verif Require Import Word KnuthModel U256Model U256Spec MontgomeryModel MontgomeryProofs MontgomeryProps FieldSig FieldModel FieldProofs FieldInstance FieldAlgModel FieldAlgProofs Arr FftModel PermuteProofs FftProofs StarkBase PolyModel PolyProps TraceModel ExprModel ExprSpec ExprProofs ContractModel ContractSpec.
Import ListNotations.
Open Scope Z_scope.

Lemma mload_32 mem i : mload mem (32 * i) = Some (mem (32 * i)).
Proof. unfold mload. rewrite Z.mul_comm, Z.mod_mul by lia. reflexivity. Qed.
Lemma mstore_32 mem i v : mstore mem (32 * i) v = Some (fun b => if b =? 32 * i then v else mem b).
Proof. unfold mstore. rewrite (Z.mul_comm 32 i), Z.mod_mul by lia. reflexivity. Qed.
Lemma mload_0 mem : mload mem 0 = Some (mem 0). Proof. reflexivity. Qed.

Section Proofs.
Context {P : fparams} (G : good P).
Notation F := (fe P).
Notation expr := (rexpr F).
Let o : ops F := fe_ops G.
Let L : lawful o := fe_lawful G.
Let p : Z := val (p_modulus P).
Let vl : F -> Z := fe_val.
Local Lemma p_range : 1 < p <= 2 ^ 255. Proof. exact (c_range _ _ (g_cons P G)). Qed.
Definition rep (w : Z) (u : F) : Prop := 0 <= w <= p /\ w mod p = vl u.
Local Lemma vl_range u : 0 <= vl u < p. Proof. exact (fe_val_range G u). Qed.
Local Lemma rep_vl u : rep (vl u) u.
Proof. pose proof (vl_range u). split; [lia|]. apply Z.mod_small. assumption. Qed.
Local Lemma rep_add w v a b : w mod p = vl a -> v mod p = vl b -> y_addmod w v p = vl (fadd o a b).
Proof.
  intros A E. pose proof p_range. unfold y_addmod. replace (p =? 0) with false by (symmetry; apply Z.eqb_neq; lia).
  unfold vl. cbn [fadd o fe_ops]. rewrite (fe_add_val G). fold p vl. rewrite <- A, <- E. apply Z.add_mod. lia.
Qed.
Local Lemma rep_mul w v a b : w mod p = vl a -> v mod p = vl b -> y_mulmod w v p = vl (fmul o a b).
Proof.
  intros A E. pose proof p_range. unfold y_mulmod. replace (p =? 0) with false by (symmetry; apply Z.eqb_neq; lia).
  unfold vl. cbn [fmul o fe_ops]. rewrite (fe_mul_val G). fold p vl. rewrite <- A, <- E. apply Z.mul_mod. lia.
Qed.
Local Lemma rep_neg w a : rep w a -> rep (y_sub p w) (fneg o a).
Proof.
  intros [R E]. pose proof p_range. unfold y_sub, W256. assert (2 ^ 255 < 2 ^ 256) by reflexivity. rewrite Z.mod_small by lia.
  split; [lia|]. unfold vl. cbn [fneg o fe_ops]. rewrite (fe_neg_val G). fold p vl. rewrite <- E.
  replace (p - w) with (- w + 1 * p) by lia. rewrite Z.mod_add by lia. rewrite <- (Z.sub_0_l (w mod p)), Zminus_mod_idemp_r. f_equal; lia.
Qed.
Local Lemma rep_exp w n a : 0 <= n -> w mod p = vl a -> modexp w n p = vl (fexp o a (Z.to_N n)).
Proof.
  intros N E. pose proof p_range. unfold modexp. replace (p =? 0) with false by (symmetry; apply Z.eqb_neq; lia).
  unfold vl, o. rewrite (fe_exp_val G), Z2N.id by lia. fold p vl. rewrite <- E. rewrite <- Zpower_mod by lia. reflexivity.
Qed.
Add Field Fld : (law_field o L).
Local Lemma small_spec w a : w mod p = vl a -> forall n r q, 0 <= r <= p -> r mod p = vl q -> rep (y_small n w p r) (fmul o q (fexp o a (N.of_nat n))).
Proof.
  intros E. induction n as [|n IH]; intros r q I R.
  - cbn [y_small N.of_nat]. rewrite (fexp_0 o). replace (fmul o q (f1 o)) with q by ring. split; assumption.
  - cbn [y_small]. rewrite Nat2N.inj_succ, (fexp_succ o). replace (fmul o q (fmul o a (fexp o a (N.of_nat n)))) with (fmul o (fmul o q a) (fexp o a (N.of_nat n))) by ring.
    rewrite (rep_mul r w q a R E). pose proof (vl_range (fmul o q a)). apply IH; [lia|]. apply Z.mod_small; assumption.
Qed.

(** ** Powers by the precompiled contract *)
Section Machine.
Context (data : Z -> Z) (c : Z) (Hc : 0 < c /\ 32 * c < 2 ^ 64).
Notation ctx := (32 * c).
Definition agree (mem mem' : memory) : Prop := forall a, a < ctx -> mem' a = mem a.
Local Lemma add_32 i j : 0 <= i -> 0 <= j -> 32 * i + 32 * j < 2 ^ 256 -> y_add (32 * i) (32 * j) = 32 * (i + j).
Proof. intros. unfold y_add, W256. rewrite Z.mod_small by lia. lia. Qed.
Local Lemma big64 : 2 ^ 64 + 1000 < 2 ^ 256. Proof. reflexivity. Qed.
Local Lemma expmod_spec b e mem : mem 0 = p -> exists mem', y_expmod ctx b e mem = Some (modexp b e p, mem') /\ agree mem mem'.
Proof.
  intros H0. pose proof big64. unfold y_expmod.
  change 0x20 with (32 * 1). change 0x40 with (32 * 2). change 0x60 with (32 * 3). change 0x80 with (32 * 4). change 0xa0 with (32 * 5).
  rewrite !add_32 by lia. rewrite !mstore_32. cbn [bind]. rewrite mstore_32. cbn [bind]. rewrite mstore_32. cbn [bind]. rewrite mstore_32. cbn [bind]. rewrite mstore_32. cbn [bind].
  rewrite mload_0. cbn [bind]. rewrite mstore_32. cbn [bind]. rewrite mload_32. cbn [bind]. rewrite mload_32. cbn [bind]. rewrite mload_32. cbn [bind]. rewrite mstore_32. cbn [bind]. rewrite mload_32. cbn [bind].
  assert (N : forall i j, i <> j -> (32 * i =? 32 * j) = false) by (intros; apply Z.eqb_neq; lia).
  assert (N0 : forall j, 0 < j -> (0 =? 32 * j) = false) by (intros; apply Z.eqb_neq; lia).
  rewrite !Z.eqb_refl, !N by lia. rewrite !N0 by lia. rewrite H0. eexists. split; [reflexivity|].
  intros a Ha. repeat (match goal with |- context [a =? ?z] => replace (a =? z) with false by (symmetry; apply Z.eqb_neq; lia) end). reflexivity.
Qed.

(** ** Expressions *)
Context (claims : list (list F)) (x : F) (T : nat -> Z -> option F).
Definition cv (e : expr) : option F := let? e' := substitute_claim o claims e in eval_expr o x T e'.
Lemma cv_denotes e v : cv e = Some v <-> denotes o claims x T e v.
Proof. unfold cv, denotes. split; [intros H; apply bind_some in H as (e' & A & E); eauto|intros (e' & A & E); rewrite A; exact E]. Qed.
Local Lemma cv_x : cv EX = Some x. Proof. reflexivity. Qed.
Local Lemma cv_const k : cv (EConst k) = Some k. Proof. reflexivity. Qed.
Local Ltac inv_cv H := unfold cv in *; unfold substitute_claim in H; cbn [map_expr] in H; repeat (apply bind_some in H as (? & ? & H)).
Local Lemma cv_add a b u : cv (EAdd a b) = Some u -> exists v w, cv a = Some v /\ cv b = Some w /\ u = fadd o v w.
Proof.
  unfold cv, substitute_claim. cbn [map_expr]. destruct (map_expr _ a) as [a'|]; [|discriminate]. cbn [bind]. destruct (map_expr _ b) as [b'|]; [|discriminate]. cbn [bind eval_expr].
  destruct (eval_expr o x T a') as [v|]; [|discriminate]. cbn [bind]. destruct (eval_expr o x T b') as [w|]; [|discriminate]. intros H. injection H as <-. eauto.
Qed.
Local Lemma cv_mul a b u : cv (EMul a b) = Some u -> exists v w, cv a = Some v /\ cv b = Some w /\ u = fmul o v w.
Proof.
  unfold cv, substitute_claim. cbn [map_expr]. destruct (map_expr _ a) as [a'|]; [|discriminate]. cbn [bind]. destruct (map_expr _ b) as [b'|]; [|discriminate]. cbn [bind eval_expr].
  destruct (eval_expr o x T a') as [v|]; [|discriminate]. cbn [bind]. destruct (eval_expr o x T b') as [w|]; [|discriminate]. intros H. injection H as <-. eauto.
Qed.
Local Lemma cv_neg a u : cv (ENeg a) = Some u -> exists v, cv a = Some v /\ u = fneg o v.
Proof.
  unfold cv, substitute_claim. cbn [map_expr]. destruct (map_expr _ a) as [a'|]; [|discriminate]. cbn [bind eval_expr].
  destruct (eval_expr o x T a') as [v|]; [|discriminate]. intros H. injection H as <-. eauto.
Qed.
Local Lemma cv_inv a u : cv (EInv a) = Some u -> exists v, cv a = Some v /\ v <> f0 o /\ u = finv o v.
Proof.
  unfold cv, substitute_claim. cbn [map_expr]. destruct (map_expr _ a) as [a'|]; [|discriminate]. cbn [bind eval_expr].
  destruct (eval_expr o x T a') as [v|]; [|discriminate]. cbn [bind]. unfold inv_opt. destruct (feqb_spec o L v (f0 o)); [discriminate|]. intros H. injection H as <-. eauto.
Qed.
Local Lemma cv_exp a n u : cv (EExp a n) = Some u -> exists v, cv a = Some v /\ u = pow_usize o v n.
Proof.
  unfold cv, substitute_claim. cbn [map_expr]. destruct (map_expr _ a) as [a'|]; [|discriminate]. cbn [bind eval_expr].
  destruct (eval_expr o x T a') as [v|]; [|discriminate]. intros H. injection H as <-. eauto.
Qed.
Local Lemma cv_exp_intro a n v : cv a = Some v -> cv (EExp a n) = Some (pow_usize o v n).
Proof.
  unfold cv, substitute_claim. cbn [map_expr]. destruct (map_expr _ a) as [a'|]; [|discriminate]. cbn [bind eval_expr]. intros ->. reflexivity.
Qed.
Local Lemma cv_poly q a u : cv (EPoly q a) = Some u -> exists v, cv a = Some v.
Proof.
  unfold cv, substitute_claim. cbn [map_expr]. destruct (map_expr _ a) as [a'|]; [|discriminate]. cbn [bind eval_expr].
  destruct (eval_expr o x T a') as [v|]; [|discriminate]. eauto.
Qed.
Local Lemma cv_claim i n a u : cv (EClaim i n a) = Some u -> exists v, cv a = Some v.
Proof.
  unfold cv, substitute_claim. cbn [map_expr]. destruct (map_expr _ a) as [a'|]; [|discriminate]. cbn [bind].
  destruct (nth_error claims i) as [q|]; [|discriminate]. cbn [bind]. destruct (poly_degree o q) as [d|]; [|discriminate]. cbn [bind]. destruct (_ <=? _); [|discriminate]. cbn [bind eval_expr].
  destruct (eval_expr o x T a') as [v|]; [|discriminate]. eauto.
Qed.
Local Lemma pow_val u n : 0 <= n < B -> pow_usize o u n = fexp o u (Z.to_N n).
Proof. intros H. apply (pow_usize_spec o L). exact H. Qed.
Local Lemma cv_collapse a f n u : 0 <= f -> 0 <= n -> n * f < B -> 0 <= f < B -> 0 <= n < B -> cv (EExp (EExp a f) n) = Some u -> cv (EExp a (n * f)) = Some u.
Proof.
  intros H1 H2 H3 H4 H5 H. apply cv_exp in H as (v & H & ->). apply cv_exp in H as (w & H & ->). rewrite (cv_exp_intro _ _ _ H). f_equal.
  rewrite !pow_val by nia. rewrite Z.mul_comm, Z2N.inj_mul by lia. apply (fexp_mul o L).
Qed.

(** A piece of code that leaves the memory below the scratch space alone and gives a word for [u] *)
Section Good.
Context (I : memory -> Prop) (I0 : forall mem, I mem -> mem 0 = p) (Ia : forall mem mem', I mem -> agree mem mem' -> I mem').
Definition sound (y : yul) (u : F) : Prop := forall mem, I mem -> exists w mem', yeval ctx data y mem = Some (w, mem') /\ agree mem mem' /\ rep w u.
Local Lemma agree_refl mem : agree mem mem. Proof. intros a _. reflexivity. Qed.
Local Lemma agree_trans m1 m2 m3 : agree m1 m2 -> agree m2 m3 -> agree m1 m3. Proof. intros A E a H. rewrite E, A by exact H. reflexivity. Qed.
Local Ltac step S mem Hm w mem' := let E := fresh "E" in let A := fresh "A" in let R := fresh "R" in let J := fresh "J" in
  destruct (S mem Hm) as (w & mem' & E & A & R); rewrite E; cbn [bind]; pose proof (Ia _ _ Hm A) as J.
Local Lemma modulus_eval mem : I mem -> yeval ctx data y_modulus mem = Some (p, mem).
Proof. intros H. unfold y_modulus. cbn [yeval bind]. rewrite mload_0. cbn [bind]. rewrite (I0 mem H). reflexivity. Qed.
Local Lemma sound_add a b u v : sound a u -> sound b v -> sound (YAddmod a b y_modulus) (fadd o u v).
Proof.
  intros A Bb mem H. change (yeval ctx data (YAddmod a b y_modulus) mem) with (let? r := yeval ctx data y_modulus mem in match r with (m, mem) => let? r := yeval ctx data b mem in match r with (b, mem) => let? r := yeval ctx data a mem in match r with (a, mem) => Some (y_addmod a b m, mem) end end end).
  rewrite modulus_eval by exact H. cbn [bind]. destruct (Bb mem H) as (w & m1 & -> & A1 & R1). cbn [bind]. destruct (A m1 (Ia _ _ H A1)) as (w' & m2 & -> & A2 & R2). cbn [bind].
  eexists _, _. split; [reflexivity|]. split; [eapply agree_trans; eassumption|]. rewrite (rep_add w' w u v (proj2 R2) (proj2 R1)). apply rep_vl.
Qed.
Local Lemma sound_mul a b u v : sound a u -> sound b v -> sound (YMulmod a b y_modulus) (fmul o u v).
Proof.
  intros A Bb mem H. change (yeval ctx data (YMulmod a b y_modulus) mem) with (let? r := yeval ctx data y_modulus mem in match r with (m, mem) => let? r := yeval ctx data b mem in match r with (b, mem) => let? r := yeval ctx data a mem in match r with (a, mem) => Some (y_mulmod a b m, mem) end end end).
  rewrite modulus_eval by exact H. cbn [bind]. destruct (Bb mem H) as (w & m1 & -> & A1 & R1). cbn [bind]. destruct (A m1 (Ia _ _ H A1)) as (w' & m2 & -> & A2 & R2). cbn [bind].
  eexists _, _. split; [reflexivity|]. split; [eapply agree_trans; eassumption|]. rewrite (rep_mul w' w u v (proj2 R2) (proj2 R1)). apply rep_vl.
Qed.
Local Lemma sound_neg a u : sound a u -> sound (YSub y_modulus a) (fneg o u).
Proof.
  intros A mem H. change (yeval ctx data (YSub y_modulus a) mem) with (let? r := yeval ctx data a mem in match r with (b, mem) => let? r := yeval ctx data y_modulus mem in match r with (a, mem) => Some (y_sub a b, mem) end end).
  destruct (A mem H) as (w & m1 & -> & A1 & R1). cbn [bind]. rewrite modulus_eval by exact (Ia _ _ H A1). cbn [bind].
  eexists _, _. split; [reflexivity|]. split; [exact A1|]. apply rep_neg. exact R1.
Qed.
Local Lemma rep_mod w u : rep w u -> vl u mod p = vl u. Proof. intros _. apply Z.mod_small, vl_range. Qed.
Local Lemma vl_mod u : vl u mod p = vl u. Proof. apply Z.mod_small, vl_range. Qed.
Local Lemma sound_power a u n y : 0 <= n < B -> (n <> 0 -> forall s, a = Some s -> sound s u) -> encode_power a n = Some y -> sound y (fexp o u (Z.to_N n)).
Proof.
  intros Hn A. unfold encode_power. destruct (Z.eqb_spec n 0) as [->|N0].
  - intros E. injection E as <-. intros mem H. exists 1, mem. cbn [yeval]. split; [reflexivity|]. split; [apply agree_refl|]. change (Z.to_N 0) with 0%N. rewrite (fexp_0 o).
    pose proof p_range. split; [lia|]. rewrite Z.mod_small by lia. symmetry. exact (fe1_val G).
  - destruct a as [s|]; [|discriminate]. specialize (A N0 s eq_refl). cbn [bind]. intros E. injection E as <-.
    assert (One : 1 mod p = vl (f1 o)) by (pose proof p_range; rewrite Z.mod_small by lia; symmetry; exact (fe1_val G)).
    destruct (Z.eqb_spec n 1) as [->|N1]; [change (Z.to_N 1) with 1%N; rewrite (fexp_1 o L); exact A|].
    intros mem H. destruct (A mem H) as (w & m1 & E1 & A1 & R1). pose proof (I0 _ (Ia _ _ H A1)) as M0.
    destruct (Z.eqb_spec n 2) as [->|N2]; [|destruct (Z.eqb_spec n 3) as [->|N3]; [|destruct (Z.eqb_spec n 4) as [->|N4]; [|destruct (Z.ltb_spec n 16) as [L16|G16]]]].
    + cbn [yeval]. rewrite E1. cbn [bind]. rewrite mload_0. cbn [bind]. rewrite M0. eexists _, _. split; [reflexivity|]. split; [exact A1|]. rewrite (rep_mul w w u u) by apply R1.
      replace (fexp o u (Z.to_N 2)) with (fmul o u u) by (change (Z.to_N 2) with (N.succ (N.succ 0%N)); rewrite !(fexp_succ o), (fexp_0 o); ring). apply rep_vl.
    + cbn [yeval]. rewrite E1. cbn [bind]. rewrite mload_0. cbn [bind]. rewrite M0. eexists _, _. split; [reflexivity|]. split; [exact A1|].
      rewrite (rep_mul w w u u) by apply R1. rewrite (rep_mul _ w (fmul o u u) u) by (try apply R1; apply vl_mod).
      replace (fexp o u (Z.to_N 3)) with (fmul o (fmul o u u) u) by (change (Z.to_N 3) with (N.succ (N.succ (N.succ 0%N))); rewrite !(fexp_succ o), (fexp_0 o); ring). apply rep_vl.
    + cbn [yeval]. rewrite E1. cbn [bind]. rewrite mload_0. cbn [bind]. rewrite M0. eexists _, _. split; [reflexivity|]. split; [exact A1|].
      rewrite (rep_mul w w u u) by apply R1. rewrite (rep_mul _ _ (fmul o u u) (fmul o u u)) by apply vl_mod.
      replace (fexp o u (Z.to_N 4)) with (fmul o (fmul o u u) (fmul o u u)) by (change (Z.to_N 4) with (N.succ (N.succ (N.succ (N.succ 0%N)))); rewrite !(fexp_succ o), (fexp_0 o); ring). apply rep_vl.
    + cbn [yeval bind]. rewrite E1. cbn [bind]. rewrite mload_0. cbn [bind]. rewrite M0. eexists _, _. split; [reflexivity|]. split; [exact A1|].
      pose proof p_range. pose proof (small_spec w u (proj2 R1) (Z.to_nat n) 1 (f1 o) ltac:(lia) One) as Q. replace (fmul o (f1 o) (fexp o u (N.of_nat (Z.to_nat n)))) with (fexp o u (N.of_nat (Z.to_nat n))) in Q by ring.
      replace (Z.to_N n) with (N.of_nat (Z.to_nat n)) by lia. exact Q.
    + cbn [yeval bind]. rewrite E1. cbn [bind]. destruct (expmod_spec w n m1 M0) as (m2 & -> & A2). eexists _, _. split; [reflexivity|]. split; [eapply agree_trans; eassumption|].
      rewrite (rep_exp w n u) by (try apply R1; lia). apply rep_vl.
Qed.

Context (hasher : list (token (F := F)) -> Z) (fixed_point : F) (S : expr -> Prop) (l : layout (F := F)).
Notation get := (get o hasher fixed_point). Notation encode := (soldity_encode o true vl hasher fixed_point).
Context (S_add : forall a b, S (EAdd a b) -> S a /\ S b) (S_mul : forall a b, S (EMul a b) -> S a /\ S b) (S_neg : forall a, S (ENeg a) -> S a)
  (S_exp : forall a n, S (EExp a n) -> S a /\ 0 <= n < B) (S_collapse : forall a f n, S (EExp (EExp a f) n) -> n * f < B -> S (EExp a (n * f))).
Context (Sl : forall e y u, S e -> get l e = Some y -> cv e = Some u -> sound y u).
Fixpoint collapse (a : expr) (n : Z) : option yul :=
  match a with
  | EExp a' f => let? n := umul true n f in match get l (EExp a' n) with Some s => Some s | None => collapse a' n end
  | _ => encode_power (encode l a) n
  end.
Local Lemma encode_exp a n : encode l (EExp a n) = match get l (EExp a n) with Some s => Some s | None => collapse a n end.
Proof. reflexivity. Qed.
Local Lemma encode_both : forall e, (forall y u, S e -> encode l e = Some y -> cv e = Some u -> sound y u)
  /\ (forall n y u, S (EExp e n) -> collapse e n = Some y -> cv (EExp e n) = Some u -> sound y u).
Proof.
  assert (Base : forall b m y u, (forall y u, S b -> encode l b = Some y -> cv b = Some u -> sound y u) -> S (EExp b m) -> encode_power (encode l b) m = Some y -> cv (EExp b m) = Some u -> sound y u).
  { intros b m y u IHb Sm Em Vm. destruct (S_exp _ _ Sm) as [Sb Hm]. apply cv_exp in Vm as (v & Vb & ->). rewrite pow_val by exact Hm. eapply sound_power; [exact Hm| |exact Em]. intros _ s Es. eapply IHb; eassumption. }
  induction e as [|k|i j|q a IH|i n a IH|a IHa b IHb|a IH|a IHa b IHb|a IH|a IH n];
    (match goal with |- ?A /\ _ => assert (HA : A); [intros y u HS E V; cbn [soldity_encode] in E;
    match type of E with match ?g with _ => _ end = _ => destruct g as [s|] eqn:Eg end;
    [injection E as <-; eapply Sl; eassumption|]; try discriminate E|] end);
    try (split; [exact HA|]; intros; eapply Base; eassumption).
  - injection E as <-. rewrite cv_const in V. injection V as <-. intros mem H. exists (vl k), mem. split; [reflexivity|]. split; [apply agree_refl|apply rep_vl].
  - destruct (S_add _ _ HS) as [Sa Sb]. apply cv_add in V as (v & w & Va & Vb & ->). apply bind_some in E as (ya & Ea & E). apply bind_some in E as (yb & Eb & E). injection E as <-. apply sound_add; [eapply (proj1 IHa)|eapply (proj1 IHb)]; eassumption.
  - apply cv_neg in V as (v & Va & ->). apply bind_some in E as (ya & Ea & E). injection E as <-. apply sound_neg. eapply (proj1 IH); try eassumption. apply S_neg. exact HS.
  - destruct (S_mul _ _ HS) as [Sa Sb]. apply cv_mul in V as (v & w & Va & Vb & ->). apply bind_some in E as (ya & Ea & E). apply bind_some in E as (yb & Eb & E). injection E as <-. apply sound_mul; [eapply (proj1 IHa)|eapply (proj1 IHb)]; eassumption.
  - eapply (proj2 IH); [exact HS| |exact V]. exact E.
  - split; [exact HA|]. intros n0 y u HS E V. cbn [collapse] in E. apply bind_some in E as (n' & En & E). apply umul_true in En as [-> Hn].
    destruct (S_exp _ _ HS) as [Sf Hn']. destruct (S_exp _ _ Sf) as [Sb Hf].
    pose proof (S_collapse _ _ _ HS Hn) as Sc. pose proof (cv_collapse a n n0 u ltac:(lia) ltac:(lia) Hn Hf Hn' V) as Vc.
    destruct (get l (EExp a (n0 * n))) as [s|] eqn:Eg; [injection E as <-; eapply Sl; eassumption|]. eapply (proj2 IH); eassumption.
Qed.
Lemma encode_sound e y u : S e -> encode l e = Some y -> cv e = Some u -> sound y u.
Proof. apply encode_both. Qed.
End Good.

(** ** Memory *)
Definition facts (fs : list (Z * F)) (mem : memory) : Prop := mem 0 = p /\ forall i u, In (i, u) fs -> rep (mem (32 * i)) u.
Definition within (lo hi : Z) (fs : list (Z * F)) : Prop := forall i u, In (i, u) fs -> lo <= i < hi.
Local Lemma facts_agree fs : within 1 c fs -> forall mem mem', facts fs mem -> agree mem mem' -> facts fs mem'.
Proof. intros W mem mem' [H0 H] A. split; [rewrite A by lia; exact H0|]. intros i u Hi. specialize (W i u Hi). rewrite A by lia. apply H. exact Hi. Qed.
Local Lemma facts_0 fs mem : facts fs mem -> mem 0 = p. Proof. intros [H _]. exact H. Qed.
Local Lemma facts_incl fs fs' mem : incl fs fs' -> facts fs' mem -> facts fs mem.
Proof. intros Hi [H0 H]. split; [exact H0|]. intros i u Hu. apply H, Hi, Hu. Qed.
Local Lemma facts_store fs i w u mem : within 1 i fs -> 1 <= i -> facts fs mem -> rep w u -> facts ((i, u) :: fs) (fun b => if b =? 32 * i then w else mem b).
Proof.
  intros W Hi [H0 H] R. split.
  - replace (0 =? 32 * i) with false by (symmetry; apply Z.eqb_neq; lia). exact H0.
  - intros j v [E|Hj]; [injection E as <- <-; rewrite Z.eqb_refl; exact R|]. specialize (W j v Hj). replace (32 * j =? 32 * i) with false by (symmetry; apply Z.eqb_neq; lia). apply H. exact Hj.
Qed.
Local Lemma sound_incl fs fs' y u : incl fs fs' -> sound (facts fs) y u -> sound (facts fs') y u.
Proof. intros Hi H mem M. apply H. eapply facts_incl; eassumption. Qed.
Fixpoint number (i : Z) (us : list F) : list (Z * F) := match us with [] => [] | u :: us => (i, u) :: number (i + 1) us end.
Local Lemma number_within us : forall i, within i (i + Z.of_nat (length us)) (number i us).
Proof. induction us as [|u us IH]; intros i j v H; [destruct H|]. cbn [number length] in *. destruct H as [E|H]; [injection E as <- <-; lia|]. specialize (IH _ _ _ H). lia. Qed.
Local Lemma number_app us vs : forall i, number i (us ++ vs) = number i us ++ number (i + Z.of_nat (length us)) vs.
Proof. induction us as [|u us IH]; intros i; cbn [number app length]; [f_equal; lia|]. rewrite IH. do 3 f_equal. lia. Qed.
Local Lemma number_map f us : forall i j u, In (j, u) (number i us) -> In (j, f u) (number i (map f us)).
Proof. induction us as [|v us IH]; intros i j u H; [destruct H|]. cbn [number map] in *. destruct H as [E|H]; [left; injection E as <- <-; reflexivity|right; apply IH; exact H]. Qed.
Local Lemma within_weak a b a' b' fs : within a b fs -> a' <= a -> b <= b' -> within a' b' fs.
Proof. intros W Ha Hb i u H. specialize (W i u H). lia. Qed.
Local Lemma within_app a b fs fs' : within a b fs -> within a b fs' -> within a b (fs ++ fs').
Proof. intros W W' i u H. apply in_app_or in H as [H|H]; [apply W in H|apply W' in H]; exact H. Qed.

(** ** The batch inversion *)
Section Batch.
Context (k : contract) (nn s0 : Z) (Hs0 : 1 <= s0) (Hnn : 0 <= nn) (Hbig : 32 * (s0 + nn + nn) <= 2 ^ 64)
  (Eptv : products_to_values k = 32 * nn) (Eend : partial_product_end k = 32 * (s0 + nn)) (Efirst : first_partial_product k = 32 * s0).
Fixpoint prefixes (q : F) (us : list F) : list F := match us with [] => [] | u :: us => q :: prefixes (fmul o q u) us end.
Local Lemma cumulate_spec : forall us s q mem fuel, (length us < fuel)%nat -> mem 0 = p -> s0 <= s -> s + Z.of_nat (length us) = s0 + nn ->
  (forall i u, In (i, u) (number (s + nn) us) -> rep (mem (32 * i)) u) ->
  exists mem', cumulate k fuel (32 * s) (vl q) mem = Some (vl (fmul o q (fprod o us)), mem')
    /\ (forall a, a < 32 * s \/ 32 * (s0 + nn) <= a -> mem' a = mem a) /\ (forall i w, In (i, w) (number s (prefixes q us)) -> mem' (32 * i) = vl w).
Proof.
  pose proof big64 as Big. induction us as [|u us IH]; intros s q mem fuel Hf H0 Hs Hl Hv; (destruct fuel as [|fuel]; [cbn in Hf; lia|]); cbn [length] in *; cbn [cumulate]; rewrite Eend.
  - replace (32 * s <? 32 * (s0 + nn)) with false by (symmetry; apply Z.ltb_ge; lia). exists mem. rewrite (fprod_nil o). replace (fmul o q (f1 o)) with q by ring. split; [reflexivity|]. split; [reflexivity|]. intros i w [].
  - replace (32 * s <? 32 * (s0 + nn)) with true by (symmetry; apply Z.ltb_lt; lia). rewrite mstore_32. cbn [bind]. rewrite mload_0. cbn [bind]. rewrite Eptv. rewrite add_32 by lia. rewrite mload_32. cbn [bind].
    replace (0 =? 32 * s) with false by (symmetry; apply Z.eqb_neq; lia). replace (32 * (s + nn) =? 32 * s) with false by (symmetry; apply Z.eqb_neq; lia). rewrite H0.
    rewrite (rep_mul (vl q) _ q u) by (try apply vl_mod; apply (Hv (s + nn) u); left; reflexivity). replace (y_add (32 * s) 0x20) with (32 * (s + 1)) by (symmetry; apply (add_32 s 1); lia).
    destruct (IH (s + 1) (fmul o q u) (fun b => if b =? 32 * s then vl q else mem b) fuel) as (mem' & E & Ho & Hp); try lia.
    + replace (0 =? 32 * s) with false by (symmetry; apply Z.eqb_neq; lia). exact H0.
    + intros i v Hi. pose proof (number_within _ _ _ _ Hi). replace (32 * i =? 32 * s) with false by (symmetry; apply Z.eqb_neq; lia). apply Hv. right. replace (s + nn + 1) with (s + 1 + nn) by lia. exact Hi.
    + rewrite E. exists mem'. rewrite (fprod_cons o). replace (fmul o q (fmul o u (fprod o us))) with (fmul o (fmul o q u) (fprod o us)) by ring. split; [reflexivity|]. split.
      * intros a Ha. rewrite Ho by lia. replace (a =? 32 * s) with false by (symmetry; apply Z.eqb_neq; lia). reflexivity.
      * intros i w [Ei|Hi]; [|apply Hp; exact Hi]. injection Ei as <- <-. rewrite Ho by lia. rewrite Z.eqb_refl. reflexivity.
Qed.
Local Lemma prefixes_app us vs : forall q, prefixes q (us ++ vs) = prefixes q us ++ prefixes (fmul o q (fprod o us)) vs.
Proof.
  induction us as [|u us IH]; intros q; cbn [app prefixes].
  - rewrite (fprod_nil o). replace (fmul o q (f1 o)) with q by ring. reflexivity.
  - rewrite IH, (fprod_cons o). cbn [app]. do 3 f_equal. ring.
Qed.
Local Lemma prefixes_len us : forall q, length (prefixes q us) = length us.
Proof. induction us as [|u us IH]; intros q; cbn; [reflexivity|]. rewrite IH. reflexivity. Qed.
Local Lemma distribute_spec : forall us mem fuel, (length us < fuel)%nat -> mem 0 = p -> Z.of_nat (length us) <= nn -> (forall u, In u us -> u <> f0 o) ->
  (forall i u, In (i, u) (number (s0 + nn) us) -> rep (mem (32 * i)) u) -> (forall i w, In (i, w) (number s0 (prefixes (f1 o) us)) -> mem (32 * i) = vl w) ->
  exists mem', distribute k fuel (32 * (s0 + Z.of_nat (length us))) (vl (finv o (fprod o us))) mem = Some mem'
    /\ (forall a, a < 32 * s0 \/ 32 * (s0 + Z.of_nat (length us)) <= a -> mem' a = mem a) /\ (forall i w, In (i, w) (number s0 (map (finv o) us)) -> mem' (32 * i) = vl w).
Proof.
  pose proof big64 as Big. induction us as [|u us IH] using rev_ind; intros mem fuel Hf H0 Hl Hn Hv Hp; (destruct fuel as [|fuel]; [lia|]); cbn [distribute]; rewrite Efirst.
  - cbn [length]. replace (32 * s0 <? 32 * (s0 + Z.of_nat 0)) with false by (symmetry; apply Z.ltb_ge; lia). exists mem. split; [reflexivity|]. split; [reflexivity|]. intros i w [].
  - rewrite app_length in *. cbn [length] in *. rewrite number_app in Hv. rewrite prefixes_app, number_app, prefixes_len in Hp. cbn [number prefixes] in Hv, Hp.
    set (n := Z.of_nat (length us)) in *. assert (En : Z.of_nat (length us + 1) = n + 1) by lia. rewrite En in *.
    replace (32 * s0 <? 32 * (s0 + (n + 1))) with true by (symmetry; apply Z.ltb_lt; lia).
    assert (Ep : y_sub (32 * (s0 + (n + 1))) 0x20 = 32 * (s0 + n)) by (unfold y_sub, W256; rewrite Z.mod_small by lia; lia). rewrite Ep.
    rewrite mload_0. cbn [bind]. rewrite mload_32. cbn [bind]. rewrite mstore_32. cbn [bind]. rewrite Eptv, add_32 by lia. rewrite mload_32. cbn [bind].
    replace (32 * (s0 + n + nn) =? 32 * (s0 + n)) with false by (symmetry; apply Z.eqb_neq; lia). rewrite H0.
    assert (Nu : u <> f0 o) by (apply Hn, in_or_app; right; left; reflexivity). assert (Np : fprod o us <> f0 o) by (apply (fprod_neq_0 o L); intros v Hin; apply Hn, in_or_app; left; exact Hin).
    assert (Ef : fprod o (us ++ [u]) = fmul o (fprod o us) u) by (rewrite (fprod_app o L), (fprod_cons o), (fprod_nil o); ring).
    assert (Wq : mem (32 * (s0 + n)) = vl (fprod o us)) by (rewrite (Hp (s0 + n) (fmul o (f1 o) (fprod o us))); [f_equal; ring|apply in_or_app; right; left; reflexivity]).
    assert (Wd : rep (mem (32 * (s0 + n + nn))) u) by (replace (s0 + n + nn) with (s0 + nn + n) by lia; apply Hv, in_or_app; right; left; reflexivity).
    rewrite Wq, Ef, (finv_mul o L) by assumption.
    rewrite (rep_mul (vl (fprod o us)) (vl (fmul o (finv o (fprod o us)) (finv o u))) (fprod o us) (fmul o (finv o (fprod o us)) (finv o u))) by apply vl_mod.
    rewrite (rep_mul (vl (fmul o (finv o (fprod o us)) (finv o u))) (mem (32 * (s0 + n + nn))) (fmul o (finv o (fprod o us)) (finv o u)) u) by (apply vl_mod || apply Wd).
    replace (fmul o (fprod o us) (fmul o (finv o (fprod o us)) (finv o u))) with (finv o u) by (field; split; assumption).
    replace (fmul o (fmul o (finv o (fprod o us)) (finv o u)) u) with (finv o (fprod o us)) by (field; split; assumption).
    destruct (IH (fun b => if b =? 32 * (s0 + n) then vl (finv o u) else mem b) fuel) as (mem' & E & Ho & Hi); try lia.
    + replace (0 =? 32 * (s0 + n)) with false by (symmetry; apply Z.eqb_neq; lia). exact H0.
    + intros v Hin. apply Hn, in_or_app. left. exact Hin.
    + intros i v Hin. pose proof (number_within _ _ _ _ Hin). replace (32 * i =? 32 * (s0 + n)) with false by (symmetry; apply Z.eqb_neq; lia). apply Hv, in_or_app. left. exact Hin.
    + intros i v Hin. pose proof (number_within _ _ _ _ Hin) as Hw. rewrite prefixes_len in Hw. replace (32 * i =? 32 * (s0 + n)) with false by (symmetry; apply Z.eqb_neq; lia). apply Hp, in_or_app. left. exact Hin.
    + rewrite E. exists mem'. split; [reflexivity|]. split.
      * intros a Ha. rewrite Ho by lia. replace (a =? 32 * (s0 + n)) with false by (symmetry; apply Z.eqb_neq; lia). reflexivity.
      * intros i w Hin. rewrite map_app, number_app, map_length in Hin. fold n in Hin. apply in_app_or in Hin as [Hin|[Ei|[]]]; [apply Hi; exact Hin|]. injection Ei as <- <-. rewrite Ho by lia. rewrite Z.eqb_refl. reflexivity.
Qed.
End Batch.

(** ** The layout *)
Section Layout.
Context (hasher : list (token (F := F)) -> Z) (fixed_point : F).
Notation hash := (get_hash o hasher fixed_point). Notation get := (get o hasher fixed_point). Notation encode := (soldity_encode o true vl hasher fixed_point).
Local Lemma get_in l e y : get l e = Some y -> exists k, In (k, y) l /\ hash k = hash e.
Proof.
  unfold ContractModel.get. destruct (find _ l) as [[k y']|] eqn:E; [|discriminate]. cbn [option_map snd]. intros H. injection H as ->. apply find_some in E as [Hi E]. cbn [fst] in E. apply Z.eqb_eq in E. eauto.
Qed.
Local Lemma place_inputs_in : forall (keys : list expr) index (l : layout) k y, In (k, y) (place_inputs keys index l) -> In (k, y) l \/ exists j, nth_error keys j = Some k /\ y = YCalldataload (YNum ((index + Z.of_nat j) * 32)).
Proof.
  induction keys as [|e keys IH]; intros index l k y H; cbn [place_inputs] in H; [left; exact H|].
  apply IH in H as [[E|H]|(j & Hj & ->)].
  - injection E as -> <-. right. exists O. split; [reflexivity|]. rewrite Z.add_0_r. reflexivity.
  - left. exact H.
  - right. exists (Datatypes.S j). split; [exact Hj|]. do 3 f_equal. lia.
Qed.
Context (k : contract) (Ek : expmod_context k = 32 * c) (D0 : data 0 = vl x).
Local Lemma adjust_spec : forall degrees index l das index' l', place_adjustments o hasher fixed_point degrees index l = (das, index', l') -> 1 <= index -> (forall d, In d degrees -> 0 <= d < B) ->
  exists fs, index <= index' /\ within index index' fs
    /\ (forall e y, In (e, y) l' -> In (e, y) l \/ exists d i, In d degrees /\ e = EExp EX d /\ y = YMload (YNum (i * 32)) /\ In (i, fexp o x (Z.to_N d)) fs)
    /\ (index' <= c -> forall fs0 mem, within 1 index fs0 -> facts fs0 mem -> exists mem', store_adjustments k data das mem = Some mem' /\ facts (fs ++ fs0) mem').
Proof.
  induction degrees as [|d degrees IH]; intros index l das index' l' E Hi Hd; cbn [place_adjustments] in E.
  - injection E as <- <- <-. exists []. split; [lia|]. split; [intros i u []|]. split; [intros; left; assumption|]. intros _ fs0 mem _ H. exists mem. split; [reflexivity|exact H].
  - destruct (get l (EExp EX d)) as [y0|].
    + destruct (IH _ _ _ _ _ E Hi) as (fs & A1 & A2 & A3 & A4); [intros d' H; apply Hd; right; exact H|]. exists fs. split; [exact A1|]. split; [exact A2|]. split; [|exact A4].
      intros e y H. destruct (A3 e y H) as [H'|(d' & i & Hin & R)]; [left; exact H'|right; exists d', i; split; [right; exact Hin|exact R]].
    + destruct (place_adjustments _ _ _ degrees (index + 1) _) as [[das1 i1] l1] eqn:E1. injection E as <- <- <-.
      destruct (IH _ _ _ _ _ E1 ltac:(lia)) as (fs & A1 & A2 & A3 & A4); [intros d' H; apply Hd; right; exact H|].
      exists ((index, fexp o x (Z.to_N d)) :: fs). split; [lia|]. split; [intros i u [Ei|H]; [injection Ei as <- <-; lia|specialize (A2 i u H); lia]|]. split.
      * intros e y H. destruct (A3 e y H) as [[Ee|H']|(d' & i & Hin & Ee & Ey & Hf)].
        -- injection Ee as <- <-. right. exists d, index. split; [left; reflexivity|]. split; [reflexivity|]. split; [reflexivity|left; reflexivity].
        -- left. exact H'.
        -- right. exists d', i. split; [right; exact Hin|]. split; [exact Ee|]. split; [exact Ey|right; exact Hf].
      * intros Hc' fs0 mem W M. cbn [store_adjustments]. unfold y_point. cbn [yeval bind]. rewrite D0, Ek.
        destruct (expmod_spec (vl x) d mem (facts_0 _ _ M)) as (m1 & E2 & Ag). rewrite E2. cbn [bind fst snd]. rewrite (Z.mul_comm index 32), mstore_32. cbn [bind].
        assert (Wc : within 1 c fs0) by (eapply within_weak; [exact W|lia|lia]).
        destruct (A4 Hc' ((index, fexp o x (Z.to_N d)) :: fs0) (fun b => if b =? 32 * index then modexp (vl x) d p else m1 b)) as (m2 & E3 & M3).
        -- intros i u [Ei|H]; [injection Ei as <- <-; lia|specialize (W i u H); lia].
        -- apply facts_store; [exact W|exact Hi|eapply facts_agree; eassumption|]. rewrite (rep_exp (vl x) d x) by (apply vl_mod || apply Hd; left; reflexivity). apply rep_vl.
        -- exists m2. split; [exact E3|]. eapply facts_incl; [|exact M3]. intros a Ha. cbn [app] in Ha. destruct Ha as [<-|Ha]; [apply in_or_app; right; left; reflexivity|].
           apply in_app_or in Ha as [Ha|Ha]; apply in_or_app; [left|right; right]; exact Ha.
Qed.
Section Inverses.
Context (S1 : expr -> Prop) (fs0 : list (Z * F)) (W0 : within 1 c fs0).
Context (S_add : forall a b, S1 (EAdd a b) -> S1 a /\ S1 b) (S_mul : forall a b, S1 (EMul a b) -> S1 a /\ S1 b) (S_neg : forall a, S1 (ENeg a) -> S1 a)
  (S_exp : forall a n, S1 (EExp a n) -> S1 a /\ 0 <= n < B) (S_collapse : forall a f n, S1 (EExp (EExp a f) n) -> n * f < B -> S1 (EExp a (n * f))).
Local Lemma inverses_spec : forall keys index position l bs l', place_inverses o true vl hasher fixed_point keys index position l = Some (bs, l') -> 1 <= index -> index + Z.of_nat (length keys) <= c ->
  (forall a, In (EInv a) keys -> S1 a /\ exists v, cv a = Some v) -> (forall a e, In (EInv a) keys -> S1 e -> hash (EInv a) <> hash e) ->
  (forall e y u, S1 e -> get l e = Some y -> cv e = Some u -> sound (facts fs0) y u) ->
  exists us, length us = length keys /\ length bs = length keys /\ Forall2 (fun e v => exists a, e = EInv a /\ cv a = Some v) keys us
    /\ (forall e y, In (e, y) l' -> In (e, y) l \/ exists a v i, e = EInv a /\ In e keys /\ cv a = Some v /\ y = YMload (YNum (i * 32)) /\ In (i, v) (number position us))
    /\ (forall fs mem, incl fs0 fs -> within 1 index fs -> facts fs mem -> exists mem', store_values k data bs mem = Some mem' /\ facts (number index us ++ fs) mem').
Proof.
  induction keys as [|e keys IH]; intros index position l bs l' E Hi Hc' Hk Hh Hl; cbn [place_inverses] in E.
  - injection E as <- <-. exists []. split; [reflexivity|]. split; [reflexivity|]. split; [constructor|]. split; [intros; left; assumption|]. intros fs mem _ _ M. exists mem. split; [reflexivity|exact M].
  - destruct e as [|?|? ?|? ?|? ? ?|? ?|?|? ?|a|? ?]; try discriminate E. apply bind_some in E as (y & Ey & E). apply bind_some in E as ([bs1 l1] & E1 & E). cbn [fst snd] in E. injection E as <- <-.
    cbn [length] in Hc'. destruct (Hk a (or_introl eq_refl)) as [Sa (v & Va)].
    assert (Sy : sound (facts fs0) y v) by (eapply (encode_sound (facts fs0) (facts_0 fs0) (facts_agree fs0 W0) hasher fixed_point S1 l); eassumption).
    destruct (IH _ _ _ _ _ E1) as (us & L1 & L2 & A1 & A2 & A3); [lia|lia|intros b H; apply Hk; right; exact H|intros b e H; apply Hh; right; exact H| |].
    { intros e y' u Se Eg. unfold ContractModel.get in Eg. cbn [find fst] in Eg. destruct (Z.eqb_spec (hash (EInv a)) (hash e)) as [Eh|_]; [exfalso; exact (Hh a e (or_introl eq_refl) Se Eh)|]. apply Hl; [exact Se|exact Eg]. }
    exists (v :: us). cbn [length]. split; [lia|]. split; [lia|]. split; [constructor; [eauto|exact A1]|]. split.
    + intros e y' H. destruct (A2 e y' H) as [[Ee|H']|(b & w & i & Ee & Hin & Vb & Ey' & Hf)].
      * injection Ee as <- <-. right. exists a, v, position. split; [reflexivity|]. split; [left; reflexivity|]. split; [exact Va|]. split; [reflexivity|left; reflexivity].
      * left. exact H'.
      * right. exists b, w, i. split; [exact Ee|]. split; [right; exact Hin|]. split; [exact Vb|]. split; [exact Ey'|right; exact Hf].
    + intros fs mem Hincl W M. cbn [store_values]. rewrite Ek. destruct (Sy mem (facts_incl _ _ _ Hincl M)) as (w & m1 & -> & Ag & R). cbn [bind fst snd]. rewrite (Z.mul_comm index 32), mstore_32. cbn [bind].
      destruct (A3 ((index, v) :: fs) (fun b => if b =? 32 * index then w else m1 b)) as (m2 & E3 & M3).
      * intros b Hb. right. apply Hincl. exact Hb.
      * intros i u [Ei|H]; [injection Ei as <- <-; lia|specialize (W i u H); lia].
      * apply facts_store; [exact W|exact Hi| |exact R]. eapply facts_agree; [|exact M|exact Ag]. eapply within_weak; [exact W|lia|lia].
      * exists m2. split; [exact E3|]. eapply facts_incl; [|exact M3]. cbn [number]. intros b Hb. cbn [app] in Hb. destruct Hb as [<-|Hb]; [apply in_or_app; right; left; reflexivity|].
        apply in_app_or in Hb as [Hb|Hb]; apply in_or_app; [left|right; right]; exact Hb.
Qed.
End Inverses.
(** ** The sum *)
Fixpoint wsum (vs : list F) (degrees : list Z) (pairs : list (F * F)) : F :=
  match vs, degrees, pairs with
  | v :: vs, d :: degrees, (lo, hi) :: pairs => fadd o (fmul o (fadd o lo (fmul o hi (fexp o x (Z.to_N d)))) v) (wsum vs degrees pairs)
  | _, _, _ => f0 o
  end.
Section Sums.
Context (S2 : expr -> Prop) (fs : list (Z * F)) (W : within 1 c fs) (l : layout (F := F)).
Context (S_add : forall a b, S2 (EAdd a b) -> S2 a /\ S2 b) (S_mul : forall a b, S2 (EMul a b) -> S2 a /\ S2 b) (S_neg : forall a, S2 (ENeg a) -> S2 a)
  (S_exp : forall a n, S2 (EExp a n) -> S2 a /\ 0 <= n < B) (S_collapse : forall a f n, S2 (EExp (EExp a f) n) -> n * f < B -> S2 (EExp a (n * f))).
Context (Hl : forall e y u, S2 e -> get l e = Some y -> cv e = Some u -> sound (facts fs) y u).
Local Lemma sums_spec : forall exprs degrees ci cs vs pairs res mem, place_sums o true vl hasher fixed_point l exprs degrees ci = Some cs ->
  Forall2 (fun e v => S2 e /\ cv e = Some v) exprs vs -> (forall d, In d degrees -> S2 (EExp EX d)) -> length degrees = length exprs -> length pairs = length exprs ->
  (forall j lo hi, nth_error pairs j = Some (lo, hi) -> data ((ci + 2 * Z.of_nat j) * 32) = vl lo /\ data ((ci + 2 * Z.of_nat j + 1) * 32) = vl hi) ->
  facts fs mem -> sum_up k data cs (vl res) mem = Some (vl (fadd o res (wsum vs degrees pairs))).
Proof.
  induction exprs as [|e exprs IH]; intros degrees ci cs vs pairs res mem E Hv Hd Ld Lp Hp M.
  - cbn [place_sums] in E. injection E as <-. inversion Hv; subst. cbn [sum_up wsum]. do 2 f_equal. ring.
  - destruct degrees as [|d degrees]; [discriminate Ld|]. destruct pairs as [|[lo hi] pairs]; [discriminate Lp|]. inversion Hv as [|? v ? vs' [Se Ve] Hv']; subst.
    cbn [place_sums] in E. apply bind_some in E as (ya & Ea & E). apply bind_some in E as (y & Ey & E). apply bind_some in E as (r & Er & E). injection E as <-. cbn [sum_up]. rewrite Ek.
    pose proof (encode_sound (facts fs) (facts_0 fs) (facts_agree fs W) hasher fixed_point S2 l S_add S_mul S_neg S_exp S_collapse Hl e y v Se Ey Ve) as Sy.
    pose proof (Hd d (or_introl eq_refl)) as Sd. pose proof (proj2 (S_exp _ _ Sd)) as Rd. pose proof (cv_exp_intro EX d x cv_x) as Vd. rewrite pow_val in Vd by exact Rd.
    destruct (Sy mem M) as (w & m1 & -> & A1 & R1). cbn [bind]. pose proof (facts_agree fs W _ _ M A1) as M1. rewrite mload_0. cbn [bind]. rewrite (facts_0 _ _ M1).
    destruct (Hl _ _ _ Sd Ea Vd m1 M1) as (w2 & m2 & -> & A2 & R2). cbn [bind].
    destruct (Hp O lo hi eq_refl) as [P1 P2]. rewrite !Z.mul_0_r, !Z.add_0_r in P1, P2. rewrite P1, P2.
    rewrite (rep_mul (vl hi) w2 hi (fexp o x (Z.to_N d)) (vl_mod hi) (proj2 R2)).
    assert (Eadd : y_add (vl lo) (vl (fmul o hi (fexp o x (Z.to_N d)))) mod p = vl (fadd o lo (fmul o hi (fexp o x (Z.to_N d))))).
    { pose proof (vl_range lo). pose proof (vl_range (fmul o hi (fexp o x (Z.to_N d)))). pose proof p_range. unfold y_add, W256. assert (2 ^ 255 + 2 ^ 255 = 2 ^ 256) by reflexivity. rewrite (Z.mod_small _ (2 ^ 256)) by lia.
      pose proof (rep_add _ _ lo (fmul o hi (fexp o x (Z.to_N d))) (vl_mod _) (vl_mod _)) as Q. unfold y_addmod in Q. replace (p =? 0) with false in Q by (symmetry; apply Z.eqb_neq; lia). exact Q. }
    rewrite (rep_mul w _ v _ (proj2 R1) Eadd). rewrite (rep_add (vl res) _ res _ (vl_mod _) (vl_mod _)).
    rewrite (IH degrees (ci + 2) r vs' pairs).
    + cbn [wsum]. do 2 f_equal. ring.
    + exact Er.
    + exact Hv'.
    + intros d' H. apply Hd. right. exact H.
    + injection Ld as ->. reflexivity.
    + injection Lp as ->. reflexivity.
    + intros j lo' hi' Hj. destruct (Hp (Datatypes.S j) lo' hi' Hj) as [Q1 Q2]. rewrite <- Q1, <- Q2. split; f_equal; lia.
    + eapply facts_agree; eassumption.
Qed.
End Sums.
End Layout.
End Machine.

(** ** The whole contract *)
Section Main.
Context (hasher : list (token (F := F)) -> Z) (fixed_point : F) (order trace_order : list expr -> list expr).
Notation hash := (get_hash o hasher fixed_point).
Context (Po : forall l, Permutation (order l) l) (Pt : forall l, Permutation (trace_order l) l).
Context (cs : constraints (F := F)) (Sep : separated o hasher fixed_point cs) (Un : unnested o cs) (Us : Forall usizes (c_exprs cs)).
Context (claims : list (list F)) (x : F) (T : nat -> Z -> option F).
Notation cv := (cv claims x T).
Local Lemma collect_incl l e : In e (collect o hasher fixed_point l) -> In e l.
Proof. induction l as [|a l IH]; [intros []|]. cbn [collect]. intros [->|H]; [left; reflexivity|]. apply filter_In in H as [H _]. right. apply IH. exact H. Qed.
Definition S2 (e : expr) : Prop := occurs o cs e /\ usizes e.
Definition S1 (e : expr) : Prop := S2 e /\ no_inverse e.
Local Lemma S2_add a b : S2 (EAdd a b) -> S2 a /\ S2 b.
Proof. intros [H [U V]]. repeat split; try assumption; [eapply oc_add1|eapply oc_add2]; exact H. Qed.
Local Lemma S2_mul a b : S2 (EMul a b) -> S2 a /\ S2 b.
Proof. intros [H [U V]]. repeat split; try assumption; [eapply oc_mul1|eapply oc_mul2]; exact H. Qed.
Local Lemma S2_neg a : S2 (ENeg a) -> S2 a. Proof. intros [H U]. split; [eapply oc_neg; exact H|exact U]. Qed.
Local Lemma S2_inv a : S2 (EInv a) -> S2 a. Proof. intros [H U]. split; [eapply oc_inv; exact H|exact U]. Qed.
Local Lemma S2_exp a n : S2 (EExp a n) -> S2 a /\ 0 <= n < B. Proof. intros [H [N U]]. split; [split; [eapply oc_exp; exact H|exact U]|exact N]. Qed.
Local Lemma S2_collapse a f n : S2 (EExp (EExp a f) n) -> n * f < B -> S2 (EExp a (n * f)).
Proof. intros [H [N [N' U]]] Hb. split; [apply oc_collapse; exact H|]. cbn [usizes]. change (2 ^ 64) with B. split; [|exact U]. split; [nia|exact Hb]. Qed.
Local Lemma S1_add a b : S1 (EAdd a b) -> S1 a /\ S1 b. Proof. intros [H [N M]]. apply S2_add in H as [H1 H2]. repeat split; try assumption; apply H1 || apply H2. Qed.
Local Lemma S1_mul a b : S1 (EMul a b) -> S1 a /\ S1 b. Proof. intros [H [N M]]. apply S2_mul in H as [H1 H2]. repeat split; try assumption; apply H1 || apply H2. Qed.
Local Lemma S1_neg a : S1 (ENeg a) -> S1 a. Proof. intros [H N]. split; [apply S2_neg; exact H|exact N]. Qed.
Local Lemma S1_exp a n : S1 (EExp a n) -> S1 a /\ 0 <= n < B. Proof. intros [H N]. apply S2_exp in H as [H R]. split; [split; [exact H|exact N]|exact R]. Qed.
Local Lemma S1_collapse a f n : S1 (EExp (EExp a f) n) -> n * f < B -> S1 (EExp a (n * f)).
Proof. intros [H N] Hb. split; [apply S2_collapse; assumption|exact N]. Qed.
Local Lemma inv_found : forall e u, S2 e -> cv e = Some u -> forall b, In b (inv_search e) -> exists a v, b = EInv a /\ S2 b /\ cv a = Some v /\ v <> f0 o.
Proof.
  induction e as [|q|i j|q a IH|i n a IH|a IHa b IHb|a IH|a IHa b IHb|a IH|a IH n]; intros u HS V d Hin; cbn [inv_search] in Hin; try contradiction.
  - apply (cv_poly claims x T) in V as (v & V). eapply IH; [|exact V|exact Hin]. destruct HS as [H U]. split; [eapply oc_poly; exact H|apply U].
  - apply (cv_claim claims x T) in V as (v & V). eapply IH; [|exact V|exact Hin]. destruct HS as [H U]. split; [eapply oc_claim; exact H|apply U].
  - apply (cv_add claims x T) in V as (v & w & Va & Vb & _). apply S2_add in HS as [Sa Sb]. apply in_app_or in Hin as [Hin|Hin]; [eapply IHa|eapply IHb]; eassumption.
  - apply (cv_neg claims x T) in V as (v & V & _). eapply IH; [apply S2_neg; exact HS|exact V|exact Hin].
  - apply (cv_mul claims x T) in V as (v & w & Va & Vb & _). apply S2_mul in HS as [Sa Sb]. apply in_app_or in Hin as [Hin|Hin]; [eapply IHa|eapply IHb]; eassumption.
  - destruct Hin as [<-|[]]. apply (cv_inv claims x T) in V as (v & V & N & _). exists a, v. split; [reflexivity|]. split; [exact HS|]. split; assumption.
  - apply (cv_exp claims x T) in V as (v & V & _). apply S2_exp in HS as [HS _]. eapply IH; [exact HS|exact V|exact Hin].
Qed.
Local Lemma trace_found : forall e, occurs o cs e -> forall b, In b (trace_search e) -> occurs o cs b.
Proof.
  induction e as [|q|i j|q a IH|i n a IH|a IHa b IHb|a IH|a IHa b IHb|a IH|a IH n]; intros HS d Hin; cbn [trace_search] in Hin; try contradiction; try (destruct Hin as [<-|[]]; exact HS);
    try (apply in_app_or in Hin as [Hin|Hin]; [apply IHa|apply IHb]; try exact Hin); try (apply IH; try exact Hin); first [eapply oc_poly; exact HS|eapply oc_claim; exact HS|eapply oc_add1; exact HS|eapply oc_add2; exact HS|eapply oc_mul1; exact HS|eapply oc_mul2; exact HS|eapply oc_neg; exact HS|eapply oc_inv; exact HS|eapply oc_exp; exact HS].
Qed.
Local Lemma periodic_found : forall e, occurs o cs e -> forall b, In b (periodic_search e) -> occurs o cs b.
Proof.
  induction e as [|q|i j|q a IH|i n a IH|a IHa b IHb|a IH|a IHa b IHb|a IH|a IH n]; intros HS d Hin; cbn [periodic_search] in Hin; try contradiction; try (destruct Hin as [<-|[]]; exact HS);
    try (apply in_app_or in Hin as [Hin|Hin]; [apply IHa|apply IHb]; try exact Hin); try (apply IH; try exact Hin); first [eapply oc_poly; exact HS|eapply oc_claim; exact HS|eapply oc_add1; exact HS|eapply oc_add2; exact HS|eapply oc_mul1; exact HS|eapply oc_mul2; exact HS|eapply oc_neg; exact HS|eapply oc_inv; exact HS|eapply oc_exp; exact HS].
Qed.
Local Lemma claim_found : forall e, occurs o cs e -> forall b, In b (claim_polynomial_search e) -> occurs o cs b.
Proof.
  induction e as [|q|i j|q a IH|i n a IH|a IHa b IHb|a IH|a IHa b IHb|a IH|a IH n]; intros HS d Hin; cbn [claim_polynomial_search] in Hin; try contradiction; try (destruct Hin as [<-|[]]; exact HS);
    try (apply in_app_or in Hin as [Hin|Hin]; [apply IHa|apply IHb]; try exact Hin); try (apply IH; try exact Hin); first [eapply oc_poly; exact HS|eapply oc_claim; exact HS|eapply oc_add1; exact HS|eapply oc_add2; exact HS|eapply oc_mul1; exact HS|eapply oc_mul2; exact HS|eapply oc_neg; exact HS|eapply oc_inv; exact HS|eapply oc_exp; exact HS].
Qed.
Local Lemma keys_found f ord : (forall l, Permutation (ord l) l) -> (forall e, occurs o cs e -> forall b, In b (f e) -> occurs o cs b) ->
  forall b, In b (ord (collect o hasher fixed_point (flat_map f (c_exprs cs)))) -> occurs o cs b.
Proof. intros Pm Hf b H. apply (Permutation_in _ (Pm _)) in H. apply collect_incl in H. apply in_flat_map in H as (e & He & H). eapply Hf; [apply oc_expr; exact He|exact H]. Qed.

Local Lemma option_all_spec {A} (l : list (option A)) : forall r, option_all l = Some r -> Forall2 (fun a b => a = Some b) l r.
Proof.
  induction l as [|a l IH]; intros r H; cbn [option_all] in H; [injection H as <-; constructor|].
  destruct a as [a|]; [|discriminate H]. cbn [bind] in H. destruct (option_all l) as [l'|]; [|discriminate H]. cbn [bind] in H. injection H as <-. constructor; [reflexivity|]. apply IH. reflexivity.
Qed.
(** The verifier's combination *)
Local Lemma cv_fold : forall l e r, cv (fold_left EAdd l e) = Some r -> exists u us, cv e = Some u /\ Forall2 (fun e v => cv e = Some v) l us /\ r = fadd o u (fsum o us).
Proof.
  induction l as [|a l IH]; intros e r H; cbn [fold_left] in H.
  - exists r, []. split; [exact H|]. split; [constructor|]. rewrite (fsum_nil o). ring.
  - apply IH in H as (u & us & V & Hu & ->). apply (cv_add claims x T) in V as (v & w & Ve & Va & ->). exists v, (w :: us). split; [exact Ve|]. split; [constructor; assumption|]. rewrite (fsum_cons o). ring.
Qed.
Local Lemma terms_spec target : forall exprs pairs ts us degrees, length pairs = length exprs ->
  option_all (map (combine_term o true (c_nrows cs) target) (List.combine exprs pairs)) = Some ts -> Forall2 (fun e v => cv e = Some v) ts us ->
  option_all (map (adjustment_degree o true (c_nrows cs) target) exprs) = Some degrees -> (forall d, In d degrees -> 0 <= d < B) ->
  exists vs, Forall2 (fun e v => cv e = Some v) exprs vs /\ fsum o us = wsum x vs degrees pairs.
Proof.
  induction exprs as [|e exprs IH]; intros pairs ts us degrees Lp Et Hu Ed Rd.
  - cbn in Et. injection Et as <-. inversion Hu; subst. exists []. split; [constructor|reflexivity].
  - destruct pairs as [|[lo hi] pairs]; [discriminate Lp|]. cbn [List.combine map option_all] in Et. cbn [map option_all] in Ed.
    apply bind_some in Ed as (d & Ed & Ed'). apply bind_some in Ed' as (ds & Eds & Ed'). injection Ed' as <-.
    apply bind_some in Et as (t & Et & Et'). apply bind_some in Et' as (ts' & Ets & Et'). injection Et' as <-.
    cbn [combine_term] in Et. rewrite Ed in Et. cbn [bind] in Et. injection Et as <-. inversion Hu as [|? v ? us' Hv Hu']; subst.
    destruct (IH pairs ts' us' ds) as (vs & Hvs & Es); try assumption; [injection Lp as ->; reflexivity|intros d' H; apply Rd; right; exact H|].
    apply (cv_mul claims x T) in Hv as (a & b & Va & Vb & ->). apply (cv_add claims x T) in Va as (a1 & a2 & V1 & V2 & ->). apply (cv_mul claims x T) in V2 as (b1 & b2 & V2 & V3 & ->).
    rewrite (cv_const claims x T) in V1, V2. injection V1 as <-. injection V2 as <-. apply (cv_exp claims x T) in V3 as (x' & V3 & ->). rewrite (cv_x claims x T) in V3. injection V3 as <-.
    rewrite pow_val by (apply Rd; left; reflexivity). exists (b :: vs). split; [constructor; assumption|]. cbn [wsum]. rewrite (fsum_cons o), Es. reflexivity.
Qed.
Local Lemma adjust_range target e d : usizes e -> adjustment_degree o true (c_nrows cs) target e = Some d -> 0 <= d < B.
Proof.
  intros U H. unfold adjustment_degree in H. apply bind_some in H as (t & Et & H). apply usub_true in Et as [-> Ht]. apply bind_some in H as ([n dn] & En & H). apply bind_some in H as (s & Es & H).
  apply uadd_true in Es as [-> Hs]. apply usub_true in H as [-> Hn]. unfold degree in En. apply (degree_nonneg o) in En as [N1 N2]; [lia|lia|lia|exact U].
Qed.
Local Lemma tuples_nth : forall (l : list F) j lo hi, nth_error (tuples l) j = Some (lo, hi) -> nth_error l (2 * j) = Some lo /\ nth_error l (2 * j + 1) = Some hi.
Proof.
  fix IH 1. intros [|a [|b l]] j lo hi H; try (destruct j; discriminate H). cbn [tuples] in H. destruct j as [|j]; [injection H as <- <-; split; reflexivity|]. cbn [nth_error] in H. apply IH in H.
  replace (2 * S j)%nat with (S (S (2 * j))) by lia. replace (S (S (2 * j)) + 1)%nat with (S (S (2 * j + 1))) by lia. exact H.
Qed.
Local Lemma tuples_len : forall n (l : list F), length l = (2 * n)%nat -> length (tuples l) = n.
Proof. induction n as [|n IH]; intros [|a [|b l]] H; try (cbn in H; lia); [reflexivity|]. cbn [tuples length]. rewrite IH; [reflexivity|cbn in H; lia]. Qed.
Local Lemma forall2_nth {A C} (R : A -> C -> Prop) l l' : Forall2 R l l' -> forall j a, nth_error l j = Some a -> exists b, nth_error l' j = Some b /\ R a b.
Proof. induction 1 as [|a b l l' H F2 IH]; intros j d Hj; [destruct j; discriminate Hj|]. destruct j as [|j]; [injection Hj as <-; exists b; split; [reflexivity|exact H]|]. apply IH. exact Hj. Qed.

Local Lemma f2_length {A C} (R : A -> C -> Prop) l l' : Forall2 R l l' -> length l = length l'.
Proof. induction 1 as [|a b l l' H F2 IH]; cbn; [reflexivity|]. rewrite IH. reflexivity. Qed.
Local Lemma adjust_index : forall degrees index l das index' l', place_adjustments o hasher fixed_point degrees index l = (das, index', l') -> index <= index'.
Proof.
  induction degrees as [|d degrees IH]; intros index l das index' l' E; cbn [place_adjustments] in E; [injection E as <- <- <-; lia|]. destruct (get _ _ _ l (EExp EX d)); [eapply IH; exact E|].
  destruct (place_adjustments _ _ _ degrees (index + 1) _) as [[das1 i1] l1] eqn:E1. injection E as <- <- <-. apply IH in E1. lia.
Qed.
Local Lemma fermat_inv u : u <> f0 o -> fexp o u (Z.to_N (p - 2)) = finv o u.
Proof.
  intros N. apply (finv_unique o L). pose proof p_range. rewrite <- (fexp_succ o), <- Z2N.inj_succ by lia. replace (Z.succ (p - 2)) with (p - 1) by lia. apply (fe_fermat G). exact N.
Qed.
Context (data : Z -> Z).
Local Lemma mload_sound c fs i u : In (i, u) fs -> sound data c (facts fs) (YMload (YNum (i * 32))) u.
Proof. intros H mem [_ M]. exists (mem (32 * i)), mem. cbn [yeval bind]. rewrite (Z.mul_comm i 32), mload_32. cbn [bind]. split; [reflexivity|]. split; [apply agree_refl|apply M; exact H]. Qed.
Local Lemma word_at ws1 (us ws2 : list F) j u : holds_words data (map vl (ws1 ++ us ++ ws2)) -> nth_error us j = Some u -> data ((Z.of_nat (length ws1) + Z.of_nat j) * 32) = vl u.
Proof.
  intros H E. rewrite Z.mul_comm, <- Nat2Z.inj_add. apply H. apply map_nth_error. rewrite nth_error_app2 by lia. replace (length ws1 + j - length ws1)%nat with j by lia.
  rewrite nth_error_app1; [exact E|]. apply nth_error_Some. rewrite E. discriminate.
Qed.
Local Lemma calldata_sound c I a u : data a = vl u -> sound data c I (YCalldataload (YNum a)) u.
Proof. intros E mem _. exists (vl u), mem. cbn [yeval bind]. rewrite E. split; [reflexivity|]. split; [apply agree_refl|apply rep_vl]. Qed.
Lemma contract_correct k ck pk tk coefficients e r cvs pvs tvs :
  generate o true vl hasher fixed_point order trace_order cs = Some (k, (ck, pk, tk)) -> expmod_context k < 2 ^ 64 ->
  Forall2 (denotes o claims x T) ck cvs -> Forall2 (denotes o claims x T) pk pvs -> Forall2 (denotes o claims x T) tk tvs ->
  holds_words data (map vl ([x] ++ cvs ++ pvs ++ coefficients ++ tvs)) ->
  combine o true cs coefficients = Some e -> denotes o claims x T e r -> run k data p = Some (vl r).
Proof.
  intros Eg Hbig Fc Fp Ft Hw Ec Hr.
  unfold generate in Eg. apply bind_some in Eg as (target & Etg & Eg). apply bind_some in Eg as (degrees & Edg & Eg). apply bind_some in Eg as (k' & Ewr & Eg). injection Eg as -> Eck Epk Etk.
  unfold combine in Ec. destruct (Nat.eqb_spec (2 * length (c_exprs cs)) (length coefficients)) as [Lc|]; [|discriminate Ec]. rewrite Etg in Ec. cbn [bind] in Ec. apply bind_some in Ec as (ts & Ets & Ec). injection Ec as <-.
  pose proof (tuples_len (length (c_exprs cs)) coefficients (eq_sym Lc)) as Lp.
  assert (Rd : forall d, In d degrees -> exists e, In e (c_exprs cs) /\ adjustment_degree o true (c_nrows cs) target e = Some d).
  { intros d Hd. clear - Edg Hd. revert degrees Edg Hd. induction (c_exprs cs) as [|a l IH]; intros degrees E Hd; cbn [map option_all] in E; [injection E as <-; destruct Hd|].
    apply bind_some in E as (d0 & E0 & E). apply bind_some in E as (ds & E1 & E). injection E as <-. destruct Hd as [<-|Hd]; [exists a; split; [left; reflexivity|exact E0]|].
    destruct (IH ds E1 Hd) as (e & He & Q). exists e. split; [right; exact He|exact Q]. }
  assert (Rd' : forall d, In d degrees -> 0 <= d < B).
  { intros d Hd. destruct (Rd d Hd) as (e & He & Q). eapply adjust_range; [|exact Q]. rewrite Forall_forall in Us. apply Us. exact He. }
  assert (Sd : forall d, In d degrees -> S2 (EExp EX d)).
  { intros d Hd. destruct (Rd d Hd) as (e & He & Q). split; [eapply oc_adjust; eassumption|]. cbn [usizes]. change (2 ^ 64) with B. split; [apply Rd'; exact Hd|exact Logic.I]. }
  assert (Ld : length degrees = length (c_exprs cs)).
  { clear - Edg. revert degrees Edg. induction (c_exprs cs) as [|a l IH]; intros degrees E; cbn [map option_all] in E; [injection E as <-; reflexivity|].
    apply bind_some in E as (d0 & E0 & E). apply bind_some in E as (ds & E1 & E). injection E as <-. cbn [length]. rewrite (IH ds E1). reflexivity. }
  apply (cv_denotes claims x T) in Hr.
  assert (Hvs : exists vs, Forall2 (fun e v => cv e = Some v) (c_exprs cs) vs /\ r = wsum x vs degrees (tuples coefficients)).
  { destruct ts as [|t ts].
    - destruct (c_exprs cs) as [|a l] eqn:Ex; [|destruct (tuples coefficients) as [|q ?]; [discriminate Lp|cbn [List.combine map option_all] in Ets; apply bind_some in Ets as (? & _ & Ets); apply bind_some in Ets as (? & _ & Ets); discriminate Ets]].
      exfalso. unfold target_degree, c_degree in Etg. rewrite Ex in Etg. discriminate Etg.
    - cbn [e_sum] in Hr. apply cv_fold in Hr as (u & us & Vu & Vus & ->). destruct (terms_spec target (c_exprs cs) (tuples coefficients) (t :: ts) (u :: us) degrees Lp Ets) as (vs & Hvs & Es); try assumption; [constructor; assumption|].
      exists vs. split; [exact Hvs|]. rewrite <- Es. apply (fsum_cons o). }
  destruct Hvs as (vs & Hvs & ->).
  assert (Hvs2 : Forall2 (fun e v => S2 e /\ cv e = Some v) (c_exprs cs) vs).
  { assert (Hin : forall e, In e (c_exprs cs) -> S2 e) by (intros e He; rewrite Forall_forall in Us; split; [apply oc_expr; exact He|apply Us; exact He]).
    clear - Hvs Hin. revert Hin. generalize S2. intros Q. induction Hvs as [|a v l vs V F2 IH]; intros Hin; [constructor|]. constructor; [split; [apply Hin; left; reflexivity|exact V]|]. apply IH. intros e He. apply Hin. right. exact He. }
  assert (Okc : forall b, In b ck -> occurs o cs b) by (rewrite <- Eck; apply keys_found; [exact Po|exact claim_found]).
  assert (Okp : forall b, In b pk -> occurs o cs b) by (rewrite <- Epk; apply keys_found; [exact Po|exact periodic_found]).
  assert (Okt : forall b, In b tk -> occurs o cs b) by (rewrite <- Etk; apply keys_found; [exact Pt|exact trace_found]).
  set (inverses := order (collect o hasher fixed_point (flat_map inv_search (c_exprs cs)))) in *. rewrite Eck, Epk, Etk in Ewr.
  assert (Oki : forall b, In b inverses -> exists a v, b = EInv a /\ S2 b /\ cv a = Some v /\ v <> f0 o).
  { intros b H. apply (Permutation_in _ (Po _)) in H. apply collect_incl in H. apply in_flat_map in H as (e0 & He & H).
    apply In_nth_error in He as (j & He). destruct (forall2_nth _ _ _ Hvs2 j e0 He) as (v & _ & Se & Ve). eapply inv_found; eassumption. }
  clearbody inverses. clear Eck Epk Etk.
  unfold write_oods_poly in Ewr. set (n := Z.of_nat (length inverses)) in *.
  set (l0 := place_inputs tk _ _) in Ewr. destruct (place_adjustments o hasher fixed_point degrees 1 l0) as [[das s0] l1] eqn:Eadj. apply bind_some in Ewr as ([bs l2] & Einv & Ewr). cbn [fst snd] in Ewr. apply bind_some in Ewr as (sm & Esum & Ewr).
  set (c := s0 + n + n) in *. injection Ewr as Ewr. 
  assert (Ek : expmod_context k = 32 * c) by (rewrite <- Ewr; cbn [expmod_context]; unfold c; lia).
  assert (Lck : length cvs = length ck) by (symmetry; eapply f2_length; exact Fc). assert (Lpk : length pvs = length pk) by (symmetry; eapply f2_length; exact Fp).
  (* the inputs *)
  assert (H0 : forall e0 y, In (e0, y) l0 -> occurs o cs e0 /\ forall u, cv e0 = Some u -> forall I, sound data c I y u).
  { intros e0 y H. unfold l0 in H. apply place_inputs_in in H as [H|(j & Hj & ->)]; [apply place_inputs_in in H as [H|(j & Hj & ->)]; [apply place_inputs_in in H as [[H|[]]|(j & Hj & ->)]|]|].
    - injection H as <- <-. split; [apply oc_x|]. intros u V I. rewrite (cv_x claims x T) in V. injection V as <-. intros mem _. exists (vl x), mem. unfold y_point. cbn [yeval bind].
      rewrite (Hw 0%nat (vl x) eq_refl : data 0 = vl x). split; [reflexivity|]. split; [apply agree_refl|apply rep_vl].
    - split; [apply Okc; eapply nth_error_In; exact Hj|]. intros u V I. destruct (forall2_nth _ _ _ Fc j e0 Hj) as (u' & Hu & Du). apply (cv_denotes claims x T) in Du. assert (u' = u) as -> by congruence.
      apply calldata_sound. apply (word_at [x] cvs (pvs ++ coefficients ++ tvs) j u Hw Hu).
    - split; [apply Okp; eapply nth_error_In; exact Hj|]. intros u V I. destruct (forall2_nth _ _ _ Fp j e0 Hj) as (u' & Hu & Du). apply (cv_denotes claims x T) in Du. assert (u' = u) as -> by congruence.
      apply calldata_sound. pose proof (word_at ([x] ++ cvs) pvs (coefficients ++ tvs) j u) as Q. rewrite app_length, Lck in Q. cbn [length] in Q. rewrite <- Q by (try exact Hu; rewrite <- app_assoc; exact Hw). f_equal. lia.
    - split; [apply Okt; eapply nth_error_In; exact Hj|]. intros u V I. destruct (forall2_nth _ _ _ Ft j e0 Hj) as (u' & Hu & Du). apply (cv_denotes claims x T) in Du. assert (u' = u) as -> by congruence.
      apply calldata_sound. pose proof (word_at ([x] ++ cvs ++ pvs ++ coefficients) tvs [] j u) as Q. rewrite app_nil_r, !app_length, Lck, Lpk, <- Lc in Q. cbn [length] in Q. rewrite <- Q by (try exact Hu; rewrite <- !app_assoc; exact Hw). f_equal. lia. }
  assert (D0 : data 0 = vl x) by exact (Hw 0%nat (vl x) eq_refl).
  clearbody l0.
  (* the powers *)
  pose proof (adjust_index _ _ _ _ _ _ Eadj) as Hs0. assert (Hn : 0 <= n) by (unfold n; lia).
  assert (Hc : 0 < c /\ 32 * c < 2 ^ 64) by (split; [unfold c; lia|rewrite <- Ek; exact Hbig]).
  destruct (adjust_spec data c Hc x hasher fixed_point k Ek D0 degrees 1 l0 das s0 l1 Eadj ltac:(lia) Rd') as (fs & _ & Wfs & Hl1 & Hrun1).
  assert (Wc : within 1 c fs) by (eapply within_weak; [exact Wfs|lia|unfold c; lia]).
  assert (Hl1' : forall e0 y, In (e0, y) l1 -> occurs o cs e0 /\ forall u, cv e0 = Some u -> forall fs', incl fs fs' -> sound data c (facts fs') y u).
  { intros e0 y H. destruct (Hl1 e0 y H) as [H'|(d & i & Hd & -> & -> & Hi)].
    - destruct (H0 e0 y H') as [Oc Q]. split; [exact Oc|]. intros u V fs' _. apply Q. exact V.
    - split; [apply Sd; exact Hd|]. intros u V fs' Hi'. rewrite (cv_exp_intro claims x T EX d x (cv_x claims x T)) in V. injection V as <-. rewrite pow_val by (apply Rd'; exact Hd). apply mload_sound, Hi', Hi. }
  (* the divisors *)
  destruct (inverses_spec data c Hc claims x T hasher fixed_point k Ek S1 fs Wc S1_add S1_mul S1_neg S1_exp S1_collapse inverses (s0 + n) s0 l1 bs l2 Einv) as (us & Lus & Lbs & Fus & Hl2 & Hrun2).
  { lia. }
  { fold n. unfold c. lia. }
  { intros a Ha. destruct (Oki _ Ha) as (a' & v & Ea & Sa & Va & _). injection Ea as <-. split; [|eauto]. split; [apply S2_inv; exact Sa|]. apply Un. apply Sa. }
  { intros a e0 Ha [[Oe _] Ne] Eh. destruct (Oki _ Ha) as (a' & v & _ & [Oa _] & _). rewrite <- (Sep _ _ Oa Oe Eh) in Ne. exact Ne. }
  { intros e0 y u [[Oe _] _] Eg V. apply get_in in Eg as (e1 & Hi & Eh). destruct (Hl1' _ _ Hi) as [O1 Q]. rewrite (Sep _ _ O1 Oe Eh) in Q. apply Q; [exact V|apply incl_refl]. }
  assert (Nus : forall u, In u us -> u <> f0 o).
  { intros u Hu. apply In_nth_error in Hu as (j & Hj). assert (Hk : exists b, nth_error inverses j = Some b) by (destruct (nth_error inverses j) eqn:En; [eauto|apply nth_error_None in En; apply nth_error_Some_length in Hj || (assert (j < length us)%nat by (apply nth_error_Some; rewrite Hj; discriminate)); lia]).
    destruct Hk as (b & Hb). destruct (forall2_nth _ _ _ Fus j b Hb) as (u' & Hu' & (a & -> & Va)). assert (u' = u) as -> by congruence. destruct (Oki _ (nth_error_In _ _ Hb)) as (a' & v & Ea & _ & Va' & N). injection Ea as <-. congruence. }
  assert (Eus : Z.of_nat (length us) = n) by (unfold n; lia).
  assert (Wn : within 1 c (number s0 (map (finv o) us))) by (eapply within_weak; [apply number_within|lia|rewrite map_length, Eus; unfold c; lia]).
  set (fs2 := number s0 (map (finv o) us) ++ fs) in *.
  assert (W2 : within 1 c fs2) by (apply within_app; assumption).
  assert (Hfinal : forall e0 y u, S2 e0 -> get o hasher fixed_point l2 e0 = Some y -> cv e0 = Some u -> sound data c (facts fs2) y u).
  { intros e0 y u [Oe _] Eg V. apply get_in in Eg as (e1 & Hi & Eh). destruct (Hl2 _ _ Hi) as [Hi'|(a & v & i & -> & Hk & Va & -> & Hf)].
    - destruct (Hl1' _ _ Hi') as [O1 Q]. rewrite (Sep _ _ O1 Oe Eh) in Q. apply Q; [exact V|]. unfold fs2. apply incl_appr, incl_refl.
    - destruct (Oki _ Hk) as (a' & v' & _ & [Oa _] & _). rewrite <- (Sep _ _ Oa Oe Eh) in V. apply (cv_inv claims x T) in V as (w & Vw & _ & ->). assert (w = v) as -> by congruence.
      apply mload_sound. unfold fs2. apply in_or_app. left. apply number_map. exact Hf. }
  (* the run *)
  assert (Eda : degree_adjustments k = das) by (rewrite <- Ewr; reflexivity). assert (Ebi : batch_inverted k = bs) by (rewrite <- Ewr; reflexivity). assert (Esm : sums k = sm) by (rewrite <- Ewr; reflexivity).
  assert (Eptv : products_to_values k = 32 * n) by (rewrite <- Ewr; cbn [products_to_values]; lia). assert (Eend : partial_product_end k = 32 * (s0 + n)) by (rewrite <- Ewr; cbn [partial_product_end]; lia).
  assert (Est : partial_product_start k = 32 * s0) by (rewrite <- Ewr; cbn [partial_product_start]; lia). assert (Efi : first_partial_product k = 32 * s0) by (rewrite <- Ewr; cbn [first_partial_product]; lia).
  assert (Ela : last_partial_product k = 32 * (s0 + Z.of_nat (length us))) by (rewrite <- Ewr; cbn [last_partial_product]; lia).
  clear Ewr Esum' || clear Ewr. unfold run. rewrite Eda, Ebi, Esm, Est, Ela, Ek. change (mstore (fun _ => 0) 0 p) with (Some (fun b : Z => if b =? 0 then p else 0)). cbn [bind].
  destruct (Hrun1 ltac:(unfold c; lia) [] (fun b => if b =? 0 then p else 0)) as (m1 & -> & M1); [intros i u []|split; [reflexivity|intros i u []]|]. cbn [bind]. rewrite app_nil_r in M1.
  destruct (Hrun2 fs m1 (incl_refl _)) as (m2 & -> & M2); [eapply within_weak; [exact Wfs|lia|lia]|exact M1|]. cbn [bind]. destruct M2 as [M20 M2].
  assert (Hb3 : 32 * (s0 + n + n) <= 2 ^ 64) by (fold c; lia).
  pose proof (cumulate_spec k n s0 Hs0 Hn Hb3 Eptv Eend us s0 (f1 o) m2 (S (length bs))) as Hcum. rewrite (fe1_val G : vl (f1 o) = 1) in Hcum.
  destruct Hcum as (m3 & -> & Ho3 & Hp3); [lia|exact M20|lia|lia|intros i u Hi; apply M2, in_or_app; left; exact Hi|]. cbn [bind]. rewrite mload_0. cbn [bind].
  assert (M30 : m3 0 = p) by (rewrite Ho3 by lia; exact M20). rewrite M30. pose proof p_range as Pr. assert (E2 : y_sub p 2 = p - 2) by (unfold y_sub, W256; assert (2 ^ 255 < 2 ^ 256) by reflexivity; apply Z.mod_small; lia). rewrite E2.
  replace (fmul o (f1 o) (fprod o us)) with (fprod o us) by ring.
  destruct (expmod_spec c Hc (vl (fprod o us)) (p - 2) m3 M30) as (m4 & -> & A4). cbn [bind]. rewrite (rep_exp (vl (fprod o us)) (p - 2) (fprod o us)) by (apply vl_mod || lia).
  rewrite fermat_inv by (apply (fprod_neq_0 o L); exact Nus).
  destruct (distribute_spec k n s0 Hs0 Hn Hb3 Eptv Efi us m4 (S (length bs))) as (m5 & -> & Ho5 & Hi5).
  { lia. } { rewrite A4 by lia. exact M30. } { lia. } { exact Nus. }
  { intros i u Hi. pose proof (number_within _ _ _ _ Hi). rewrite A4 by (unfold c; lia). rewrite Ho3 by lia. apply M2, in_or_app. left. exact Hi. }
  { intros i w Hi. pose proof (number_within _ _ _ _ Hi) as Hw'. rewrite prefixes_len in Hw'. rewrite A4 by (unfold c; lia). apply Hp3. exact Hi. }
  cbn [bind].
  assert (M5 : facts fs2 m5).
  { split; [rewrite Ho5, A4 by lia; exact M30|]. intros i u Hi. unfold fs2 in Hi. apply in_app_or in Hi as [Hi|Hi]; [rewrite (Hi5 i u Hi); apply rep_vl|].
    specialize (Wfs i u Hi). rewrite Ho5 by lia. rewrite A4 by (unfold c; lia). rewrite Ho3 by lia. apply M2, in_or_app. right. exact Hi. }
  pose proof (sums_spec data c Hc claims x T hasher fixed_point k Ek S2 fs2 W2 l2 S2_add S2_mul S2_neg S2_exp S2_collapse Hfinal (c_exprs cs) degrees _ sm vs (tuples coefficients) (f0 o) m5 Esum Hvs2 Sd Ld Lp) as Hsum.
  rewrite (fe0_val G : vl (f0 o) = 0) in Hsum. rewrite Hsum; [do 2 f_equal; ring| |exact M5].
  intros j lo hi Hj. apply tuples_nth in Hj as [H1 H2]. pose proof (word_at ([x] ++ cvs ++ pvs) coefficients tvs) as Q. rewrite !app_length, Lck, Lpk in Q. cbn [length] in Q. rewrite <- !app_assoc in Q.
  split; [rewrite <- (Q _ _ Hw H1)|rewrite <- (Q _ _ Hw H2)]; f_equal; lia.
Qed.
End Main.
End Proofs.
