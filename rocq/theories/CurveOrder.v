(** The generator of the concrete curve has the prime order of the scalar field. *)
Require Import ZArith NArith Lia Bool List Field Ring Znumtheory.
From Verif Require Import Word U256Model U256Spec U256Proofs MontgomeryModel FieldModel Primes FieldSig FieldInstance FieldAlgModel
  CurveModel CurveSpec CurveGroup CurveInstance CurveChain.
Import ListNotations.
Open Scope Z_scope.

Definition phi (z : Z) : Felt := fe_of_Z proth_good z.
Lemma val_eq (a b : Felt) : fe_val a = fe_val b -> a = b. Proof. apply (fe_val_inj proth_good). Qed.
Lemma phi_val z : fe_val (phi z) = z mod p_field. Proof. apply (fe_of_Z_val proth_good). Qed.
Lemma phi_add a b : phi (a + b) = fadd felt_ops (phi a) (phi b).
Proof. apply val_eq. rewrite phi_val. transitivity ((fe_val (phi a) + fe_val (phi b)) mod p_field); [rewrite !phi_val; apply Zplus_mod|symmetry; apply (fe_add_val proth_good)]. Qed.
Lemma phi_sub a b : phi (a - b) = fsub felt_ops (phi a) (phi b).
Proof. apply val_eq. rewrite phi_val. transitivity ((fe_val (phi a) - fe_val (phi b)) mod p_field); [rewrite !phi_val; apply Zminus_mod|symmetry; apply (fe_sub_val proth_good)]. Qed.
Lemma phi_mul a b : phi (a * b) = fmul felt_ops (phi a) (phi b).
Proof. apply val_eq. rewrite phi_val. transitivity ((fe_val (phi a) * fe_val (phi b)) mod p_field); [rewrite !phi_val; apply Zmult_mod|symmetry; apply (fe_mul_val proth_good)]. Qed.
Lemma phi_opp a : phi (- a) = fneg felt_ops (phi a).
Proof. apply val_eq. rewrite phi_val. transitivity ((- fe_val (phi a)) mod p_field); [|symmetry; apply (fe_neg_val proth_good)]. rewrite phi_val, <- (Z.sub_0_l (a mod _)), Zminus_mod_idemp_r. f_equal. Qed.
Lemma phi_0 : phi 0 = f0 felt_ops. Proof. apply val_eq. rewrite phi_val. symmetry. apply (fe0_val proth_good). Qed.
Lemma phi_1 : phi 1 = f1 felt_ops. Proof. apply val_eq. rewrite phi_val. symmetry. apply (fe1_val proth_good). Qed.
Lemma phi_p q : phi (p_field * q) = f0 felt_ops. Proof. rewrite <- phi_0. apply val_eq. rewrite !phi_val, Z.mul_comm, Z.mod_mul by discriminate. reflexivity. Qed.
Lemma phi_inj a b : 0 <= a < p_field -> 0 <= b < p_field -> phi a = phi b -> a = b.
Proof. intros Ha Hb E. apply (f_equal fe_val) in E. rewrite !phi_val, !Z.mod_small in E by assumption. exact E. Qed.
Lemma phi_fe (a : Felt) : phi (fe_val a) = a.
Proof. apply val_eq. rewrite phi_val. apply Z.mod_small. apply (fe_val_range proth_good). Qed.
(** equations between integers up to a multiple of p *)
Lemma phi_eq a b q : a - b = p_field * q -> phi a = phi b.
Proof. intros E. apply (fsub_0_iff felt_ops felt_lawful). rewrite <- phi_sub, E. apply phi_p. Qed.

Definition gx : Z := 0x01ef15c18599971b7beced415a40f0c7deacfd9b0d1819e03d723d8bc943cfca.
Definition gy : Z := 0x005668060aa49730b7be4801df46ec62de53ecd11abe43a32873000c36e8dc1f.
Lemma gen_phi : GENERATOR = APoint (phi gx) (phi gy).
Proof. unfold GENERATOR. destruct gen_val as [Ex Ey]. rewrite <- (phi_fe GEN_X), <- (phi_fe GEN_Y), Ex, Ey. reflexivity. Qed.

Definition inb (z : Z) : bool := (0 <=? z) && (z <? p_field).
Definition dbl_ok (x y l x' y' q1 q2 q3 : Z) : bool :=
  inb y && negb (y =? 0) && (l * (y + y) - (3 * (x * x) + 1) =? p_field * q1) && (l * l - x - x - x' =? p_field * q2) && (l * (x - x') - y - y' =? p_field * q3).
Definition add_ok (bx x y by_ l x' y' q1 q2 q3 : Z) : bool :=
  inb x && inb bx && negb (x =? bx) && (l * (x - bx) - (y - by_) =? p_field * q1) && (l * l - x - bx - x' =? p_field * q2) && (l * (x - x') - y - y' =? p_field * q3).
(** [b]: the base point of the chain *)
Definition run_step (b : Z * Z) (st : Z * Z * Z) (s : step) : option (Z * Z * Z) :=
  let '(k, x, y) := st in
  match s with
  | D l x' y' q1 q2 q3 => if dbl_ok x y l x' y' q1 q2 q3 then Some (2 * k, x', y') else None
  | A l x' y' q1 q2 q3 => if add_ok (fst b) x y (snd b) l x' y' q1 q2 q3 then Some (k + 1, x', y') else None
  | S l x' y' q1 q2 q3 => if add_ok (fst b) x y (- snd b) l x' y' q1 q2 q3 then Some (k - 1, x', y') else None
  end.
Fixpoint run (b : Z * Z) (st : Z * Z * Z) (l : list step) : option (Z * Z * Z) :=
  match l with [] => Some st | s :: l => match run_step b st s with Some st => run b st l | None => None end end.

Local Notation zm := (zmul felt_ops (f1 felt_ops)).
Local Notation "p ⊕ q" := (padd felt_ops (f1 felt_ops) p q) (at level 50, left associativity).
Definition pt (b : Z * Z) : affine Felt := APoint (phi (fst b)) (phi (snd b)).
Definition at_point (b : Z * Z) (st : Z * Z * Z) : Prop := let '(k, x, y) := st in zm k (pt b) = APoint (phi x) (phi y).
Add Field Ffield : (law_field felt_ops felt_lawful).
Lemma inb_spec z : inb z = true <-> 0 <= z < p_field. Proof. unfold inb. rewrite andb_true_iff, Z.leb_le, Z.ltb_lt. tauto. Qed.
Lemma phi_2 x : phi (x + x) = fadd felt_ops (phi x) (phi x). Proof. apply phi_add. Qed.
Lemma and_ok (x y : bool) : x && y = true -> x = true /\ y = true. Proof. apply andb_prop. Qed.
Lemma line_eqs x y x2 l x' y' q2 q3 : l * l - x - x2 - x' = p_field * q2 -> l * (x - x') - y - y' = p_field * q3 ->
  fsub felt_ops (fsub felt_ops (fmul felt_ops (phi l) (phi l)) (phi x)) (phi x2) = fadd felt_ops (phi x') (f0 felt_ops) /\
  fsub felt_ops (fmul felt_ops (phi l) (fsub felt_ops (phi x) (phi x'))) (phi y) = fadd felt_ops (phi y') (f0 felt_ops).
Proof.
  intros E2 E3. rewrite <- (phi_p q2) at 1. rewrite <- (phi_p q3), <- E2, <- E3. rewrite <- phi_mul, <- !phi_sub, <- phi_mul, <- !phi_sub, <- !phi_add. split; f_equal; ring.
Qed.
Lemma dbl_sound x y l x' y' q1 q2 q3 : dbl_ok x y l x' y' q1 q2 q3 = true -> APoint (phi x) (phi y) ⊕ APoint (phi x) (phi y) = APoint (phi x') (phi y').
Proof.
  unfold dbl_ok. intros H. apply and_ok in H as [H E3]. apply and_ok in H as [H E2]. apply and_ok in H as [H E1]. apply and_ok in H as [Ry Ny].
  apply inb_spec in Ry. apply negb_true_iff, Z.eqb_neq in Ny. apply Z.eqb_eq in E1, E2, E3.
  assert (Nphi : phi y <> f0 felt_ops). { rewrite <- phi_0. intros E. apply phi_inj in E; [contradiction|assumption|]. unfold p_field. lia. }
  destruct (line_eqs _ _ _ _ _ _ _ _ E2 E3) as [F2 F3].
  apply (tangent_by felt_ops felt_lawful) with (l := phi l); try assumption.
  - apply (dbl_neq felt_ops felt_lawful (f1 felt_ops) BETA stark_smooth). exact Nphi.
  - apply phi_eq in E1. rewrite <- phi_1, <- phi_add, <- !phi_mul, <- !phi_add, E1. f_equal. ring.
Qed.
Lemma add_sound bx x y g l x' y' q1 q2 q3 : add_ok bx x y g l x' y' q1 q2 q3 = true -> APoint (phi x) (phi y) ⊕ APoint (phi bx) (phi g) = APoint (phi x') (phi y').
Proof.
  unfold add_ok. intros H. apply and_ok in H as [H E3]. apply and_ok in H as [H E2]. apply and_ok in H as [H E1]. apply and_ok in H as [H Nx]. apply and_ok in H as [Rx Rb].
  apply inb_spec in Rx, Rb. apply negb_true_iff, Z.eqb_neq in Nx. apply Z.eqb_eq in E1, E2, E3.
  assert (Nphi : phi x <> phi bx). { intros E. apply phi_inj in E; [contradiction|assumption|assumption]. }
  destruct (line_eqs _ _ _ _ _ _ _ _ E2 E3) as [F2 F3].
  apply (chord_by felt_ops felt_lawful) with (l := phi l); try assumption.
  apply phi_eq in E1. rewrite <- !phi_sub, <- phi_mul, E1. reflexivity.
Qed.
Lemma step_sound b st s st' : on_curve felt_ops (f1 felt_ops) BETA (pt b) -> run_step b st s = Some st' -> at_point b st -> at_point b st'.
Proof.
  intros Ob. assert (Za : forall z w, zm (z + w) (pt b) = zm z (pt b) ⊕ zm w (pt b)) by (intros; apply zmul_add with (b := BETA); [exact felt_lawful|exact stark_smooth|exact Ob]).
  destruct st as [[k x] y]. unfold at_point. destruct s as [l x' y' q1 q2 q3|l x' y' q1 q2 q3|l x' y' q1 q2 q3]; cbn [run_step].
  - destruct (dbl_ok x y l x' y' q1 q2 q3) eqn:E; [|discriminate]. intros [= <-] P. replace (2 * k) with (k + k) by ring. rewrite Za, P. apply (dbl_sound _ _ _ _ _ _ _ _ E).
  - destruct (add_ok (fst b) x y (snd b) l x' y' q1 q2 q3) eqn:E; [|discriminate]. intros [= <-] P. rewrite Za, P, (zmul_1 felt_ops). apply (add_sound _ _ _ _ _ _ _ _ _ _ E).
  - destruct (add_ok (fst b) x y (- snd b) l x' y' q1 q2 q3) eqn:E; [|discriminate]. intros [= <-] P. replace (k - 1) with (k + - (1)) by ring.
    rewrite Za, P, (zmul_opp felt_ops felt_lawful), (zmul_1 felt_ops). unfold pt. cbn [opposite]. rewrite <- phi_opp. apply (add_sound _ _ _ _ _ _ _ _ _ _ E).
Qed.
Lemma run_sound b l : on_curve felt_ops (f1 felt_ops) BETA (pt b) -> forall st st', run b st l = Some st' -> at_point b st -> at_point b st'.
Proof.
  intros Ob. induction l as [|s l IH]; intros st st' E P; cbn [run] in E; [congruence|]. destruct (run_step b st s) as [st1|] eqn:E1; [|discriminate].
  apply (IH _ _ E). apply (step_sound _ _ _ _ Ob E1 P).
Qed.
Lemma zm_on k : on_curve felt_ops (f1 felt_ops) BETA (zm k GENERATOR).
Proof. apply zmul_on; [exact felt_lawful|exact stark_smooth|exact gen_on]. Qed.
Lemma zm_add z w : zm (z + w) GENERATOR = zm z GENERATOR ⊕ zm w GENERATOR.
Proof. apply zmul_add with (b := BETA); [exact felt_lawful|exact stark_smooth|exact gen_on]. Qed.
Lemma zm_mul z w : zm (z * w) GENERATOR = zm z (zm w GENERATOR).
Proof. apply zmul_mul with (b := BETA); [exact felt_lawful|exact stark_smooth|exact gen_on]. Qed.

Definition half_n : Z := (p_order + 1) / 2.
Definition half_x : Z := 0x4caf6d9732c174f06b5a0685cfe39b4c0a4e8ab182c5752ac220a923fe98372.
Definition half_y : Z := 0x3f4677e3a404bd2e390e1a633acc85d761b3da5fad48324b304655c1d5a1de9.
Lemma chain_ok : run (gx, gy) (1, gx, gy) chain = Some (half_n, half_x, half_y). Proof. vm_compute. reflexivity. Qed.
Lemma last_ok : run_step (gx, gy) (half_n, half_x, half_y) last_step = Some (2 * half_n, gx, gy). Proof. vm_compute. reflexivity. Qed.
Lemma start b : at_point b (1, fst b, snd b). Proof. unfold at_point. rewrite (zmul_1 felt_ops). reflexivity. Qed.
Lemma pt_g : pt (gx, gy) = GENERATOR. Proof. symmetry. exact gen_phi. Qed.
Lemma pt_g_on : on_curve felt_ops (f1 felt_ops) BETA (pt (gx, gy)). Proof. rewrite pt_g. exact gen_on. Qed.
Lemma half_point : zm half_n GENERATOR = pt (half_x, half_y).
Proof. rewrite <- pt_g. apply (run_sound _ _ pt_g_on _ _ chain_ok (start _)). Qed.
Theorem generator_order : zm p_order GENERATOR = AZero.
Proof.
  pose proof half_point as Hp. rewrite <- pt_g in Hp. pose proof (step_sound _ _ _ _ pt_g_on last_ok Hp) as E. unfold at_point in E. rewrite pt_g, <- gen_phi in E.
  assert (H : 2 * half_n = 1 + p_order) by (vm_compute; reflexivity). rewrite H, zm_add, (zmul_1 felt_ops) in E.
  rewrite <- (add_cancel felt_ops felt_lawful _ _ stark_smooth GENERATOR (zm p_order GENERATOR) gen_on (zm_on _)), E.
  apply (add_opp_l felt_ops felt_lawful _ _ stark_smooth).
Qed.

(** 47 G and ((n - 47)/2) G, which half of the exceptional scalar n - 94 leads to *)
Definition x47 : Z := 0x4b0819002982c66824e4c8ca744fb8d48a080c478957efa1c80ae112379031c.
Definition y47 : Z := 0xbd3291a533ada02d77cfafd1fc9257c9cbf3d6bb4f1e8e2f0c42e4f43f1fcf.
Definition xh : Z := 0x3cff864a5a6cdba9ea7f5aac52cb57abac1add21ec84f3493b8c3e9808cf8ee.
Definition yh : Z := 0x4ad2c39701c3c8065a92094712cb1ee9b608ffd3e8fb53c1ca07ba2850d9ae8.
Lemma point_47 : zm 47 GENERATOR = pt (x47, y47).
Proof.
  rewrite <- pt_g. assert (E : run (gx, gy) (1, gx, gy) chain_47 = Some (47, x47, y47)) by (vm_compute; reflexivity).
  apply (run_sound _ _ pt_g_on _ _ E (start _)).
Qed.
Lemma point_h : zm ((p_order - 47) / 2) GENERATOR = opposite felt_ops (pt (xh, yh)).
Proof.
  assert (E : run (half_x, half_y) (1, half_x, half_y) chain_47_half = Some (47, xh, yh)) by (vm_compute; reflexivity).
  assert (Oh : on_curve felt_ops (f1 felt_ops) BETA (pt (half_x, half_y))) by (rewrite <- half_point; apply zm_on).
  pose proof (run_sound _ _ Oh _ _ E (start _)) as P. unfold at_point in P. rewrite <- half_point, <- zm_mul in P.
  assert (Ek : (p_order - 47) / 2 = - (47 * half_n) + 24 * p_order) by (vm_compute; reflexivity).
  rewrite Ek, zm_add, (zmul_opp felt_ops felt_lawful), P, (zm_mul 24), generator_order. reflexivity.
Qed.
(** x47 / (2 y47 yh) is the square of a non-square, hence not a fourth power *)
Definition wu : Z := 0x395c34cec3d344592f27590186a5c22d34ce69f3dfbefa9549c16584aa6f235.
Definition ws : Z := 0x4db1fc2214b1cd8de5187873694ad95964d9d48bb67162b5c700bd91c1b9d6a.
Definition wi : Z := 0x1dafdc6d65d66b5accedf99bcd607383ad971a9537cdf25d59e99d90becc81e.
Lemma w_facts : (wu * wu * (2 * y47 * yh) - x47) mod p_field = 0 /\ (ws * ws - 3 * wu) mod p_field = 0 /\ (wi * wi + 1) mod p_field = 0.
Proof. vm_compute. auto. Qed.
