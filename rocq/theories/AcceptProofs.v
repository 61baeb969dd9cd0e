(** From an accepting run of the verifier to [AcceptSpec.accepted]: the parts. *)
Require Import Field ZArith Lia Bool List Sorted Permutation.
From Verif Require Import Word Primes U256Model U256Spec U256Proofs BinaryModel BinaryProofs BinaryProps EncodingSpec EncodingProofs KnuthModel FieldSig FieldModel FieldInstance FieldAlgModel FieldAlgProofs Arr FftSpec FftModel PermuteProofs StarkBase PolyModel TraceModel ExprModel ExprSpec ExprProofs ExprProps
  HashModel MerkleModel MerkleSpec MerkleProofs MerkleTreeProofs MerkleProps ChannelModel ChannelSpec ChannelProps PowModel QueryModel QueryProps FriModel FriProps OodsModel OodsProofs OodsProps StarkModel StarkSpec StarkProofs StarkOpen StarkFri AcceptSpec.
Import ListNotations.
Open Scope nat_scope.

(** ** Merkle paths *)
Section Paths.
Context {H Leaf : Type} (heqb : H -> H -> bool) (node : H -> H -> H) (leaf_hash : Leaf -> H) (Hh : forall a b, heqb a b = true <-> a = b).
Local Open Scope Z_scope.
Definition up (x : Z) (h s : H) : Z * H := (x / 2, if Z.even x then node h s else node s h).
Lemma even_mod x : Z.even x = (x mod 2 =? 0).
Proof. rewrite Zmod_even. destruct (Z.even x); reflexivity. Qed.
Lemma vpass_up : forall L hs ps hs' lg, vpass node L hs = (Ok (ps, hs'), lg) -> forall x h, In (x, h) L -> exists s, In (up x h s) ps.
Proof.
  induction L as [|[x0 h0]|[x0 h0] [y g] L IH1 IH2] using pair_ind; intros hs ps hs' lg E x h I.
  - destruct I.
  - destruct I as [[= <- <-]|[]]. rewrite vpass_one in E. destruct hs as [|h1 hs]; [discriminate|]. injection E as <- _ _. exists h1. left. unfold up. rewrite even_mod. destruct (x0 mod 2 =? 0); reflexivity.
  - rewrite vpass_cons2 in E. destruct (Z.eqb_spec (x0 mod 2) 0) as [Ex|Ex].
    + destruct (Z.eqb_spec (sib x0) y) as [Es|Es].
      * apply vstep_ok in E as (ps' & lg' & E & -> & ->). destruct I as [[= <- <-]|[[= <- <-]|I]].
        -- exists g. left. unfold up. rewrite even_mod, Ex. reflexivity.
        -- exists h0. left. unfold up. assert (sib x0 = x0 + 1) by (unfold sib; destruct (Z.eqb_spec (x0 mod 2) 0); [reflexivity|contradiction]). rewrite even_mod.
           assert (E1 : y mod 2 = 1) by (subst y; rewrite H0, Z.add_mod, Ex by lia; reflexivity). assert (E2 : y / 2 = x0 / 2) by (rewrite <- Es, H0; symmetry; apply Z.div_unique with (r := 1); [lia|]; pose proof (Z.div_mod x0 2 ltac:(lia)); lia). rewrite E1, E2. reflexivity.
        -- destruct (IH1 _ _ _ _ E x h I) as (s & Is). exists s. right. exact Is.
      * destruct hs as [|h1 hs]; [discriminate|]. apply vstep_ok in E as (ps' & lg' & E & -> & ->). destruct I as [[= <- <-]|I].
        -- exists h1. left. unfold up. rewrite even_mod, Ex. reflexivity.
        -- destruct (IH2 _ _ _ _ E x h I) as (s & Is). exists s. right. exact Is.
    + destruct hs as [|h1 hs]; [discriminate|]. apply vstep_ok in E as (ps' & lg' & E & -> & ->). destruct I as [[= <- <-]|I].
      * exists h1. left. unfold up. rewrite even_mod. destruct (Z.eqb_spec (x0 mod 2) 0); [contradiction|reflexivity].
      * destruct (IH2 _ _ _ _ E x h I) as (s & Is). exists s. right. exact Is.
Qed.
Lemma vlayers_climb R : forall e L hs, in_layer (Z.of_nat e) (map fst L) -> strict (map fst L) -> fst (vlayers heqb node R e L hs) = Ok tt ->
  forall x h, In (x, h) L -> exists path, length path = e /\ climb node x h path = R.
Proof.
  induction e as [|e IH]; intros L hs F St E x h I.
  - exists []. split; [reflexivity|]. cbn [vlayers climb] in *. destruct L as [|[y g] [|[y' g'] L]]; [destruct I| |].
    + destruct I as [[= -> ->]|[]]. cbn [fst] in E. destruct (heqb h R) eqn:Eh; [|discriminate]. apply Hh, Eh.
    + exfalso. inversion F as [|? ? Fx F']; subst. inversion F'; subst. change (2 ^ Z.of_nat 0) with 1 in *. apply strict_inv in St as [_ St].
      specialize (St y' (or_introl eq_refl)). cbn [fst] in *. lia.
  - cbn [vlayers] in E. destruct (vpass node L hs) as [[[ps hs']|er] lg] eqn:Ev; [|discriminate]. cbn [fst snd] in E.
    pose proof (vpass_parents node 0%nat ltac:(lia) L hs ps hs' lg St Ev) as Ep. replace (Z.of_nat (S e)) with (Z.of_nat e + 1) in F by lia. destruct (opass_in_layer (Z.of_nat e) _ ltac:(lia) F) as [F1 _].
    assert (St1 : strict (map fst ps)) by (rewrite Ep; apply opass_strict; assumption). rewrite <- Ep in F1.
    destruct (vpass_up _ _ _ _ _ Ev x h I) as (s & Is). destruct (IH ps hs' F1 St1 E _ _ Is) as (path & Lp & Cp). exists (s :: path). split; [cbn [length]; lia|]. exact Cp.
Qed.
(** Verification gives a path from each of the leaves to the root. *)
Lemma verify_climb (sort_nodes : list (Z * H) -> list (Z * H)) D root indices hashes leafs : sorts fst sort_nodes -> (D < 64)%nat -> Forall (fun il : Z * Leaf => 0 <= fst il < 2 ^ Z.of_nat D) leafs ->
  MerkleModel.verify heqb node leaf_hash sort_nodes (P (C (2 ^ Z.of_nat D) root) indices hashes) leafs = Some (Ok tt) ->
  forall i l, In (i, l) leafs -> exists path, length path = D /\ climb node i (leaf_hash l) path = root.
Proof.
  intros Sn HD Fl Ev i l I. unfold MerkleModel.verify in Ev.
  destruct (verify_spec heqb node leaf_hash Hh sort_nodes Sn D root indices hashes leafs HD Fl) as [[_ E]|[_ (L & E & SL & FL & IL)]]; rewrite E in Ev; [discriminate|].
  cbn [bind] in Ev. injection Ev as Ev. apply (vlayers_climb root D L hashes FL SL Ev). apply IL. exists l. auto.
Qed.
(** A path to the root of a known tree starts at the leaf hash of the tree, or hashes a pair that collides with one of the tree. *)
Lemma climb_binding (heq_dec : forall a b : H, {a = b} + {a <> b}) D (f : Z -> H) : (D < 64)%nat -> forall path i h, (length path <= D)%nat -> 0 <= i < 2 ^ Z.of_nat (length path) ->
  climb node i h path = hash_at node D f 0 0 ->
  h = hash_at node D f (Z.of_nat (length path)) i \/
  exists p depth offset, In p (climbed node i h path) /\ 0 <= depth < Z.of_nat (length path) /\ 0 <= offset < 2 ^ depth /\
    MerkleSpec.collision node p (hash_at node D f (depth + 1) (2 * offset), hash_at node D f (depth + 1) (2 * offset + 1)).
Proof.
  intros HD64. induction path as [|s path IH]; intros i h HD Hi E.
  - left. cbn [length climb] in *. change (2 ^ Z.of_nat 0) with 1 in Hi. replace i with 0 by lia. exact E.
  - cbn [length climb climbed] in *. set (h' := if Z.even i then node h s else node s h) in *.
    assert (P2 : 2 ^ Z.of_nat (S (length path)) = 2 * 2 ^ Z.of_nat (length path)) by (rewrite Nat2Z.inj_succ, Z.pow_succ_r by lia; reflexivity).
    pose proof (Z.div_mod i 2 ltac:(lia)) as DM. pose proof (Z.mod_pos_bound i 2 ltac:(lia)) as MB.
    destruct (IH (i / 2) h' ltac:(lia) ltac:(lia) E) as [E1|(p & d & off & Ip & Hd & Ho & Cl)].
    2: { right. exists p, d, off. split; [right; exact Ip|]. split; [lia|]. auto. }
    rewrite (hash_at_node node D f) in E1 by lia. rewrite Nat2Z.inj_succ. unfold Z.succ. set (a := hash_at node D f (Z.of_nat (length path) + 1) (2 * (i / 2))) in *. set (b := hash_at node D f (Z.of_nat (length path) + 1) (2 * (i / 2) + 1)) in *.
    set (p := if Z.even i then (h, s) else (s, h)).
    assert (E2 : node (fst p) (snd p) = node a b) by (rewrite <- E1; unfold p, h'; destruct (Z.even i); reflexivity).
    assert (Q : {p = (a, b)} + {p <> (a, b)}). { destruct p as [p1 p2]. destruct (heq_dec p1 a) as [->|N]; [destruct (heq_dec p2 b) as [->|N]|]; [left; reflexivity|right; congruence|right; congruence]. }
    destruct Q as [Q|Q].
    + left. unfold p in Q. destruct (Z.even i) eqn:Ev; rewrite even_mod in Ev; [apply Z.eqb_eq in Ev|apply Z.eqb_neq in Ev]; injection Q as Q1 Q2; [rewrite Q1; unfold a|rewrite Q2; unfold b]; f_equal; lia.
    + right. exists p, (Z.of_nat (length path)), (i / 2). split; [left; reflexivity|]. split; [lia|]. split; [lia|]. split; [exact Q|exact E2].
Qed.
End Paths.

(** ** Interpolation on a coset *)
Section Interpolate.
Context {F : Type} (o : ops F) (L : lawful o) (e : engine F) (M : nat) (w : nat -> F) (SD : sound o e M w).
Add Field FfieldAcc : (law_field o L).
Declare Scope ffacc. Delimit Scope ffacc with g.
Local Notation "0" := (f0 o) : ffacc. Local Notation "1" := (f1 o) : ffacc. Local Notation "x + y" := (fadd o x y) : ffacc. Local Notation "x - y" := (fsub o x y) : ffacc.
Local Notation "x * y" := (fmul o x y) : ffacc. Local Notation "x ^ n" := (fpw o x n) : ffacc. Local Notation "- x" := (fneg o x) : ffacc.
Lemma two_neq_0 : 1 <= M -> (1 + 1)%g <> f0 o.
Proof.
  intros HM E. pose proof (w_neg o L e M w SD 0 HM) as N. cbn [Nat.add] in N. change (2 ^ 0) with 1%nat in N.
  assert (X : (w 1%nat ^ 1 = w 1%nat ^ 0)%g). { rewrite N. change (w 1%nat ^ 0)%g with (1)%g. transitivity ((1 + 1) - (1 + 1) - 1)%g; [ring|]. rewrite E at 2. ring. }
  apply (w_inj o L e M w SD 1 1 0 HM) in X; [discriminate|cbn; lia|cbn; lia].
Qed.
Fixpoint interleave (a b : list F) : list F := match a, b with x :: a, y :: b => x :: y :: interleave a b | _, _ => [] end.
Lemma interleave_length : forall a b n, length a = n -> length b = n -> length (interleave a b) = 2 * n.
Proof. induction a as [|x a IH]; intros [|y b] n Ha Hb; cbn [length interleave] in *; try lia. rewrite (IH b (n - 1)) by lia. lia. Qed.
Lemma interleave_eval x : forall a b, length a = length b -> peval o (interleave a b) x = (peval o a (x * x) + x * peval o b (x * x))%g.
Proof.
  induction a as [|y a IH]; intros [|z b] H; cbn [length interleave] in *; try lia; [rewrite !peval_nil; ring|]. rewrite !(peval_cons o L), (IH b) by lia. ring.
Qed.
(** There is a polynomial through the values of a coset. *)
Lemma coset_poly : forall m K, m + K <= M -> forall i coset, i < 2 ^ K -> length coset = 2 ^ m ->
  exists P, length P = 2 ^ m /\ forall j, j < 2 ^ m -> peval o P (w (m + K)%nat ^ rev_bits (m + K) (i * 2 ^ m + j))%g = nth j coset (f0 o).
Proof.
  induction m as [|m IH]; intros K HK i coset Hi Lc.
  - exists coset. split; [exact Lc|]. destruct coset as [|y [|y' coset]]; try discriminate Lc. intros j Hj. change (2 ^ 0) with 1%nat in Hj. replace j with 0%nat by lia. rewrite (peval_cons o L), peval_nil. cbn [nth]. ring.
  - pose proof (two_neq_0 ltac:(lia)) as N2. set (x := fun j => (w (S (m + K)) ^ rev_bits (m + K) (i * 2 ^ m + j))%g).
    assert (Nx : forall j, x j <> f0 o) by (intros j; apply (fpw_neq_0 o L), (w_neq_0 o L e M w SD); lia).
    assert (PS : 2 ^ S m = 2 * 2 ^ m) by reflexivity.
    destruct (IH K ltac:(lia) i (map (fun j => ((nth (2 * j) coset 0 + nth (2 * j + 1) coset 0) * finv o (1 + 1))%g) (seq 0 (2 ^ m))) Hi) as (A & LA & HA); [rewrite map_length, seq_length; reflexivity|].
    destruct (IH K ltac:(lia) i (map (fun j => ((nth (2 * j) coset 0 - nth (2 * j + 1) coset 0) * finv o (1 + 1) * finv o (x j))%g) (seq 0 (2 ^ m))) Hi) as (C & LC & HC); [rewrite map_length, seq_length; reflexivity|].
    exists (interleave A C). split; [rewrite (interleave_length A C (2 ^ m)) by assumption; reflexivity|].
    assert (Sq : forall j, (x j * x j = w (m + K)%nat ^ rev_bits (m + K) (i * 2 ^ m + j))%g). { intros j. unfold x. rewrite <- (fpw_mul_base o L), <- (s_half _ _ _ _ SD (m + K)) by lia. reflexivity. }
    assert (HA' : forall j, j < 2 ^ m -> peval o A (x j * x j)%g = ((nth (2 * j) coset 0 + nth (2 * j + 1) coset 0) * finv o (1 + 1))%g).
    { intros j Hj. rewrite Sq, (HA j Hj). rewrite (nth_indep _ _ ((nth (2 * 0) coset 0 + nth (2 * 0 + 1) coset 0) * finv o (1 + 1))%g) by (rewrite map_length, seq_length; exact Hj). rewrite (map_nth (fun j => ((nth (2 * j) coset 0 + nth (2 * j + 1) coset 0) * finv o (1 + 1))%g)), seq_nth by exact Hj. reflexivity. }
    assert (HC' : forall j, j < 2 ^ m -> peval o C (x j * x j)%g = ((nth (2 * j) coset 0 - nth (2 * j + 1) coset 0) * finv o (1 + 1) * finv o (x j))%g).
    { intros j Hj. rewrite Sq, (HC j Hj). rewrite (nth_indep _ _ ((nth (2 * 0) coset 0 - nth (2 * 0 + 1) coset 0) * finv o (1 + 1) * finv o (x 0%nat))%g) by (rewrite map_length, seq_length; exact Hj). rewrite (map_nth (fun j => ((nth (2 * j) coset 0 - nth (2 * j + 1) coset 0) * finv o (1 + 1) * finv o (x j))%g)), seq_nth by exact Hj. reflexivity. }
    assert (Ev : forall j, j < 2 ^ m -> peval o (interleave A C) (x j) = nth (2 * j) coset (f0 o) /\ peval o (interleave A C) (- x j)%g = nth (2 * j + 1) coset (f0 o)).
    { intros j Hj. rewrite !interleave_eval by congruence. replace (- x j * - x j)%g with (x j * x j)%g by ring. rewrite (HA' j Hj), (HC' j Hj). pose proof (Nx j) as Nj. split; field; split; assumption. }
    intros j Hj. destruct (Nat.Even_or_Odd j) as [(t & ->)|(t & ->)].
    + replace (i * 2 ^ S m + 2 * t)%nat with (2 * (i * 2 ^ m + t))%nat by (rewrite PS; lia). cbn [Nat.add]. rewrite rev_even. apply (Ev t). lia.
    + replace (i * 2 ^ S m + (2 * t + 1))%nat with (2 * (i * 2 ^ m + t) + 1)%nat by (rewrite PS; lia). cbn [Nat.add]. rewrite rev_odd, (fpw_add o L).
      pose proof (w_neg o L e M w SD (m + K) ltac:(lia)) as En. rewrite Nat.add_1_r in En. rewrite En. rewrite <- (proj2 (Ev t ltac:(lia))). f_equal. unfold x. ring.
Qed.
Lemma fold_at c : forall p, peval o (fold_poly o c p) (c * c)%g = ((1 + 1) * peval o p c)%g.
Proof.
  apply (list_ind2 (fun p => peval o (fold_poly o c p) (c * c)%g = ((1 + 1) * peval o p c)%g)); [cbn [fold_poly]; rewrite !peval_nil; ring|intros a|intros a b p IH]; cbn [fold_poly]; rewrite !(peval_cons o L), ?peval_nil; [ring|]. rewrite IH. ring.
Qed.
Lemma folds_at : forall m c p, length p = 2 ^ m -> exists y, folds_poly o m c p = [y] /\ y = ((1 + 1) ^ m * peval o p c)%g.
Proof.
  induction m as [|m IH]; intros c p Lp; cbn [folds_poly].
  - destruct p as [|y [|y' p]]; try discriminate Lp. exists y. split; [reflexivity|]. rewrite (peval_cons o L), peval_nil. cbn [fpw]. ring.
  - destruct (IH (c * c)%g (fold_poly o c p)) as (y & E & Ey); [exact (FriProps.fold_poly_length o c p (2 ^ m) Lp)|]. exists y. split; [exact E|]. rewrite Ey, fold_at. cbn [fpw]. ring.
Qed.
(** What the verifier's fold computes. *)
Lemma fri_fold_folded K0 eval_x m K c i coset y : m + K <= K0 -> K0 <= M -> eval_points o w K0 eval_x -> i < 2 ^ K -> length coset = 2 ^ m ->
  fri_fold o (edbg e) coset c (2 ^ (K0 - (m + K))) (2 ^ m / 2 * i) (2 ^ (m + K)) eval_x = Some y -> folded o w (m + K) m c (Z.of_nat i) coset y.
Proof.
  intros HK HM Hx Hi Lc E. destruct (coset_poly m K ltac:(lia) i coset Hi Lc) as (P & LP & HP). exists P. split; [exact LP|]. split.
  { intros j Hj. unfold point. rewrite pow_Z'. replace (Z.to_nat (Z.of_nat i * Z.of_nat (2 ^ m) + Z.of_nat j)) with (i * 2 ^ m + j)%nat by lia. apply HP, Hj. }
  assert (T : exists t, xtable o w K0 t). { destruct (Nat.eq_dec K0 0) as [->|N]; [exists [f0 o]; split; [reflexivity|intros; lia]|]. destruct (x_inv_spec o L e M w SD K0 ltac:(lia)) as (t & _ & Ht). exists t. exact Ht. }
  destruct T as (t & Ht). set (v := map (fun n => peval o P (w (m + K)%nat ^ rev_bits (m + K) n)%g) (seq 0 (2 ^ (m + K)))).
  assert (Lv : length v = 2 ^ (m + K)) by (unfold v; rewrite map_length, seq_length; reflexivity).
  assert (Hv : layer_of o w (m + K) P v).
  { split; [exact Lv|]. intros n Hn. unfold v. rewrite (nth_indep _ _ (peval o P (w (m + K)%nat ^ rev_bits (m + K) 0)%g)) by (rewrite map_length, seq_length; exact Hn). rewrite (map_nth (fun n => peval o P (w (m + K)%nat ^ rev_bits (m + K) n)%g)), seq_nth by exact Hn. reflexivity. }
  assert (Bd : i * 2 ^ m + 2 ^ m <= 2 ^ (m + K)) by (rewrite Nat.pow_add_r; nia).
  assert (Es : slice o v (i * 2 ^ m) (2 ^ m) = coset).
  { apply (list_ext0 o); unfold slice; rewrite map_length, seq_length; [symmetry; exact Lc|]. intros j Hj. rewrite (nth_indep _ _ (nth 0 v (f0 o))) by (rewrite map_length, seq_length; exact Hj). rewrite (map_nth (fun j => nth j v (f0 o))), seq_nth by exact Hj.
    rewrite (proj2 Hv) by lia. apply HP, Hj. }
  pose proof (Nat.pow_gt_lin_r 2 m ltac:(lia)) as PG.
  pose proof (fri_fold_spec o L e M w SD K0 eval_x t HM Hx Ht m (length coset) K v c i (2 ^ m / 2 * i) HK ltac:(lia) Lv Hi) as Sp. rewrite Es in Sp.
  assert (Si : m <> 0%nat -> (2 ^ m / 2 * i)%nat = (2 ^ (m - 1) * i)%nat). { intros Nm. replace m with (S (m - 1)) at 1 by lia. rewrite Nat.pow_succ_r', (Nat.mul_comm 2), Nat.div_mul by lia. reflexivity. }
  specialize (Sp Si). unfold fri_fold in E. rewrite E in Sp. injection Sp as ->.
  rewrite (proj2 (folds_step o L e M w SD K0 t HM Ht m K P v c HK Hv) i Hi). destruct (folds_at m c P LP) as (y' & E1 & E2). rewrite E1, E2, (peval_cons o L), peval_nil. ring.
Qed.
End Interpolate.

(** ** Challenges *)
Section Draws.
Context {F : Type} (o : ops F) (e : engine F) (keccak : list Z -> list Z) (dec : u256 -> option F) (fuel : nat) (Hk : forall y, is_hash (keccak y)).
Local Open Scope Z_scope.
Lemma u64_wrap k : u64_to_be (k mod B) = u64_to_be k.
Proof.
  unfold u64_to_be. apply map_ext_in. intros i Hi.
  assert (R : 0 <= i <= 7) by (cbn in Hi; intuition lia). change B with (2 ^ 64). change 256 with (2 ^ 8). rewrite <- Z.pow_mul_r by lia.
  rewrite <- !Z.land_ones, <- !Z.shiftr_div_pow2 by lia. apply Z.bits_inj'. intros n Hn. rewrite !Z.land_spec. destruct (Z.ltb_spec n 8) as [Hl|Hl].
  - rewrite !Z.shiftr_spec, Z.land_spec, (Z.ones_spec_low 64), andb_true_r by lia. reflexivity.
  - rewrite (Z.ones_spec_high 8) by lia. rewrite !andb_false_r. reflexivity.
Qed.
Lemma candidate_wrap d k : candidate keccak d (k mod B) = candidate keccak d k.
Proof. unfold candidate, challenge. rewrite u64_wrap. reflexivity. Qed.
Lemma incr_wrap k c : incr (edbg e) (k mod B) = Some c -> c = (k + 1) mod B.
Proof.
  unfold incr. pose proof (Z.mod_pos_bound k B ltac:(reflexivity)) as Hb. rewrite <- Z.add_mod_idemp_l by discriminate. destruct (Z.ltb_spec (k mod B + 1) B) as [H|H].
  - intros [= <-]. rewrite (Z.mod_small (k mod B + 1)) by lia. reflexivity.
  - destruct (edbg e); [discriminate|]. intros [= <-]. replace (k mod B + 1) with B by lia. reflexivity.
Qed.
Lemma draw_felt_drawn d y : forall n k x c, draw_felt (edbg e) keccak n (Coin d (k mod B)) = Some (x, c) -> dec x = Some y ->
  exists k', c = Coin d (k' mod B) /\ forall ys, drawn keccak dec d k' ys -> drawn keccak dec d k (y :: ys).
Proof.
  induction n as [|n IH]; intros k x c E Ed; [discriminate E|]. cbn [draw_felt] in E. unfold draw_u256, draw_bytes in E. cbn [digest counter] in E.
  destruct (incr (edbg e) (k mod B)) as [k1|] eqn:Ei; cbn [bind] in E; [|discriminate E]. apply incr_wrap in Ei. subst k1. fold (challenge keccak d (k mod B)) in E.
  destruct (Hk (d ++ repeat 0 24 ++ u64_to_be (k mod B))) as [L F0]. fold (challenge keccak d (k mod B)) in L, F0.
  destruct (from_bytes_be_spec _ L F0) as [W0 V0]. destruct (mask_val _ W0) as [W1 V1]. rewrite V0 in V1. set (u := u_and (from_bytes_be (challenge keccak d (k mod B))) DRAW_MASK) in *.
  assert (V2 : val u = candidate keccak d k) by (rewrite <- candidate_wrap; exact V1).
  assert (Lt : u_ltb u (p_modulus proth_field) = (candidate keccak d k <? p_field)).
  { pose proof (u_ltb_spec u (p_modulus proth_field) W1 (proj1 (wfb_spec (p_modulus proth_field)) eq_refl)) as X. rewrite V2 in X. change (val (p_modulus proth_field)) with p_field in X. exact X. }
  clearbody u. rewrite Lt in E. destruct (Z.ltb_spec (candidate keccak d k) p_field) as [H|H].
  - assert (R : in_range (edbg e) u = Some u) by (unfold in_range; rewrite Lt; destruct (Z.ltb_spec (candidate keccak d k) p_field); [destruct (edbg e); reflexivity|lia]). rewrite R in E. cbn [bind] in E. injection E as <- <-.
    exists (k + 1). split; [reflexivity|]. intros ys Hy. apply (drawn_next keccak dec d k u y ys H); [split; assumption|exact Ed|exact Hy].
  - destruct (IH (k + 1) x c E Ed) as (k' & Ec & Hd). exists k'. split; [exact Ec|]. intros ys Hy. apply drawn_skip; [exact H|apply Hd, Hy].
Qed.
Lemma draw_elem_drawn d k x c : draw_elem e keccak dec fuel (Coin d (k mod B)) = Some (x, c) -> (exists k', c = Coin d (k' mod B)) /\ drawn keccak dec d k [x].
Proof.
  unfold draw_elem. destruct (draw_felt (edbg e) keccak fuel (Coin d (k mod B))) as [[u c1]|] eqn:E; [|discriminate]. destruct (dec u) as [y|] eqn:Ed; cbn [bind]; [|discriminate]. intros [= <- <-].
  destruct (draw_felt_drawn d y fuel k u c1 E Ed) as (k' & Ec & H). split; [exists k'; exact Ec|]. apply H. constructor.
Qed.
Lemma draw_elems_drawn d : forall n k l c, draw_elems e keccak dec fuel n (Coin d (k mod B)) = Some (l, c) -> (exists k', c = Coin d (k' mod B)) /\ drawn keccak dec d k l.
Proof.
  intros n. unfold draw_elems. induction n as [|n IH]; intros k l c E.
  - cbn in E. injection E as <- <-. split; [exists k; reflexivity|constructor].
  - cbn [get_coefficients] in E. destruct (draw_felt (edbg e) keccak fuel (Coin d (k mod B))) as [[u c1]|] eqn:E1; [|discriminate E]. destruct (get_coefficients (edbg e) keccak fuel c1 n) as [[us c2]|] eqn:E2; [|discriminate E].
    unfold decode_all in E. cbn [map option_all] in E. destruct (dec u) as [y|] eqn:Ed; cbn [bind] in E; [|discriminate E]. destruct (option_all (map dec us)) as [ys|] eqn:Ey; cbn [bind] in E; [|discriminate E]. injection E as <- <-.
    destruct (draw_felt_drawn d y fuel k u c1 E1 Ed) as (k' & -> & H). destruct (IH k' ys c2) as (Hc & Hd); [rewrite E2; unfold decode_all; rewrite Ey; reflexivity|]. split; [exact Hc|]. apply H, Hd.
Qed.

(** ** Where the verifier stands *)
Context (seed pf : list Z).
(** The verifier has read the messages [msgs]. *)
Definition stands (msgs : list (list Z)) (k : Z) (v : verifier) : Prop :=
  v = Verifier (Coin (absorb keccak seed msgs) (k mod B)) pf (length (concat msgs)) /\ exists rest, pf = concat msgs ++ rest.
Lemma stands_new : stands [] 0 (verifier_new keccak pf seed).
Proof. split; [reflexivity|exists pf; reflexivity]. Qed.
Lemma stands_take msgs k v n b : stands msgs k v -> v_take v n = Some b ->
  length b = n /\ stands (msgs ++ [b]) 0 (Verifier (coin_write keccak (vcoin v) b) (vproof v) (proof_index v + n)).
Proof.
  intros (-> & rest & E). unfold v_take. cbn [vproof proof_index vcoin]. rewrite E at 1. rewrite app_length. destruct (Nat.ltb_spec (length (concat msgs) + length rest) (length (concat msgs) + n)) as [|H]; [discriminate|].
  rewrite E at 1. rewrite skipn_app, skipn_all, Nat.sub_diag. cbn [app skipn]. intros [= <-]. assert (Ln : length (firstn n rest) = n) by (apply firstn_length_le; lia). split; [exact Ln|]. split.
  - unfold coin_write, absorb. cbn [digest]. rewrite fold_left_app, concat_app, app_length. cbn [fold_left concat]. rewrite app_nil_r, Ln. change (0 mod B) with 0. reflexivity.
  - exists (skipn n rest). rewrite concat_app. cbn [concat]. rewrite app_nil_r, <- app_assoc, firstn_skipn. exact E.
Qed.
Lemma stands_hash msgs k v h v' : stands msgs k v -> replay_hash keccak v = Some (h, v') -> length h = 32%nat /\ stands (msgs ++ [h]) 0 v'.
Proof. intros S. unfold replay_hash, read_32_bytes. destruct (v_take v 32) as [b|] eqn:E; [|discriminate]. cbn [bind]. intros [= <- <-]. apply (stands_take msgs k v 32 b S E). Qed.
Lemma in_range_same u u' : in_range (edbg e) u = Some u' -> u' = u.
Proof. unfold in_range. destruct (edbg e); [destruct (u_ltb u (p_modulus proth_field)); [|discriminate]|]; intros [= <-]; reflexivity. Qed.
Lemma stands_elem msgs k v x v' : stands msgs k v -> replay_elem e keccak dec v = Some (x, v') -> exists b, holds dec b x /\ stands (msgs ++ [b]) 0 v'.
Proof.
  intros S. unfold replay_elem, replay_felt, replay_u256, read_32_bytes. destruct (v_take v 32) as [b|] eqn:E; [|discriminate]. cbn [bind]. destruct (in_range (edbg e) (from_bytes_be b)) as [u|] eqn:Er; cbn [bind]; [|discriminate].
  apply in_range_same in Er. subst u. destruct (dec (from_bytes_be b)) as [y|] eqn:Ed; cbn [bind]; [|discriminate]. intros [= <- <-]. destruct (stands_take msgs k v 32 b S E) as (Lb & S'). exists b. split; [split; assumption|exact S'].
Qed.
Lemma stands_elems n : forall msgs k v l v', stands msgs k v -> replay_many (replay_elem e keccak dec) n v = Some (l, v') ->
  length l = n /\ exists bs, Forall2 (holds dec) bs l /\ stands (msgs ++ bs) (if (n =? 0)%nat then k else 0) v'.
Proof.
  induction n as [|n IH]; intros msgs k v l v' S E; cbn [replay_many] in E.
  - injection E as <- <-. split; [reflexivity|]. exists []. rewrite app_nil_r. split; [constructor|exact S].
  - destruct (replay_elem e keccak dec v) as [[x v1]|] eqn:E1; [|discriminate E]. destruct (replay_many (replay_elem e keccak dec) n v1) as [[xs v2]|] eqn:E2; [|discriminate E]. injection E as <- <-.
    destruct (stands_elem msgs k v x v1 S E1) as (b & Hb & S1). destruct (IH _ 0 v1 xs v2 S1 E2) as (Ll & bs & Hbs & S2). split; [cbn; lia|]. exists (b :: bs). split; [constructor; assumption|].
    rewrite <- app_assoc in S2. cbn [app] in S2. destruct (n =? 0)%nat; exact S2.
Qed.
Lemma chunks_read n : forall b us l, length b = (32 * n)%nat -> felts_of (edbg e) (chunks_32 n b) = Some us -> decode_all dec us = Some l ->
  exists bs, concat bs = b /\ Forall2 (holds dec) bs l /\ length l = n.
Proof.
  induction n as [|n IH]; intros b us l Lb E Ed; cbn [chunks_32] in E.
  - cbn in E. injection E as <-. cbn in Ed. injection Ed as <-. exists []. destruct b; [|cbn in Lb; lia]. repeat split. constructor.
  - destruct (Nat.ltb_spec (length b) 32); [lia|]. cbn [felts_of] in E. destruct (in_range (edbg e) (from_bytes_be (firstn 32 b))) as [u|] eqn:Er; cbn [bind] in E; [|discriminate E]. apply in_range_same in Er. subst u.
    remember (firstn 32 b) as b0 eqn:Eb0. destruct (felts_of (edbg e) (chunks_32 n (skipn 32 b))) as [us'|] eqn:Eu; cbn [bind] in E; [|discriminate E]. injection E as <-. unfold decode_all in Ed. cbn [map option_all] in Ed.
    destruct (dec (from_bytes_be b0)) as [x|] eqn:Ex; cbn [bind] in Ed; [|discriminate Ed]. destruct (option_all (map dec us')) as [xs|] eqn:Exs; cbn [bind] in Ed; [|discriminate Ed]. injection Ed as <-.
    destruct (IH (skipn 32 b) us' xs) as (bs & Ec & Hbs & Ll); [rewrite skipn_length; lia|exact Eu|exact Exs|]. exists (b0 :: bs). split; [|split].
    + cbn [concat]. rewrite Ec, Eb0. apply firstn_skipn.
    + constructor; [|exact Hbs]. split; [rewrite Eb0, firstn_length; lia|exact Ex].
    + cbn; lia.
Qed.
Lemma layer_take n v l v' : replay_layer e keccak dec n v = Some (l, v') -> exists b bs, v_take v (32 * n) = Some b /\ v' = Verifier (coin_write keccak (vcoin v) b) (vproof v) (proof_index v + 32 * n) /\
  concat bs = b /\ Forall2 (holds dec) bs l /\ length l = n.
Proof.
  unfold replay_layer, replay_fri_layer. destruct (v_take v (32 * n)) as [b|] eqn:E; cbn [bind]; [|discriminate]. destruct (felts_of (edbg e) (chunks_32 n b)) as [us|] eqn:Eu; cbn [bind]; [|discriminate].
  destruct (decode_all dec us) as [xs|] eqn:Ed; cbn [bind]; [|discriminate]. intros [= <- <-]. exists b.
  destruct (chunks_read n b us xs) as (bs & H1 & H2 & H3); [|exact Eu|exact Ed|exists bs; auto].
  revert E. unfold v_take. destruct (Nat.ltb_spec (length (vproof v)) (proof_index v + 32 * n)) as [|H]; [discriminate|]. intros [= <-]. rewrite firstn_length, skipn_length. lia.
Qed.
Lemma stands_layer n msgs k v l v' : stands msgs k v -> replay_layer e keccak dec n v = Some (l, v') -> exists bs, Forall2 (holds dec) bs l /\ length l = n /\ stands (msgs ++ [concat bs]) 0 v'.
Proof.
  intros S E. destruct (layer_take n v l v' E) as (b & bs & Et & -> & <- & H1 & H2). exists bs. split; [exact H1|]. split; [exact H2|]. apply (stands_take msgs k v _ _ S Et).
Qed.
Lemma stands_nonce msgs k v n v' : stands msgs k v -> replay_nonce keccak v = Some (n, v') -> exists b, length b = 8%nat /\ n = u64_from_be b /\ stands (msgs ++ [b]) 0 v'.
Proof. intros S. unfold replay_nonce. destruct (v_take v 8) as [b|] eqn:E; [|discriminate]. cbn [bind]. intros [= <- <-]. exists b. destruct (stands_take msgs k v 8 b S E) as (Lb & S'). auto. Qed.
Lemma stands_elem_draw msgs k v x v' : stands msgs k v -> v_coin (draw_elem e keccak dec fuel) v = Some (x, v') -> drawn keccak dec (absorb keccak seed msgs) k [x] /\ exists k', stands msgs k' v'.
Proof.
  intros (-> & R). unfold v_coin. cbn [vcoin vproof proof_index]. destruct (draw_elem e keccak dec fuel (Coin (absorb keccak seed msgs) (k mod B))) as [[y c]|] eqn:E; [|discriminate]. intros [= <- <-].
  destruct (draw_elem_drawn _ k y c E) as ((k' & ->) & H). split; [exact H|]. exists k'. split; [reflexivity|exact R].
Qed.
Lemma stands_elems_draw n msgs k v l v' : stands msgs k v -> v_coin (draw_elems e keccak dec fuel n) v = Some (l, v') -> drawn keccak dec (absorb keccak seed msgs) k l /\ length l = n /\ exists k', stands msgs k' v'.
Proof.
  intros (-> & R). unfold v_coin. cbn [vcoin vproof proof_index]. destruct (draw_elems e keccak dec fuel n (Coin (absorb keccak seed msgs) (k mod B))) as [[y c]|] eqn:E; [|discriminate]. intros [= <- <-].
  destruct (draw_elems_drawn _ n k y c E) as ((k' & ->) & H). split; [exact H|]. split; [apply (draw_elems_length e keccak dec fuel _ _ _ _ E)|]. exists k'. split; [reflexivity|exact R].
Qed.
Lemma stands_seed msgs k v s v' : stands msgs k v -> v_coin (draw_seed (edbg e)) v = Some (s, v') -> s = absorb keccak seed msgs /\ exists k', stands msgs k' v'.
Proof.
  intros (-> & R). unfold v_coin, draw_seed. cbn [vcoin vproof proof_index counter digest]. destruct (incr (edbg e) (k mod B)) as [c|] eqn:E; cbn [bind]; [|discriminate]. apply incr_wrap in E. subst c. intros [= <- <-].
  split; [reflexivity|]. exists (k + 1). split; [reflexivity|exact R].
Qed.
End Draws.
