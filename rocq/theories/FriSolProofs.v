(** Proofs about the folding in the Ethereum contract. *)
Require Import Field ZArith NArith Arith Lia Bool List Sorting.Sorted Zpow_facts.
From Verif Require Import Word KnuthModel U256Model U256Spec MontgomeryModel MontgomeryProofs MontgomeryProps FieldSig FieldModel FieldProofs FieldInstance FieldAlgModel FieldAlgProofs FieldProps Arr FftModel FftSpec PermuteProofs StarkBase PolyModel PolyProps StarkInstance FriModel FriProps ContractModel FriSolModel.
Import ListNotations.
Open Scope Z_scope.

(** ** The fold of the library, for cosets of two, four and eight *)
Section Library.
Open Scope nat_scope.
Context {F : Type} (o : ops F) (L : lawful o) (e : engine F) (M : nat) (w : nat -> F) (SD : sound o e M w) (M3 : 3 <= M).
Add Field FLfield : (law_field o L).
Notation "x ^^ n" := (fpw o x n) (at level 30).
Definition g (p0 p1 f : F) : F := fadd o (fadd o p0 p1) (fmul o f (fsub o p0 p1)).
(** the first point of the coset number [i] of size [2 ^ m], in the layer of size [2 ^ (m + K)] *)
Definition pt (m K i : nat) : F := w (m + K) ^^ rev_bits K i.
Lemma pt_point m K i : pt m K i = w (m + K) ^^ rev_bits (m + K) (i * 2 ^ m).
Proof. unfold pt. pose proof (rev_split K m i 0 (pow2_pos m)) as E. rewrite Nat.add_0_r in E. rewrite E, PermuteProofs.rev_zero. reflexivity. Qed.
Lemma pt_ne m K i : m + K <= M -> pt m K i <> f0 o.
Proof. intros H. apply (fpw_neq_0 o L), (w_neq_0 o L e M w SD). exact H. Qed.
Lemma pt_split m K i j : m + K <= M -> j < 2 ^ m -> w (m + K) ^^ rev_bits (m + K) (i * 2 ^ m + j) = fmul o (w m ^^ rev_bits m j) (pt m K i).
Proof.
  intros H Hj. rewrite (rev_split K m i j Hj), (fpw_add o L), (Nat.mul_comm (rev_bits m j)), (fpw_mul o L), (w_pow o L e M w SD) by exact H. reflexivity.
Qed.
Lemma pt_square m K i : S m + K <= M -> fmul o (pt (S m) K i) (pt (S m) K i) = pt m K i.
Proof.
  intros H. unfold pt. rewrite <- (fpw_mul_base o L). f_equal. symmetry. exact (s_half _ _ _ _ SD (m + K) ltac:(lia)).
Qed.
Lemma inv_square m K i : S m + K <= M -> finv o (pt m K i) = fmul o (finv o (pt (S m) K i)) (finv o (pt (S m) K i)).
Proof. intros H. rewrite <- pt_square by exact H. apply (finv_mul o L); apply pt_ne; exact H. Qed.
Context (dbg : bool) (K0 : nat) (eval_x : list F) (HK0 : K0 <= M) (Hx : eval_x = map (fun i => w K0 ^^ i) (seq 0 (2 ^ K0))).
Lemma chunk_step m K i k c p0 p1 l : S m + K <= K0 -> i < 2 ^ K -> k < 2 ^ m ->
  fold_chunks o dbg (2 ^ (S m + K)) (2 ^ m * i) (2 ^ (K0 - (S m + K))) eval_x c k (p0 :: p1 :: l) =
  let? rest := fold_chunks o dbg (2 ^ (S m + K)) (2 ^ m * i) (2 ^ (K0 - (S m + K))) eval_x c (S k) l in
  Some (g p0 p1 (fmul o (fmul o c (finv o (pt (S m) K i))) (finv o (w (S m) ^^ rev_bits m k))) :: rest).
Proof.
  intros HK Hi Hk. cbn [fold_chunks]. assert (E2 : 2 ^ (S m + K) / 2 = 2 ^ (m + K)) by (cbn [Nat.add]; rewrite Nat.pow_succ_r', Nat.mul_comm, Nat.div_mul; lia). rewrite E2.
  assert (Hp : 2 ^ m * i + k < 2 ^ (m + K)) by (rewrite Nat.pow_add_r; nia). rewrite permute_index_spec by (pose proof (s_max _ _ _ _ SD); lia). cbn [bind].
  pose proof (rev_lt (m + K) (2 ^ m * i + k)) as RL.
  assert (PB : rev_bits (m + K) (2 ^ m * i + k) * 2 ^ (K0 - (S m + K)) < 2 ^ K0).
  { replace K0 with ((m + K) + (1 + (K0 - (S m + K)))) at 2 by lia. rewrite (Nat.pow_add_r 2 (m + K)), (Nat.pow_add_r 2 1). change (2 ^ 1) with 2. pose proof (pow2_pos (K0 - (S m + K))). nia. }
  assert (N : nth_error eval_x (rev_bits (m + K) (2 ^ m * i + k) * 2 ^ (K0 - (S m + K))) = Some (w K0 ^^ (rev_bits (m + K) (2 ^ m * i + k) * 2 ^ (K0 - (S m + K))))).
  { rewrite Hx, nth_error_map. rewrite (nth_error_nth' _ 0) by (rewrite seq_length; exact PB). rewrite seq_nth by exact PB. reflexivity. }
  rewrite N. cbn [bind].
  assert (EX : w K0 ^^ (rev_bits (m + K) (2 ^ m * i + k) * 2 ^ (K0 - (S m + K))) = fmul o (pt (S m) K i) (w (S m) ^^ rev_bits m k)).
  { rewrite (Nat.mul_comm _ (2 ^ (K0 - _))), (fpw_mul o L). replace (w K0) with (w ((S m + K) + (K0 - (S m + K)))) by (f_equal; lia). rewrite (w_pow o L e M w SD) by lia.
    rewrite (Nat.mul_comm (2 ^ m)), (rev_split K m i k Hk), (fpw_add o L), (Nat.mul_comm (rev_bits m k)), (fpw_mul o L). rewrite (w_pow o L e M w SD (S m) K) by lia. unfold pt. ring. }
  rewrite EX. assert (N1 := pt_ne (S m) K i ltac:(lia)). assert (N2 : w (S m) ^^ rev_bits m k <> f0 o) by (apply (fpw_neq_0 o L), (w_neq_0 o L e M w SD); lia).
  unfold fri_single_fold, f_div. rewrite (inv_opt_ne o L) by (apply (fmul_neq_0 o L); assumption). cbn [bind].
  destruct (fold_chunks o dbg _ _ _ eval_x c (S k) l) as [rest|]; [|reflexivity]. cbn [bind]. unfold g. rewrite (finv_mul o L) by assumption. do 4 f_equal. ring.
Qed.
Lemma loop_step fuel a b l c step index len : fri_fold_loop o dbg (S fuel) (a :: b :: l) c step index len eval_x =
  let? next := fold_chunks o dbg len index step eval_x c 0 (a :: b :: l) in fri_fold_loop o dbg fuel next (fsquare o c) (2 * step) (index / 2) (len / 2) eval_x.
Proof. reflexivity. Qed.
Lemma inv_root a n : (a + n = 8 -> finv o (w 3 ^^ a) = w 3 ^^ n).
Proof. intros H. symmetry. apply (finv_unique o L). rewrite <- (fpw_add o L), H. exact (proj1 (s_prim _ _ _ _ SD 3 ltac:(lia))). Qed.
Lemma finv_one : finv o (f1 o) = f1 o. Proof. symmetry. apply (finv_unique o L). ring. Qed.
Lemma half_w m : m < M -> w m = fmul o (w (S m)) (w (S m)). Proof. intros H. exact (s_half _ _ _ _ SD m H). Qed.
Lemma half_args m K : S (S m) + K <= K0 -> 2 * 2 ^ (K0 - (S (S m) + K)) = 2 ^ (K0 - (S m + K)) /\ 2 ^ (S (S m) + K) / 2 = 2 ^ (S m + K) /\ forall i, 2 ^ S m * i / 2 = 2 ^ m * i.
Proof.
  intros H. split; [|split].
  - rewrite <- Nat.pow_succ_r'. f_equal. lia.
  - cbn [Nat.add]. rewrite Nat.pow_succ_r', Nat.mul_comm, Nat.div_mul; lia.
  - intros i. rewrite Nat.pow_succ_r', <- Nat.mul_assoc, Nat.mul_comm, Nat.div_mul; lia.
Qed.
Lemma lib1 fuel K i c p0 p1 : 1 + K <= K0 -> i < 2 ^ K ->
  fri_fold_loop o dbg (S fuel) [p0; p1] c (2 ^ (K0 - (1 + K))) (2 ^ 0 * i) (2 ^ (1 + K)) eval_x = Some (g p0 p1 (fmul o c (finv o (pt 1 K i)))).
Proof.
  intros H Hi. rewrite loop_step, chunk_step by (try assumption; cbn; lia). cbn [fold_chunks bind]. cbn [rev_bits fpw]. rewrite finv_one.
  replace (fmul o (fmul o c (finv o (pt 1 K i))) (f1 o)) with (fmul o c (finv o (pt 1 K i))) by ring. destruct fuel; reflexivity.
Qed.
Lemma lib2 fuel K i c p0 p1 p2 p3 : 2 + K <= K0 -> i < 2 ^ K -> let f := fmul o c (finv o (pt 2 K i)) in
  fri_fold_loop o dbg (S (S fuel)) [p0; p1; p2; p3] c (2 ^ (K0 - (2 + K))) (2 ^ 1 * i) (2 ^ (2 + K)) eval_x =
  Some (g (g p0 p1 f) (g p2 p3 (fmul o f (w 3 ^^ 6))) (fmul o f f)).
Proof.
  intros H Hi f. rewrite loop_step, !chunk_step by (try assumption; cbn; lia). cbn [fold_chunks bind].
  destruct (half_args 0 K H) as (-> & -> & ->). rewrite lib1 by (try assumption; lia). do 2 f_equal; fold f.
  - f_equal. replace (rev_bits 1 0) with 0 by reflexivity. cbn [fpw]. rewrite finv_one. ring.
  - f_equal. f_equal. replace (w 2 ^^ rev_bits 1 1) with (w 3 ^^ 2) by (rewrite (half_w 2) by lia; cbn; ring). apply inv_root. reflexivity.
  - rewrite inv_square by lia. unfold f, fsquare. ring.
Qed.
Lemma lib3 fuel K i c p0 p1 p2 p3 p4 p5 p6 p7 : 3 + K <= K0 -> i < 2 ^ K -> let f := fmul o c (finv o (pt 3 K i)) in let f2 := fmul o f f in
  fri_fold_loop o dbg (S (S (S fuel))) [p0; p1; p2; p3; p4; p5; p6; p7] c (2 ^ (K0 - (3 + K))) (2 ^ 2 * i) (2 ^ (3 + K)) eval_x =
  Some (g (g (g p0 p1 f) (g p2 p3 (fmul o f (w 3 ^^ 6))) f2) (g (g p4 p5 (fmul o f (w 3 ^^ 7))) (g p6 p7 (fmul o f (w 3 ^^ 5))) (fmul o f2 (w 3 ^^ 6))) (fmul o f2 f2)).
Proof.
  intros H Hi f f2. rewrite loop_step, !chunk_step by (try assumption; cbn; lia). cbn [fold_chunks bind].
  destruct (half_args 1 K H) as (-> & -> & ->). rewrite lib2 by (try assumption; lia). cbv zeta.
  replace (fmul o (fsquare o c) (finv o (pt 2 K i))) with f2 by (rewrite inv_square by lia; unfold f2, f, fsquare; ring). fold f.
  replace (rev_bits 2 0) with 0 by reflexivity. replace (rev_bits 2 1) with 2 by reflexivity. replace (rev_bits 2 2) with 1 by reflexivity. replace (rev_bits 2 3) with 3 by reflexivity.
  rewrite (inv_root 2 6), (inv_root 1 7), (inv_root 3 5) by reflexivity. replace (w 3 ^^ 0) with (f1 o) by reflexivity. rewrite finv_one.
  replace (fmul o f (f1 o)) with f by ring. reflexivity.
Qed.
End Library.

Notation o := felt_ops.
Notation L := felt_lawful.
Notation w := (fe_w proth_good).
Notation vl := (@fe_val proth_field).
Notation F := Felt.
Add Field FSfield : (law_field o L).
Notation "x ^^ n" := (fpw o x n) (at level 30).

Lemma p_val : val (p_modulus proth_field) = MODULUS. Proof. rewrite proth_modulus. reflexivity. Qed.
Lemma vl_range u : 0 <= vl u < MODULUS. Proof. rewrite <- p_val. exact (fe_val_range proth_good u). Qed.
Lemma vl_mod u : vl u mod MODULUS = vl u. Proof. apply Z.mod_small, vl_range. Qed.
Lemma add_rep a b u v : a mod MODULUS = vl u -> b mod MODULUS = vl v -> y_addmod a b MODULUS = vl (fadd o u v).
Proof.
  intros A E. unfold y_addmod. change (MODULUS =? 0) with false. cbn iota.
  change (fadd o u v) with (fadd (fe_ops proth_good) u v). cbn [fadd fe_ops]. rewrite (fe_add_val proth_good), p_val, <- A, <- E. apply Z.add_mod. discriminate.
Qed.
Lemma mul_rep a b u v : a mod MODULUS = vl u -> b mod MODULUS = vl v -> y_mulmod a b MODULUS = vl (fmul o u v).
Proof.
  intros A E. unfold y_mulmod. change (MODULUS =? 0) with false. cbn iota.
  change (fmul o u v) with (fmul (fe_ops proth_good) u v). cbn [fmul fe_ops]. rewrite (fe_mul_val proth_good), p_val, <- A, <- E. apply Z.mul_mod. discriminate.
Qed.
Lemma mul_vl u v : y_mulmod (vl u) (vl v) MODULUS = vl (fmul o u v).
Proof. apply mul_rep; apply vl_mod. Qed.
(** The sums are not reduced, and fit. *)
Lemma fold_vl u v f : fold (vl u) (vl v) (vl f) = vl (fadd o (fadd o u v) (fmul o f (fsub o u v))).
Proof.
  pose proof (vl_range u). pose proof (vl_range v). assert (M2 : 2 * MODULUS < 2 ^ 256) by reflexivity. unfold fold, wrap.
  rewrite (Z.mod_small (vl u + vl v)), (Z.mod_small (vl u + MODULUS)) by lia. rewrite (Z.mod_small (vl u + MODULUS - vl v)) by lia.
  apply add_rep.
  - change (fadd o u v) with (fe_add u v). rewrite (fe_add_val proth_good), p_val. reflexivity.
  - rewrite (mul_rep (vl f) (vl u + MODULUS - vl v) f (fsub o u v)); [apply vl_mod|apply vl_mod|].
    change (fsub o u v) with (fe_sub u v). rewrite (fe_sub_val proth_good), p_val. replace (vl u + MODULUS - vl v) with (vl u - vl v + 1 * MODULUS) by ring. apply Z.mod_add. discriminate.
Qed.

(** ** The roots of unity *)
Lemma root_power k : (k <= 63)%nat -> vl (w k) = Zpow_mod 3 ((MODULUS - 1) / 2 ^ Z.of_nat k) MODULUS.
Proof.
  intros _. unfold fe_w. rewrite (fe_exp_val proth_good), (generator_val proth_field proth_good 3 proth_constants), p_val.
  rewrite Z2N.id by (apply Z.div_pos; [discriminate|apply Z.pow_pos_nonneg; lia]). rewrite Zpow_mod_correct by discriminate. reflexivity.
Qed.
Lemma w3_val : vl (w 3) = OROOT1.
Proof. rewrite root_power by lia. vm_compute. reflexivity. Qed.
Lemma w3_pow n : vl (w 3 ^^ n) = OROOT1 ^ Z.of_nat n mod MODULUS.
Proof. rewrite <- (fexp_nat o), (fe_exp_val proth_good), p_val, w3_val, nat_N_Z. reflexivity. Qed.
Lemma roots_val : roots = map (fun j => vl (w 3 ^^ rev_bits 3 j)) (seq 0 8).
Proof. cbn [seq map]. rewrite !w3_pow. vm_compute. reflexivity. Qed.
Lemma oroot5 : OROOT5 = vl (w 3 ^^ 5). Proof. rewrite w3_pow. vm_compute. reflexivity. Qed.
Lemma oroot6 : OROOT6 = vl (w 3 ^^ 6). Proof. rewrite w3_pow. vm_compute. reflexivity. Qed.
Lemma oroot7 : OROOT7 = vl (w 3 ^^ 7). Proof. rewrite w3_pow. vm_compute. reflexivity. Qed.

Lemma three : (3 <= 63)%nat. Proof. lia. Qed.
Section Verifier.
Open Scope nat_scope.
Context (dbg : bool) (K0 : nat) (eval_x : list F) (HK0 : K0 <= 63) (Hx : eval_x = map (fun i => w K0 ^^ i) (seq 0 (2 ^ K0))).
Notation g := (g o). Notation pt := (pt o w).
Let inv_sq m K i (H : S m + K <= 63) := inv_square o L felt_engine 63 w felt_sound three m K i H.
Lemma fold_g u v f : fold (vl u) (vl v) (vl f) = vl (g u v f). Proof. apply fold_vl. Qed.
Lemma fold_coset_spec m K coset c i : 1 <= m <= 3 -> m + K <= K0 -> length coset = 2 ^ m -> i < 2 ^ K ->
  exists y, fri_fold o dbg coset c (2 ^ (K0 - (m + K))) (2 ^ m / 2 * i) (2 ^ (m + K)) eval_x = Some y /\
  fold_coset (map vl coset) (vl (finv o (pt m K i))) (vl c) = Some (vl y, vl (finv o (pt 0 K i))).
Proof.
  intros Hm HK Lc Hi. unfold fri_fold, fold_coset. destruct m as [|[|[|[|m]]]]; try lia; cbn [Nat.pow Nat.mul Nat.add] in Lc; repeat (destruct coset as [|? coset]; cbn [length] in Lc; try lia); cbn [map length].
  - change (2 ^ 1 / 2) with (2 ^ 0). rewrite (lib1 o L felt_engine 63 w felt_sound three dbg K0 eval_x HK0 Hx) by assumption. eexists. split; [reflexivity|]. rewrite !mul_vl, fold_g. rewrite <- (inv_sq 0) by lia. reflexivity.
  - change (2 ^ 2 / 2) with (2 ^ 1). rewrite (lib2 o L felt_engine 63 w felt_sound three dbg K0 eval_x HK0 Hx) by assumption. eexists. split; [reflexivity|]. rewrite oroot6. rewrite !mul_vl, !fold_g. rewrite <- (inv_sq 1), <- (inv_sq 0) by lia. reflexivity.
  - change (2 ^ 3 / 2) with (2 ^ 2). rewrite (lib3 o L felt_engine 63 w felt_sound three dbg K0 eval_x HK0 Hx) by assumption. eexists. split; [reflexivity|]. rewrite oroot5, oroot6, oroot7. rewrite !mul_vl, !fold_g. rewrite <- (inv_sq 2), <- (inv_sq 1), <- (inv_sq 0) by lia. reflexivity.
Qed.
End Verifier.

(** ** A layer *)
Section Layer.
Open Scope nat_scope.
Definition sorted (l : list nat) : Prop := StronglySorted lt l.
(** an entry of the arrays for the layer of size [2 ^ n], whose value at position [q] is [v q] *)
Definition entry (n : nat) (v : nat -> F) (q : nat) : Z * Z * Z := (Z.of_nat q, vl (v q), vl (finv o (w n ^^ rev_bits n q))).
Definition absent (qs : list nat) (j : nat) : bool := if in_dec Nat.eq_dec j qs then false else true.
Context (n : nat) (v : nat -> F).
Lemma collect_spec : forall k s qs1 qs2 ext, sorted qs1 -> (forall q, In q qs1 -> s <= q < s + k) -> (forall q, In q qs2 -> s + k <= q) ->
  collect k (Z.of_nat s) (map (entry n v) (qs1 ++ qs2)) (map (fun j => vl (v j)) (filter (absent qs1) (seq s k)) ++ ext) = Some (map (fun j => vl (v j)) (seq s k), map (entry n v) qs2, ext).
Proof.
  induction k as [|k IH]; intros s qs1 qs2 ext Ss H1 H2.
  - destruct qs1 as [|q t]; [reflexivity|]. specialize (H1 q (or_introl eq_refl)). lia.
  - assert (Hs : (Z.of_nat s + 1)%Z = Z.of_nat (S s)) by lia.
    destruct qs1 as [|q t].
    + assert (A : collect (S k) (Z.of_nat s) (map (entry n v) ([] ++ qs2)) (map (fun j => vl (v j)) (filter (absent []) (seq s (S k))) ++ ext) =
        let? r := collect k (Z.of_nat s + 1) (map (entry n v) qs2) (map (fun j => vl (v j)) (filter (absent []) (seq (S s) k)) ++ ext) in Some (vl (v s) :: fst (fst r), snd (fst r), snd r)).
      { change (seq s (S k)) with (s :: seq (S s) k). cbn [filter]. replace (absent [] s) with true by reflexivity. cbn [map List.app collect]. destruct qs2 as [|q2 t2]; [reflexivity|].
        cbn [map]. unfold entry at 1. specialize (H2 q2 (or_introl eq_refl)). destruct (Z.eqb_spec (Z.of_nat q2) (Z.of_nat s)) as [E|_]; [lia|]. reflexivity. }
      rewrite A, Hs. change qs2 with ([] ++ qs2) at 1. rewrite (IH (S s) [] qs2 ext); [reflexivity|exact Ss|intros ? []|]. intros q Hq. specialize (H2 q Hq). lia.
    + inversion Ss as [|? ? St Fq]; subst. rewrite Forall_forall in Fq. pose proof (H1 q (or_introl eq_refl)) as Hq. destruct (Nat.eq_dec q s) as [->|Nq].
      * assert (Fl : filter (absent (s :: t)) (seq s (S k)) = filter (absent t) (seq (S s) k)).
        { change (seq s (S k)) with (s :: seq (S s) k). cbn [filter]. unfold absent at 1. destruct (in_dec Nat.eq_dec s (s :: t)) as [_|N]; [|exfalso; apply N; left; reflexivity].
          apply filter_ext_in. intros j Hj. apply in_seq in Hj. unfold absent. destruct (in_dec Nat.eq_dec j (s :: t)) as [[E|I]|N], (in_dec Nat.eq_dec j t) as [I'|N']; try reflexivity; try lia; exfalso; auto. apply N. right. exact I'. }
        rewrite Fl. cbn [List.app map collect]. unfold entry at 1. rewrite Z.eqb_refl, Hs. rewrite (IH (S s) t qs2 ext St); [reflexivity| |].
        -- intros j Hj. specialize (Fq j Hj). specialize (H1 j (or_intror Hj)). lia.
        -- intros j Hj. specialize (H2 j Hj). lia.
      * assert (Fl : filter (absent (q :: t)) (seq s (S k)) = s :: filter (absent (q :: t)) (seq (S s) k)).
        { change (seq s (S k)) with (s :: seq (S s) k). cbn [filter]. unfold absent at 1. destruct (in_dec Nat.eq_dec s (q :: t)) as [[E|I]|_]; [lia|specialize (Fq s I); lia|reflexivity]. }
        rewrite Fl. assert (A : forall cm, collect (S k) (Z.of_nat s) (map (entry n v) ((q :: t) ++ qs2)) (vl (v s) :: cm) = let? r := collect k (Z.of_nat s + 1) (map (entry n v) ((q :: t) ++ qs2)) cm in Some (vl (v s) :: fst (fst r), snd (fst r), snd r)).
        { intros cm. cbn [List.app map collect]. unfold entry at 1. destruct (Z.eqb_spec (Z.of_nat q) (Z.of_nat s)) as [E|_]; [lia|]. reflexivity. }
        change (map (fun j => vl (v j)) (s :: filter (absent (q :: t)) (seq (S s) k)) ++ ext) with (vl (v s) :: (map (fun j => vl (v j)) (filter (absent (q :: t)) (seq (S s) k)) ++ ext)).
        rewrite A, Hs, (IH (S s) (q :: t) qs2 ext Ss); [reflexivity| |].
        -- intros j [<-|Hj]; [lia|]. specialize (Fq j Hj). specialize (H1 j (or_intror Hj)). lia.
        -- intros j Hj. specialize (H2 j Hj). lia.
Qed.
End Layer.
Lemma sorted_split b l : sorted l -> l = filter (fun q => (q <? b)%nat) l ++ filter (fun q => negb (q <? b)%nat) l.
Proof.
  induction l as [|q t IH]; intros S; [reflexivity|]. inversion S as [|? ? St Fq]; subst. cbn [filter]. destruct (Nat.ltb_spec q b) as [Hq|Hq]; cbn [negb List.app]; [f_equal; apply IH; exact St|].
  assert (E1 : filter (fun q => (q <? b)%nat) t = []).
  { clear IH S St. induction Fq as [|x t Hx Ft IH]; [reflexivity|]. cbn [filter]. destruct (Nat.ltb_spec x b); [lia|exact IH]. }
  rewrite E1. cbn [List.app]. f_equal. rewrite E1 in IH. apply IH. exact St.
Qed.
Lemma sorted_filter f l : sorted l -> sorted (filter f l).
Proof.
  induction 1 as [|q t S IH Fq]; [constructor|]. cbn [filter]. destruct (f q); [|exact IH]. constructor; [exact IH|]. rewrite Forall_forall in *. intros x Hx. apply filter_In in Hx as [Hx _]. auto.
Qed.
Section Layers.
Open Scope nat_scope.
Context (dbg : bool) (K0 : nat) (eval_x : list F) (HK0 : K0 <= 63) (Hx : eval_x = map (fun i => w K0 ^^ i) (seq 0 (2 ^ K0))).
Context (m K : nat) (Hm : 1 <= m <= 3) (HK : m + K <= K0) (v : nat -> F) (c : F).
Definition positions (i : nat) : list nat := seq (i * 2 ^ m) (2 ^ m).
Notation library i := (fri_fold o dbg (map v (positions i)) c (2 ^ (K0 - (m + K))) (2 ^ m / 2 * i) (2 ^ (m + K)) eval_x).
Definition lib_fold (i : nat) : F := match library i with Some y => y | None => f0 o end.
Lemma lib_fold_some i : i < 2 ^ K -> library i = Some (lib_fold i) /\
  fold_coset (map (fun j => vl (v j)) (positions i)) (vl (finv o (pt o w m K i))) (vl c) = Some (vl (lib_fold i), vl (finv o (w K ^^ rev_bits K i))).
Proof.
  intros Hi. destruct (fold_coset_spec dbg K0 eval_x HK0 Hx m K (map v (positions i)) c i Hm HK) as (y & E1 & E2); [unfold positions; rewrite map_length, seq_length; reflexivity|exact Hi|].
  unfold lib_fold. rewrite E1. split; [reflexivity|]. rewrite map_map in E2. exact E2.
Qed.
Lemma eight : 2 ^ m <= 8. Proof. change 8 with (2 ^ 3). apply Nat.pow_le_mono_r; lia. Qed.
Lemma root_at j : j < 2 ^ m -> nth_error roots j = Some (vl (w m ^^ rev_bits m j)).
Proof.
  intros Hj. assert (H8 : j < 8) by (pose proof eight; lia).
  assert (E : nth_error (seq 0 8) j = Some j) by (rewrite (nth_error_nth' (seq 0 8) 0) by (rewrite seq_length; exact H8); rewrite seq_nth by exact H8; reflexivity).
  assert (Er : w 3 ^^ rev_bits 3 j = w m ^^ rev_bits m j).
  { pose proof (w_rev o L felt_engine 63 w felt_sound m (3 - m) j ltac:(lia) Hj) as Er. replace (m + (3 - m)) with 3 in Er by lia. exact Er. }
  rewrite <- Er. rewrite roots_val. exact (map_nth_error (fun j => vl (w 3 ^^ rev_bits 3 j)) j (seq 0 8) E).
Qed.
Lemma start_inv i j : j < 2 ^ m -> y_mulmod (vl (finv o (w (m + K) ^^ rev_bits (m + K) (i * 2 ^ m + j)))) (vl (w m ^^ rev_bits m j)) MODULUS = vl (finv o (pt o w m K i)).
Proof.
  intros Hj. rewrite mul_vl, (pt_split o L felt_engine 63 w felt_sound m K i j) by lia.
  assert (N1 := pt_ne o L felt_engine 63 w felt_sound m K i ltac:(lia)). assert (N2 : w m ^^ rev_bits m j <> f0 o) by (apply (fpw_neq_0 o L), (w_neq_0 o L felt_engine 63 w felt_sound); lia).
  set (a := w m ^^ rev_bits m j) in *. set (b := pt o w m K i) in *. clearbody a b. rewrite (finv_mul o L a b N2 N1).
  assert (E : fmul o (fmul o (finv o a) (finv o b)) a = finv o b) by (field; split; assumption). rewrite E. reflexivity.
Qed.
Lemma fold_layer_spec : forall is_ qs fuel ext, sorted qs -> sorted is_ -> (forall i, In i is_ <-> exists q, In q qs /\ q / 2 ^ m = i) -> (forall i, In i is_ -> i < 2 ^ K) -> length qs <= fuel ->
  fold_layer fuel (2 ^ m) (vl c) (map (entry (m + K) v) qs) (map (fun j => vl (v j)) (filter (absent qs) (flat_map positions is_)) ++ ext) =
  Some (map (fun i => (map (fun j => vl (v j)) (positions i), entry K lib_fold i)) is_).
Proof.
  pose proof (pow2_pos m) as P2.
  induction is_ as [|i is_ IH]; intros qs fuel ext Sq Si Hi HiK Hf.
  - destruct qs as [|q t]; [destruct fuel; reflexivity|]. exfalso. apply (proj2 (Hi (q / 2 ^ m))). exists q. split; [left|]; reflexivity.
  - inversion Si as [|? ? Si' Fi]; subst. rewrite Forall_forall in Fi. set (b := (i + 1) * 2 ^ m). set (qs1 := filter (fun q => q <? b) qs). set (qs2 := filter (fun q => negb (q <? b)) qs).
    assert (Eq : qs = qs1 ++ qs2) by (apply sorted_split; exact Sq).
    assert (LB : forall q, In q qs -> i * 2 ^ m <= q).
    { intros q Hq. assert (In (q / 2 ^ m) (i :: is_)) as D by (apply Hi; eauto). assert (i <= q / 2 ^ m) by (destruct D as [->|D]; [lia|specialize (Fi _ D); lia]). pose proof (Nat.div_mod q (2 ^ m) ltac:(lia)). nia. }
    assert (H1 : forall q, In q qs1 -> i * 2 ^ m <= q < i * 2 ^ m + 2 ^ m).
    { intros q Hq. apply filter_In in Hq as [Hq Hb]. apply Nat.ltb_lt in Hb. specialize (LB q Hq). unfold b in Hb. lia. }
    assert (H2 : forall q, In q qs2 -> i * 2 ^ m + 2 ^ m <= q).
    { intros q Hq. apply filter_In in Hq as [Hq Hb]. apply negb_true_iff, Nat.ltb_ge in Hb. unfold b in Hb. lia. }
    assert (N1 : exists q t, qs1 = q :: t).
    { destruct (proj1 (Hi i) (or_introl eq_refl)) as (q & Hq & E). assert (I : In q qs1).
      { apply filter_In. split; [exact Hq|]. apply Nat.ltb_lt. pose proof (Nat.div_mod q (2 ^ m) ltac:(lia)). pose proof (Nat.mod_upper_bound q (2 ^ m) ltac:(lia)). unfold b. nia. }
      destruct qs1 as [|q' t]; [destruct I|eauto]. }
    destruct N1 as (q & t & Eq1). assert (Hq : In q qs1) by (rewrite Eq1; left; reflexivity).
    set (j := q - i * 2 ^ m). assert (Ej : q = i * 2 ^ m + j) by (unfold j; specialize (H1 q Hq); lia). assert (Hj : j < 2 ^ m) by (unfold j; specialize (H1 q Hq); lia).
    assert (Md : q mod 2 ^ m = j) by (rewrite Ej, Nat.add_comm, Nat.mod_add by lia; apply Nat.mod_small; exact Hj).
    assert (Fl : filter (absent qs) (flat_map positions (i :: is_)) = filter (absent qs1) (positions i) ++ filter (absent qs2) (flat_map positions is_)).
    { cbn [flat_map]. rewrite filter_app. f_equal; apply filter_ext_in; intros x Hxx.
      - apply in_seq in Hxx. unfold absent. destruct (in_dec Nat.eq_dec x qs) as [I|N], (in_dec Nat.eq_dec x qs1) as [I'|N']; try reflexivity; exfalso.
        + rewrite Eq in I. apply in_app_or in I as [I|I]; [auto|]. specialize (H2 x I). lia.
        + apply N. rewrite Eq. apply in_or_app. auto.
      - apply in_flat_map in Hxx as (i' & Hi' & Hxx). apply in_seq in Hxx. specialize (Fi i' Hi'). unfold absent. destruct (in_dec Nat.eq_dec x qs) as [I|N], (in_dec Nat.eq_dec x qs2) as [I'|N']; try reflexivity; exfalso.
        + rewrite Eq in I. apply in_app_or in I as [I|I]; [|auto]. specialize (H1 x I). nia.
        + apply N. rewrite Eq. apply in_or_app. auto. }
    rewrite Fl, map_app, <- app_assoc. destruct fuel as [|fuel]; [exfalso; rewrite Eq, Eq1 in Hf; cbn in Hf; lia|].
    assert (En : map (entry (m + K) v) qs = (Z.of_nat q, vl (v q), vl (finv o (w (m + K) ^^ rev_bits (m + K) q))) :: map (entry (m + K) v) (t ++ qs2)) by (rewrite Eq, Eq1; reflexivity).
    pose proof (collect_spec (m + K) v (2 ^ m) (i * 2 ^ m) qs1 qs2 (map (fun j => vl (v j)) (filter (absent qs2) (flat_map positions is_)) ++ ext) (sorted_filter _ _ Sq) H1 H2) as Cl. rewrite <- Eq in Cl.
    specialize (IH qs2 fuel ext (sorted_filter _ _ Sq) Si').
    cbn [fold_layer]. rewrite En. cbn iota. rewrite <- En.
    assert (Zs : (Z.of_nat q - Z.of_nat q mod Z.of_nat (2 ^ m))%Z = Z.of_nat (i * 2 ^ m)) by (rewrite <- Nat2Z.inj_mod, Md; lia). rewrite Zs.
    replace (Z.to_nat (Z.of_nat q - Z.of_nat (i * 2 ^ m))) with j by lia. rewrite (root_at j Hj). cbn [bind]. unfold positions at 1. rewrite Cl. cbn [bind].
    rewrite Ej at 1. rewrite (start_inv i j Hj). destruct (lib_fold_some i (HiK i (or_introl eq_refl))) as [_ Fc]. unfold positions in Fc. rewrite Fc. cbn [bind].
    rewrite IH; [| |intros i' Hi'; apply HiK; right; exact Hi'|].
    + cbn [bind map fst snd]. rewrite <- Nat2Z.inj_div, Nat.div_mul by lia. reflexivity.
    + intros i'. split.
      * intros Hi'. destruct (proj1 (Hi i') (or_intror Hi')) as (x & Hxq & E). exists x. split; [|exact E]. apply filter_In. split; [exact Hxq|]. apply negb_true_iff, Nat.ltb_ge. specialize (Fi i' Hi').
        pose proof (Nat.div_mod x (2 ^ m) ltac:(lia)). unfold b. nia.
      * intros (x & Hxq & E). pose proof (H2 x Hxq) as B. apply filter_In in Hxq as [Hxq _]. assert (In i' (i :: is_)) as [<-|D] by (apply Hi; eauto); [|exact D].
        exfalso. pose proof (Nat.div_mod x (2 ^ m) ltac:(lia)). pose proof (Nat.mod_upper_bound x (2 ^ m) ltac:(lia)). nia.
    + rewrite Eq, app_length, Eq1 in Hf. cbn [length] in Hf. lia.
Qed.
End Layers.
