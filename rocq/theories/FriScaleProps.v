(** Property C75, on the words of a proof. The contract folds the limbs of the values, as the proof has them, with plain points
    and inverses. This is right because folding and evaluation are linear: limbs are the values times 2^256. *)
Require Import Field ZArith Arith Lia Bool List Sorting.Sorted.
From Verif Require Import Word KnuthModel U256Model U256Spec FieldSig FieldModel FieldInstance FieldAlgModel Arr FftModel FftSpec StarkBase PolyModel PolyProps StarkInstance FriModel ContractModel FriSolModel FriSolProofs FriSolBits FriSolProps PrimeSolModel PrimeSolProps FriLoopModel FriLoopProps.
From Verif Require PrimeSolProofs.
Import ListNotations.
Open Scope Z_scope.

Section Scale.
Context {F : Type} (o : ops F) (L : lawful o) (k : F).
Add Field Ffield : (law_field o L).
Notation sc := (fmul o k).
Lemma single_scale a b x c : fri_single_fold o (sc a) (sc b) x c = option_map sc (fri_single_fold o a b x c).
Proof. unfold fri_single_fold. destruct (f_div o c x) as [q|]; [|reflexivity]. cbn [bind option_map]. f_equal. ring. Qed.
Lemma chunks_scale dbg len index step ex c : forall n coset j, (length coset <= n)%nat -> fold_chunks o dbg len index step ex c j (map sc coset) = option_map (map sc) (fold_chunks o dbg len index step ex c j coset).
Proof.
  induction n as [|n IH]; intros coset j Hn; [destruct coset; [reflexivity|cbn in Hn; lia]|]. destruct coset as [|a [|b coset]]; [reflexivity|reflexivity|]. cbn [map fold_chunks]. destruct (permute_index dbg (len / 2) (index + j)) as [q|]; [|reflexivity]. cbn [bind].
  destruct (nth_error ex (q * step)) as [x|]; [|reflexivity]. cbn [bind]. rewrite single_scale. destruct (fri_single_fold o a b x c) as [y|]; [|reflexivity]. cbn [bind option_map].
  rewrite IH by (cbn in Hn; lia). destruct (fold_chunks o dbg len index step ex c (S j) coset) as [r|]; reflexivity.
Qed.
Lemma loop_scale dbg ex : forall fuel coset c step index len, fri_fold_loop o dbg fuel (map sc coset) c step index len ex = option_map sc (fri_fold_loop o dbg fuel coset c step index len ex).
Proof.
  induction fuel as [|fuel IH]; intros coset c step index len; (destruct coset as [|a [|b coset]]; [reflexivity|reflexivity|]); [reflexivity|].
  change (map sc (a :: b :: coset)) with (sc a :: sc b :: map sc coset). cbn [fri_fold_loop]. change (sc a :: sc b :: map sc coset) with (map sc (a :: b :: coset)). rewrite (chunks_scale dbg len index step ex c (length (a :: b :: coset))) by lia.
  destruct (fold_chunks o dbg len index step ex c 0 (a :: b :: coset)) as [r|]; [|reflexivity]. cbn [bind option_map]. apply IH.
Qed.
Lemma fold_scale dbg ex coset c step index len : fri_fold o dbg (map sc coset) c step index len ex = option_map sc (fri_fold o dbg coset c step index len ex).
Proof. unfold fri_fold. rewrite map_length. apply loop_scale. Qed.
Lemma evaluate_scale p x : evaluate o (map sc p) x = sc (evaluate o p x).
Proof.
  unfold evaluate. rewrite <- map_rev. generalize (rev p). clear p. intros l. assert (G : forall l r, fold_left (fun result coefficient => fadd o (fmul o result x) coefficient) (map sc l) (sc r) = sc (fold_left (fun result coefficient => fadd o (fmul o result x) coefficient) l r)).
  { clear l. induction l as [|a l IH]; intros r; [reflexivity|]. cbn [map fold_left]. rewrite <- IH. f_equal. ring. }
  rewrite <- G. f_equal. ring.
Qed.
Lemma last_scale dbg len g p q y : k <> f0 o -> last_check o dbg len g (map sc p) q (sc y) = last_check o dbg len g p q y.
Proof.
  intros Nk. unfold last_check. destruct (permute_index dbg len q) as [j|]; [|reflexivity]. cbn [bind]. unfold poly_new. rewrite map_length. destruct (is_power_of_two (length p)); [|reflexivity]. cbn [bind]. f_equal. rewrite evaluate_scale.
  set (a := evaluate o p _). destruct (feqb_spec o L (sc a) (sc y)) as [E|N]; destruct (feqb_spec o L a y) as [E2|N2]; try reflexivity.
  - contradiction N2. transitivity (fmul o (finv o k) (sc a)); [field; exact Nk|]. rewrite E. field. exact Nk.
  - contradiction N. rewrite E2. reflexivity.
Qed.
End Scale.

(** 2^256 as an element *)
Definition R_elem : Felt := fe_of_Z proth_good (2 ^ 256).
Lemma R_val : fe_val R_elem = 2 ^ 256 mod MODULUS.
Proof. unfold R_elem. rewrite (fe_of_Z_val proth_good), p_val. reflexivity. Qed.
Lemma limbs_scale (u : Felt) : limbs u = word (fmul felt_ops R_elem u).
Proof. unfold limbs, word. rewrite PrimeSolProofs.raw_val, PrimeSolProofs.mul_val, R_val, Z.mul_mod_idemp_l by discriminate. f_equal. apply Z.mul_comm. Qed.
Lemma R_ne : R_elem <> f0 felt_ops.
Proof. intros E. apply (f_equal fe_val) in E. rewrite R_val, PrimeSolProofs.val_0 in E. vm_compute in E. discriminate E. Qed.
Notation up := (fmul felt_ops R_elem).
Definition up_opening (x : opening) : opening := Opening (map (map up) (o_cosets x)) (o_numbers x) (o_log x).
Lemma folded_scale dbg K0 ex n v qs layers completions openings n' v' qs' : folded dbg K0 ex n v qs layers completions openings n' v' qs' ->
  folded dbg K0 ex n (fun q => up (v q)) qs layers (map (map up) completions) (map up_opening openings) n' (fun q => up (v' q)) qs'.
Proof.
  induction 1 as [n v qs|m K v c qs is_ v1 layers completions openings n' v' qs' Hm Si Hi Hf F IH]; [apply folded_nil|].
  cbn [map]. unfold up_opening at 1. cbn [o_cosets o_numbers o_log]. rewrite !map_map.
  assert (E : map (fun x => map up (map v (coset_positions m x))) is_ = map (fun i => map (fun q => up (v q)) (coset_positions m i)) is_) by (apply map_ext; intros i; rewrite map_map; reflexivity). rewrite E.
  apply (folded_cons dbg K0 ex m K (fun q => up (v q)) c qs is_ (fun q => up (v1 q))); [exact Hm|exact Si|exact Hi| |exact IH].
  intros i Ii. rewrite <- (map_map v up), (fold_scale felt_ops felt_lawful R_elem), (Hf i Ii). reflexivity.
Qed.
(** The Merkle verifier accepts the openings, with the hashes of the cosets of limbs *)
Definition opened_limbs (leaf_hash : list Z -> Z) (verify : nat -> list Z -> list Z -> option bool) (openings : list opening) : Prop :=
  forall j x, nth_error openings j = Some x -> verify j (map (fun coset => leaf_hash (map limbs coset)) (o_cosets x)) (map (fun k => Z.of_nat k + 2 ^ Z.of_nat (o_log x)) (o_numbers x)) = Some true.

(** On the limbs that a proof carries: the contract accepts the layers exactly if the Merkle verifier accepts every opening of
    the library's run, and the library accepts every value of the last layer. *)
Theorem C75_proof_words : forall dbg n v qs layers completions openings n' v' qs' coefficients leaf_hash verify, (n <= 40)%nat -> layers <> [] -> increasing qs -> (forall q, In q qs -> (q < 2 ^ n)%nat) ->
  (exists d, length coefficients = 2 ^ d)%nat ->
  folded dbg n (map (fun i => fpw felt_ops (fe_w proth_good n) i) (seq 0 (2 ^ n))) n v qs layers completions openings n' v' qs' ->
  fold_and_check_fri_layers leaf_hash verify (Z.of_nat n) (map (fun x => Z.of_nat (fst x)) layers) (map (map limbs) completions) (map (fun x => limbs (snd x)) layers) (map limbs coefficients) (map (fun q => (Z.of_nat q, limbs (v q))) qs) = Some tt <->
  opened_limbs leaf_hash verify openings /\ forall q, In q qs' -> last_check felt_ops dbg (2 ^ n') (fe_w proth_good n') coefficients q (v' q) = Some true.
Proof.
  intros dbg n v qs layers completions openings n' v' qs' coefficients H verify Hn Nl Sq Hq [d Hd] F.
  assert (E1 : forall l, map limbs l = map word (map up l)) by (intros l; rewrite map_map; apply map_ext; intros u; apply limbs_scale).
  assert (E2 : map (map limbs) completions = map (map word) (map (map up) completions)) by (rewrite map_map; apply map_ext; exact E1).
  assert (E3 : map (fun q => (Z.of_nat q, limbs (v q))) qs = map (fun q => (Z.of_nat q, word (up (v q)))) qs) by (apply map_ext; intros q; rewrite limbs_scale; reflexivity).
  rewrite E2, E3, (E1 coefficients). pose proof (C75_layers dbg n (fun q => up (v q)) qs layers (map (map up) completions) (map up_opening openings) n' (fun q => up (v' q)) qs' (map up coefficients) H verify Hn Nl Sq Hq) as T.
  rewrite T; [|exists d; rewrite map_length; exact Hd|apply folded_scale; exact F]. clear T.
  assert (Eo : opened H verify 0 (map up_opening openings) <-> opened_limbs H verify openings).
  { unfold opened, opened_limbs. assert (X : forall x, map (fun coset => H (map word coset)) (o_cosets (up_opening x)) = map (fun coset => H (map limbs coset)) (o_cosets x)) by (intros x; cbn [up_opening o_cosets]; rewrite map_map; apply map_ext; intros l; rewrite <- E1; reflexivity).
    split; intros O j x E.
    - specialize (O j (up_opening x) (map_nth_error up_opening j openings E)). rewrite X in O. exact O.
    - destruct (nth_error openings j) as [y|] eqn:Ey.
      + pose proof (map_nth_error up_opening j openings Ey) as Ey2. rewrite E in Ey2. injection Ey2 as ->. rewrite X. exact (O j y Ey).
      + exfalso. apply nth_error_None in Ey. assert (nth_error (map up_opening openings) j <> None) as N by (rewrite E; discriminate). apply nth_error_Some in N. rewrite map_length in N. lia. }
  rewrite Eo. split; intros [O A]; (split; [exact O|]); intros q Iq; specialize (A q Iq); rewrite (last_scale felt_ops felt_lawful R_elem dbg _ _ _ _ _ R_ne) in *; exact A.
Qed.
Print Assumptions C75_proof_words.
