(** The contract's field operations are those of the library: contracts/primefield.sol, and the check of the out of domain
    sample in stark_verifier.sol. *)
Require Import ZArith Arith Lia Bool List.
From Verif Require Import Word KnuthModel U256Model U256Spec FieldSig FieldModel FieldProofs FieldInstance FieldAlgModel Arr StarkBase FftModel PolyModel StarkInstance OodsModel ContractModel FriSolModel FriSolProofs FriSolBits PrimeSolModel PrimeSolProofs.
Import ListNotations.
Open Scope Z_scope.
(** The contract holds an element of the field as its value, or as the limbs that the library stores and sends in proofs. *)
Definition plain (u : Felt) : Z := fe_val u.
Definition limbs (u : Felt) : Z := val (raw u).

(** ** Arithmetic *)
(** The value is the one of the library's operation; the inverse of zero is zero, where the library has none. *)
Theorem C73_plain : forall u v : Felt, sol_fmul (plain u) (plain v) = plain (fmul felt_ops u v) /\ sol_fadd (plain u) (plain v) = plain (fadd felt_ops u v) /\
  sol_fsub (plain u) (plain v) = plain (fsub felt_ops u v) /\ inverse (plain u) = plain (if feqb felt_ops u (f0 felt_ops) then f0 felt_ops else finv felt_ops u) /\
  forall n, fpow (plain u) (Z.of_nat n) = plain (fpw felt_ops u n).
Proof.
  intros u v. unfold plain. split; [exact (mul_rep _ _ u v (vl_mod u) (vl_mod v))|]. split; [exact (add_rep _ _ u v (vl_mod u) (vl_mod v))|].
  split; [rewrite sub_val; apply fsub_ok; pose proof (vl_range v) as R; split; [exact (proj1 R)|apply Z.lt_le_incl; exact (proj2 R)]|].
  split; [|intros n; exact (exp_rep u n)].
  destruct (feqb_spec felt_ops felt_lawful u (f0 felt_ops)) as [->|N]; [|exact (inv_val u N)]. rewrite inverse_zero; [symmetry; exact val_0|rewrite val_0; reflexivity].
Qed.
Print Assumptions C73_plain.
(** On limbs: the conversions are inverse to each other, and sums and products are those of the library. *)
Theorem C73_limbs : forall u v : Felt, from_montgomery (limbs u) = plain u /\ to_montgomery (plain u) = limbs u /\
  fmul_mont (limbs u) (limbs v) = limbs (fmul felt_ops u v) /\ sol_fadd (limbs u) (limbs v) = limbs (fadd felt_ops u v) /\ sol_fsub (limbs u) (limbs v) = limbs (fsub felt_ops u v).
Proof.
  intros u v. split; [exact (from_ok u)|]. split; [exact (to_ok u)|]. split; [exact (fmul_mont_ok u v)|]. split; [exact (fadd_ok u v)|].
  unfold limbs. rewrite fsub_ok by (pose proof (raw_range v) as R; split; [exact (proj1 R)|apply Z.lt_le_incl; exact (proj2 R)]). rewrite !raw_val, sub_val, Zmult_mod_idemp_l, <- Zminus_mod. f_equal. ring.
Qed.
Print Assumptions C73_limbs.
(** Converting any word to limbs and back reduces it. *)
Theorem C73_round_trip : forall w, from_montgomery (to_montgomery w) = w mod MODULUS /\ to_montgomery (from_montgomery w) = w mod MODULUS.
Proof.
  intros w. unfold from_montgomery, to_montgomery. rewrite !mm, R_ok.
  assert (X : (2 ^ 256 mod MODULUS * MONTGOMERY_R_INV) mod MODULUS = 1) by (rewrite Zmult_mod_idemp_l; exact R_inv_ok).
  set (r := 2 ^ 256 mod MODULUS) in *. clearbody r. split; rewrite Zmult_mod_idemp_l, <- Z.mul_assoc, <- Zmult_mod_idemp_r; [|rewrite (Z.mul_comm MONTGOMERY_R_INV)]; rewrite X, Z.mul_1_r; reflexivity.
Qed.
Print Assumptions C73_round_trip.
(** Subtraction of a word above the modulus is wrong, because the contract's difference wraps at 2^256. *)
Theorem C73_fsub_refuted : exists a b, 0 <= a < 2 ^ 256 /\ 0 <= b < 2 ^ 256 /\ sol_fsub a b <> (a - b) mod MODULUS.
Proof. exists 0, (MODULUS + 1). split; [split; [discriminate|reflexivity]|]. split; [split; [discriminate|reflexivity]|]. vm_compute. discriminate. Qed.
Print Assumptions C73_fsub_refuted.

(** ** Roots *)
(** The root is there exactly up to 2^192; up to 2^63 it is the library's, and the points of the domain are its powers. *)
Theorem C73_roots : (forall k, 0 <= k <= 255 -> (generator_power k <> None <-> (2 ^ k | MODULUS - 1))) /\
  (forall k, 0 <= k <= 192 -> generator_power k = Some (3 ^ ((MODULUS - 1) / 2 ^ k) mod MODULUS)) /\
  forall n, (n <= 63)%nat -> exists g, eroot felt_engine (2 ^ n) = Some (Some g) /\ generator_power (Z.of_nat n) = Some (plain g) /\
    init_eval (Z.of_nat n) = Some (plain g, Z.of_nat n, 2 ^ Z.of_nat n) /\ forall x i, init_eval (Z.of_nat n) = Some x -> lookup x (Z.of_nat i) = plain (fpw felt_ops g i).
Proof.
  split; [|split].
  - intros k Hk. rewrite gp_spec by exact Hk. assert (P0 : 0 < 2 ^ k) by (apply Z.pow_pos_nonneg; lia). destruct (Z.leb_spec k 192) as [Hl|Hg].
    + split; [intros _; apply Z.mod_divide; [lia|]; apply adic; lia|discriminate].
    + split; [intros N; contradiction N; reflexivity|]. intros D. apply Z.mod_divide in D; [|lia]. contradiction (not_adic k Hg).
  - intros k Hk. rewrite gp_spec by lia. destruct (Z.leb_spec k 192); [reflexivity|lia].
  - intros n Hn. exists (fe_w proth_good n). split; [exact (s_root _ _ _ _ felt_sound n Hn)|].
    assert (G : generator_power (Z.of_nat n) = Some (plain (fe_w proth_good n))) by (rewrite gp_root by lia; exact (root_spec n Hn)).
    assert (I : init_eval (Z.of_nat n) = Some (plain (fe_w proth_good n), Z.of_nat n, 2 ^ Z.of_nat n)).
    { unfold init_eval. rewrite G. cbn [bind]. rewrite Z.mod_small; [reflexivity|]. split; [apply Z.pow_nonneg; lia|apply Z.pow_lt_mono_r; lia]. }
    split; [exact G|]. split; [exact I|]. intros x i E. rewrite I in E. injection E as <-. exact (exp_rep (fe_w proth_good n) i).
Qed.
Print Assumptions C73_roots.

(** ** Inversion of a batch *)
Theorem C73_batch : forall input, input <> [] -> (forall a, In a input -> a mod MODULUS <> 0) ->
  exists output, batch_invert input = (output, None) /\ length output = length input /\
  forall j, (j < length input)%nat -> 0 <= nth j output 0 < MODULUS /\ (nth j output 0 * nth j input 0) mod MODULUS = 1.
Proof.
  intros l N A. apply Forall_forall in A. destruct (products_spec l 1) as (_ & P2 & _). rewrite Z.mul_1_l in P2.
  destruct (fermat_word (snd (products 1 l))) as [E _]; [rewrite P2; apply prod_ne; exact A|].
  destruct (batch_spec l 1 N) as (S1 & S2 & S3).
  - rewrite <- Zmult_mod_idemp_r, <- P2, Zmult_mod_idemp_r, Z.mul_comm. exact E.
  - exists (fst (batch_invert l)). split; [rewrite <- S1; apply surjective_pairing|]. split; [exact S2|]. exact S3.
Qed.
Print Assumptions C73_batch.
(** The comment says that the inversion fails if there is a zero. It does not: all the outputs are zero. *)
Theorem C73_batch_zero_refuted : forall input, (exists a, In a input /\ a mod MODULUS = 0) -> batch_invert input = (repeat 0 (length input), None).
Proof. intros l X. apply batch_zero. apply Exists_exists. exact X. Qed.
Print Assumptions C73_batch_zero_refuted.
(** For empty arrays the word behind the output, which belongs to something else, becomes 1. *)
Theorem C73_batch_empty_refuted : batch_invert [] = ([], Some 1).
Proof. unfold batch_invert. cbn [products fst snd length Nat.sub inverses]. unfold modexp. change (MODULUS =? 0) with false. cbn iota. rewrite Z.pow_1_l by discriminate. reflexivity. Qed.
Print Assumptions C73_batch_empty_refuted.

(** ** The out of domain sample *)
(** The contract accepts the sample exactly if the library's two values are equal. *)
Theorem C73_oods : forall (values : list Felt) z e, check_out_of_domain_sample_result (map limbs values) (limbs z) (limbs e) = true <-> oods_value_from_constraint_values felt_ops values z = e.
Proof.
  intros values z e. unfold check_out_of_domain_sample_result, limbs. rewrite oods_ok, Z.eqb_eq. split; [apply raw_inj|intros ->; reflexivity].
Qed.
Print Assumptions C73_oods.
(** Values that are not reduced are taken as their residues, though the coin, which hashes words, tells them apart. *)
Theorem C73_oods_unreduced : forall values values' z e, Forall2 (fun a b => a mod MODULUS = b mod MODULUS) values values' ->
  check_out_of_domain_sample_result values z e = check_out_of_domain_sample_result values' z e.
Proof. intros values values' z e F. unfold check_out_of_domain_sample_result, oods_sum. rewrite (oods_residues values values' z _ F). reflexivity. Qed.
Print Assumptions C73_oods_unreduced.

(** ** Cases *)
Example C73_ex : from_montgomery MONTGOMERY_R = 1 /\ to_montgomery 1 = MONTGOMERY_R /\ fmul_mont (to_montgomery 6) (to_montgomery 7) = to_montgomery 42 /\ sol_fsub 3 5 = MODULUS - 2 /\
  generator_power 193 = None /\ check_out_of_domain_sample_result (map to_montgomery [4; 5; 6]) (to_montgomery 10) (to_montgomery 654) = true /\
  check_out_of_domain_sample_result (map to_montgomery [4; 5; 6]) (to_montgomery 10) (to_montgomery 456) = false /\
  check_out_of_domain_sample_result (map (fun v => to_montgomery v + MODULUS) [4; 5; 6]) (to_montgomery 10) (to_montgomery 654) = true.
Proof. vm_compute. repeat split. Qed.
(** The hypotheses of [C73_batch] hold for three elements, one of them not reduced. *)
Example C73_batch_ex : exists output, batch_invert [2; MODULUS + 3; MODULUS - 1] = (output, None) /\ length output = 3%nat /\ nth 0 output 0 = (MODULUS + 1) / 2 /\ (nth 1 output 0 * 3) mod MODULUS = 1.
Proof.
  destruct (C73_batch [2; MODULUS + 3; MODULUS - 1]) as (out & E & Lo & H).
  - discriminate.
  - intros a [<-|[<-|[<-|[]]]]; vm_compute; discriminate.
  - exists out. split; [exact E|]. split; [exact Lo|]. split.
    + destruct (H 0%nat) as [R M]; [cbn; lia|]. cbn [nth] in M. set (x := nth 0 out 0) in *. clearbody x. clear - R M.
      transitivity (x mod MODULUS); [symmetry; apply Z.mod_small; exact R|]. transitivity ((x * 2 * ((MODULUS + 1) / 2)) mod MODULUS).
      * rewrite <- Z.mul_assoc, <- Zmult_mod_idemp_r. change ((2 * ((MODULUS + 1) / 2)) mod MODULUS) with 1. rewrite Z.mul_1_r. reflexivity.
      * rewrite <- Zmult_mod_idemp_l, M. reflexivity.
    + destruct (H 1%nat) as [_ M]; [cbn; lia|]. cbn [nth] in M. rewrite <- Zmult_mod_idemp_r in M. exact M.
Qed.
