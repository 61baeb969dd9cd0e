(** C48: the default parameters of a constraint system. *)
Require Import ZArith Lia Bool List.
From Verif Require Import Word KnuthModel FieldSig FieldInstance FieldAlgModel Arr FftModel PermuteProofs FftProofs StarkBase StarkInstance PolyModel TraceModel ExprModel.
Import ListNotations.
Open Scope nat_scope.

Lemma tz_pow2 : forall fuel k, k < fuel -> tz_loop fuel (2 ^ Z.of_nat k) = k.
Proof.
  induction fuel as [|fuel IH]; intros k Hk; [lia|]. cbn [tz_loop]. destruct k as [|k].
  - reflexivity.
  - replace (Z.of_nat (S k)) with (Z.of_nat k + 1)%Z by lia. rewrite Z.pow_add_r by lia. replace (Z.odd (2 ^ Z.of_nat k * 2 ^ 1)) with false by (rewrite Z.odd_mul; cbn; rewrite andb_false_r; reflexivity).
    rewrite Z.pow_1_r, Z.div_mul by lia. f_equal. apply IH. lia.
Qed.
Lemma trailing_pow2 k : k < 64 -> trailing_zeros (Z.of_nat (2 ^ k)) = k.
Proof. intros H. unfold trailing_zeros. rewrite Nat2Z.inj_pow. apply tz_pow2, H. Qed.
Lemma sum_repeat a n : list_sum (repeat a n) = n * a.
Proof. induction n as [|n IH]; [reflexivity|]. cbn [repeat]. change (list_sum (a :: repeat a n)) with (a + list_sum (repeat a n)). rewrite IH. lia. Qed.
Lemma layout_sum k : k < 64 -> list_sum (default_fri_layout (Z.of_nat (2 ^ k))) = if 8 <? k then k - 8 else k.
Proof.
  intros Hk. unfold default_fri_layout. rewrite trailing_pow2 by exact Hk. generalize (if 8 <? k then k - 8 else k). intros r. rewrite list_sum_app, sum_repeat.
  pose proof (Nat.div_mod r 3 ltac:(lia)). destruct (Nat.eqb_spec (r mod 3) 0); cbn [list_sum fold_right]; lia.
Qed.

(** Every fold of the default layout is by 1 to 3 bits, and together they leave 2^8 rows of the trace
    length, or 1 if the trace has at most 2^8 rows; the layout is empty only for a single row. *)
Theorem C48_default_layout : forall k, k < 64 -> let l := default_fri_layout (Z.of_nat (2 ^ k)) in
  Forall (fun f => 1 <= f <= 3) l /\ 2 ^ k = 2 ^ list_sum l * (if 8 <? k then 2 ^ 8 else 1) /\ (l = [] <-> k = 0).
Proof.
  intros k Hk l. split; [|split].
  - unfold l, default_fri_layout. apply Forall_app. split; [apply Forall_forall; intros x Hx; apply repeat_spec in Hx; lia|].
    match goal with |- context[?r mod 3] => set (m := r mod 3) end. assert (m < 3) by (unfold m; apply Nat.mod_upper_bound; lia). destruct (Nat.eqb_spec m 0); [constructor|]. apply Forall_cons; [lia|constructor].
  - unfold l. rewrite layout_sum by exact Hk. destruct (Nat.ltb_spec 8 k); [|lia]. rewrite <- Nat.pow_add_r. f_equal. lia.
  - split; [|intros ->; reflexivity]. intros E. pose proof (layout_sum k Hk) as S. fold l in S. rewrite E in S. change (list_sum []) with 0 in S. destruct (Nat.ltb_spec 8 k); lia.
Qed.
Print Assumptions C48_default_layout.
(** A constraint system can be made exactly for the trace lengths that have a root of unity, with a blowup
    of 16 and the default layout. *)
Theorem C48_from_expressions : forall F (e : engine F) nrows ncols exprs b p q l, 
  (eroot e nrows = Some None -> from_expressions e nrows ncols exprs = Some None /\ from_expressions_detailed e nrows ncols exprs b p q l = Some None) /\
  (forall w, eroot e nrows = Some (Some w) -> 
     from_expressions e nrows ncols exprs = Some (Some (Constraints nrows ncols exprs 16 0 45 (default_fri_layout (Z.of_nat nrows)))) /\
     exists c, from_expressions_detailed e nrows ncols exprs b p q l = Some (Some c) /\ c_nrows c = nrows /\ c_ncolumns c = ncols /\ c_exprs c = exprs /\
       (forall x, b = Some x -> c_blowup c = x) /\ (b = None -> c_blowup c = 16%Z) /\ (forall x, p = Some x -> c_pow_bits c = x) /\ (p = None -> c_pow_bits c = 20%Z) /\
       (forall x, q = Some x -> c_queries c = x) /\ (q = None -> c_queries c = 13%Z) /\ (forall x, l = Some x -> c_fri c = x) /\ (l = None -> c_fri c = default_fri_layout (Z.of_nat nrows))).
Proof.
  intros F e nrows ncols exprs b p q l. unfold from_expressions, from_expressions_detailed. generalize (default_fri_layout (Z.of_nat nrows)). intros dl. split.
  - intros ->. split; reflexivity.
  - intros w ->. cbn [bind]. split; [reflexivity|]. eexists. split; [reflexivity|]. cbn. repeat (split; [first [reflexivity|intros ? ->; reflexivity|intros ->; reflexivity]|]). intros ->; reflexivity.
Qed.
Print Assumptions C48_from_expressions.
(** security_bits counts one bit per query pair more than the documented log2(blowup) * (queries / 2) + pow_bits
    for a power of two blowup. *)
Theorem C48_security_bits_deviation : forall F (c : @constraints F) dbg k, c_blowup c = (2 ^ Z.of_nat k)%Z -> (0 <= c_queries c)%Z -> (0 <= c_pow_bits c)%Z ->
  ((Z.of_nat k + 1) * (c_queries c / 2) + c_pow_bits c < B)%Z ->
  security_bits dbg c = Some ((Z.of_nat k * (c_queries c / 2) + c_pow_bits c) + c_queries c / 2)%Z.
Proof.
  intros F c dbg k Hb Hq Hp Hov. unfold security_bits, binary_digits. rewrite Hb. destruct (Z.eqb_spec (2 ^ Z.of_nat k) 0) as [E|_]; [pose proof (Z.pow_pos_nonneg 2 (Z.of_nat k)); lia|].
  rewrite Z.log2_pow2 by lia. pose proof (Z.div_pos (c_queries c) 2 Hq ltac:(lia)). set (h := (c_queries c / 2)%Z) in *. unfold umul, uadd.
  destruct (Z.ltb_spec ((Z.of_nat k + 1) * h) B); [|nia]. cbn [bind]. destruct (Z.ltb_spec ((Z.of_nat k + 1) * h + c_pow_bits c) B); [|lia]. f_equal. lia.
Qed.
Print Assumptions C48_security_bits_deviation.
(** max_proof_size panics in the debug profile for every trace of at most 256 rows with the default layout. *)
Lemma size_loop_panics q : forall l cur tot, (0 <= cur)%Z -> (cur < Z.of_nat (list_sum l))%Z -> size_loop true q l cur tot = None.
Proof.
  induction l as [|i l IH]; intros cur tot Hc H; [cbn in H; lia|]. cbn [size_loop]. change (list_sum (i :: l)) with (i + list_sum l) in H. unfold usub at 1. destruct (Z.leb_spec (Z.of_nat i) cur); [|reflexivity]. cbn [bind].
  destruct (ushl1 true (Z.of_nat i)) as [s|]; [|reflexivity]. cbn [bind]. destruct (uadd true _ s) as [x|]; [|reflexivity]. cbn [bind]. destruct (usub true x 1) as [y|]; [|reflexivity]. cbn [bind].
  destruct (umul true q y) as [z|]; [|reflexivity]. cbn [bind]. destruct (uadd true tot z) as [t|]; [|reflexivity]. cbn [bind]. apply IH; lia.
Qed.
Theorem C48_max_proof_size_panics : forall F (c : @constraints F) k, k <= 8 -> c_nrows c = 2 ^ k -> c_fri c = default_fri_layout (Z.of_nat (2 ^ k)) -> max_proof_size true c = None.
Proof.
  intros F c k Hk Hn Hf. unfold max_proof_size. rewrite Hn, Hf, trailing_pow2 by lia.
  destruct (umul true (Z.of_nat k) _) as [x|]; [|reflexivity]. cbn [bind]. destruct (uadd true x _) as [y|]; [|reflexivity]. cbn [bind]. destruct (umul true _ y) as [z|]; [|reflexivity]. cbn [bind].
  unfold usub. destruct (Z.leb_spec 3 (Z.of_nat k)); [|reflexivity]. cbn [bind]. destruct (uadd true _ 7) as [t|]; [|reflexivity]. cbn [bind]. destruct (umul true _ t) as [t1|]; [|reflexivity]. cbn [bind].
  destruct (uadd true z t1) as [t2|]; [|reflexivity]. cbn [bind]. rewrite size_loop_panics; [reflexivity|lia|]. rewrite layout_sum by lia. destruct (Nat.ltb_spec 8 k); lia.
Qed.
Print Assumptions C48_max_proof_size_panics.
Example C48_ex : default_fri_layout (Z.of_nat (2 ^ 13)) = [3; 2] /\ default_fri_layout 256 = [3; 3; 2] /\ default_fri_layout 4096 = [3; 1] /\ match eroot tiny_engine 3 with Some (Some _) => true | _ => false end = true /\ match eroot tiny_engine 5 with Some None => true | _ => false end = true /\
  max_proof_size true (Constraints (2 ^ 12) 2 [@EX (fe tiny_field)] 16 12 20 [2; 1; 4; 2]) = Some 56960%Z /\ security_bits true (Constraints (2 ^ 12) 2 [@EX (fe tiny_field)] 16 12 20 [2]) = Some 62%Z.
Proof. split; [vm_compute; reflexivity|]. split; [vm_compute; reflexivity|]. split; [vm_compute; reflexivity|]. split; [vm_compute; reflexivity|]. split; [vm_compute; reflexivity|]. split; vm_compute; reflexivity. Qed.
