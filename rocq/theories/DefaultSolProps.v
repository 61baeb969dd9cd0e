(** C77: the default FRI layout of the contract is the library's. *)
Require Import ZArith Lia Bool List.
From Verif Require Import Word KnuthModel Arr ExprModel LayoutProps DefaultSolModel FriLoopModel FriLoopProps.
Import ListNotations.
Open Scope Z_scope.

Lemma upd_app {A} (a : list A) y t x : upd (a ++ y :: t) (length a) x = a ++ x :: t.
Proof. induction a as [|b a IH]; [reflexivity|]. cbn [app length upd]. rewrite IH. reflexivity. Qed.
Lemma set_app {A} (a : list A) y t x : set (a ++ y :: t) (length a) x = Some (a ++ x :: t).
Proof. rewrite set_ok by (rewrite app_length; cbn; lia). rewrite upd_app. reflexivity. Qed.
Lemma fill : forall n a t, for_each (seq (length a) n) (fun result i => set result i 3) (a ++ repeat 0 n ++ t) = Some (a ++ repeat 3 n ++ t).
Proof.
  induction n as [|n IH]; intros a t; [reflexivity|]. cbn [seq for_each repeat app]. rewrite set_app. cbn [bind]. specialize (IH (a ++ [3]) t). rewrite app_length, <- !app_assoc in IH. cbn [length app] in IH. rewrite Nat.add_1_r in IH. exact IH.
Qed.
(** For every logarithm of a trace length: threes, then what is left of the logarithm, or of the logarithm less 8 if it is more than 8. *)
Theorem C77_layout : forall n, 0 <= n < 2 ^ 8 -> let r := if n <=? 8 then n else n - 8 in
  sol_fri_layout n = Some (repeat 3 (Z.to_nat (r / 3)) ++ (if r mod 3 =? 0 then [] else [r mod 3])).
Proof.
  intros n Hn r. unfold sol_fri_layout. assert (E : (if LOG2_TARGET <? n then (n - LOG2_TARGET) mod 2 ^ 8 else n) = r).
  { unfold r, LOG2_TARGET. destruct (Z.ltb_spec 8 n), (Z.leb_spec n 8); try lia. apply Z.mod_small. lia. }
  rewrite E. assert (Hr : 0 <= r < 2 ^ 8) by (unfold r; destruct (Z.leb_spec n 8); lia). clearbody r. clear E n Hn. pose proof (Z.mod_pos_bound r 3 ltac:(lia)) as M. assert (D : 0 <= r / 3) by (apply Z.div_pos; lia).
  destruct (Z.eqb_spec (r mod 3) 0) as [Z0|N]; cbn [negb bind].
  - pose proof (fill (Z.to_nat (r / 3)) [] []) as X. cbn [length app] in X. rewrite app_nil_r in X. exact X.
  - rewrite repeat_length. replace (Z.to_nat (1 + r / 3)) with (Z.to_nat (r / 3) + 1)%nat by lia. rewrite repeat_app. replace (Z.to_nat (r / 3) + 1 - 1)%nat with (length (repeat 0 (Z.to_nat (r / 3)))) by (rewrite repeat_length; lia).
    cbn [repeat]. rewrite set_app. cbn [bind]. rewrite (Z.mod_small (r mod 3)) by lia. exact (fill (Z.to_nat (r / 3)) [] [r mod 3]).
Qed.
Print Assumptions C77_layout.
(** For traces of the library: both have the same layout. *)
Theorem C77_agrees : forall k, (k < 64)%nat -> sol_fri_layout (Z.of_nat k) = Some (map Z.of_nat (default_fri_layout (Z.of_nat (2 ^ k)))).
Proof.
  intros k Hk. rewrite C77_layout by lia. unfold default_fri_layout. rewrite trailing_pow2 by exact Hk.
  assert (E : (if Z.of_nat k <=? 8 then Z.of_nat k else Z.of_nat k - 8) = Z.of_nat (if (8 <? k)%nat then k - 8 else k)).
  { destruct (Z.leb_spec (Z.of_nat k) 8), (Nat.ltb_spec 8 k); lia. }
  rewrite E. generalize (if (8 <? k)%nat then (k - 8)%nat else k). intros r. change 3 with (Z.of_nat 3) at 2 3 4. rewrite <- (Nat2Z.inj_div r 3), <- (Nat2Z.inj_mod r 3), Nat2Z.id, map_app. do 2 f_equal.
  - generalize (r / 3)%nat. intros m. induction m as [|m IH]; [reflexivity|]. cbn [repeat map]. rewrite <- IH. reflexivity.
  - destruct (Z.eqb_spec (Z.of_nat (r mod 3)) 0), (Nat.eqb_spec (r mod 3) 0); try lia; reflexivity.
Qed.
Print Assumptions C77_agrees.
(** The contract folds every layer of its default layout: no coset has more than eight values, none has one. *)
Theorem C77_cosets : forall n l m, 0 <= n < 2 ^ 8 -> sol_fri_layout n = Some l -> In m l -> 1 <= m <= 3.
Proof.
  intros n l m Hn E I. rewrite C77_layout in E by exact Hn. injection E as <-. set (r := if n <=? 8 then n else n - 8) in *. clearbody r. apply in_app_iff in I. pose proof (Z.mod_pos_bound r 3 ltac:(lia)). destruct I as [I|I]; [apply repeat_spec in I; lia|].
  destruct (Z.eqb_spec (r mod 3) 0); [contradiction|]. destruct I as [<-|[]]. lia.
Qed.
Print Assumptions C77_cosets.
(** A trace of one row has an empty layout, which the contract cannot verify: it reverts. *)
Theorem C77_one_row_refuted : sol_fri_layout 0 = Some [] /\ forall leaf_hash verify log_size fri_values eval_points coefficients queries l, sol_fri_layout 0 = Some l ->
  fold_and_check_fri_layers leaf_hash verify log_size l fri_values eval_points coefficients queries = None.
Proof. split; [reflexivity|]. intros. injection H as <-. apply C75_empty_layout. Qed.
Print Assumptions C77_one_row_refuted.
Example C77_ex : sol_fri_layout 13 = Some [3; 2] /\ sol_fri_layout 8 = Some [3; 3; 2] /\ sol_fri_layout 12 = Some [3; 1] /\ sol_fri_layout 11 = Some [3].
Proof. repeat split; reflexivity. Qed.
