(** Numbers that the prover and the verifier compute. *)
Require Import ZArith Lia Bool List Sorted Permutation.
From Verif Require Import Word U256Model U256Spec BinaryModel KnuthModel FieldSig FieldAlgModel FieldAlgProofs Arr FftModel FftSpec PermuteProofs StarkBase PolyModel PolyProps TraceModel TraceProps ExprModel ExprSpec ExprProofs ExprProps CheckProps
  HashModel MerkleModel MerkleSpec MerkleProofs MerkleTreeProofs MerkleProps ChannelModel ChannelSpec ChannelProps PowModel QueryModel QueryProps FriModel FriProps OodsModel OodsProofs OodsProps OodsSatProps DagModel DagSpec DagProps
  StarkModel StarkSpec StarkProofs StarkOpen StarkFri.
Import ListNotations.
Open Scope nat_scope.

Lemma option_all_map {A C} (f : A -> option C) (g : A -> C) : forall l, (forall x, In x l -> f x = Some (g x)) -> option_all (map f l) = Some (map g l).
Proof. induction l as [|x l IH]; intros H; [reflexivity|]. cbn [map option_all]. rewrite H by (left; reflexivity). cbn [bind]. rewrite IH by (intros; apply H; right; assumption). reflexivity. Qed.

Section Numbers.
Context {F : Type} (e : engine F).
Local Notation dbg := (edbg e).
Lemma pow_ZN n : (Z.of_nat (2 ^ n) = 2 ^ Z.of_nat n)%Z.
Proof. rewrite Nat2Z.inj_pow. reflexivity. Qed.
Lemma pow_NZ n : Z.to_nat (2 ^ Z.of_nat n) = 2 ^ n.
Proof. rewrite <- pow_ZN. apply Nat2Z.id. Qed.
Lemma umul_pow k b : k + b < 64 -> umul dbg (Z.of_nat (2 ^ k)) (Z.of_nat (2 ^ b)) = Some (2 ^ Z.of_nat (k + b))%Z.
Proof. intros H. assert (E : (Z.of_nat (2 ^ k) * Z.of_nat (2 ^ b) = 2 ^ Z.of_nat (k + b))%Z) by (rewrite !pow_ZN, Nat2Z.inj_add, Z.pow_add_r by lia; reflexivity). unfold umul. rewrite E. change B with (2 ^ 64)%Z. assert (2 ^ Z.of_nat (k + b) < 2 ^ 64)%Z by (apply Z.pow_lt_mono_r; lia). destruct (Z.ltb_spec (2 ^ Z.of_nat (k + b)) (2 ^ 64)); [reflexivity|lia]. Qed.
Lemma least_power a D : a < 64 -> (D <= 2 ^ Z.of_nat a)%Z -> (forall a', (D <= 2 ^ Z.of_nat a')%Z -> a <= a') -> unext e D = Some (2 ^ Z.of_nat a)%Z.
Proof.
  intros Ha Hd Hl. unfold unext, next_power_of_two. assert (P : (2 ^ Z.of_nat a <= 2 ^ 63)%Z) by (apply Z.pow_le_mono_r; lia). destruct (Z.leb_spec D (2 ^ 63)); [|lia]. f_equal. destruct (Z.leb_spec D 1) as [H1|H1].
  - specialize (Hl 0 H1). replace a with 0 by lia. reflexivity.
  - f_equal. destruct (Z.log2_up_spec D H1) as [U1 U2]. pose proof (Z.log2_up_nonneg D) as U0. apply Z.le_antisymm.
    + destruct a as [|a]; [cbn in Hd; lia|]. apply Z.log2_up_le_pow2; lia.
    + rewrite <- (Z2Nat.id (Z.log2_up D)) in U2 by lia. specialize (Hl _ U2). lia.
Qed.
Lemma trace_map_length args tv : StronglySorted (fun a b => fst a < fst b \/ fst a = fst b /\ (snd a < snd b)%Z) args -> length tv = length args -> length (claimed_trace_map (F := F) args tv) = length args.
Proof. intros Sa Lv. rewrite claimed_map_spec by assumption. rewrite combine_length, Lv. apply Nat.min_id. Qed.

End Numbers.
