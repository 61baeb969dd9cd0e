(** C51: hashing of values, slices and masking. *)
Require Import ZArith Lia Bool List.
From Verif Require Import Word U256Model U256Spec U256Proofs BinaryModel EncodingSpec EncodingProofs FieldModel FieldInstance HashModel.
Import ListNotations.
Open Scope Z_scope.

(** A byte string. *)
Definition bytes (n : nat) (l : list Z) : Prop := length l = n /\ Forall (digit 256) l.
(** Keccak, cut to 20 bytes. *)
Definition masked (keccak : list Z -> list Z) (x : list Z) : list Z := firstn 20 (keccak x) ++ repeat 0 12.

Lemma map_const {A C} (c : C) (l : list A) : map (fun _ => c) l = repeat c (length l).
Proof. induction l; cbn; congruence. Qed.
Lemma absorb {T} (f : T -> hash) l : forall st, fold_left (fun st v => mk_update st (f v)) l st = st ++ concat (map f l).
Proof. unfold mk_update. induction l as [|v l IH]; intros st; cbn [fold_left map concat]; [rewrite app_nil_r; reflexivity|]. rewrite IH, app_assoc. reflexivity. Qed.

(** The hash of a slice with one element is the hash of the element; otherwise it is Keccak of the
    concatenated hashes with the last 12 bytes cleared. *)
Theorem C51_slice : forall keccak (T : Type) (f : T -> hash) l, (forall x, length (keccak x) = 32%nat) ->
  hash_slice keccak f l = match l with [x] => f x | _ => masked keccak (concat (map f l)) end.
Proof.
  intros keccak T f l K. unfold hash_slice.
  assert (E : mk_hash keccak (fold_left (fun st v => mk_update st (f v)) l mk_new) = masked keccak (concat (map f l))).
  { rewrite absorb. unfold mk_hash, masked, mk_new, MASK_LENGTH. cbn [app]. rewrite map_const, skipn_length, K. reflexivity. }
  destruct l as [|x [|y l]]; [exact E|reflexivity|exact E].
Qed.
Print Assumptions C51_slice.

(** Masked hashes are 32 bytes, start with the first 20 bytes of Keccak and end with 12 zeros. *)
Theorem C51_masked : forall keccak st, (forall x, bytes 32 (keccak x)) ->
  bytes 32 (mk_hash keccak st) /\ firstn 20 (mk_hash keccak st) = firstn 20 (keccak st) /\ skipn 20 (mk_hash keccak st) = repeat 0 12.
Proof.
  intros keccak st K. destruct (K st) as [L F]. unfold mk_hash, MASK_LENGTH. rewrite map_const, skipn_length, L. change (32 - 20)%nat with 12%nat.
  assert (L20 : length (firstn 20 (keccak st)) = 20%nat) by (rewrite firstn_length; lia).
  split; [split|split].
  - rewrite app_length, L20, repeat_length. reflexivity.
  - apply Forall_app. split.
    + rewrite <- (firstn_skipn 20 (keccak st)) in F. apply Forall_app in F. apply F.
    + apply Forall_forall. intros y Hy. apply repeat_spec in Hy. subst y. unfold digit. lia.
  - rewrite firstn_app, L20, Nat.sub_diag. rewrite firstn_all2 by lia. cbn [firstn]. apply app_nil_r.
  - rewrite skipn_app, L20, Nat.sub_diag. rewrite skipn_all2 by lia. reflexivity.
Qed.
Print Assumptions C51_masked.

(** Numbers and field elements: 32 big-endian bytes of the value, of the Montgomery representation;
    different values hash differently. *)
Theorem C51_u256 : forall x n, denotes x n -> bytes 32 (hash_u256 x) /\ num 256 (hash_u256 x) = n.
Proof. intros x n [Hx <-]. destruct (to_bytes_be_spec x Hx) as (L & F & N). split; [split; assumption|exact N]. Qed.
Print Assumptions C51_u256.
Theorem C51_u256_injective : forall x y m n, denotes x m -> denotes y n -> hash_u256 x = hash_u256 y -> m = n.
Proof. intros x y m n Dx Dy E. destruct (C51_u256 x m Dx) as [_ <-]. destruct (C51_u256 y n Dy) as [_ <-]. rewrite E. reflexivity. Qed.
Print Assumptions C51_u256_injective.
Theorem C51_field_element : forall x : Felt, num 256 (hash_felt x) = (fe_val x * 2 ^ 256) mod Primes.p_field /\ bytes 32 (hash_felt x).
Proof.
  intros x. pose proof (fe_rep proth_good x) as R. change (val (p_modulus proth_field)) with Primes.p_field in R. destruct R as [_ D].
  destruct (C51_u256 _ _ D) as [Hb Hn]. split; [exact Hn|exact Hb].
Qed.
Print Assumptions C51_field_element.
Theorem C51_field_element_injective : forall x y : Felt, hash_felt x = hash_felt y -> x = y.
Proof.
  intros x y E. apply fe_eq.
  pose proof (fe_rep proth_good x) as Rx. pose proof (fe_rep proth_good y) as Ry.
  destruct Rx as [_ [Wx _]], Ry as [_ [Wy _]]. apply val_inj; [exact Wx|exact Wy|].
  apply (C51_u256_injective (raw x) (raw y) _ _ (conj Wx eq_refl) (conj Wy eq_refl) E).
Qed.
Print Assumptions C51_field_element_injective.

(** Binding: two slices with equal hashes, neither of length one, have the same element hashes, or
    give two different inputs with the same masked Keccak value. *)
Theorem C51_slice_binding : forall keccak (T : Type) (f : T -> hash) l k, (forall x, length (keccak x) = 32%nat) -> (forall x, length (f x) = 32%nat) ->
  length l <> 1%nat -> length k <> 1%nat -> hash_slice keccak f l = hash_slice keccak f k ->
  map f l = map f k \/ exists a b, a <> b /\ firstn 20 (keccak a) = firstn 20 (keccak b).
Proof.
  intros keccak T f l k K Hf Hl Hk E. rewrite !C51_slice in E by assumption.
  assert (E' : masked keccak (concat (map f l)) = masked keccak (concat (map f k))) by (destruct l as [|? [|? ?]], k as [|? [|? ?]]; cbn in Hl, Hk; try lia; exact E). clear E.
  destruct (list_eq_dec Z.eq_dec (concat (map f l)) (concat (map f k))) as [S|N].
  - left. clear E' Hl Hk. revert k S. induction l as [|x l IH]; intros [|y k] S; cbn [map concat] in *; [reflexivity| | |].
    + exfalso. apply (f_equal (@length Z)) in S. rewrite app_length, Hf in S. cbn in S. lia.
    + exfalso. apply (f_equal (@length Z)) in S. rewrite app_length, Hf in S. cbn in S. lia.
    + assert (X : f x = f y). { apply (f_equal (firstn 32)) in S. rewrite !firstn_app, !Hf, Nat.sub_diag, !firstn_O, !app_nil_r in S. rewrite !firstn_all2 in S by (rewrite Hf; lia). exact S. }
      rewrite X in *. apply app_inv_head in S. f_equal. apply IH, S.
  - right. exists (concat (map f l)), (concat (map f k)). split; [exact N|]. unfold masked in E'.
    apply (f_equal (firstn 20)) in E'. rewrite !firstn_app, !firstn_firstn in E'. rewrite !firstn_length, !K in E'. change (20 - Nat.min 20 32)%nat with 0%nat in E'. rewrite !firstn_O, !app_nil_r in E'. exact E'.
Qed.
Print Assumptions C51_slice_binding.

(** Lists of one element are not separated from their element: the hash of a slice is also the hash
    of the one-element slice holding it, and of the one-element slice holding its hash. *)
Theorem C51_singleton_deviation : forall keccak (T : Type) (f : T -> hash) l,
  hash_slice keccak (hash_slice keccak f) [l] = hash_slice keccak f l /\
  hash_slice keccak hash_hash [hash_slice keccak f l] = hash_slice keccak f l.
Proof. intros. split; reflexivity. Qed.
Print Assumptions C51_singleton_deviation.
Example C51_ex : hash_slice (fun x => map (fun _ => Z.of_nat (length x)) (repeat 0 32)) hash_u256 [mk 1 0 0 0; mk 2 0 0 0] = repeat 64 20 ++ repeat 0 12.
Proof. vm_compute. reflexivity. Qed.
