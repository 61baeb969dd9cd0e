(** crypto/stark-verifier-ethereum/contracts/fri.sol: the loop over the FRI layers. The folds of the layers, the first inverses
    and the last layer are those of FriSolModel.v. [None] is a revert. *)
Require Import ZArith Arith Lia Bool List.
From Verif Require Import Word KnuthModel ContractModel FriSolModel PrimeSolModel.
Import ListNotations.
Open Scope Z_scope.
Section Loop.
(** The hash of a coset, and the Merkle verifier for the commitment and the decommitment of a layer, on hashes and indices *)
Context (merkle_leaf_hash : list Z -> Z) (verify : nat -> list Z -> list Z -> option bool).
(** fri.sol:134-176: the loop, from layer [i]. An entry is a query, its value and the inverse of its point. The arrays that are
    shortened in memory are lists. *)
Fixpoint fri_layers (i : nat) (size log_size generator : Z) (entries : list (Z * Z * Z)) (layout : list Z) (fri_values : list (list Z)) (eval_points : list Z) : option (Z * Z * list (Z * Z * Z)) :=
  match layout with
  | [] => Some (log_size, generator, entries)
  | m :: layout =>
      let coset_size := wrap (Z.shiftl 1 m) in
      if 8 <? coset_size then None else
      let? completion := nth_error fri_values i in
      let? point := nth_error eval_points i in
      let? r := fold_layer (length entries) (Z.to_nat coset_size) (from_montgomery point) entries completion in
      let next_layer_size := size / coset_size in
      let? ok := verify i (map (fun e => merkle_leaf_hash (fst e)) r) (map (fun e => wrap (fst (fst (snd e)) + next_layer_size)) r) in
      if ok then fri_layers (S i) next_layer_size (wrap (log_size - m)) (next_generator generator coset_size) (map snd r) layout fri_values eval_points else None
  end.
(** fri.sol:123-131 *)
Fixpoint first_entries (log_size : Z) (queries : list (Z * Z)) : option (list (Z * Z * Z)) :=
  match queries with
  | [] => Some []
  | (q, y) :: queries => let? x := init_x_inv q log_size in let? l := first_entries log_size queries in Some ((q, y, x) :: l)
  end.
(** fri.sol:109-194 [fold_and_check_fri_layers]; [queries] with the polynomial at the queries, arrays of the same length. An empty
    layout reverts, because line 116 reads its first entry. *)
Definition fold_and_check_fri_layers (log_size : Z) (layout : list Z) (fri_values : list (list Z)) (eval_points : list Z) (coefficients : list Z) (queries : list (Z * Z)) : option unit :=
  let size := wrap (Z.shiftl 1 log_size) in
  if Nat.eqb (length layout) 0 then None else
  let? generator := root size in
  let? entries := first_entries log_size queries in
  let? r := fri_layers 0 size log_size generator entries layout fri_values eval_points in
  if forallb (fun e => last_layer_check (snd (fst r)) (fst (fst r)) coefficients (fst (fst e)) (snd (fst e))) (snd r) then Some tt else None.
End Loop.
