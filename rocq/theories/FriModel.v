(** crypto/stark/src/prover.rs and verifier.rs: folding the FRI layers. [None] is a panic. *)
Require Import ZArith Lia Bool List.
From Verif Require Import Word KnuthModel FieldSig FieldAlgModel Arr FftModel StarkBase PolyModel.
Import ListNotations.
Open Scope nat_scope.

Section Fri.
Context {F : Type} (o : ops F).
(** ** Prover *)
(** prover.rs:728-732: [count] successive powers of [root_inv] *)
Fixpoint powers_from (accumulator root_inv : F) (count : nat) : list F :=
  match count with O => [] | S n => accumulator :: powers_from (fmul o accumulator root_inv) root_inv n end.
(** prover.rs:721-735 [x_inv]; the inner [None] is [Error::RootUnavailable] *)
Definition fri_x_inv (e : engine F) (n : nat) : option (option (list F)) :=
  let? r := eroot e n in
  match r with
  | None => Some None
  | Some r =>
      let? root_inv := inv_opt o r in
      let? l := permute (edbg e) (powers_from (f1 o) root_inv (n / 2)) in
      Some (Some l)
  end.
(** prover.rs:766-768 [layer.tuples().zip(x_inv).map(..)]: stops at the shorter list, drops an odd last element *)
Fixpoint fold_pairs (coefficient : F) (layer x_inv : list F) : list F :=
  match layer, x_inv with
  | p0 :: p1 :: layer, x :: x_inv => fadd o (fadd o p0 p1) (fmul o (fmul o coefficient x) (fsub o p0 p1)) :: fold_pairs coefficient layer x_inv
  | _, _ => []
  end.
(** FieldElement::square *)
Definition fsquare (x : F) : F := fmul o x x.
(** prover.rs:762-821: the [match n_reductions] *)
Definition fold_layer (n_reductions : nat) (coefficient : F) (x_inv layer : list F) : option (list F) :=
  let coefficient_2 := fsquare coefficient in
  let coefficient_4 := fsquare coefficient_2 in
  let coefficient_8 := fsquare coefficient_4 in
  match n_reductions with
  | 1 => Some (fold_pairs coefficient layer x_inv)
  | 2 => Some (fold_pairs coefficient_2 (fold_pairs coefficient layer x_inv) x_inv)
  | 3 => Some (fold_pairs coefficient_4 (fold_pairs coefficient_2 (fold_pairs coefficient layer x_inv) x_inv) x_inv)
  | 4 => Some (fold_pairs coefficient_8 (fold_pairs coefficient_4 (fold_pairs coefficient_2 (fold_pairs coefficient layer x_inv) x_inv) x_inv) x_inv)
  | _ => None
  end.
(** prover.rs:825-830: the coefficients of the last layer; a division by a blowup of 0 panics *)
Definition last_layer (e : engine F) (blowup : nat) (layer : list F) : option (list F) :=
  if blowup =? 0 then None else
  let n_coefficients := length layer / blowup in
  let points := firstn n_coefficients layer in
  let? points := permute (edbg e) points in
  let? points := e_ifft o e points in
  permute (edbg e) points.

(** ** Verifier *)
(** verifier.rs:469-476 [fri_single_fold] *)
Definition fri_single_fold (poly_at_x poly_at_neg_x x eval_point : F) : option F :=
  let? q := f_div o eval_point x in
  Some (fadd o (fadd o poly_at_x poly_at_neg_x) (fmul o q (fsub o poly_at_x poly_at_neg_x))).
(** verifier.rs:456-459: the loop over the pairs of [chunks(2)], the first of which has number [k] *)
Fixpoint fold_chunks (dbg : bool) (len index step : nat) (eval_x : list F) (eval_point : F) (k : nat) (coset : list F) : option (list F) :=
  match coset with
  | [] => Some []
  | [_] => None
  | p0 :: p1 :: coset =>
      let? j := permute_index dbg (len / 2) (index + k) in
      let? x := nth_error eval_x (j * step) in
      let? y := fri_single_fold p0 p1 x eval_point in
      let? rest := fold_chunks dbg len index step eval_x eval_point (S k) coset in
      Some (y :: rest)
  end.
(** verifier.rs:453-467: [while coset_full.len() > 1]; [fuel] bounds the passes *)
Fixpoint fri_fold_loop (dbg : bool) (fuel : nat) (coset : list F) (eval_point : F) (step index len : nat) (eval_x : list F) : option F :=
  match coset with
  | [] => None
  | [y] => Some y
  | _ =>
      match fuel with
      | O => None
      | S fuel =>
          let? next := fold_chunks dbg len index step eval_x eval_point 0 coset in
          fri_fold_loop dbg fuel next (fsquare eval_point) (2 * step) (index / 2) (len / 2) eval_x
      end
  end.
(** verifier.rs:443-467 [fri_fold] *)
Definition fri_fold (dbg : bool) (coset : list F) (eval_point : F) (step index len : nat) (eval_x : list F) : option F :=
  fri_fold_loop dbg (length coset) coset eval_point step index len eval_x.
(** verifier.rs:371-383: the comparison of one folded value with the last layer polynomial; [interp_root] is
    [FieldElement::root(len)] *)
Definition last_check (dbg : bool) (len : nat) (interp_root : F) (coefficients : list F) (key : nat) (calculated : F) : option bool :=
  let? j := permute_index dbg len key in
  let? p := poly_new coefficients in
  Some (feqb o (evaluate o p (pow_usize o interp_root (Z.of_nat j))) calculated).
End Fri.
