(** crypto/stark/src/polynomial.rs: dense polynomials. A polynomial is the list of its coefficients,
    lowest degree first; the MmapVec behind it is a vector (C50). *)
Require Import ZArith Lia Bool List.
From Verif Require Import Word KnuthModel FieldSig FieldAlgModel Arr FftModel StarkBase.
Import ListNotations.
Open Scope nat_scope.

Section Poly.
Context {F : Type} (o : ops F).
(** polynomial.rs:33-45 [from_mmap_vec], [new] *)
Definition poly_new (coefficients : list F) : option (list F) := if is_power_of_two (length coefficients) then Some coefficients else None.
(** polynomial.rs:47-52 [zeros] *)
Definition poly_zeros (size : nat) : option (list F) := if is_power_of_two size then Some (repeat (f0 o) size) else None.
(** polynomial.rs:70-76 [degree]; [len() - 1] underflows for no coefficients. *)
Fixpoint degree_loop (p : list F) (degree : nat) : nat :=
  match degree with
  | O => O
  | S d => if feqb o (nth degree p (f0 o)) (f0 o) then degree_loop p d else degree
  end.
Definition poly_degree (p : list F) : option nat := match length p with O => None | S n => Some (degree_loop p n) end.
(** polynomial.rs:78-85 [evaluate]: Horner's rule from the highest coefficient. *)
Definition evaluate (p : list F) (x : F) : F := fold_left (fun result coefficient => fadd o (fmul o result x) coefficient) (rev p) (f0 o).
(** polynomial.rs:24-30 [eq]: comparison of the values at one fixed point [x]. *)
Definition poly_eqb (x : F) (p q : list F) : bool := feqb o (evaluate p x) (evaluate q x).
(** polynomial.rs:88-114 [low_degree_extension]: [clone_shifted] is the serial version, C56 shows that
    the parallel one returns the same. *)
Definition low_degree_extension (e : engine F) (p : list F) (blowup : nat) : option (list F) :=
  let length_ := length p * blowup in
  let? r := eroot e length_ in
  let? generator := r in
  let? cosets := for_each (seq 0 blowup) (fun acc i =>
      let? j := permute_index (edbg e) blowup i in
      let cofactor := fmul o (egen e) (pow_usize o generator (Z.of_nat j)) in
      let? v := e_fft o e (clone_shifted_serial o (repeat (f0 o) (length p)) p cofactor) in
      Some (acc ++ v)) [] in
  Some cosets.
(** polynomial.rs:116-127 [divide_out_point_into]: both lists from their last element, as long as both
    last. *)
Fixpoint divide_loop (z c remainder : F) (coefficients target : list F) : list F :=
  match coefficients, target with
  | a :: coefficients, t :: target => fadd o t (fmul o c remainder) :: divide_loop z c (fadd o (fmul o remainder z) a) coefficients target
  | _, _ => target
  end.
Definition divide_out_point_into (p : list F) (z c : F) (target : list F) : list F := rev (divide_loop z c (f0 o) (rev p) (rev target)).
End Poly.
