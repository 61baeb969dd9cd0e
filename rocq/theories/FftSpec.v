(** Specification of the transforms: bit reversal and the discrete Fourier transform. *)
Require Import Arith List.
From Verif Require Import FieldSig.

(** Reversal of the [k]-bit binary expansion: the lowest bit becomes the highest. *)
Fixpoint rev_bits (k i : nat) : nat :=
  match k with
  | O => 0
  | S k' => (i mod 2) * 2 ^ k' + rev_bits k' (i / 2)
  end.

(** The [i]-th coefficient of the discrete Fourier transform of x_0 ... x_(n-1) with root [w]:
    the sum of x_j * w^(i*j). *)
Definition dft {F} (o : ops F) (n : nat) (w : F) (x : nat -> F) (i : nat) : F :=
  fsum o (map (fun j => fmul o (x j) (fpw o w (i * j))) (seq 0 n)).

(** [w] is a primitive [n]-th root of unity. *)
Definition primitive {F} (o : ops F) (w : F) (n : nat) : Prop :=
  fpw o w n = f1 o /\ forall k, 0 < k < n -> fpw o w k <> f1 o.
