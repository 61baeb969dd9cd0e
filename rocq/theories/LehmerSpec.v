(** Specification for C06, C07, C19: the remainders of Euclid's algorithm. *)
Require Import ZArith.
Open Scope Z_scope.

(** (c, d) is one of the pairs that Euclid's algorithm started on (a, b) passes through. *)
Inductive remainders (a b : Z) : Z -> Z -> Prop :=
| rem_start : remainders a b a b
| rem_next c d : remainders a b c d -> 0 < d -> remainders a b d (c mod d).
