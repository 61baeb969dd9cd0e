(** What it means for a component to be usable, and for its constraints to fit a combinator. *)
Require Import ZArith NArith Bool List.
From Verif Require Import FieldSig StarkBase PolyModel TraceModel ExprModel ExprSpec ComponentModel.
Import ListNotations.

Section Spec.
Context {F : Type} (o : ops F).
(** On the witness [wit], the component [c] produces a trace table [t] of [2^k] rows and constraints [cs], which
    are fractions in its cells. *)
Definition produces {C W} (c : component F C W) (wit : W) (k : nat) (t : table F) (cs : list (rexpr F)) : Prop :=
  k_size c = Some (2 ^ k) /\ trace_table o c wit = Some t /\ k_constraints c (k_claim c wit) = Some cs /\
  forall e, In e cs -> usizes e /\ fraction e /\ forall i j, refers e i j -> i < k_polynomials c /\ (- 2 ^ Z.of_nat k <= j)%Z.
(** The constraints hold: none is violated in any row. [w] is the generator of the rows. *)
Definition holds (w : F) (rows : nat) (t : table F) (cs : list (rexpr F)) : Prop :=
  forall row c, row < rows -> In c cs -> ~ violated o (fpw o w row) (row_trace t row) c.
(** A constraint selects rows only: its denominators vanish at no other point than the [rows]-th roots of unity. *)
Definition selects_rows (rows : nat) (c : rexpr F) : Prop := forall x T d, In d (denominators c) -> value o x T d (f0 o) -> fpw o x rows = f1 o.
(** A constraint stays inside of the table in the rows where it matters: there it refers to no cell before the
    first row or after the last one. *)
Definition stays_inside (w : F) (rows : nat) (c : rexpr F) : Prop := forall r, r < rows ->
  (forall i j, refers c i j -> (0 <= Z.of_nat r + j < Z.of_nat rows)%Z) \/ (forall T, ~ violated o (fpw o w r) T c).
End Spec.
