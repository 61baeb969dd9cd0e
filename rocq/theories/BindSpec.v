(** Constraint systems that differ in constants only. *)
Require Import ZArith List.
From Verif Require Import FieldSig ExprModel.
Import ListNotations.
Open Scope nat_scope.

Section Spec.
Context {F : Type} (o : ops F).
(** The same expression, but for its constants. *)
Fixpoint alike (a b : rexpr F) : Prop :=
  match a, b with
  | EX, EX => True
  | EConst _, EConst _ => True
  | ETrace i j, ETrace i' j' => i = i' /\ j = j'
  | EPoly p a, EPoly p' a' => p = p' /\ alike a a'
  | EAdd a b, EAdd a' b' | EMul a b, EMul a' b' => alike a a' /\ alike b b'
  | ENeg a, ENeg a' | EInv a, EInv a' => alike a a'
  | EExp a n, EExp a' n' => n = n' /\ alike a a'
  | _, _ => False
  end.
Definition alike_systems (c c' : constraints (F := F)) : Prop :=
  c_nrows c = c_nrows c' /\ c_ncolumns c = c_ncolumns c' /\ c_blowup c = c_blowup c' /\ c_pow_bits c = c_pow_bits c' /\ c_queries c = c_queries c' /\ c_fri c = c_fri c' /\
  Forall2 alike (c_exprs c) (c_exprs c').
(** The sum of the products. *)
Fixpoint weighted (ws vs : list F) : F := match ws, vs with w :: ws, v :: vs => fadd o (fmul o w v) (weighted ws vs) | _, _ => f0 o end.
End Spec.
