(** What a rational expression denotes, independently of the code's functions. *)
Require Import ZArith NArith Bool List.
From Verif Require Import FieldSig StarkBase PolyModel TraceModel ExprModel.
Import ListNotations.

Section Spec.
Context {F : Type} (o : ops F).
(** [value x T e v]: at the point [x], with trace cell (column i, offset j) holding [T i j], the expression
    [e] has the value [v]; it has none where a divisor is zero. *)
Inductive value (x : F) (T : nat -> Z -> option F) : rexpr F -> F -> Prop :=
  | v_x : value x T EX x
  | v_const c : value x T (EConst c) c
  | v_trace i j v : T i j = Some v -> value x T (ETrace i j) v
  | v_poly p a u : value x T a u -> value x T (EPoly p a) (peval o p u)
  | v_add a b u v : value x T a u -> value x T b v -> value x T (EAdd a b) (fadd o u v)
  | v_neg a u : value x T a u -> value x T (ENeg a) (fneg o u)
  | v_mul a b u v : value x T a u -> value x T b v -> value x T (EMul a b) (fmul o u v)
  | v_inv a u : value x T a u -> u <> f0 o -> value x T (EInv a) (finv o u)
  | v_exp a n u : value x T a u -> value x T (EExp a n) (fexp o u (Z.to_N n)).
(** The numbers in an expression are usize values, and its polynomials are non-empty (as [DensePolynomial::new]
    ensures). *)
Fixpoint usizes (e : rexpr F) : Prop :=
  match e with
  | EX | EConst _ | ETrace _ _ => True
  | EPoly p a => p <> [] /\ usizes a
  | EClaim _ n a => (0 <= n < 2 ^ 64)%Z /\ usizes a
  | EAdd a b | EMul a b => usizes a /\ usizes b
  | ENeg a | EInv a => usizes a
  | EExp a n => (0 <= n < 2 ^ 64)%Z /\ usizes a
  end.
(** No division. *)
Fixpoint division_free (e : rexpr F) : Prop :=
  match e with
  | EX | EConst _ | ETrace _ _ => True
  | EPoly _ a | ENeg a | EExp a _ => division_free a
  | EAdd a b | EMul a b => division_free a /\ division_free b
  | EClaim _ _ _ | EInv _ => False
  end.
(** The trace cells an expression refers to. *)
Fixpoint refers (e : rexpr F) (i : nat) (j : Z) : Prop :=
  match e with
  | EX | EConst _ => False
  | ETrace i' j' => i = i' /\ j = j'
  | EPoly _ a | EClaim _ _ a | ENeg a | EInv a | EExp a _ => refers a i j
  | EAdd a b | EMul a b => refers a i j \/ refers b i j
  end.
(** The factors of a constraint written as a product of expressions and inverses. *)
Fixpoint numerators (e : rexpr F) : list (rexpr F) := match e with EMul a b => numerators a ++ numerators b | EInv _ => [] | e => [e] end.
Fixpoint denominators (e : rexpr F) : list (rexpr F) := match e with EMul a b => denominators a ++ denominators b | EInv a => [a] | _ => [] end.
Definition fraction (e : rexpr F) : Prop := Forall division_free (numerators e) /\ Forall division_free (denominators e).
(** A fraction violates its constraint at a point if a denominator vanishes there (the point is selected) and
    no factor of the numerator does. *)
Definition violated (x : F) (T : nat -> Z -> option F) (e : rexpr F) : Prop :=
  (exists d, In d (denominators e) /\ value x T d (f0 o)) /\ forall n, In n (numerators e) -> ~ value x T n (f0 o).
(** A polynomial is applied to an expression whose degree bound of the numerator is at least that of the
    denominator, or is constant. *)
Fixpoint poly_safe (td : Z) (e : rexpr F) : Prop :=
  match e with
  | EX | EConst _ | ETrace _ _ => True
  | EPoly p a => poly_safe td a /\ (poly_degree o p = Some O \/ forall n d, degree o true td a = Some (n, d) -> (d <= n)%Z)
  | EClaim _ _ a | ENeg a | EInv a | EExp a _ => poly_safe td a
  | EAdd a b | EMul a b => poly_safe td a /\ poly_safe td b
  end.
(** [e] is a quotient of polynomials with at most [n + 1] and [d + 1] coefficients wherever it has a value. *)
Definition rational_function (T : F -> nat -> Z -> option F) (e : rexpr F) (n d : Z) : Prop :=
  exists N D, (Z.of_nat (length N) <= n + 1)%Z /\ (Z.of_nat (length D) <= d + 1)%Z /\
  forall x v, value x (T x) e v -> peval o D x <> f0 o /\ fmul o v (peval o D x) = peval o N x.
(** The cells seen from row [r]: offsets wrap around. *)
Definition row_trace (t : table F) (r : nat) (i : nat) (j : Z) : option F := t_get t (Z.to_nat ((Z.of_nat r + j) mod Z.of_nat (t_rows t))) i.
End Spec.
