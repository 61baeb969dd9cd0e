(** What the generated contract has to compute, for C68. *)
Require Import ZArith Lia Bool List Permutation.
From Verif Require Import Word FieldSig FieldAlgModel StarkBase PolyModel ExprModel ExprSpec ContractModel.
Import ListNotations.
Open Scope Z_scope.

Section Spec.
Context {F : Type} (o : ops F).
Notation expr := (rexpr F).
(** The verifier's value of an expression: claim polynomials are filled in, then it is evaluated. *)
Definition denotes (claims : list (list F)) (x : F) (T : nat -> Z -> option F) (e : expr) (v : F) : Prop :=
  exists e', substitute_claim o claims e = Some e' /\ eval_expr o x T e' = Some v.
(** The expressions that are looked up while a contract is generated: the point, the powers of it that adjust
    degrees, the constraints and their parts, and powers of powers written as one power. *)
Inductive occurs (c : constraints (F := F)) : expr -> Prop :=
  | oc_x : occurs c EX
  | oc_adjust target e d : target_degree o true c = Some target -> In e (c_exprs c) -> adjustment_degree o true (c_nrows c) target e = Some d -> occurs c (EExp EX d)
  | oc_expr e : In e (c_exprs c) -> occurs c e
  | oc_poly p a : occurs c (EPoly p a) -> occurs c a
  | oc_claim i n a : occurs c (EClaim i n a) -> occurs c a
  | oc_add1 a b : occurs c (EAdd a b) -> occurs c a
  | oc_add2 a b : occurs c (EAdd a b) -> occurs c b
  | oc_neg a : occurs c (ENeg a) -> occurs c a
  | oc_mul1 a b : occurs c (EMul a b) -> occurs c a
  | oc_mul2 a b : occurs c (EMul a b) -> occurs c b
  | oc_inv a : occurs c (EInv a) -> occurs c a
  | oc_exp a n : occurs c (EExp a n) -> occurs c a
  | oc_collapse a f n : occurs c (EExp (EExp a f) n) -> occurs c (EExp a (n * f)).
(** No two of them have the same hash. *)
Definition separated (hasher : list (token (F := F)) -> Z) (fixed_point : F) (c : constraints (F := F)) : Prop :=
  forall a b, occurs c a -> occurs c b -> get_hash o hasher fixed_point a = get_hash o hasher fixed_point b -> a = b.
(** No division, except in the argument of a polynomial. *)
Fixpoint no_inverse (e : expr) : Prop :=
  match e with
  | EX | EConst _ | ETrace _ _ | EPoly _ _ | EClaim _ _ _ => True
  | EAdd a b | EMul a b => no_inverse a /\ no_inverse b
  | ENeg a | EExp a _ => no_inverse a
  | EInv _ => False
  end.
Definition unnested (c : constraints (F := F)) : Prop := forall a, occurs c (EInv a) -> no_inverse a.
(** The argument of a polynomial is a power of the point. *)
Fixpoint x_power (e : expr) : Prop := match e with EX => True | EExp a _ => x_power a | _ => False end.
Definition x_arguments (c : constraints (F := F)) : Prop :=
  (forall q a, occurs c (EPoly q a) -> x_power a) /\ (forall i n a, occurs c (EClaim i n a) -> x_power a).
(** The exponent of a power of a power is a usize. *)
Definition exponents_fit (c : constraints (F := F)) : Prop := forall a f n, occurs c (EExp (EExp a f) n) -> n * f < 2 ^ 64.
(** The words of the call data *)
Definition holds_words (data : Z -> Z) (words : list Z) : Prop := forall i w, nth_error words i = Some w -> data (32 * Z.of_nat i) = w.
End Spec.
