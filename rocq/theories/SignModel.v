(** ECDSA on the concrete curve: crypto/elliptic-curve-crypto/src.

    Scalars are elements of the scalar field (canonical Montgomery limbs); [None] is a panic.
    Field inversion is the one of FieldSig.v (C19). The SHA3 hash that derives the nonce from the
    key, the digest and a counter is a parameter: only its value as a scalar matters to [sign]. *)
Require Import ZArith Lia Bool List.
From Verif Require Import Word U256Model KnuthModel BinaryModel FieldModel FieldSig FieldInstance FieldAlgModel Arr CurveModel WnafModel CurveInstance.
Import ListNotations.
Open Scope Z_scope.

(** prime_field.rs:134-137 [to_uint] of a scalar and of a field element *)
Definition s_uint (k : Scalar) : option u256 := pf_to_uint order_field (raw k).
Definition f_uint (x : Felt) : option u256 := pf_to_uint proth_field (raw x).
(** convert.rs:57-72 [ScalarFieldElement::from(U256)] *)
Definition s_from (u : u256) : option Scalar :=
  let? x := pf_from_uint_reduce order_field u in
  match bool_dec (canon order_field x) true with left H => Some (exist _ x H) | right _ => None end.

(** wnaf.rs [base_mul(&GENERATOR_TABLE, k)] converted to affine coordinates *)
Definition generator_mul (k : Scalar) : option (affine Felt) :=
  let? table := generator_table in
  let? bits := s_uint k in
  let? r := base_mul felt_ops table bits in
  Some (a_from_jacobian felt_ops r).

(** signature.rs:11-15 [Signature] *)
Record signature : Type := Sig { sig_r : Scalar; sig_w : Scalar }.

(** private_key.rs:31-49, one iteration of the loop of [sign]: the inner None is [continue] *)
Definition sign_try (key digest k : Scalar) : option (option signature) :=
  if feqb scalar_ops k (f0 scalar_ops) then Some None
  else
    let? p := generator_mul k in
    match p with
    | AZero => Some None
    | APoint x _ =>
        let? u := f_uint x in
        let? r := s_from u in
        if feqb scalar_ops r (f0 scalar_ops) then Some None
        else
          let s := fadd scalar_ops (fmul scalar_ops r key) digest in
          match inv_opt scalar_ops s with
          | None => Some None
          | Some inverse => Some (Some (Sig r (fmul scalar_ops k inverse)))
          end
    end.
Fixpoint sign_loop (key digest : Scalar) (hash : nat -> Scalar) (nonces : list nat) : option signature :=
  match nonces with
  | [] => None
  | nonce :: rest => let? t := sign_try key digest (hash nonce) in
      match t with None => sign_loop key digest hash rest | Some s => Some s end
  end.
(** private_key.rs:30-52 [sign]; [hash nonce] is [self.hash(digest, nonce)] *)
Definition sign (key digest : Scalar) (hash : nat -> Scalar) : option signature := sign_loop key digest hash (seq 0 1000).

(** public_key.rs:42-49 [From<&PrivateKey>] *)
Definition public_key (key : Scalar) : option (affine Felt) := generator_mul key.
(** public_key.rs:22-39 [verify] *)
Definition verify (Q : affine Felt) (digest : Scalar) (s : signature) : option bool :=
  if feqb scalar_ops (sig_r s) (f0 scalar_ops) then None
  else if feqb scalar_ops (sig_w s) (f0 scalar_ops) then None
  else if negb (is_on_curve felt_ops BETA Q) then None
  else
    let? table := generator_table in
    let? a := s_uint (fmul scalar_ops digest (sig_w s)) in
    let? b := s_uint (fmul scalar_ops (sig_r s) (sig_w s)) in
    let? j := double_base_mul felt_ops table a Q b in
    match a_from_jacobian felt_ops j with
    | AZero => Some false
    | APoint x _ =>
        let? u := f_uint x in
        let? r := s_from u in
        Some (feqb scalar_ops r (sig_r s))
    end.
