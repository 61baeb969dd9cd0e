(** U256: representation, comparison, additive and multiplicative operations. *)
Require Import ZArith Lia Bool List.
From Verif Require Import Word.
Open Scope Z_scope.

(** algebra/u256/src/u256.rs:22 [struct U256([u64; 4])], limb 0 least significant. *)
Record u256 : Set := mk { l0 : Z; l1 : Z; l2 : Z; l3 : Z }.

(** Rust's type system: every limb is a u64. *)
Definition wf (x : u256) : Prop := u64 (l0 x) /\ u64 (l1 x) /\ u64 (l2 x) /\ u64 (l3 x).

(** u256.rs:33-34 [ONE], [ZERO]; 27-32 [MAX] *)
Definition ONE : u256 := mk 1 0 0 0.
Definition ZERO : u256 := mk 0 0 0 0.
Definition MAX : u256 := mk (B - 1) (B - 1) (B - 1) (B - 1).

(** u256.rs:55-57 [limb]: 0 when out of range. *)
Definition u_limb (x : u256) (i : nat) : Z :=
  match i with O => l0 x | S O => l1 x | S (S O) => l2 x | S (S (S O)) => l3 x | _ => 0 end.

(** u256.rs:80-98 [Ord::cmp]: most significant limb first. *)
Definition u_cmp (a b : u256) : comparison :=
  match l3 a ?= l3 b with Eq =>
    match l2 a ?= l2 b with Eq =>
      match l1 a ?= l1 b with Eq => l0 a ?= l0 b | t => t end
    | t => t end
  | t => t end.
Definition u_ltb (a b : u256) : bool := match u_cmp a b with Lt => true | _ => false end.
Definition u_geb (a b : u256) : bool := match u_cmp a b with Lt => false | _ => true end.
Definition u_gtb (a b : u256) : bool := match u_cmp a b with Gt => true | _ => false end.

(** u256.rs:18 [derive(PartialEq, Eq)]: limb-wise equality. *)
Definition u_eqb (a b : u256) : bool :=
  (l0 a =? l0 b) && (l1 a =? l1 b) && (l2 a =? l2 b) && (l3 a =? l3 b).

(** algebra/u256/src/additive.rs:20-26 [add_full_inline] *)
Definition u_add_full (a b : u256) : u256 * Z :=
  let '(c0, carry) := adc (l0 a) (l0 b) 0 in
  let '(c1, carry) := adc (l1 a) (l1 b) carry in
  let '(c2, carry) := adc (l2 a) (l2 b) carry in
  let '(c3, carry) := adc (l3 a) (l3 b) carry in
  (mk c0 c1 c2 c3, carry).

(** additive.rs:31-33 [add_inline], also [Add]/[AddAssign] (36-37) *)
Definition u_add (a b : u256) : u256 := fst (u_add_full a b).

(** additive.rs:43-49 [sub_full_inline] *)
Definition u_sub_full (a b : u256) : u256 * Z :=
  let '(c0, borrow) := sbb (l0 a) (l0 b) 0 in
  let '(c1, borrow) := sbb (l1 a) (l1 b) borrow in
  let '(c2, borrow) := sbb (l2 a) (l2 b) borrow in
  let '(c3, borrow) := sbb (l3 a) (l3 b) borrow in
  (mk c0 c1 c2 c3, borrow).

(** additive.rs:54-56 [sub_inline], also [Sub]/[SubAssign] (59-60) *)
Definition u_sub (a b : u256) : u256 := fst (u_sub_full a b).

(** additive.rs:66-77 [sub_from_full_assign_inline], [sub_from_assign_inline]:
    self becomes rhs - self. *)
Definition u_sub_from_full (self rhs : u256) : u256 * Z := u_sub_full rhs self.
Definition u_sub_from (self rhs : u256) : u256 := fst (u_sub_from_full self rhs).

(** additive.rs:82-84 [neg_inline] *)
Definition u_neg (a : u256) : u256 := u_sub ZERO a.

(** additive.rs:105-109 [Sum::sum]: the fold starts from [Self::ONE]. *)
Definition u_sum (l : list u256) : u256 := fold_left u_add l ONE.

(** algebra/u256/src/multiplicative.rs:25-51 [square_full_inline] *)
Definition u_square_full (a : u256) : u256 * u256 :=
  let '(r1, carry) := mac 0 (l0 a) (l1 a) 0 in
  let '(r2, carry) := mac 0 (l0 a) (l2 a) carry in
  let '(r3, r4) := mac 0 (l0 a) (l3 a) carry in
  let '(r3, carry) := mac r3 (l1 a) (l2 a) 0 in
  let '(r4, r5) := mac r4 (l1 a) (l3 a) carry in
  let '(r5, r6) := mac r5 (l2 a) (l3 a) 0 in
  let r7 := Z.shiftr r6 63 in
  let r6 := Z.lor (w64 (Z.shiftl r6 1)) (Z.shiftr r5 63) in
  let r5 := Z.lor (w64 (Z.shiftl r5 1)) (Z.shiftr r4 63) in
  let r4 := Z.lor (w64 (Z.shiftl r4 1)) (Z.shiftr r3 63) in
  let r3 := Z.lor (w64 (Z.shiftl r3 1)) (Z.shiftr r2 63) in
  let r2 := Z.lor (w64 (Z.shiftl r2 1)) (Z.shiftr r1 63) in
  let r1 := w64 (Z.shiftl r1 1) in
  let '(r0, carry) := mac 0 (l0 a) (l0 a) 0 in
  let '(r1, carry) := adc r1 0 carry in
  let '(r2, carry) := mac r2 (l1 a) (l1 a) carry in
  let '(r3, carry) := adc r3 0 carry in
  let '(r4, carry) := mac r4 (l2 a) (l2 a) carry in
  let '(r5, carry) := adc r5 0 carry in
  let '(r6, carry) := mac r6 (l3 a) (l3 a) carry in
  let '(r7, _) := adc r7 0 carry in
  (mk r0 r1 r2 r3, mk r4 r5 r6 r7).

(** multiplicative.rs:56-58 [square_inline] *)
Definition u_square (a : u256) : u256 := fst (u_square_full a).

(** multiplicative.rs:72-78 [MulFullInline<u64>::mul_full_inline] *)
Definition u_mul_full_u64 (a : u256) (b : Z) : u256 * Z :=
  let '(r0, carry) := mac 0 (l0 a) b 0 in
  let '(r1, carry) := mac 0 (l1 a) b carry in
  let '(r2, carry) := mac 0 (l2 a) b carry in
  let '(r3, carry) := mac 0 (l3 a) b carry in
  (mk r0 r1 r2 r3, carry).

(** multiplicative.rs:63-65 [MulInline<u64>], 195-234 [Mul<u64>] and friends *)
Definition u_mul_u64 (a : u256) (b : Z) : u256 := fst (u_mul_full_u64 a b).

(** multiplicative.rs:85-97 [MulInline<&U256>::mul_inline], also [Mul]/[MulAssign] *)
Definition u_mul (a b : u256) : u256 :=
  let '(r0, carry) := mac 0 (l0 a) (l0 b) 0 in
  let '(r1, carry) := mac 0 (l0 a) (l1 b) carry in
  let '(r2, carry) := mac 0 (l0 a) (l2 b) carry in
  let '(r3, _) := mac 0 (l0 a) (l3 b) carry in
  let '(r1, carry) := mac r1 (l1 a) (l0 b) 0 in
  let '(r2, carry) := mac r2 (l1 a) (l1 b) carry in
  let '(r3, _) := mac r3 (l1 a) (l2 b) carry in
  let '(r2, carry) := mac r2 (l2 a) (l0 b) 0 in
  let '(r3, _) := mac r3 (l2 a) (l1 b) carry in
  let '(r3, _) := mac r3 (l3 a) (l0 b) 0 in
  mk r0 r1 r2 r3.

(** multiplicative.rs:109-130 [MulFullInline<&U256>::mul_full_inline] *)
Definition u_mul_full (a b : u256) : u256 * u256 :=
  let '(r0, carry) := mac 0 (l0 a) (l0 b) 0 in
  let '(r1, carry) := mac 0 (l0 a) (l1 b) carry in
  let '(r2, carry) := mac 0 (l0 a) (l2 b) carry in
  let '(r3, r4) := mac 0 (l0 a) (l3 b) carry in
  let '(r1, carry) := mac r1 (l1 a) (l0 b) 0 in
  let '(r2, carry) := mac r2 (l1 a) (l1 b) carry in
  let '(r3, carry) := mac r3 (l1 a) (l2 b) carry in
  let '(r4, r5) := mac r4 (l1 a) (l3 b) carry in
  let '(r2, carry) := mac r2 (l2 a) (l0 b) 0 in
  let '(r3, carry) := mac r3 (l2 a) (l1 b) carry in
  let '(r4, carry) := mac r4 (l2 a) (l2 b) carry in
  let '(r5, r6) := mac r5 (l2 a) (l3 b) carry in
  let '(r3, carry) := mac r3 (l3 a) (l0 b) 0 in
  let '(r4, carry) := mac r4 (l3 a) (l1 b) carry in
  let '(r5, carry) := mac r5 (l3 a) (l2 b) carry in
  let '(r6, r7) := mac r6 (l3 a) (l3 b) carry in
  (mk r0 r1 r2 r3, mk r4 r5 r6 r7).

(** multiplicative.rs:137-149 [Pow<u64>::pow]; the [while] loop runs at most 64
    times for a u64 exponent; [None] = fuel exhausted (proved unreachable). *)
Fixpoint u_pow_loop (fuel : nat) (result square_ : u256) (e : Z) : option u256 :=
  if 0 <? e then
    match fuel with
    | O => None
    | S fuel =>
        let result := if e mod 2 =? 1 then u_mul result square_ else result in
        u_pow_loop fuel result (u_square square_) (Z.shiftr e 1)
    end
  else Some result.
Definition u_pow (x : u256) (e : Z) : option u256 := u_pow_loop 64 ONE x e.

(** multiplicative.rs:239-243 [Product::product]: fold from ONE with Mul *)
Definition u_product (l : list u256) : u256 := fold_left u_mul l ONE.

Arguments u_add_full : simpl never.
Arguments u_add : simpl never.
Arguments u_sub_full : simpl never.
Arguments u_sub : simpl never.
Arguments u_square_full : simpl never.
Arguments u_mul_full_u64 : simpl never.
Arguments u_mul : simpl never.
Arguments u_mul_full : simpl never.
