(** Multi-limb division: algebra/u256/src/arch/generic/knuth_division.rs and its
    callers in division.rs and multiplicative.rs.

    The flag [dbg] selects the build profile: [true] is a debug build, where
    [debug_assert!] and integer overflow panic ([None]); [false] is a release
    build, where assertions are skipped and integer arithmetic wraps. *)
Require Import ZArith Lia Bool List.
From Verif Require Import Word U256Model.
Import ListNotations.
Open Scope Z_scope.

(** debug_assert!(c) *)
Definition dassert (dbg c : bool) : option unit :=
  if dbg && negb c then None else Some tt.

(** u64::leading_zeros (Rust standard library) *)
Definition clz64 (x : Z) : Z := if x =? 0 then 64 else 63 - Z.log2 x.

(** knuth_division.rs:4-6 [val_2] *)
Definition val_2 (lo hi : Z) : Z := Z.lor (w128 (Z.shiftl hi 64)) lo.
(** knuth_division.rs:8-10 [mul_2] *)
Definition mul_2 (a b : Z) : Z := w128 (a * b).

(** u64 / u128 subtraction in the two profiles *)
Definition dsub (dbg : bool) (m a b : Z) : option Z :=
  if dbg && (a <? b) then None else Some ((a - b) mod m).

(** knuth_division.rs:18-35 [divrem_2by1]. The last three debug assertions restate
    the definition of [/] and [%] on u128 and are kept as one test that the
    quotient fits a u64. Division by zero panics in both profiles. *)
Definition divrem_2by1 (dbg : bool) (lo hi d : Z) : option (Z * Z) :=
  let? _ := dassert dbg (0 <? d) in
  let? _ := dassert dbg (hi <? d) in
  if d =? 0 then None else
  let n := val_2 lo hi in
  let q := n / d in
  let r := n mod d in
  let? _ := dassert dbg (q <? B) in
  Some (w64 q, w64 r).

(** knuth_division.rs:37-46 [divrem_nby1]: the loop runs from the most significant
    limb down, so it is written on the list by first dividing the tail.
    Returns the updated slice and the remainder. *)
Fixpoint divrem_nby1 (dbg : bool) (numerator : list Z) (divisor : Z) : option (list Z * Z) :=
  match numerator with
  | [] => let? _ := dassert dbg (0 <? divisor) in Some ([], 0)
  | x :: rest =>
      let? (rest', r) := divrem_nby1 dbg rest divisor in
      let? (q, r') := divrem_2by1 dbg x r divisor in
      Some (q :: rest', r')
  end.

(** knuth_division.rs:51-87 [div_3by2] *)
Definition div_3by2 (dbg : bool) (n0 n1 n2 d0 d1 : Z) : option Z :=
  let? _ := dassert dbg (Z.shiftr d1 63 =? 1) in
  let? _ := dassert dbg (val_2 n1 n2 <? val_2 d0 d1) in
  if n2 =? d1 then
    let? _ := dassert dbg (n1 <? d0) in
    let? neg_remainder := dsub dbg BB (val_2 0 d0) (val_2 n0 n1) in
    if val_2 d0 d1 <? neg_remainder then Some 0xfffffffffffffffe
    else Some 0xffffffffffffffff
  else
    let? (q, r) := divrem_2by1 dbg n1 n2 d1 in
    if val_2 n0 r <? mul_2 q d0 then
      let? q := dsub dbg B q 1 in
      let r := wadd r d1 in
      let overflow := r <? d1 in
      if negb overflow && (val_2 n0 r <? mul_2 q d0) then dsub dbg B q 1
      else Some q
    else Some q.

(** knuth_division.rs:110-114: the limbs of [x << shift], limb 0 first;
    [prev] is the limb below. 0 < shift < 64. *)
Fixpoint shl_rest (shift prev : Z) (l : list Z) : list Z :=
  match l with
  | [] => []
  | x :: rest => Z.lor (w64 (Z.shiftl x shift)) (Z.shiftr prev (64 - shift)) :: shl_rest shift x rest
  end.
Definition shl_limbs (shift : Z) (l : list Z) : list Z :=
  match l with
  | [] => []
  | x :: rest => w64 (Z.shiftl x shift) :: shl_rest shift x rest
  end.

(** knuth_division.rs:163-168: the limbs of [x >> shift]. *)
Fixpoint shr_limbs (shift : Z) (l : list Z) : list Z :=
  match l with
  | [] => []
  | x :: rest =>
      match rest with
      | [] => [Z.shiftr x shift]
      | y :: _ => Z.lor (Z.shiftr x shift) (w64 (Z.shiftl y (64 - shift))) :: shr_limbs shift rest
      end
  end.

(** knuth_division.rs:131-136 (D4): window := window - qhat * divisor, with the borrow. *)
Fixpoint mul_sub (window : list Z) (qhat : Z) (divisor : list Z) (borrow : Z) : list Z * Z :=
  match window, divisor with
  | x :: window', d :: divisor' =>
      let '(a, b) := msb x qhat d borrow in
      let '(rest, b') := mul_sub window' qhat divisor' b in
      (a :: rest, b')
  | _, _ => ([], borrow)
  end.

(** knuth_division.rs:141-146 (D6): window := window + divisor, with the carry. *)
Fixpoint add_back (window divisor : list Z) (carry : Z) : list Z * Z :=
  match window, divisor with
  | x :: window', d :: divisor' =>
      let '(a, b) := adc x d carry in
      let '(rest, b') := add_back window' divisor' b in
      (a :: rest, b')
  | _, _ => ([], carry)
  end.

(** knuth_division.rs:123-158: one iteration of the quotient digit loop. The
    in-place updates of numerator[j .. j+n] act on the slice [window]. *)
Definition digit_step (dbg : bool) (numerator divisor : list Z) (j : nat) : option (list Z) :=
  let n := length divisor in
  let window := firstn n (skipn j numerator) in
  let top := nth (j + n) numerator 0 in
  let? qhat := div_3by2 dbg (nth (j + n - 2) numerator 0) (nth (j + n - 1) numerator 0) top
                        (nth (n - 2) divisor 0) (nth (n - 1) divisor 0) in
  let '(window, borrow) := mul_sub window qhat divisor 0 in
  if top <? borrow then
    let '(window, carry) := add_back window divisor 0 in
    let? qhat := dsub dbg B qhat 1 in
    let? _ := dassert dbg (wadd (wsub top borrow) carry =? 0) in
    Some (firstn j numerator ++ window ++ [qhat] ++ skipn (j + n + 1) numerator)
  else
    let? _ := dassert dbg (wsub top borrow =? 0) in
    Some (firstn j numerator ++ window ++ [qhat] ++ skipn (j + n + 1) numerator).

(** knuth_division.rs:123: for j in (0..=m).rev() *)
Fixpoint digit_loop (dbg : bool) (numerator divisor : list Z) (j : nat) : option (list Z) :=
  let? numerator := digit_step dbg numerator divisor j in
  match j with
  | O => Some numerator
  | S j' => digit_loop dbg numerator divisor j'
  end.

(** knuth_division.rs:96-170 [divrem_nbym]: returns the updated numerator slice. *)
Definition divrem_nbym (dbg : bool) (numerator divisor : list Z) : option (list Z) :=
  let n := length divisor in
  let? _ := dassert dbg (2 <=? n)%nat in
  let? _ := dassert dbg (n <? length numerator)%nat in
  let? _ := dassert dbg (0 <? last divisor 0) in
  let? _ := dassert dbg (last numerator 0 =? 0) in
  let m := (length numerator - n - 1)%nat in
  let shift := clz64 (nth (n - 1) divisor 0) in
  let '(numerator, divisor) :=
    if 0 <? shift then
      (shl_limbs shift (firstn (n + m) numerator) ++
         [Z.shiftr (nth (n + m - 1) numerator 0) (64 - shift)],
       shl_limbs shift divisor)
    else (numerator, divisor) in
  let? numerator := digit_loop dbg numerator divisor m in
  if 0 <? shift then
    Some (shr_limbs shift (firstn n numerator) ++ skipn n numerator)
  else Some numerator.

(** numerator[i] *)
Definition at_ (l : list Z) (i : nat) : Z := nth i l 0.

(** division.rs:36-48 [DivRem<u64>::div_rem]. The outer option is a panic, the
    inner one the returned Option. *)
Definition u_div_rem_u64 (x : u256) (rhs : Z) : option (option (u256 * Z)) :=
  if rhs =? 0 then Some None else
  let? (q3, r) := div_2_1 (l3 x) 0 rhs in
  let? (q2, r) := div_2_1 (l2 x) r rhs in
  let? (q1, r) := div_2_1 (l1 x) r rhs in
  let? (q0, r) := div_2_1 (l0 x) r rhs in
  Some (Some (mk q0 q1 q2 q3, r)).

(** division.rs:57-94 [DivRem<&U256>::div_rem] *)
Definition u_div_rem (dbg : bool) (x rhs : u256) : option (option (u256 * u256)) :=
  let numerator := [l0 x; l1 x; l2 x; l3 x; 0] in
  if 0 <? l3 rhs then
    let? n := divrem_nbym dbg numerator [l0 rhs; l1 rhs; l2 rhs; l3 rhs] in
    Some (Some (mk (at_ n 4) 0 0 0, mk (at_ n 0) (at_ n 1) (at_ n 2) (at_ n 3)))
  else if 0 <? l2 rhs then
    let? n := divrem_nbym dbg numerator [l0 rhs; l1 rhs; l2 rhs] in
    Some (Some (mk (at_ n 3) (at_ n 4) 0 0, mk (at_ n 0) (at_ n 1) (at_ n 2) 0))
  else if 0 <? l1 rhs then
    let? n := divrem_nbym dbg numerator [l0 rhs; l1 rhs] in
    Some (Some (mk (at_ n 2) (at_ n 3) (at_ n 4) 0, mk (at_ n 0) (at_ n 1) 0 0))
  else if 0 <? l0 rhs then
    let? (n, remainder) := divrem_nby1 dbg numerator (l0 rhs) in
    Some (Some (mk (at_ n 0) (at_ n 1) (at_ n 2) (at_ n 3), mk remainder 0 0 0))
  else Some None.

(** division.rs:127-141 [DivAssign], [RemAssign]: [unwrap] panics on None. *)
Definition u_div (dbg : bool) (x y : u256) : option u256 :=
  let? r := u_div_rem dbg x y in match r with Some (q, _) => Some q | None => None end.
Definition u_rem (dbg : bool) (x y : u256) : option u256 :=
  let? r := u_div_rem dbg x y in match r with Some (_, r) => Some r | None => None end.

(** multiplicative.rs:155-192 [mulmod] *)
Definition u_mulmod (dbg : bool) (x rhs modulus : u256) : option u256 :=
  let '(lo, hi) := u_mul_full x rhs in
  let numerator := [l0 lo; l1 lo; l2 lo; l3 lo; l0 hi; l1 hi; l2 hi; l3 hi; 0] in
  if 0 <? l3 modulus then
    let? n := divrem_nbym dbg numerator [l0 modulus; l1 modulus; l2 modulus; l3 modulus] in
    Some (mk (at_ n 0) (at_ n 1) (at_ n 2) (at_ n 3))
  else if 0 <? l2 modulus then
    let? n := divrem_nbym dbg numerator [l0 modulus; l1 modulus; l2 modulus] in
    Some (mk (at_ n 0) (at_ n 1) (at_ n 2) 0)
  else if 0 <? l1 modulus then
    let? n := divrem_nbym dbg numerator [l0 modulus; l1 modulus] in
    Some (mk (at_ n 0) (at_ n 1) 0 0)
  else if 0 <? l0 modulus then
    let? (_, remainder) := divrem_nby1 dbg numerator (l0 modulus) in
    Some (mk remainder 0 0 0)
  else None.
