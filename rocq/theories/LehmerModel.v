(** Lehmer's algorithm: algebra/u256/src/arch/generic/lehmer_gcd.rs and its callers.

    [dbg] is the build profile: in a debug build assertions and integer overflow panic ([None]),
    in a release build assertions are skipped and u64 arithmetic wraps. Loops carry fuel, whose
    exhaustion is also [None] and is excluded by the theorems. *)
Require Import ZArith Lia Bool List.
From Verif Require Import Word U256Model BinaryModel KnuthModel.
Open Scope Z_scope.

(** u64 operators of the two profiles; division by zero panics in both. *)
Definition ladd (dbg : bool) (a b : Z) : option Z := if dbg && negb (a + b <? B) then None else Some (w64 (a + b)).
Definition lsub (dbg : bool) (a b : Z) : option Z := if dbg && (a <? b) then None else Some (w64 (a - b)).
Definition lmul (dbg : bool) (a b : Z) : option Z := if dbg && negb (a * b <? B) then None else Some (w64 (a * b)).
Definition ldiv (a b : Z) : option Z := if b =? 0 then None else Some (a / b).

(** lehmer_gcd.rs:14-15 [Matrix], 17-19 [IDENTITY], derived PartialEq *)
Record matrix : Set := Mx { q00 : Z; q01 : Z; q10 : Z; q11 : Z; evenp : bool }.
Definition IDENTITY : matrix := Mx 1 0 0 1 true.
Definition m_eqb (a b : matrix) : bool :=
  (q00 a =? q00 b) && (q01 a =? q01 b) && (q10 a =? q10 b) && (q11 a =? q11 b) && Bool.eqb (evenp a) (evenp b).

(** lehmer_gcd.rs:33-59 [mat_mul]: returns the new a and b *)
Definition mat_mul (a b : u256) (q00 q01 q10 q11 : Z) : u256 * u256 :=
  let '(ai, ac) := mac 0 q00 (l0 a) 0 in
  let '(a0, ab) := msb ai q01 (l0 b) 0 in
  let '(bi, bc) := mac 0 q11 (l0 b) 0 in
  let '(b0, bb) := msb bi q10 (l0 a) 0 in
  let '(ai, ac) := mac 0 q00 (l1 a) ac in
  let '(a1, ab) := msb ai q01 (l1 b) ab in
  let '(bi, bc) := mac 0 q11 (l1 b) bc in
  let '(b1, bb) := msb bi q10 (l1 a) bb in
  let '(ai, ac) := mac 0 q00 (l2 a) ac in
  let '(a2, ab) := msb ai q01 (l2 b) ab in
  let '(bi, bc) := mac 0 q11 (l2 b) bc in
  let '(b2, bb) := msb bi q10 (l2 a) bb in
  let '(ai, _) := mac 0 q00 (l3 a) ac in
  let '(a3, _) := msb ai q01 (l3 b) ab in
  let '(bi, _) := mac 0 q11 (l3 b) bc in
  let '(b3, _) := msb bi q10 (l3 a) bb in
  (mk a0 a1 a2 a3, mk b0 b1 b2 b3).
(** lehmer_gcd.rs:62-69 [lehmer_update] *)
Definition lehmer_update (a0 a1 : u256) (m : matrix) : u256 * u256 :=
  if evenp m then mat_mul a0 a1 (q00 m) (q01 m) (q10 m) (q11 m)
  else let '(a0, a1) := mat_mul a0 a1 (q10 m) (q11 m) (q00 m) (q01 m) in (a1, a0).

(** lehmer_gcd.rs:79-91 [div1]: [k] of the 19 unrolled rounds are left, [i] is the number of the next *)
Fixpoint div1_loop (dbg : bool) (k : nat) (i a b : Z) : option Z :=
  match k with
  | O => let? q := ldiv a b in ladd dbg 19 q
  | S k => let? a := lsub dbg a b in if a <? b then Some i else div1_loop dbg k (i + 1) a b
  end.
Definition div1 (dbg : bool) (a b : Z) : option Z :=
  let? _ := dassert dbg (b <=? a) in
  let? _ := dassert dbg (0 <? b) in
  div1_loop dbg 19 1 a b.

(** lehmer_gcd.rs:109-124 [lehmer_unroll], with 16 unrolled rounds; returns the new a3 and k3 *)
Fixpoint unroll_loop (dbg : bool) (n : nat) (a2 a3 k2 k3 : Z) : option (Z * Z) :=
  match n with
  | O =>
      let? q := ldiv a3 a2 in
      let? x := lmul dbg q a2 in let? a3 := lsub dbg a3 x in
      let? y := lmul dbg q k2 in let? k3 := ladd dbg k3 y in Some (a3, k3)
  | S n =>
      let? a3 := lsub dbg a3 a2 in
      let? k3 := ladd dbg k3 k2 in
      if a3 <? a2 then Some (a3, k3) else unroll_loop dbg n a2 a3 k2 k3
  end.
Definition lehmer_unroll (dbg : bool) (a2 a3 k2 k3 : Z) : option (Z * Z) :=
  let? _ := dassert dbg (a2 <? a3) in
  let? _ := dassert dbg (0 <? a2) in
  unroll_loop dbg 16 a2 a3 k2 k3.

(** lehmer_gcd.rs:141-157: the loop of [lehmer_small] *)
Fixpoint small_loop (dbg : bool) (fuel : nat) (r0 r1 q00 q01 q10 q11 : Z) : option matrix :=
  match fuel with
  | O => None
  | S fuel =>
      let? q := div1 dbg r0 r1 in
      let? x := lmul dbg q r1 in let? r0 := lsub dbg r0 x in
      let? x := lmul dbg q q10 in let? q00 := ladd dbg q00 x in
      let? x := lmul dbg q q11 in let? q01 := ladd dbg q01 x in
      if r0 =? 0 then Some (Mx q10 q11 q00 q01 false)
      else
        let? q := div1 dbg r1 r0 in
        let? x := lmul dbg q r0 in let? r1 := lsub dbg r1 x in
        let? x := lmul dbg q q00 in let? q10 := ladd dbg q10 x in
        let? x := lmul dbg q q01 in let? q11 := ladd dbg q11 x in
        if r1 =? 0 then Some (Mx q00 q01 q10 q11 true)
        else small_loop dbg fuel r0 r1 q00 q01 q10 q11
  end.
(** lehmer_gcd.rs:132-158 [lehmer_small] *)
Definition lehmer_small (dbg : bool) (r0 r1 : Z) : option matrix :=
  let? _ := dassert dbg (r1 <=? r0) in
  if r1 =? 0 then Some IDENTITY else small_loop dbg 65 r0 r1 1 0 0 1.

(** lehmer_gcd.rs:171 [LIMIT] *)
Definition LIMIT : Z := 4294967296.
(** The variables of lehmer_gcd.rs:211-234 when the [while] loop is left *)
Record lstate : Set := LS { s_a1 : Z; s_a2 : Z; s_a3 : Z; s_k0 : Z; s_k1 : Z; s_k2 : Z; s_k3 : Z; s_even : bool }.
(** lehmer_gcd.rs:211-234: [while a3 >= LIMIT] *)
Fixpoint while_loop (dbg : bool) (fuel : nat) (a1 a2 a3 k0 k1 k2 k3 : Z) : option lstate :=
  if LIMIT <=? a3 then
    match fuel with
    | O => None
    | S fuel =>
        let? (a3', k3') := lehmer_unroll dbg a3 a2 k3 k2 in
        if a3' <? LIMIT then Some (LS a2 a3 a3' k1 k2 k3 k3' false)
        else
          let? (a3'', k3'') := lehmer_unroll dbg a3' a3 k3' k3 in
          while_loop dbg fuel a3 a3' a3'' k2 k3 k3' k3''
    end
  else Some (LS a1 a2 a3 k0 k1 k2 k3 true).
(** lehmer_gcd.rs:235-276: the tests on the unpacked cofactors *)
Definition choose (dbg : bool) (s : lstate) : option matrix :=
  let u0 := Z.shiftr (s_k0 s) 32 in let u1 := Z.shiftr (s_k1 s) 32 in
  let u2 := Z.shiftr (s_k2 s) 32 in let u3 := Z.shiftr (s_k3 s) 32 in
  let v0 := s_k0 s mod LIMIT in let v1 := s_k1 s mod LIMIT in
  let v2 := s_k2 s mod LIMIT in let v3 := s_k3 s mod LIMIT in
  let? _ := dassert dbg (LIMIT <=? s_a2 s) in
  let? _ := dassert dbg (s_a3 s <? LIMIT) in
  if s_even s then
    let? _ := dassert dbg (v2 <=? s_a2 s) in
    let? d := lsub dbg (s_a1 s) (s_a2 s) in let? x := ladd dbg u2 u1 in
    if x <=? d then
      if u3 <=? s_a3 s then
        let? d := lsub dbg (s_a2 s) (s_a3 s) in let? x := ladd dbg v3 v2 in
        if x <=? d then Some (Mx u2 v2 u3 v3 true) else Some (Mx u1 v1 u2 v2 false)
      else Some (Mx u1 v1 u2 v2 false)
    else Some (Mx u0 v0 u1 v1 true)
  else
    let? _ := dassert dbg (u2 <=? s_a2 s) in
    let? d := lsub dbg (s_a1 s) (s_a2 s) in let? x := ladd dbg v2 v1 in
    if x <=? d then
      if v3 <=? s_a3 s then
        let? d := lsub dbg (s_a2 s) (s_a3 s) in let? x := ladd dbg u3 u2 in
        if x <=? d then Some (Mx u2 v2 u3 v3 false) else Some (Mx u1 v1 u2 v2 true)
      else Some (Mx u1 v1 u2 v2 true)
    else Some (Mx u0 v0 u1 v1 false).
(** lehmer_gcd.rs:170-277 [lehmer_loop] *)
Definition lehmer_loop (dbg : bool) (a0 a1 : Z) : option matrix :=
  let? _ := dassert dbg (2 ^ 63 <=? a0) in
  let? _ := dassert dbg (a1 <=? a0) in
  let k0 := LIMIT in
  let k1 := 1 in
  if a1 <? LIMIT then Some IDENTITY
  else
    let? q := div1 dbg a0 a1 in
    let? x := lmul dbg q a1 in let? a2 := lsub dbg a0 x in
    let? x := lmul dbg q k1 in let? k2 := ladd dbg k0 x in
    if a2 <? LIMIT then
      let u2 := Z.shiftr k2 32 in
      let v2 := k2 mod LIMIT in
      if v2 <=? a2 then
        let? d := lsub dbg a1 a2 in
        if u2 <=? d then Some (Mx 0 1 u2 v2 false) else Some IDENTITY
      else Some IDENTITY
    else
      let? q := div1 dbg a1 a2 in
      let? x := lmul dbg q a2 in let? a3 := lsub dbg a1 x in
      let? x := lmul dbg q k2 in let? k3 := ladd dbg k1 x in
      let? s := while_loop dbg 64 a1 a2 a3 k0 k1 k2 k3 in
      choose dbg s.

(** lehmer_gcd.rs:321-328: the product of two matrices *)
Definition m_mul (dbg : bool) (n q : matrix) : option matrix :=
  let entry a b c d := let? x := lmul dbg a b in let? y := lmul dbg c d in ladd dbg x y in
  let? e00 := entry (q00 n) (q00 q) (q01 n) (q10 q) in
  let? e01 := entry (q00 n) (q01 q) (q01 n) (q11 q) in
  let? e10 := entry (q10 n) (q00 q) (q11 n) (q10 q) in
  let? e11 := entry (q10 n) (q01 q) (q11 n) (q11 q) in
  Some (Mx e00 e01 e10 e11 (xorb (evenp n) (negb (evenp q)))).
(** lehmer_gcd.rs:294-329 [lehmer_double] *)
Definition lehmer_double (dbg : bool) (r0 r1 : u256) : option matrix :=
  let? _ := dassert dbg (u_geb r0 r1) in
  if 192 <=? u_leading_zeros r0 then
    let? _ := dassert dbg (192 <=? u_leading_zeros r1) in
    let? _ := dassert dbg (l0 r1 <=? l0 r0) in
    lehmer_small dbg (l0 r0) (l0 r1)
  else
    let s := u_leading_zeros r0 in
    let? q := lehmer_loop dbg (l3 (u_shl r0 s)) (l3 (u_shl r1 s)) in
    if m_eqb q IDENTITY then Some q
    else
      let '(r0, r1) := lehmer_update r0 r1 q in
      let s := u_leading_zeros r0 in
      let? qn := lehmer_loop dbg (l3 (u_shl r0 s)) (l3 (u_shl r1 s)) in
      m_mul dbg qn q.

(** lehmer_gcd.rs:339-352: the loop of [gcd] *)
Fixpoint gcd_loop (dbg : bool) (fuel : nat) (r0 r1 : u256) : option u256 :=
  if u_eqb r1 ZERO then Some r0
  else match fuel with
  | O => None
  | S fuel =>
      let? q := lehmer_double dbg r0 r1 in
      if m_eqb q IDENTITY then
        let? q := u_div dbg r0 r1 in
        gcd_loop dbg fuel r1 (u_sub r0 (u_mul q r1))
      else
        let '(r0, r1) := lehmer_update r0 r1 q in
        gcd_loop dbg fuel r0 r1
  end.
(** lehmer_gcd.rs:334-354 [gcd], functions.rs:9-11 *)
Definition u_gcd (dbg : bool) (r0 r1 : u256) : option u256 :=
  let '(r0, r1) := if u_gtb r1 r0 then (r1, r0) else (r0, r1) in
  let? _ := dassert dbg (u_geb r0 r1) in
  gcd_loop dbg 520 r0 r1.

(** lehmer_gcd.rs:385-410: the loop of [gcd_extended]; returns r0, s0, t0 and even *)
Fixpoint ext_loop (dbg : bool) (fuel : nat) (r0 r1 s0 s1 t0 t1 : u256) (even : bool) : option (u256 * u256 * u256 * bool) :=
  if u_eqb r1 ZERO then Some (r0, s0, t0, even)
  else match fuel with
  | O => None
  | S fuel =>
      let? q := lehmer_double dbg r0 r1 in
      if m_eqb q IDENTITY then
        let? q := u_div dbg r0 r1 in
        ext_loop dbg fuel r1 (u_sub r0 (u_mul q r1)) s1 (u_sub s0 (u_mul q s1)) t1 (u_sub t0 (u_mul q t1)) (negb even)
      else
        let '(r0, r1) := lehmer_update r0 r1 q in
        let '(s0, s1) := lehmer_update s0 s1 q in
        let '(t0, t1) := lehmer_update t0 t1 q in
        ext_loop dbg fuel r0 r1 s0 s1 t0 t1 (xorb even (negb (evenp q)))
  end.
(** lehmer_gcd.rs:374-422 [gcd_extended], functions.rs:13-16 *)
Definition u_gcd_extended (dbg : bool) (r0 r1 : u256) : option (u256 * u256 * u256 * bool) :=
  let swapped := u_gtb r1 r0 in
  let '(r0, r1) := if swapped then (r1, r0) else (r0, r1) in
  let? _ := dassert dbg (u_geb r0 r1) in
  let? r := ext_loop dbg 520 r0 r1 ONE ZERO ZERO ONE true in
  match r with (r0, s0, t0, even) =>
    let '(s0, t0) := if even then (s0, u_sub ZERO t0) else (u_sub ZERO s0, t0) in
    Some (if swapped then (r0, t0, s0, negb even) else (r0, s0, t0, even))
  end.

(** lehmer_gcd.rs:450-467: the loop of [inv_mod]; returns r0, t0 and even *)
Fixpoint inv_loop (dbg : bool) (fuel : nat) (r0 r1 t0 t1 : u256) (even : bool) : option (u256 * u256 * bool) :=
  if u_eqb r1 ZERO then Some (r0, t0, even)
  else match fuel with
  | O => None
  | S fuel =>
      let? q := lehmer_double dbg r0 r1 in
      if m_eqb q IDENTITY then
        let? q := u_div dbg r0 r1 in
        inv_loop dbg fuel r1 (u_sub r0 (u_mul q r1)) t1 (u_sub t0 (u_mul q t1)) (negb even)
      else
        let '(r0, r1) := lehmer_update r0 r1 q in
        let '(t0, t1) := lehmer_update t0 t1 q in
        inv_loop dbg fuel r0 r1 t0 t1 (xorb even (negb (evenp q)))
  end.
(** lehmer_gcd.rs:441-475 [inv_mod], division.rs:22-28: the outer option is a panic, the inner one
    the returned Option. [x.inv_mod(&modulus)] is [u_inv_mod dbg modulus x]. *)
Definition u_inv_mod (dbg : bool) (modulus num : u256) : option (option u256) :=
  let? r1 := if u_geb num modulus then u_rem dbg num modulus else Some num in
  let? r := inv_loop dbg 520 modulus r1 ZERO ONE true in
  match r with (r0, t0, even) =>
    Some (if u_eqb r0 ONE then Some (if even then u_add modulus t0 else t0) else None)
  end.
