(** Montgomery arithmetic of the u256 crate. *)
Require Import ZArith Lia Bool List.
From Verif Require Import Word U256Model.
Open Scope Z_scope.

(** algebra/u256/src/traits/mod.rs:278-295 [trait MontgomeryParameters] *)
Record mparams : Set := MP { MODULUS : u256; M64 : Z; R1 : u256; R2 : u256; R3 : u256 }.

(** algebra/u256/src/arch/generic/mod.rs:11-17 [reduce_1] *)
Definition reduce_1 (s modulus : u256) : u256 :=
  if u_geb s modulus then u_sub s modulus else s.

(** algebra/u256/src/algorithms/montgomery/generic.rs:9-74 [to_montgomery_const] *)
Definition to_montgomery_const (x modulus : u256) (m64 : Z) (r2 : u256) : option u256 :=
  let k := wmul (wmul (l0 x) (l0 r2)) m64 in
  let '(a0, carry) := mac 0 (l0 x) (l0 r2) 0 in
  let '(a1, carry) := mac 0 (l0 x) (l1 r2) carry in
  let '(a2, carry) := mac 0 (l0 x) (l2 r2) carry in
  let '(a3, carry) := mac 0 (l0 x) (l3 r2) carry in
  let a4 := carry in
  let '(_, carry) := mac a0 k (l0 modulus) 0 in
  let '(a0, carry) := mac a1 k (l1 modulus) carry in
  let '(a1, carry) := mac a2 k (l2 modulus) carry in
  let '(a2, carry) := mac a3 k (l3 modulus) carry in
  let? a3 := add64 a4 carry in
  let k := wmul (wadd (wmul (l1 x) (l0 r2)) a0) m64 in
  let '(a0, carry) := mac a0 (l1 x) (l0 r2) 0 in
  let '(a1, carry) := mac a1 (l1 x) (l1 r2) carry in
  let '(a2, carry) := mac a2 (l1 x) (l2 r2) carry in
  let '(a3, carry) := mac a3 (l1 x) (l3 r2) carry in
  let a4 := carry in
  let '(_, carry) := mac a0 k (l0 modulus) 0 in
  let '(a0, carry) := mac a1 k (l1 modulus) carry in
  let '(a1, carry) := mac a2 k (l2 modulus) carry in
  let '(a2, carry) := mac a3 k (l3 modulus) carry in
  let? a3 := add64 a4 carry in
  let k := wmul (wadd (wmul (l2 x) (l0 r2)) a0) m64 in
  let '(a0, carry) := mac a0 (l2 x) (l0 r2) 0 in
  let '(a1, carry) := mac a1 (l2 x) (l1 r2) carry in
  let '(a2, carry) := mac a2 (l2 x) (l2 r2) carry in
  let '(a3, carry) := mac a3 (l2 x) (l3 r2) carry in
  let a4 := carry in
  let '(_, carry) := mac a0 k (l0 modulus) 0 in
  let '(a0, carry) := mac a1 k (l1 modulus) carry in
  let '(a1, carry) := mac a2 k (l2 modulus) carry in
  let '(a2, carry) := mac a3 k (l3 modulus) carry in
  let? a3 := add64 a4 carry in
  let k := wmul (wadd (wmul (l3 x) (l0 r2)) a0) m64 in
  let '(a0, carry) := mac a0 (l3 x) (l0 r2) 0 in
  let '(a1, carry) := mac a1 (l3 x) (l1 r2) carry in
  let '(a2, carry) := mac a2 (l3 x) (l2 r2) carry in
  let '(a3, carry) := mac a3 (l3 x) (l3 r2) carry in
  let a4 := carry in
  let '(_, carry) := mac a0 k (l0 modulus) 0 in
  let '(a0, carry) := mac a1 k (l1 modulus) carry in
  let '(a1, carry) := mac a2 k (l2 modulus) carry in
  let '(a2, carry) := mac a3 k (l3 modulus) carry in
  let? a3 := add64 a4 carry in
  let '(a0, borrow) := sbb a0 (l0 modulus) 0 in
  let '(a1, borrow) := sbb a1 (l1 modulus) borrow in
  let '(a2, borrow) := sbb a2 (l2 modulus) borrow in
  let '(a3, borrow) := sbb a3 (l3 modulus) borrow in
  let? m0 := mul64 borrow (l0 modulus) in
  let? m1 := mul64 borrow (l1 modulus) in
  let? m2 := mul64 borrow (l2 modulus) in
  let? m3 := mul64 borrow (l3 modulus) in
  let '(a0, carry) := adc a0 m0 0 in
  let '(a1, carry) := adc a1 m1 carry in
  let '(a2, carry) := adc a2 m2 carry in
  let '(a3, _) := adc a3 m3 carry in
  Some (mk a0 a1 a2 a3).

(** generic.rs:79-114 [redc_inline] *)
Definition g_redc (M : mparams) (lo hi : u256) : u256 :=
  let m := MODULUS M in
  let ui := wmul (l0 lo) (M64 M) in
  let '(_, carry) := mac (l0 lo) ui (l0 m) 0 in
  let '(a1, carry) := mac (l1 lo) ui (l1 m) carry in
  let '(a2, carry) := mac (l2 lo) ui (l2 m) carry in
  let '(a3, carry) := mac (l3 lo) ui (l3 m) carry in
  let '(a4, carry2) := adc (l0 hi) 0 carry in
  let ui := wmul a1 (M64 M) in
  let '(_, carry) := mac a1 ui (l0 m) 0 in
  let '(a2, carry) := mac a2 ui (l1 m) carry in
  let '(a3, carry) := mac a3 ui (l2 m) carry in
  let '(a4, carry) := mac a4 ui (l3 m) carry in
  let '(a5, carry2) := adc (l1 hi) carry2 carry in
  let ui := wmul a2 (M64 M) in
  let '(_, carry) := mac a2 ui (l0 m) 0 in
  let '(a3, carry) := mac a3 ui (l1 m) carry in
  let '(a4, carry) := mac a4 ui (l2 m) carry in
  let '(a5, carry) := mac a5 ui (l3 m) carry in
  let '(a6, carry2) := adc (l2 hi) carry2 carry in
  let ui := wmul a3 (M64 M) in
  let '(_, carry) := mac a3 ui (l0 m) 0 in
  let '(a4, carry) := mac a4 ui (l1 m) carry in
  let '(a5, carry) := mac a5 ui (l2 m) carry in
  let '(a6, carry) := mac a6 ui (l3 m) carry in
  let '(a7, _) := adc (l3 hi) carry2 carry in
  let r := mk a4 a5 a6 a7 in
  if u_geb r m then u_sub r m else r.

(** generic.rs:119-174 [mul_redc_inline]; the additions [a4 + carry] are plain
    u64 additions, checked in the debug profile. *)
Definition g_mul_redc (M : mparams) (x y : u256) : option u256 :=
  let m := MODULUS M in
  let '(a0, carry) := mac 0 (l0 x) (l0 y) 0 in
  let '(a1, carry) := mac 0 (l0 x) (l1 y) carry in
  let '(a2, carry) := mac 0 (l0 x) (l2 y) carry in
  let '(a3, carry) := mac 0 (l0 x) (l3 y) carry in
  let a4 := carry in
  let k := wmul a0 (M64 M) in
  let '(_, carry) := mac a0 k (l0 m) 0 in
  let '(a0, carry) := mac a1 k (l1 m) carry in
  let '(a1, carry) := mac a2 k (l2 m) carry in
  let '(a2, carry) := mac a3 k (l3 m) carry in
  let? a3 := add64 a4 carry in
  let '(a0, carry) := mac a0 (l1 x) (l0 y) 0 in
  let '(a1, carry) := mac a1 (l1 x) (l1 y) carry in
  let '(a2, carry) := mac a2 (l1 x) (l2 y) carry in
  let '(a3, carry) := mac a3 (l1 x) (l3 y) carry in
  let a4 := carry in
  let k := wmul a0 (M64 M) in
  let '(_, carry) := mac a0 k (l0 m) 0 in
  let '(a0, carry) := mac a1 k (l1 m) carry in
  let '(a1, carry) := mac a2 k (l2 m) carry in
  let '(a2, carry) := mac a3 k (l3 m) carry in
  let? a3 := add64 a4 carry in
  let '(a0, carry) := mac a0 (l2 x) (l0 y) 0 in
  let '(a1, carry) := mac a1 (l2 x) (l1 y) carry in
  let '(a2, carry) := mac a2 (l2 x) (l2 y) carry in
  let '(a3, carry) := mac a3 (l2 x) (l3 y) carry in
  let a4 := carry in
  let k := wmul a0 (M64 M) in
  let '(_, carry) := mac a0 k (l0 m) 0 in
  let '(a0, carry) := mac a1 k (l1 m) carry in
  let '(a1, carry) := mac a2 k (l2 m) carry in
  let '(a2, carry) := mac a3 k (l3 m) carry in
  let? a3 := add64 a4 carry in
  let '(a0, carry) := mac a0 (l3 x) (l0 y) 0 in
  let '(a1, carry) := mac a1 (l3 x) (l1 y) carry in
  let '(a2, carry) := mac a2 (l3 x) (l2 y) carry in
  let '(a3, carry) := mac a3 (l3 x) (l3 y) carry in
  let a4 := carry in
  let k := wmul a0 (M64 M) in
  let '(_, carry) := mac a0 k (l0 m) 0 in
  let '(a0, carry) := mac a1 k (l1 m) carry in
  let '(a1, carry) := mac a2 k (l2 m) carry in
  let '(a2, carry) := mac a3 k (l3 m) carry in
  let? a3 := add64 a4 carry in
  let r := mk a0 a1 a2 a3 in
  Some (if u_geb r m then u_sub r m else r).

(** algorithms/montgomery/proth.rs:12-15 [is_proth] *)
Definition is_proth (M : mparams) : bool :=
  (l0 (MODULUS M) =? 1) && (l1 (MODULUS M) =? 0) && (l2 (MODULUS M) =? 0).

(** proth.rs:24-54 [redc_inline] *)
Definition p_redc (m3 : Z) (lo hi : u256) : u256 :=
  let '(a0, carry0) := sbb 0 (l0 lo) 0 in
  let '(a1, carry0) := sbb 0 (l1 lo) carry0 in
  let '(a2, carry0) := sbb 0 (l2 lo) carry0 in
  let '(a3, carry1) := mac (l3 lo) a0 m3 0 in
  let '(a3, carry0) := sbb 0 a3 carry0 in
  let '(a4, carry0) := adc 0 (l0 hi) carry0 in
  let '(a5, carry0) := adc 0 (l1 hi) carry0 in
  let '(a6, carry0) := adc 0 (l2 hi) carry0 in
  let '(a7, _) := adc 0 (l3 hi) carry0 in
  let '(a4, carry1) := mac a4 a1 m3 carry1 in
  let '(a5, carry1) := mac a5 a2 m3 carry1 in
  let '(a6, carry1) := mac a6 a3 m3 carry1 in
  let '(a7, _) := adc a7 0 carry1 in
  let '(r0, carry) := sbb a4 1 0 in
  let '(r1, carry) := sbb a5 0 carry in
  let '(r2, carry) := sbb a6 0 carry in
  let '(r3, carry) := sbb a7 m3 carry in
  if carry =? 0 then mk r0 r1 r2 r3 else mk a4 a5 a6 a7.

(** proth.rs:59-102 [mul_redc_inline]; [a7 + carry + carry1] is a checked u64
    addition in the debug profile. *)
Definition p_mul_redc (m3 : Z) (x y : u256) : option u256 :=
  let '(a0, carry) := mac 0 (l0 x) (l0 y) 0 in
  let '(a1, carry) := mac 0 (l0 x) (l1 y) carry in
  let '(a2, carry) := mac 0 (l0 x) (l2 y) carry in
  let '(a3, carry) := mac 0 (l0 x) (l3 y) carry in
  let a4 := carry in
  let '(k, carry) := sbb 0 a0 0 in
  let '(a3, carry1) := mac a3 k m3 0 in
  let '(a1, carry) := mac a1 (l1 x) (l0 y) carry in
  let '(a2, carry) := mac a2 (l1 x) (l1 y) carry in
  let '(a3, carry) := mac a3 (l1 x) (l2 y) carry in
  let '(a4, carry) := mac a4 (l1 x) (l3 y) carry in
  let a5 := carry in
  let '(k, carry) := sbb 0 a1 0 in
  let '(a4, carry1) := mac a4 k m3 carry1 in
  let '(a2, carry) := mac a2 (l2 x) (l0 y) carry in
  let '(a3, carry) := mac a3 (l2 x) (l1 y) carry in
  let '(a4, carry) := mac a4 (l2 x) (l2 y) carry in
  let '(a5, carry) := mac a5 (l2 x) (l3 y) carry in
  let a6 := carry in
  let '(k, carry) := sbb 0 a2 0 in
  let '(a5, carry1) := mac a5 k m3 carry1 in
  let '(a3, carry) := mac a3 (l3 x) (l0 y) carry in
  let '(a4, carry) := mac a4 (l3 x) (l1 y) carry in
  let '(a5, carry) := mac a5 (l3 x) (l2 y) carry in
  let '(a6, carry) := mac a6 (l3 x) (l3 y) carry in
  let a7 := carry in
  let '(k, carry) := sbb 0 a3 0 in
  let '(a6, carry1) := adc a6 0 carry1 in
  let '(a4, carry) := adc a4 0 carry in
  let '(a5, carry) := adc a5 0 carry in
  let '(a6, carry) := mac a6 k m3 carry in
  let? t := add64 a7 carry in
  let? a7 := add64 t carry1 in
  let r := mk a4 a5 a6 a7 in
  Some (if u_geb r (mk 1 0 0 m3) then u_sub r (mk 1 0 0 m3) else r).

(** algorithms/montgomery/mod.rs:14-22 [redc_inline] *)
Definition redc (M : mparams) (lo hi : u256) : u256 :=
  if is_proth M then p_redc (l3 (MODULUS M)) lo hi else g_redc M lo hi.

(** mod.rs:25-29 [square_redc_inline] *)
Definition square_redc (M : mparams) (x : u256) : u256 :=
  let '(lo, hi) := u_square_full x in redc M lo hi.

(** mod.rs:32-38 [mul_redc_inline] *)
Definition mul_redc (M : mparams) (x y : u256) : option u256 :=
  if is_proth M then p_mul_redc (l3 (MODULUS M)) x y else g_mul_redc M x y.

(** traits/mod.rs:298-302 [to_montgomery] *)
Definition to_montgomery (M : mparams) (x : u256) : option u256 := mul_redc M x (R2 M).

(** traits/mod.rs:304-307 [from_montgomery] *)
Definition from_montgomery (M : mparams) (x : u256) : u256 := redc M x ZERO.

(** traits/mod.rs:350-358 [mul_mod] *)
Definition mul_mod (M : mparams) (x y : u256) : option u256 :=
  let? mont := mul_redc M x (R2 M) in mul_redc M mont y.

Arguments to_montgomery_const : simpl never.
Arguments g_redc : simpl never.
Arguments g_mul_redc : simpl never.
Arguments p_redc : simpl never.
Arguments p_mul_redc : simpl never.
Arguments redc : simpl never.
Arguments mul_redc : simpl never.
