(** Field algorithms, generic over the field operations, and the entry points of
    [PrimeField] that use the declared constants. *)
Require Import ZArith NArith Lia Bool List.
From Verif Require Import Word U256Model MontgomeryModel KnuthModel BinaryModel FieldSig FieldModel FieldInstance.
Import ListNotations.
Open Scope Z_scope.

(** algebra/u256/src/traits/binary.rs:41-43, 53-55: [most_significant_bit] and [bit] of usize *)
Definition usize_msb (e : Z) : option Z := if clz64 e <=? 63 then Some (63 - clz64 e) else None.
Definition usize_bit (e i : Z) : bool := Z.land (shr64 e i) 1 =? 1.

(** [for i in 0..=msb] *)
Definition range_incl (msb : Z) : list Z := map Z.of_nat (seq 0 (S (Z.to_nat msb))).
(** [for i in a..b] *)
Definition range (a b : Z) : list Z := map (fun k => a + Z.of_nat k) (seq 0 (Z.to_nat (b - a))).

Section Generic.
Context {F : Type} (o : ops F).

(** prime_field.rs:314-338 [Pow<&Exponent>]; the exponent is given by its
    [most_significant_bit] and [bit]. [square_assign] is modelled as a product of the
    element with itself (C17_square shows they return the same limbs). *)
Definition pow_step (msb : Z) (bit : Z -> bool) (st : F * F) (i : Z) : F * F :=
  let '(result, square) := st in
  (if bit i then fmul o result square else result,
   if i <? msb then fmul o square square else square).
Definition pow_gen (a : F) (msb : option Z) (bit : Z -> bool) : F :=
  match msb with
  | Some m => fst (fold_left (pow_step m bit) (range_incl m) (f1 o, a))
  | None => f1 o
  end.
Definition pow_u256 (a : F) (e : u256) : F := pow_gen a (u_most_significant_bit e) (u_bit e).
(** prime_field.rs:292-298 [Pow<usize>] *)
Definition pow_usize (a : F) (e : Z) : F := pow_gen a (usize_msb e) (usize_bit e).
(** prime_field.rs:300-312 [Pow<isize>]; [exponent.abs()] panics on isize::MIN in the
    debug profile (outer None) and wraps to isize::MIN, cast to 2^63, in the release profile. *)
Definition pow_isize (dbg : bool) (a : F) (e : Z) : option (option F) :=
  let negative := e <? 0 in
  let? abs := if e =? - 2 ^ 63 then (if dbg then None else Some (2 ^ 63)) else Some (Z.abs e) in
  if negative then Some (let? n := inv_opt o a in Some (pow_usize n abs))
  else Some (Some (pow_usize a abs)).

(** ops.rs:140-200 [Div]: panics (None) on a zero divisor. *)
Definition f_div (a b : F) : option F := let? i := inv_opt o b in Some (fmul o a i).

(** prime_field.rs:387-389 [is_quadratic_residue] *)
Definition is_qr (modulus : u256) (a : F) : bool := negb (feqb o (pow_u256 a (u_shr modulus 1)) (fneg o (f1 o))).
(** prime_field.rs:417-427, the loop of [square_root] *)
Definition sqrt_step (tz : Z) (inverse : F) (st : F * F) (i : Z) : F * F :=
  let '(root, c) := st in
  (if feqb o (pow_u256 (fmul o (fmul o root root) inverse) (u_shl ONE (tz - i - 1))) (fneg o (f1 o))
   then fmul o root c else root,
   fmul o c c).
(** prime_field.rs:394-430 [square_root]; None of the outer option is a panic of [unwrap]. *)
Definition square_root (modulus order : u256) (generator : F) (a : F) : option (option F) :=
  if feqb o a (f0 o) then Some (Some (f0 o))
  else if negb (is_qr modulus a) then Some None
  else
    let trailing_zeros := u_trailing_zeros order in
    let signifcant := u_shr order trailing_zeros in
    let c_start := pow_u256 generator signifcant in
    let root := pow_u256 a (u_shr (u_add signifcant ONE) 1) in
    let? inverse := inv_opt o a in
    Some (Some (fst (fold_left (sqrt_step trailing_zeros inverse) (range 1 trailing_zeros) (root, c_start)))).

(** invert_batch.rs:20-24, the forward pass: prefix products and the total. *)
Fixpoint batch_forward (acc : F) (source : list F) : list F * F :=
  match source with
  | [] => ([], acc)
  | src :: rest => let '(dst, total) := batch_forward (fmul o acc src) rest in (acc :: dst, total)
  end.
(** invert_batch.rs:26-29, the backward pass over the reversed pairs. *)
Fixpoint batch_backward (acc : F) (pairs : list (F * F)) : list F :=
  match pairs with
  | [] => []
  | (src, dst) :: rest => fmul o dst acc :: batch_backward (fmul o acc src) rest
  end.
(** invert_batch.rs:14-31 [invert_batch_src_dst]: the new contents of the destination. *)
Definition invert_batch_src_dst (source destination : list F) : option (list F) :=
  if negb (length source =? length destination)%nat then None
  else
    let '(dst, acc) := batch_forward (f1 o) source in
    let? acc := inv_opt o acc in
    Some (rev (batch_backward acc (rev (combine source dst)))).
(** invert_batch.rs:33-41 [invert_batch] *)
Definition invert_batch (source : list F) : option (list F) :=
  invert_batch_src_dst source (repeat (f0 o) (length source)).

(** geometric_series.rs:14-23 [GeometricIter] *)
Record giter : Type := GI { current : F; step : F; glen : Z }.
(** geometric_series.rs:30-32 [at] *)
Definition g_at (g : giter) (index : Z) : F := fmul o (current g) (pow_usize (step g) index).
(** geometric_series.rs:34-38 [skip]; [length -= n] panics on underflow in the debug
    profile and wraps in the release profile. *)
Definition g_skip (dbg : bool) (g : giter) (n : Z) : option giter :=
  let? l := if n <=? glen g then Some (glen g - n) else if dbg then None else Some (w64 (glen g - n)) in
  Some (GI (fmul o (current g) (pow_usize (step g) n)) (step g) l).
(** geometric_series.rs:40-43 [take] *)
Definition g_take (g : giter) (n : Z) : giter := GI (current g) (step g) (Z.min (glen g) n).
(** geometric_series.rs:46-51 [step_by] *)
Definition g_step_by (g : giter) (n : Z) : option giter :=
  if 0 <? n then Some (GI (current g) (pow_usize (step g) n) (glen g / n)) else None.
(** geometric_series.rs:61-71 [next]; 73-75 [size_hint] *)
Definition g_next (g : giter) : option F * giter :=
  if glen g =? 0 then (None, g)
  else (Some (current g), GI (fmul o (current g) (step g)) (step g) (glen g - 1)).
Definition g_size_hint (g : giter) : Z * option Z := (glen g, Some (glen g)).
(** geometric_series.rs:81-91 [geometric_series] *)
Definition geometric_series (base step : F) : giter := GI base step (B - 1).
(** geometric_series.rs:93-100 [root_series], given the outcome of [Field::root(order)] *)
Definition root_series (root : option F) (order : Z) : option giter :=
  let? r := root in Some (g_take (geometric_series (f1 o) r) order).
End Generic.
Arguments GI {F}. Arguments current {F}. Arguments step {F}. Arguments glen {F}.

Section Constants.
Context {P : fparams} (G : good P).
(** prime_field.rs:102-105 [generator] *)
Definition generator : fe P := lift (fe0 G) (pf_generator P).
(** prime_field.rs:340-358 [Root<usize>] *)
Definition root_usize (n : Z) : option (option (fe P)) :=
  let? d := u_div_rem_u64 (ORDER P) n in
  Some (match d with
        | Some (q, rem) => if rem =? 0 then Some (pow_u256 (fe_ops G) generator q) else None
        | None => Some (f1 (fe_ops G))
        end).
(** prime_field.rs:363-380 [Root<&U>] *)
Definition root_u256 (dbg : bool) (n : u256) : option (option (fe P)) :=
  let? d := u_div_rem dbg (ORDER P) n in
  Some (match d with
        | Some (q, rem) => if u_eqb rem ZERO then Some (pow_u256 (fe_ops G) generator q) else None
        | None => Some (f1 (fe_ops G))
        end).
Definition fe_is_quadratic_residue (a : fe P) : bool := is_qr (fe_ops G) (p_modulus P) a.
Definition fe_square_root (a : fe P) : option (option (fe P)) :=
  square_root (fe_ops G) (p_modulus P) (ORDER P) generator a.
End Constants.
Arguments pow_usize : simpl never. Arguments pow_u256 : simpl never.
