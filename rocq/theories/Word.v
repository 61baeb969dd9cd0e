(** Machine words and the limb operations of the u256 crate.

    A u64 / u128 is a [Z]; "as u64" is [mod 2^64], a u128 operation that could
    wrap is followed by [mod 2^128]. *)
Require Import ZArith Lia Bool List.
Open Scope Z_scope.

(** 2^64 and 2^128, as literals so that the kernel computes with them directly. *)
Definition B : Z := 18446744073709551616.
Definition BB : Z := 340282366920938463463374607431768211456.

Lemma B_eq : B = 2 ^ 64. Proof. reflexivity. Qed.
Lemma BB_eq : BB = 2 ^ 128. Proof. reflexivity. Qed.
Lemma BB_BB : BB = B * B. Proof. reflexivity. Qed.
Lemma B_pos : 0 < B. Proof. reflexivity. Qed.

(** "x as u64" and "x as u128". *)
Definition w64 (x : Z) : Z := x mod B.
Definition w128 (x : Z) : Z := x mod BB.

(** A value representable as a u64. *)
Definition u64 (x : Z) : Prop := 0 <= x < B.
Definition u128 (x : Z) : Prop := 0 <= x < BB.

(** algebra/u256/src/algorithms/limb_operations.rs:3-8 [adc] *)
Definition adc (a b carry : Z) : Z * Z :=
  let ret := w128 (w128 (a + b) + carry) in
  (w64 ret, w64 (Z.shiftr ret 64)).

(** algebra/u256/src/algorithms/limb_operations.rs:12-17 [sbb] *)
Definition sbb (a b borrow : Z) : Z * Z :=
  let ret := w128 (a - w128 (b + borrow)) in
  (w64 ret, w64 (Z.shiftr ret 127)).

(** algebra/u256/src/algorithms/limb_operations.rs:22-27 [mac] *)
Definition mac (a b c carry : Z) : Z * Z :=
  let ret := w128 (w128 (a + w128 (b * c)) + carry) in
  (w64 ret, w64 (Z.shiftr ret 64)).

(** algebra/u256/src/algorithms/limb_operations.rs:31-37 [msb] *)
Definition msb (a b c borrow : Z) : Z * Z :=
  let ret := w128 (a - w128 (w128 (b * c) + borrow)) in
  (w64 ret, w64 (0 - w64 (Z.shiftr ret 64))).

(** algebra/u256/src/algorithms/limb_operations.rs:41-50 [div_2_1];
    the code divides by [d as u128]; a zero divisor panics (None). *)
Definition div_2_1 (lo hi d : Z) : option (Z * Z) :=
  if d =? 0 then None else
  let n := Z.lor (w128 (Z.shiftl hi 64)) lo in
  Some (w64 (n / d), w64 (n mod d)).

(** u64 addition/subtraction/multiplication as compiled with overflow checks:
    [None] is the panic "attempt to add with overflow" of the debug profile. *)
Definition add64 (a b : Z) : option Z := if a + b <? B then Some (a + b) else None.
Definition sub64 (a b : Z) : option Z := if b <=? a then Some (a - b) else None.
Definition mul64 (a b : Z) : option Z := if a * b <? B then Some (a * b) else None.

(** wrapping_mul / wrapping_add on u64 *)
Definition wmul (a b : Z) : Z := w64 (a * b).
Definition wadd (a b : Z) : Z := w64 (a + b).
Definition wsub (a b : Z) : Z := w64 (a - b).

(** Option monad: [None] is a panic. *)
Definition bind {A C} (x : option A) (f : A -> option C) : option C :=
  match x with Some a => f a | None => None end.
Notation "'let?' x := e 'in' k" := (bind e (fun x => k))
  (at level 200, x pattern, right associativity).

#[global] Arguments Z.mul : simpl never.
#[global] Arguments Z.add : simpl never.
#[global] Arguments Z.sub : simpl never.
#[global] Arguments Z.opp : simpl never.
#[global] Arguments Z.pow : simpl never.
#[global] Arguments Z.modulo : simpl never.
#[global] Arguments Z.div : simpl never.
#[global] Arguments Z.shiftl : simpl never.
#[global] Arguments Z.shiftr : simpl never.
#[global] Arguments Z.of_nat : simpl never.
Arguments adc : simpl never.
Arguments sbb : simpl never.
Arguments mac : simpl never.
Arguments msb : simpl never.
Arguments div_2_1 : simpl never.
Arguments w64 : simpl never.
Arguments w128 : simpl never.
Arguments B : simpl never.
Arguments BB : simpl never.

(** ** Basic facts *)
Lemma w64_range x : u64 (w64 x).
Proof. unfold u64, w64. apply Z.mod_pos_bound. reflexivity. Qed.

Lemma w128_range x : u128 (w128 x).
Proof. unfold u128, w128. apply Z.mod_pos_bound. reflexivity. Qed.

Lemma w64_small x : u64 x -> w64 x = x.
Proof. intros. apply Z.mod_small. exact H. Qed.

Lemma w128_small x : u128 x -> w128 x = x.
Proof. intros. apply Z.mod_small. exact H. Qed.

Lemma shiftr64 x : Z.shiftr x 64 = x / B.
Proof. rewrite Z.shiftr_div_pow2 by lia. reflexivity. Qed.

Lemma shiftr127 x : Z.shiftr x 127 = x / (BB / 2).
Proof. rewrite Z.shiftr_div_pow2 by lia. reflexivity. Qed.

Lemma mul_bound_u64 b c : u64 b -> u64 c -> 0 <= b * c <= (B - 1) * (B - 1).
Proof.
  unfold u64. intros Hb Hc. split; [nia|].
  apply Z.mul_le_mono_nonneg; lia.
Qed.

Lemma div64_spec r : u128 r -> u64 (w64 r) /\ u64 (w64 (Z.shiftr r 64)) /\
  w64 r + B * w64 (Z.shiftr r 64) = r.
Proof.
  intros H. rewrite shiftr64. split; [apply w64_range|].
  assert (u64 (r / B)).
  { unfold u64, u128 in *. split; [apply Z.div_pos; unfold B; lia|].
    apply Z.div_lt_upper_bound; [reflexivity|]. rewrite <- BB_BB. lia. }
  split; [apply w64_range|].
  rewrite (w64_small (r / B)) by assumption. unfold w64.
  rewrite (Z.div_mod r B) at 3 by discriminate. lia.
Qed.

Lemma mac_spec a b c k : u64 a -> u64 b -> u64 c -> u64 k ->
  forall lo hi, mac a b c k = (lo, hi) ->
  u64 lo /\ u64 hi /\ lo + B * hi = a + b * c + k.
Proof.
  intros Ha Hb Hc Hk lo hi E. unfold mac in E.
  pose proof (mul_bound_u64 b c Hb Hc).
  rewrite (w128_small (b * c)) in E by (unfold u128, BB, B in *; lia).
  rewrite (w128_small (a + b * c)) in E by (unfold u128, u64, BB, B in *; lia).
  rewrite (w128_small (a + b * c + k)) in E by (unfold u128, u64, BB, B in *; lia).
  destruct (div64_spec (a + b * c + k)) as (H1 & H2 & H3).
  { unfold u128, u64, BB, B in *; lia. }
  apply pair_equal_spec in E; destruct E as [<- <-]. auto.
Qed.

Lemma adc_spec a b k : u64 a -> u64 b -> u64 k ->
  forall lo hi, adc a b k = (lo, hi) ->
  u64 lo /\ 0 <= hi <= 2 /\ lo + B * hi = a + b + k.
Proof.
  intros Ha Hb Hk lo hi E. unfold adc in E.
  rewrite (w128_small (a + b)) in E by (unfold u128, u64, BB, B in *; lia).
  rewrite (w128_small (a + b + k)) in E by (unfold u128, u64, BB, B in *; lia).
  destruct (div64_spec (a + b + k)) as (H1 & H2 & H3).
  { unfold u128, u64, BB, B in *; lia. }
  apply pair_equal_spec in E; destruct E as [<- <-]. split; [auto|]. split; [|auto].
  unfold u64, B in *. lia.
Qed.

(** With a 0/1 carry the new carry is 0 or 1. *)
Lemma adc_spec1 a b k : u64 a -> u64 b -> 0 <= k <= 1 ->
  forall lo hi, adc a b k = (lo, hi) ->
  u64 lo /\ 0 <= hi <= 1 /\ lo + B * hi = a + b + k.
Proof.
  intros Ha Hb Hk lo hi E.
  destruct (adc_spec a b k Ha Hb) with (lo := lo) (hi := hi) as (H1 & H2 & H3).
  { unfold u64, B; lia. } { exact E. }
  split; [auto|]. split; [|auto]. unfold u64, B in *. lia.
Qed.

Lemma sbb_spec a b k : u64 a -> u64 b -> 0 <= k <= 1 ->
  forall lo hi, sbb a b k = (lo, hi) ->
  u64 lo /\ 0 <= hi <= 1 /\ lo - B * hi = a - b - k.
Proof.
  intros Ha Hb Hk lo hi E. unfold sbb in E.
  rewrite (w128_small (b + k)) in E by (unfold u128, u64, BB, B in *; lia).
  apply pair_equal_spec in E; destruct E as [<- <-]. split; [apply w64_range|].
  rewrite shiftr127. change (BB / 2) with 170141183460469231731687303715884105728.
  unfold w64, w128.
  destruct (Z_le_gt_dec (b + k) a).
  - rewrite (Z.mod_small (a - (b + k)) BB) by (unfold u64, B, BB in *; lia).
    rewrite (Z.div_small (a - (b + k))) by (unfold u64, B in *; lia).
    rewrite !Z.mod_small by (unfold u64, B in *; lia). lia.
  - replace ((a - (b + k)) mod BB) with (a - (b + k) + BB).
    2: { rewrite <- (Z_mod_plus_full (a - (b+k)) 1 BB), Z.mul_1_l.
         symmetry; apply Z.mod_small. unfold u64, B, BB in *; lia. }
    assert (Q: (a - (b + k) + BB) / 170141183460469231731687303715884105728 = 1).
    { symmetry. apply Z.div_unique with (r := a - (b + k) + 170141183460469231731687303715884105728);
      unfold u64, B, BB in *; lia. }
    rewrite Q. rewrite (Z.mod_small 1) by (unfold B; lia).
    split; [lia|].
    replace (a - (b + k) + BB) with (a - (b + k) + B + (B - 1) * B) by (unfold B, BB; lia).
    rewrite Z_mod_plus_full. rewrite Z.mod_small by (unfold u64, B in *; lia). lia.
Qed.

Lemma msb_spec a b c k : u64 a -> u64 b -> u64 c -> u64 k ->
  forall lo hi, msb a b c k = (lo, hi) ->
  u64 lo /\ u64 hi /\ lo - B * hi = a - b * c - k.
Proof.
  intros Ha Hb Hc Hk lo hi E. unfold msb in E.
  pose proof (mul_bound_u64 b c Hb Hc) as Hm.
  rewrite (w128_small (b * c)) in E by (unfold u128, BB, B in *; lia).
  rewrite (w128_small (b * c + k)) in E by (unfold u128, u64, BB, B in *; lia).
  set (d := a - (b * c + k)) in *.
  assert (Hd : - (BB - B) <= d < B) by (unfold d, u64, BB, B in *; lia).
  apply pair_equal_spec in E; destruct E as [<- <-]. split; [apply w64_range|]. split; [apply w64_range|].
  replace (a - b * c - k) with d by (unfold d; lia).
  destruct (div64_spec (w128 d) (w128_range d)) as (H1 & H2 & H3).
  set (lo := w64 (w128 d)) in *. set (h := w64 (Z.shiftr (w128 d) 64)) in *.
  unfold w64. destruct (Z_le_gt_dec 0 d).
  - rewrite (w128_small d) in H3 by (unfold u128, B, BB in *; lia).
    assert (h = 0) by (unfold u64, B in *; lia). rewrite H.
    change ((0-0) mod B) with 0. lia.
  - assert (W: w128 d = d + BB).
    { unfold w128. rewrite <- (Z_mod_plus_full d 1 BB), Z.mul_1_l.
      apply Z.mod_small. unfold B, BB in *; lia. }
    rewrite W in H3.
    assert (h <> 0) by (unfold u64, B, BB in *; lia).
    replace ((0 - h) mod B) with (B - h).
    + rewrite BB_BB in H3. lia.
    + rewrite <- (Z_mod_plus_full (0 - h) 1 B). symmetry. rewrite Z.mod_small; unfold u64, B in *; lia.
Qed.

Lemma div_2_1_spec lo hi d : u64 lo -> u64 hi -> u64 d -> hi < d ->
  exists q r, div_2_1 lo hi d = Some (q, r) /\ u64 q /\ 0 <= r < d /\ lo + B * hi = q * d + r.
Proof.
  intros Hl Hh Hd Hlt. unfold div_2_1.
  destruct (Z.eqb_spec d 0); [unfold u64 in *; lia|].
  assert (E: Z.lor (w128 (Z.shiftl hi 64)) lo = lo + B * hi).
  { rewrite Z.shiftl_mul_pow2 by lia. change (2^64) with B.
    rewrite w128_small by (unfold u64, u128, B, BB in *; lia).
    assert (L : Z.land (hi * B) lo = 0).
    { apply Z.bits_inj'. intros i Hi. rewrite Z.land_spec, Z.bits_0.
      rewrite B_eq, Z.mul_pow2_bits by lia.
      destruct (Z_lt_ge_dec i 64) as [Hi2|Hi2].
      - rewrite (Z.testbit_neg_r hi) by lia. reflexivity.
      - rewrite andb_comm. rewrite <- (Z.mod_small lo (2^64)) by exact Hl.
        rewrite Z.mod_pow2_bits_high by lia. reflexivity. }
    rewrite <- Z.lxor_lor by exact L. rewrite <- Z.add_nocarry_lxor by exact L. lia. }
  rewrite E. exists (w64 ((lo + B * hi) / d)), (w64 ((lo + B * hi) mod d)).
  pose proof (Z.mod_pos_bound (lo + B * hi) d).
  pose proof (Z.div_mod (lo + B * hi) d).
  assert (u64 ((lo + B * hi) / d)).
  { unfold u64, B in *. split; [apply Z.div_pos; lia|]. apply Z.div_lt_upper_bound; lia. }
  rewrite (w64_small ((lo + B * hi) / d)) by assumption.
  rewrite (w64_small ((lo + B * hi) mod d)) by (unfold u64 in *; lia).
  split; [reflexivity|]. split; [assumption|]. split; [unfold u64 in *; lia|]. lia.
Qed.
