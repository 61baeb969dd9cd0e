(** Specification side: what integer a U256 denotes. *)
Require Import ZArith.
From Verif Require Import Word U256Model.
Open Scope Z_scope.

(** The integer denoted by four little-endian 64-bit limbs. *)
Definition val (x : u256) : Z := l0 x + 2^64 * l1 x + 2^128 * l2 x + 2^192 * l3 x.

(** The number of values. *)
Definition W : Z := 2 ^ 256.

(** [x] is a U256 value denoting the integer [n]. *)
Definition denotes (x : u256) (n : Z) : Prop := wf x /\ val x = n.
