(** Specification vocabulary for the prime field layer. *)
Require Import ZArith Znumtheory.
From Verif Require Import Word U256Model U256Spec.
Open Scope Z_scope.

(** The representation relation: the limbs [x] are the canonical Montgomery form of the
    integer [v] modulo [m], i.e. v * 2^256 mod m. *)
Definition represents (m : Z) (x : u256) (v : Z) : Prop :=
  0 <= v < m /\ denotes x ((v * 2 ^ 256) mod m).

(** [g] generates the multiplicative group modulo the prime [m]. *)
Definition primitive_root (m g : Z) : Prop :=
  ~ (m | g) /\ forall k, 0 <= k -> g ^ k mod m = 1 -> (m - 1 | k).

(** [w] has multiplicative order exactly [n] modulo [m]. *)
Definition order_exactly (m w n : Z) : Prop :=
  w ^ n mod m = 1 /\ forall k, 0 < k < n -> w ^ k mod m <> 1.
