(** Vocabulary for the statements about bit counting and textual encodings. *)
Require Import ZArith List.
Import ListNotations.
Open Scope Z_scope.

(** The number of set bits among the n lowest bits of x. *)
Definition bits_set (n : nat) (x : Z) : Z :=
  Z.of_nat (length (filter (fun i => Z.testbit x (Z.of_nat i)) (seq 0 n))).

(** Value of a big-endian digit string. *)
Definition num (base : Z) (digits : list Z) : Z := fold_left (fun acc d => acc * base + d) digits 0.
Definition digit (base d : Z) : Prop := 0 <= d < base.

(** The string of the decimal digits [ds]; '0' is code point 48. *)
Definition text (ds : list Z) : list Z := map (fun d => 48 + d) ds.

(** Character [c] is the hexadecimal digit of value [v] ('0'-'9', 'a'-'f' or 'A'-'F'). *)
Definition hex_value (c v : Z) : Prop :=
  (48 <= c <= 57 /\ v = c - 48) \/ (97 <= c <= 102 /\ v = 10 + (c - 97)) \/ (65 <= c <= 70 /\ v = 10 + (c - 65)).
(** [s] spells the hexadecimal digits [vs]. *)
Definition spells (s vs : list Z) : Prop := Forall2 hex_value s vs.
(** [s] preceded by [k] copies of "0x". *)
Definition prefix_0x (k : nat) (s : list Z) : list Z := Nat.iter k (fun t => 48 :: 120 :: t) s.
(** Lower-case hexadecimal. *)
Definition lower_hex (s : list Z) : Prop := Forall (fun c => 48 <= c <= 57 \/ 97 <= c <= 102) s.
