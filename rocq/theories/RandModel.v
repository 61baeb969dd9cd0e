(** Random integers and field elements: algebra/u256/src/rand.rs and algebra/primefield/src/rand.rs. The generator is the
    sequence of 64 bit words that it will return; a result comes with the words left over. *)
Require Import ZArith Bool List.
From Verif Require Import Word U256Model BinaryModel MontgomeryModel FieldModel.
Import ListNotations.
Open Scope Z_scope.

(** rand.rs:11-15 [Standard]: four words, the least significant limb first; [None] if there are not enough *)
Definition draw (words : list Z) : option (u256 * list Z) :=
  match words with a :: b :: c :: d :: words => Some (mk a b c d, words) | _ => None end.
(** rand.rs:19-22 *)
Inductive uniform : Set := Full | Ranged (low range : u256).
(** rand.rs:31-40 [new]: high - low wraps *)
Definition uniform_new (low high : u256) : uniform := Ranged low (u_sub high low).
(** rand.rs:42-54 [new_inclusive] *)
Definition uniform_new_inclusive (low high : u256) : uniform :=
  if u_eqb low ZERO && u_eqb high MAX then Full else Ranged low (u_add (u_sub high low) ONE).
(** rand.rs:61-67: the loop; [fuel] bounds the iterations, [None] if it or the words run out *)
Fixpoint sample_loop (fuel : nat) (range : u256) (shift : Z) (words : list Z) : option (u256 * list Z) :=
  match fuel with
  | O => None
  | S fuel =>
      let? (result, words) := draw words in
      let result := u_shr result shift in
      if u_geb result range then sample_loop fuel range shift words else Some (result, words)
  end.
(** rand.rs:56-71 [sample]. [U256::MAX >= range] always holds, so that the loop is entered. *)
Definition sample (fuel : nat) (u : uniform) (words : list Z) : option (u256 * list Z) :=
  match u with
  | Full => draw words
  | Ranged low range =>
      let shift := u_leading_zeros range in
      let? (result, words) := sample_loop fuel range shift words in
      Some (u_add result low, words)
  end.
(** primefield/src/rand.rs:15-18 [sample]; [from_montgomery] asserts (debug) that the value is canonical. The inner
    option is that panic. *)
Definition field_sample (fuel : nat) (P : fparams) (words : list Z) : option (option u256 * list Z) :=
  let? (u, words) := sample fuel (uniform_new ZERO (p_modulus P)) words in
  Some (of_mont P u, words).
