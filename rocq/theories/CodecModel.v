(** The optional codecs: parity_scale_codec for U256 and field elements, serde for field elements. *)
Require Import ZArith Bool List.
From Verif Require Import Word U256Model MontgomeryModel BinaryModel EncodingModel FieldModel.
Import ListNotations.
Open Scope Z_scope.

(** u64 in parity_scale_codec: eight bytes, the least significant first *)
Fixpoint le_bytes (k : nat) (x : Z) : list Z := match k with O => [] | S k => x mod 256 :: le_bytes k (x / 256) end.
Fixpoint le_value (l : list Z) : Z := match l with [] => 0 | b :: l => b + 256 * le_value l end.
(** u256.rs:17-22 [derive(Encode, Decode)] of a tuple struct of an array: the limbs one after the other. *)
Definition scale_encode (x : u256) : list Z := le_bytes 8 (l0 x) ++ le_bytes 8 (l1 x) ++ le_bytes 8 (l2 x) ++ le_bytes 8 (l3 x).
(** [Input::read] of one limb: the error "not enough data" is [None]; the rest of the input is left. *)
Definition scale_limb (input : list Z) : option (Z * list Z) :=
  if (length input <? 8)%nat then None else Some (le_value (firstn 8 input), skipn 8 input).
Definition scale_decode (input : list Z) : option (u256 * list Z) :=
  let? (a, input) := scale_limb input in
  let? (b, input) := scale_limb input in
  let? (c, input) := scale_limb input in
  let? (d, input) := scale_limb input in
  Some (mk a b c d, input).

(** A result that may be an error; [None] around it is a panic. *)
Inductive decoded (A : Type) : Type := Decoded (a : A) | DecodeError.
Arguments Decoded {A}. Arguments DecodeError {A}.
(** prime_field.rs:142-145 [from_uint] in either build profile *)
Definition from_uint (dbg : bool) (P : fparams) (u : u256) : option u256 := if dbg then pf_from_uint P u else to_montgomery (fmp P) u.
(** parity_codec.rs:10-30 [Encode]: [encode], [encode_to] and [using_encoded] all go through [to_uint]. *)
Definition field_encode (P : fparams) (x : u256) : option (list Z) := let? u := pf_to_uint P x in Some (scale_encode u).
(** parity_codec.rs:32-40 [Decode] *)
Definition field_decode (dbg : bool) (P : fparams) (input : list Z) : option (decoded (u256 * list Z)) :=
  match scale_decode input with
  | None => Some DecodeError
  | Some (u, rest) => let? x := from_uint dbg P u in Some (Decoded (x, rest))
  end.
(** serde.rs:7-18 [Serialize] *)
Definition field_serialize (human_readable : bool) (P : fparams) (x : u256) : option serde_value :=
  let? u := pf_to_uint P x in Some (serialize human_readable u).
(** serde.rs:20-32 [Deserialize] with u256 conversion.rs:46-56: [from_hex_str] panics on anything that is not hexadecimal
    ([None]); a value of another type or length is an error of the deserializer. *)
Definition field_deserialize (dbg human_readable : bool) (P : fparams) (v : serde_value) : option (decoded u256) :=
  match human_readable, v with
  | true, SString s => let? u := from_hex_str s in let? x := from_uint dbg P u in Some (Decoded x)
  | false, SBytes b => if (length b =? 32)%nat then let? x := from_uint dbg P (from_bytes_be b) in Some (Decoded x) else Some DecodeError
  | _, _ => Some DecodeError
  end.
