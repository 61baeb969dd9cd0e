(** Text encodings of U256: algebra/u256/src/encoding.rs. A &str / String is
    its list of Unicode code points. *)
Require Import ZArith Lia Bool List.
From Verif Require Import Word U256Model KnuthModel BinaryModel.
Import ListNotations.
Open Scope Z_scope.

(** encoding.rs:76-81 [ParseError]; [Inner] is ParseIntError::InvalidDigit. *)
Inductive parse_result := POk (x : u256) | PEmpty | POverflow | PInner.

(** encoding.rs:15-20 *)
Definition max10 : u256 :=
  mk 0x999999999999999a 0x9999999999999999 0x9999999999999999 0x1999999999999999.

(** encoding.rs:28-38. The code slices the string by *byte* index [i] where i is
    the *char* index: as long as all earlier characters are ASCII that is the
    current character, and if the current one is not ASCII the slice [i..=i]
    cuts it in the middle and panics (None). On one ASCII character
    u64::from_str_radix(_, 10) succeeds exactly on '0'..'9'. *)
Fixpoint from_decimal_loop (result : u256) (s : list Z) : option parse_result :=
  match s with
  | [] => Some (POk result)
  | c :: s' =>
      if u_gtb result max10 then Some POverflow
      else
        let result := u_mul result (from_uint 10) in
        if 128 <=? c then None
        else if (48 <=? c) && (c <=? 57) then
          let digit := from_uint (c - 48) in
          if u_ltb (u_add result digit) result then Some POverflow
          else from_decimal_loop (u_add result digit) s'
        else Some PInner
  end.
(** encoding.rs:13-40 [from_decimal_str] *)
Definition from_decimal_str (s : list Z) : option parse_result :=
  match s with [] => Some PEmpty | _ => from_decimal_loop ZERO s end.

(** encoding.rs:48-53: pushes the decimal text of copy % 10, least significant
    first. [u64::to_string] of a number below ten is the character '0' + digit. *)
Fixpoint to_decimal_loop (fuel : nat) (dbg : bool) (copy : u256) : option (list Z) :=
  if u_gtb copy ZERO then
    match fuel with
    | O => None
    | S fuel =>
        let? digit := u_rem dbg copy (from_uint 10) in
        let? copy := u_div dbg copy (from_uint 10) in
        let? rest := to_decimal_loop fuel dbg copy in
        Some (48 + l0 digit :: rest)
    end
  else Some [].
(** encoding.rs:42-58 [to_decimal_string]; a 256-bit number has at most 78 digits,
    so 78 iterations always suffice (proved). *)
Definition to_decimal_string (dbg : bool) (x : u256) : option (list Z) :=
  if u_eqb x ZERO then Some [48]
  else let? r := to_decimal_loop 78 dbg x in Some (rev r).

(** The [hex] crate: lower-case encoding of one nibble and of bytes. *)
Definition hex_char (d : Z) : Z := if d <? 10 then 48 + d else 87 + d.
Definition hex_encode (bytes : list Z) : list Z :=
  flat_map (fun b => [hex_char (b / 16); hex_char (b mod 16)]) bytes.
(** The [hex] crate: value of one character, either case; None = error. *)
Definition hex_digit (c : Z) : option Z :=
  if (48 <=? c) && (c <=? 57) then Some (c - 48)
  else if (97 <=? c) && (c <=? 102) then Some (c - 87)
  else if (65 <=? c) && (c <=? 70) then Some (c - 55)
  else None.
(** [hex::decode]: errors on odd length or on a character that is not a hex
    digit. It works on UTF-8 bytes, none of which is a hex digit for a
    non-ASCII character, so working on code points gives an error in the same
    cases. *)
Fixpoint hex_decode (s : list Z) : option (list Z) :=
  match s with
  | [] => Some []
  | [_] => None
  | a :: b :: s' =>
      let? x := hex_digit a in
      let? y := hex_digit b in
      let? rest := hex_decode s' in
      Some (16 * x + y :: rest)
  end.

(** encoding.rs:60-62 [to_hex_string] ("0x" = 48, 120) *)
Definition to_hex_string (x : u256) : list Z := 48 :: 120 :: hex_encode (to_bytes_be x).

(** [str::trim_start_matches("0x")]: removes every leading repetition. *)
Fixpoint trim_0x (s : list Z) : list Z :=
  match s with
  | a :: (b :: s') as t => if (a =? 48) && (b =? 120) then trim_0x s' else s
  | _ => s
  end.

(** encoding.rs:64-71 [from_hex_str]; {:0>64} left-pads with '0' to 64 characters;
    unwrap panics (None) on a decoding error. *)
Definition from_hex_str (s : list Z) : option u256 :=
  let t := trim_0x s in
  let? bytes := hex_decode (repeat 48 (64 - length t) ++ t) in
  Some (from_bytes_be (firstn 32 bytes)).

(** {:016x} of a u64: sixteen lower-case hex digits. *)
Fixpoint hex_fixed (k : nat) (x : Z) : list Z :=
  match k with O => [] | S k' => hex_fixed k' (x / 16) ++ [hex_char (x mod 16)] end.
(** encoding.rs:89-101 [Display] *)
Definition display (x : u256) : list Z :=
  hex_fixed 16 (l3 x) ++ hex_fixed 16 (l2 x) ++ hex_fixed 16 (l1 x) ++ hex_fixed 16 (l0 x).

(** conversion.rs:35-56 serde: what is handed to / taken from the serializer. *)
Inductive serde_value := SString (s : list Z) | SBytes (b : list Z).
Definition serialize (human_readable : bool) (x : u256) : serde_value :=
  if human_readable then SString (to_hex_string x) else SBytes (to_bytes_be x).
Definition deserialize (human_readable : bool) (v : serde_value) : option u256 :=
  match human_readable, v with
  | true, SString s => from_hex_str s
  | false, SBytes b => if (length b =? 32)%nat then Some (from_bytes_be b) else None
  | _, _ => None
  end.
