(** crypto/stark-verifier-ethereum/contracts: the folding of the FRI layers (fri.sol), the evaluation of polynomials
    (primefield.sol) and bit manipulation (utils.sol).

    A uint256 is a [Z]; + - * << wrap at 2^256 (Solidity 0.6). [None] is a revert. Gas and the trace events are not modelled. *)
Require Import ZArith Arith Lia Bool List.
From Verif Require Import Word KnuthModel ContractModel.
From Verif Require CoinSolModel.
Import ListNotations.
Open Scope Z_scope.
Notation MODULUS := CoinSolModel.MODULUS.

Definition wrap (x : Z) : Z := x mod 2 ^ 256.
(** fri.sol:46-52: powers of a root of unity of order eight *)
Definition OROOT1 : Z := 0x063365fe0de874d9c90adb1e2f9c676e98c62155e4412e873ada5e1dee6feebb.
Definition OROOT2 : Z := 0x0625023929a2995b533120664329f8c7c5268e56ac8320da2a616626f41337e3.
Definition OROOT3 : Z := 0x03b912c31d6a226e4a15988c6b7ec1915474043aac68553537192090b43635cd.
Definition OROOT4 : Z := 0x0800000000000011000000000000000000000000000000000000000000000000.
Definition OROOT5 : Z := 0x01cc9a01f2178b3736f524e1d06398916739deaa1bbed178c525a1e211901146.
Definition OROOT6 : Z := 0x01dafdc6d65d66b5accedf99bcd607383ad971a9537cdf25d59e99d90becc81e.
Definition OROOT7 : Z := 0x0446ed3ce295dda2b5ea677394813e6eab8bfbc55397aacac8e6df6f4bc9ca34.
(** fri.sol:112 *)
Definition roots : list Z := [1; OROOT4; OROOT2; OROOT6; OROOT1; OROOT5; OROOT3; OROOT7].
(** fri.sol:305-318 *)
Definition fold (positive negative factor : Z) : Z :=
  let even := wrap (positive + negative) in
  let odd := wrap (wrap (positive + MODULUS) - negative) in
  y_addmod even (y_mulmod factor odd MODULUS) MODULUS.
(** fri.sol:264-303; for another length the second result keeps its initial value 0 *)
Definition fold_coset (coset : list Z) (x_inv eval_point : Z) : option (Z * Z) :=
  let factor := y_mulmod eval_point x_inv MODULUS in
  match coset with
  | [c0; c1; c2; c3; c4; c5; c6; c7] =>
      let a := fold c0 c1 factor in
      let b := fold c2 c3 (y_mulmod factor OROOT6 MODULUS) in
      let c := fold c4 c5 (y_mulmod factor OROOT7 MODULUS) in
      let d := fold c6 c7 (y_mulmod factor OROOT5 MODULUS) in
      let factor := y_mulmod factor factor MODULUS in
      let a := fold a b factor in
      let b := fold c d (y_mulmod factor OROOT6 MODULUS) in
      let factor := y_mulmod factor factor MODULUS in
      let result := fold a b factor in
      let x_inv := y_mulmod x_inv x_inv MODULUS in
      let x_inv := y_mulmod x_inv x_inv MODULUS in
      Some (result, y_mulmod x_inv x_inv MODULUS)
  | [c0; c1; c2; c3] =>
      let a := fold c0 c1 factor in
      let b := fold c2 c3 (y_mulmod factor OROOT6 MODULUS) in
      let factor := y_mulmod factor factor MODULUS in
      let result := fold a b factor in
      let x_inv := y_mulmod x_inv x_inv MODULUS in
      Some (result, y_mulmod x_inv x_inv MODULUS)
  | [c0; c1] => Some (fold c0 c1 factor, y_mulmod x_inv x_inv MODULUS)
  | [] => None
  | c0 :: _ => Some (c0, 0)
  end.
(** fri.sol:228-245: the values of a coset, [n] of them from position [index] on. An entry is an index, the value there and
    the inverse of the point, and [entries] those from read_index on; [completion] is what is left of coset_completion. *)
Fixpoint collect (n : nat) (index : Z) (entries : list (Z * Z * Z)) (completion : list Z) : option (list Z * list (Z * Z * Z) * list Z) :=
  match n with
  | O => Some ([], entries, completion)
  | S n =>
      match entries with
      | (next_index, v, _) :: rest =>
          if next_index =? index then
            let? r := collect n (index + 1) rest completion in Some (v :: fst (fst r), snd (fst r), snd r)
          else
            match completion with
            | [] => None
            | v :: completion => let? r := collect n (index + 1) entries completion in Some (v :: fst (fst r), snd (fst r), snd r)
            end
      | [] =>
            match completion with
            | [] => None
            | v :: completion => let? r := collect n (index + 1) [] completion in Some (v :: fst (fst r), snd (fst r), snd r)
            end
      end
  end.
(** fri.sol:198-261. values, indices and x_inv have the same length and are overwritten in place behind the position that is
    read: here the new entries are returned, each with the coset whose hash is written to coset_hash_output. Each round
    reads an entry, [fuel] is their number. *)
Fixpoint fold_layer (fuel coset_size : nat) (eval_point : Z) (entries : list (Z * Z * Z)) (completion : list Z) : option (list (list Z * (Z * Z * Z))) :=
  match entries with
  | [] => Some []
  | (next_index, _, x_inv) :: _ =>
      match fuel with
      | O => None
      | S fuel =>
          let coset_start := next_index - next_index mod Z.of_nat coset_size in
          let? root := nth_error roots (Z.to_nat (next_index - coset_start)) in
          let x_inv := y_mulmod x_inv root MODULUS in
          let? r := collect coset_size coset_start entries completion in
          match r with
          | (coset, entries, completion) =>
              let? y := fold_coset coset x_inv eval_point in
              let? rest := fold_layer fuel coset_size eval_point entries completion in
              Some ((coset, (coset_start / Z.of_nat coset_size, fst y, snd y)) :: rest)
          end
      end
  end.

(** primefield.sol:114-116: one step, without reduction of the sum *)
Definition horner_step (x result c : Z) : Z := wrap (y_mulmod result x MODULUS + c).
(** primefield.sol:113-140: the unrolled loop takes eight coefficients while more than eight are left *)
Fixpoint horner_eights (fuel : nat) (x : Z) (back : list Z) (result : Z) : list Z * Z :=
  match fuel with
  | O => (back, result)
  | S fuel => if (8 <? length back)%nat then horner_eights fuel x (skipn 8 back) (fold_left (horner_step x) (firstn 8 back) result) else (back, result)
  end.
(** primefield.sol:96-155 [horner_eval]; [back] are the coefficients from the last to the first *)
Definition horner_eval (coefficients : list Z) (x : Z) : Z :=
  match coefficients with
  | [] => 0
  | start :: _ =>
      let r := horner_eights (length coefficients) x (rev coefficients) 0 in
      let result := fold_left (horner_step x) (removelast (fst r)) (snd r) in
      y_addmod (y_mulmod result x MODULUS) start MODULUS
  end.

(** utils.sol:5-13 *)
Fixpoint bit_reverse_loop (k : nat) (n r : Z) : Z :=
  match k with O => r | S k => bit_reverse_loop k (n / 2) (Z.lor (wrap (r * 2)) (n mod 2)) end.
Definition bit_reverse (num : Z) (number_of_bits : nat) : Z := bit_reverse_loop number_of_bits num 0.
(** utils.sol:20: eight bits *)
Definition reverse_byte (b : Z) : Z := Z.land (wrap (b * 0x0202020202)) 0x010884422010 mod 1023.
(** utils.sol:16-35; the shift by 40 - number_of_bits, which wraps to a shift by more than 256 bits above 40 *)
Definition bit_reverse2 (num : Z) (number_of_bits : Z) : Z :=
  let step r num := Z.lor (wrap (Z.shiftl r 8)) (reverse_byte (Z.land num 0xff)) in
  let result := reverse_byte (Z.land num 0xff) in
  let num := Z.shiftr num 8 in
  let result := step result num in
  let num := Z.shiftr num 8 in
  let result := step result num in
  let num := Z.shiftr num 8 in
  let result := step result num in
  let num := Z.shiftr num 8 in
  let result := Z.lor (wrap (Z.shiftl result 8)) (reverse_byte num) in
  Z.shiftr result (wrap (40 - number_of_bits)).
(** utils.sol:37-64; the result is a uint8 *)
Definition num_bits (data : Z) : Z :=
  let step (k : Z) (s : Z * Z) := if 2 ^ k <=? snd s then (fst s + k, Z.shiftr (snd s) k) else s in
  let s := step 1 (step 2 (step 4 (step 8 (step 16 (step 32 (0, data)))))) in
  (fst s + snd s mod 256 - 1) mod 256.
(** primefield.sol:89-92: the powers of the root of unity of order [order]; an order of zero divides by zero *)
Definition root (order : Z) : option Z :=
  if order =? 0 then None else
  if (MODULUS - 1) mod order =? 0 then Some (modexp 3 ((MODULUS - 1) / order) MODULUS) else None.
(** fri.sol:119, 123-131: the inverse of the point at position [query] of the first layer *)
Definition init_x_inv (query log_size : Z) : option Z :=
  let size := wrap (Z.shiftl 1 log_size) in
  let? generator := root size in
  Some (modexp generator (wrap (size - bit_reverse2 query log_size)) MODULUS).
(** fri.sol:175: the generator of the next layer *)
Definition next_generator (generator : Z) (coset_size : Z) : Z := modexp generator coset_size MODULUS.
(** fri.sol:183-190: the requirement on one value of the last layer *)
Definition last_layer_check (generator log_size : Z) (coefficients : list Z) (query value : Z) : bool :=
  horner_eval coefficients (modexp generator (bit_reverse2 query log_size) MODULUS) =? value.
