(** The fast Fourier transforms of algebra/primefield/src/fft.

    Indices are [nat]: they never exceed twice a slice length, which Rust bounds by
    isize::MAX, so index arithmetic cannot overflow and is not checked here. Debug
    assertions are modelled with the [dbg] flag. *)
Require Import ZArith Arith Lia Bool List.
From Verif Require Import Word KnuthModel BinaryModel FieldSig FieldModel FieldInstance FieldAlgModel Arr.
Import ListNotations.
Open Scope nat_scope.

(** Rust: usize::is_power_of_two, usize::reverse_bits *)
Definition is_power_of_two (n : nat) : bool := (0 <? n) && (2 ^ Nat.log2 n =? n).
Definition reverse_bits64 (x : Z) : Z :=
  fold_left (fun acc i => Z.lor (Z.shiftl acc 1) (Z.b2z (Z.testbit x (Z.of_nat i)))) (seq 0 64) 0%Z.

(** bit_reverse.rs:6-16 [permute_index]. size = 0 passes the release profile and then has
    trailing_zeros 64; a shift by 64 is reported as a panic here (it is one in debug only). *)
Definition permute_index (dbg : bool) (size index : nat) : option nat :=
  let? _ := dassert dbg (index <? size) in
  if size =? 1 then Some 0
  else
    let? _ := dassert dbg (is_power_of_two size) in
    let bits := ctz64 (Z.of_nat size) in
    if (bits =? 0)%Z then None
    else Some (Z.to_nat (Z.shiftr (reverse_bits64 (Z.of_nat index)) (64 - bits))).

(** bit_reverse.rs:19-27 [permute] *)
Definition permute {A} (dbg : bool) (v : list A) : option (list A) :=
  let n := length v in
  for_each (seq 0 n) (fun v i =>
    let? j := permute_index dbg n i in
    if i <? j then swap v i j else Some v) v.

(** transpose.rs:33-63 [transpose_square_1], without the prefetch hints *)
Definition transpose_square_1 {A} (dbg : bool) (matrix : list A) (size : nat) : option (list A) :=
  let? _ := dassert dbg (length matrix =? size * size) in
  if negb (size mod 2 =? 0) then None
  else for_each (range_step 0 size 2) (fun matrix row =>
    let i := row * size + row in
    let? matrix := swap matrix (i + 1) (i + size) in
    for_each (skipn 1 (range_step row size 2)) (fun matrix col =>
      let i := row * size + col in
      let j := col * size + row in
      let? matrix := swap matrix i j in
      let? matrix := swap matrix (i + 1) (j + size) in
      let? matrix := swap matrix (i + size) (j + 1) in
      swap matrix (i + size + 1) (j + size + 1)) matrix) matrix.
(** transpose.rs:65-85 [transpose_square_2] *)
Definition transpose_square_2 {A} (dbg : bool) (matrix : list A) (size : nat) : option (list A) :=
  let? _ := dassert dbg (length matrix =? 2 * size * size) in
  for_each (seq 0 size) (fun matrix row =>
    for_each (skipn 1 (seq row (size - row))) (fun matrix col =>
      let i := (row * size + col) * 2 in
      let j := (col * size + row) * 2 in
      let? matrix := swap matrix i j in
      swap matrix (i + 1) (j + 1)) matrix) matrix.
(** transpose.rs:12-30 [transpose_square_stretch] *)
Definition transpose_square_stretch {A} (dbg : bool) (matrix : list A) (size stretch : nat) : option (list A) :=
  if negb (length matrix =? size * size * stretch) then None
  else match stretch with
       | 1 => transpose_square_1 dbg matrix size
       | 2 => transpose_square_2 dbg matrix size
       | _ => None
       end.

(** Rust: [values.par_chunks_mut(n).enumerate().for_each(job)]: the jobs of the chunks run in
    the order [order]. Each job owns its chunk exclusively (the borrow checker's guarantee), so
    a finer interleaving of two jobs has the same effect as running them one after the other. *)
Definition chunk {A} (n i : nat) (v : list A) : list A := firstn n (skipn (i * n) v).
Definition write_chunk {A} (n i : nat) (v c : list A) : list A := firstn (i * n) v ++ c ++ skipn (i * n + length c) v.
Definition chunk_count (n len : nat) : nat := (len + (n - 1)) / n.
Definition par_chunks {A} (n : nat) (order : list nat) (job : nat -> list A -> option (list A)) (v : list A) : option (list A) :=
  for_each order (fun v i => let? c := job i (chunk n i v) in Some (write_chunk n i v c)) v.

Section Fft.
Context {F : Type} (o : ops F).

(** small.rs:8-20 [radix_2] *)
Definition radix_2 (values : list F) (offset stride : nat) : option (list F) :=
  let i := offset in
  let j := offset + stride in
  let? temp := get values i in
  let? vj := get values j in
  let? values := set values i (fadd o temp vj) in
  let? vj := get values j in
  set values j (fsub o temp vj).
(** small.rs:23-35 [radix_2_twiddle] *)
Definition radix_2_twiddle (values : list F) (twiddle : F) (offset stride : nat) : option (list F) :=
  let i := offset in
  let j := offset + stride in
  let? temp := get values i in
  let? vj := get values j in
  let? values := set values j (fmul o vj twiddle) in
  let? vj := get values j in
  let? values := set values i (fadd o temp vj) in
  let? vj := get values j in
  set values j (fsub o temp vj).
(** small.rs:37-49 [radix_4] *)
Definition mul_at (values : list F) (i : nat) (t : F) : option (list F) :=
  let? x := get values i in set values i (fmul o x t).
Definition radix_4 (values twiddles : list F) (offset stride : nat) : option (list F) :=
  let? values := radix_2 values offset (2 * stride) in
  let? values := radix_2 values (offset + stride) (2 * stride) in
  let? t := get twiddles 1 in
  let? values := mul_at values (offset + 3 * stride) t in
  let? values := radix_2 values offset stride in
  radix_2 values (offset + 2 * stride) stride.
(** small.rs:51-68 [radix_8] *)
Definition radix_8 (values twiddles : list F) (offset stride : nat) : option (list F) :=
  let? values := radix_4 values twiddles offset (2 * stride) in
  let? values := radix_4 values twiddles (offset + stride) (2 * stride) in
  let? t1 := get twiddles 1 in
  let? values := mul_at values (offset + 3 * stride) t1 in
  let? t2 := get twiddles 2 in
  let? values := mul_at values (offset + 5 * stride) t2 in
  let? t3 := get twiddles 3 in
  let? values := mul_at values (offset + 7 * stride) t3 in
  let? values := radix_2 values offset stride in
  let? values := radix_2 values (offset + 2 * stride) stride in
  let? values := radix_2 values (offset + 4 * stride) stride in
  radix_2 values (offset + 6 * stride) stride.

(** recursive.rs:9-54 [fft_vec_recursive]. [max_loop] is 128, or 8 in the crate's own tests;
    the model takes it as a parameter. [fuel] bounds the recursion depth; running out of it is
    reported as None and shown not to happen. *)
Fixpoint fft_vec_recursive (fuel max_loop : nat) (dbg : bool) (values twiddles : list F) (offset count stride : nat)
  : option (list F) :=
  if stride =? 0 then None else
  let size := length values / stride in
  let? _ := dassert dbg (is_power_of_two size) in
  let? _ := dassert dbg (offset <? stride) in
  let? _ := dassert dbg (length values mod size =? 0) in
  if 1 <? size then
    match fuel with
    | O => None
    | S fuel =>
      let? values :=
        if (stride =? count) && (count <? max_loop) then
          fft_vec_recursive fuel max_loop dbg values twiddles offset (2 * count) (2 * stride)
        else
          let? values := fft_vec_recursive fuel max_loop dbg values twiddles offset count (2 * stride) in
          fft_vec_recursive fuel max_loop dbg values twiddles (offset + stride) count (2 * stride) in
      let? values := for_each (seq offset count) (fun values i => radix_2 values i stride) values in
      for_each (skipn 1 (combine (range_step offset (offset + size * stride) (2 * stride)) twiddles))
        (fun values ot => let '(offset, twiddle) := ot in
          for_each (seq offset count) (fun values i => radix_2_twiddle values twiddle i stride) values) values
    end
  else Some values.

(** mod.rs:159-172 [get_twiddles] *)
Definition get_twiddles (dbg : bool) (root : F) (size : nat) : option (list F) :=
  let? _ := dassert dbg (is_power_of_two size) in
  let? _ := dassert dbg (feqb o (pow_usize o root (Z.of_nat size)) (f1 o)) in
  permute dbg (map (fun i => pow_usize o root (Z.of_nat i)) (seq 0 (size / 2))).

(** radix_sqrt.rs:55-67, the job of one row: twiddle factors, then the outer transform *)
Definition scale_row (inner_twiddle : F) (row : list F) : list F :=
  match row with
  | [] => []
  | x :: r => x :: fst (fold_left (fun (st : list F * F) e => let '(acc, t) := st in (acc ++ [fmul o e t], fmul o t inner_twiddle)) r ([], inner_twiddle))
  end.
Definition outer_job (ml : nat) (dbg : bool) (root : F) (inner : nat) (twiddles : list F) (i : nat) (row : list F) : option (list F) :=
  let? row :=
    if 0 <? i then
      let? i := permute_index dbg inner i in
      Some (scale_row (pow_usize o root (Z.of_nat i)) row)
    else Some row in
  fft_vec_recursive 64 ml dbg row twiddles 0 1 1.
(** radix_sqrt.rs:13-76 [radix_sqrt]; [order1] and [order2] are the orders in which the row jobs
    of the two parallel loops are run. *)
Definition radix_sqrt (ml : nat) (dbg : bool) (order1 order2 : list nat) (values : list F) (root : F) : option (list F) :=
  let length := length values in
  if length <=? 1 then Some values
  else
    let inner := 2 ^ (Z.to_nat (ctz64 (Z.of_nat length)) / 2) in
    let outer := length / inner in
    let stretch := outer / inner in
    let? _ := dassert dbg (feqb o (pow_usize o root (Z.of_nat length)) (f1 o)) in
    let? _ := dassert dbg ((outer =? inner) || (outer =? 2 * inner)) in
    let? _ := dassert dbg (outer * inner =? length) in
    let? twiddles := get_twiddles dbg (pow_usize o root (Z.of_nat inner)) outer in
    let? values := transpose_square_stretch dbg values inner stretch in
    let? values := par_chunks outer order1 (fun _ row => fft_vec_recursive 64 ml dbg row twiddles 0 stretch stretch) values in
    let? values := transpose_square_stretch dbg values inner stretch in
    par_chunks outer order2 (outer_job ml dbg root inner twiddles) values.

(** mod.rs:145-155 [fft_root]; [std] is the cargo feature. *)
Definition fft_root (ml : nat) (dbg std : bool) (order1 order2 : list nat) (values : list F) (root : F) : option (list F) :=
  if std && (1024 <=? length values) then radix_sqrt ml dbg order1 order2 values root
  else
    let? twiddles := get_twiddles dbg root (length values) in
    fft_vec_recursive 64 ml dbg values twiddles 0 1 1.

(** [Field::root(n)] of the field; None of the inner option: no such root (or, outer, a panic). *)
Variable root_fn : nat -> option (option F).
(** [Field::from(usize)] *)
Variable from_usize : nat -> option F.

(** mod.rs:71-74 [fft] *)
Definition fft ml dbg std order1 order2 (values : list F) : option (list F) :=
  let? r := root_fn (length values) in
  let? root := r in
  fft_root ml dbg std order1 order2 values root.
(** mod.rs:76-89 [ifft]. For an empty slice [len() - 1] panics in debug; in release it wraps but
    the inverse of the length 0 panics next, so both are None. *)
Definition ifft ml dbg std order1 order2 (values : list F) : option (list F) :=
  let? r := root_fn (length values) in
  let? root := r in
  let? n1 := if 0 <? length values then Some (length values - 1) else None in
  let inverse_root := pow_usize o root (Z.of_nat n1) in
  let? len := from_usize (length values) in
  let? inverse_length := inv_opt o len in
  let? values := fft_root ml dbg std order1 order2 values inverse_root in
  Some (map (fun e => fmul o e inverse_length) values).
(** mod.rs:122-129, 136-142: the running multiplication by 1, c, c^2, ... *)
Definition shift_by (c : F) (values : list F) : list F :=
  fst (fold_left (fun (st : list F * F) e => let '(acc, t) := st in (acc ++ [fmul o e t], fmul o t c)) values ([], f1 o)).
(** mod.rs:121-131 [fft_cofactor] *)
Definition fft_cofactor ml dbg std order1 order2 (values : list F) (cofactor : F) : option (list F) :=
  fft ml dbg std order1 order2 (shift_by cofactor values).
(** mod.rs:133-143 [ifft_cofactor] *)
Definition ifft_cofactor ml dbg std order1 order2 (values : list F) (cofactor : F) : option (list F) :=
  let? values := ifft ml dbg std order1 order2 values in
  let? cofactor := inv_opt o cofactor in
  Some (shift_by cofactor values).

(** mod.rs:91-101 [clone_shifted] without rayon: [zip] stops at the shorter slice. *)
Definition zip_scale (start c : F) (destination source : list F) : list F :=
  fst (fold_left (fun (st : list F * F) (ds : F * F) => let '(acc, t) := st in (acc ++ [fmul o (snd ds) t], fmul o t c))
    (combine destination source) ([], start)) ++ skipn (length source) destination.
Definition clone_shifted_serial (destination source : list F) (cofactor : F) : list F :=
  zip_scale (f1 o) cofactor destination source.
(** mod.rs:103-119 [clone_shifted] with rayon: the chunk jobs run in the order [order]. *)
Definition clone_shifted_rayon (threads : nat) (order : list nat) (destination source : list F) (cofactor : F) : option (list F) :=
  if threads =? 0 then None else
  let chunk_size := Nat.max (Z.to_nat 1024) (length source / threads) in
  par_chunks chunk_size order (fun i d =>
    Some (zip_scale (pow_usize o cofactor (Z.of_nat (i * chunk_size))) cofactor d (chunk chunk_size i source))) destination.
End Fft.

(** The two field functions used by [fft] and [ifft], for a prime field:
    prime_field.rs:340-358 [Root<usize>] and convert.rs:57-72 [From<usize>]. *)
Definition fe_root {P} (G : good P) (n : nat) : option (option (fe P)) := root_usize G (Z.of_nat n).
Definition fe_from_usize {P} (G : good P) (n : nat) : option (fe P) :=
  let? x := pf_from_unsigned P (Z.of_nat n) in Some (lift (fe0 G) (Some x)).
