(** algebra/u256/src/arch/x86_64/mod.rs and arch/x86_64_adx/mod.rs: the assembly routines, as programs for a small
    model of the processor.

    Only the instructions that occur are modelled, with 64 bit operands. Pointers are not: the memory is a set of
    arrays, one for each pointer and one for each operand with the constraint "m"; [Mem a i] is the word at the byte
    offset 8 * i of the array [a]. So results do not overlap arguments (they are local variables of the functions).
    Operands that the compiler places in registers are registers [O0], [O1], ... distinct from each other and from
    the registers named in the text; operands that it may place in a register or in memory ("rm") are words of
    memory. *)
Require Import ZArith Bool List.
From Verif Require Import Word U256Model MontgomeryModel.
Import ListNotations.
Open Scope Z_scope.

(** ** The processor *)
Inductive reg : Set := RAX | RBX | RDX | RDI | R8 | R9 | R10 | R11 | R12 | R13 | R14 | R15 | O0 | O1 | O2 | O3 | O4 | O5 | O6 | O7.
Definition number (r : reg) : nat :=
  match r with RAX => 0 | RBX => 1 | RDX => 2 | RDI => 3 | R8 => 4 | R9 => 5 | R10 => 6 | R11 => 7 | R12 => 8 | R13 => 9 | R14 => 10 | R15 => 11
  | O0 => 12 | O1 => 13 | O2 => 14 | O3 => 15 | O4 => 16 | O5 => 17 | O6 => 18 | O7 => 19 end.
Inductive operand : Set := Reg (r : reg) | Mem (array index : nat) | Imm (n : Z).
(** AT&T order: the source first, the destination last. [Mulx src lo hi]. *)
Inductive instr : Set :=
| Mov (s : operand) (d : reg) | Store (s : reg) (array index : nat) | Xor (s : operand) (d : reg) | Neg (d : reg)
| Add (s : operand) (d : reg) | Adc (s : operand) (d : reg) | Sub (s : operand) (d : reg) | Sbb (s : operand) (d : reg)
| Adcx (s : operand) (d : reg) | Adox (s : operand) (d : reg) | Mulx (s : operand) (lo hi : reg) | Cmovnc (s : operand) (d : reg).
(** The registers, the carry and overflow flags (0 or 1), the memory *)
Record machine : Type := Machine { regs : list Z; cf : Z; ovf : Z; mem : nat -> nat -> Z }.
Fixpoint put (l : list Z) (n : nat) (v : Z) : list Z := match l, n with [], _ => [] | _ :: l, O => v :: l | x :: l, S n => x :: put l n v end.
Definition get (s : machine) (r : reg) : Z := nth (number r) (regs s) 0.
Definition set (r : reg) (v : Z) (s : machine) : machine := Machine (put (regs s) (number r) v) (cf s) (ovf s) (mem s).
Definition read (s : machine) (x : operand) : Z := match x with Reg r => get s r | Mem a i => mem s a i | Imm n => n end.
Definition flags (c v : Z) (s : machine) : machine := Machine (regs s) c v (mem s).
Definition poke (a i : nat) (v : Z) (s : machine) : machine :=
  Machine (regs s) (cf s) (ovf s) (fun a' i' => if (Nat.eqb a' a && Nat.eqb i' i)%bool then v else mem s a' i').
(** Two's complement, and whether a signed result leaves its range *)
Definition signed (x : Z) : Z := if x <? 2 ^ 63 then x else x - 2 ^ 64.
Definition out_of_range (x : Z) : Z := if (- 2 ^ 63 <=? x) && (x <? 2 ^ 63) then 0 else 1.
Definition bit (b : bool) : Z := if b then 1 else 0.
(** Intel 64 and IA-32 Architectures Software Developer's Manual, volume 2 *)
Definition step (s : machine) (i : instr) : machine :=
  match i with
  | Mov x d => set d (read s x) s
  | Store r a i => poke a i (get s r) s
  | Xor x d => set d (Z.lxor (get s d) (read s x)) (flags 0 0 s)
  | Neg d => let a := get s d in set d ((- a) mod B) (flags (bit (negb (a =? 0))) (bit (a =? 2 ^ 63)) s)
  | Add x d => let a := get s d in let b := read s x in set d ((a + b) mod B) (flags ((a + b) / B) (out_of_range (signed a + signed b)) s)
  | Adc x d => let a := get s d in let b := read s x in set d ((a + b + cf s) mod B) (flags ((a + b + cf s) / B) (out_of_range (signed a + signed b + cf s)) s)
  | Sub x d => let a := get s d in let b := read s x in set d ((a - b) mod B) (flags (bit (a <? b)) (out_of_range (signed a - signed b)) s)
  | Sbb x d => let a := get s d in let b := read s x in set d ((a - b - cf s) mod B) (flags (bit (a <? b + cf s)) (out_of_range (signed a - signed b - cf s)) s)
  | Adcx x d => let a := get s d in let b := read s x in set d ((a + b + cf s) mod B) (flags ((a + b + cf s) / B) (ovf s) s)
  | Adox x d => let a := get s d in let b := read s x in set d ((a + b + ovf s) mod B) (flags (cf s) ((a + b + ovf s) / B) s)
  | Mulx x lo hi => let p := get s RDX * read s x in set hi (p / B) (set lo (p mod B) s)
  | Cmovnc x d => if cf s =? 0 then set d (read s x) s else s
  end.
Definition run (p : list instr) (s : machine) : machine := fold_left step p s.

(** ** Arguments and results *)
Definition words (x : u256) : list Z := [l0 x; l1 x; l2 x; l3 x].
(** The memory holds the given arrays at 0, 1, ...; an empty list leaves the array as it is. *)
Definition load (arrays : list (list Z)) (s : machine) : machine :=
  Machine (regs s) (cf s) (ovf s) (fun a i => nth i (nth a arrays []) (mem s a i)).
Definition array (s : machine) (a : nat) : u256 := mk (mem s a 0) (mem s a 1) (mem s a 2) (mem s a 3).

(** ** arch/x86_64/mod.rs *)
(** arch/x86_64/mod.rs:15-56 [reduce_1]: s0..s3 are O0..O3, r0..r3 are O4..O7, the modulus is array 1. The operand
    order of asm! is Intel's, destination first. *)
Definition reduce_1_text : list instr :=
  [Mov (Reg O0) O4; Sub (Mem 1 0) O0; Mov (Reg O1) O5; Sbb (Mem 1 1) O1; Mov (Reg O2) O6; Sbb (Mem 1 2) O2; Mov (Reg O3) O7; Sbb (Mem 1 3) O3;
   Cmovnc (Reg O0) O4; Cmovnc (Reg O1) O5; Cmovnc (Reg O2) O6; Cmovnc (Reg O3) O7].
Definition x_reduce_1 (s : machine) (x modulus : u256) : u256 :=
  let s := load [[]; words modulus] s in
  let s := set O0 (l0 x) (set O1 (l1 x) (set O2 (l2 x) (set O3 (l3 x) s))) in
  let s := run reduce_1_text s in
  mk (get s O4) (get s O5) (get s O6) (get s O7).

(** ** arch/x86_64_adx/mod.rs *)
(** x86_64_adx/mod.rs:31-118 [proth_redc_asm]: array 0 is lo, 1 is hi, 2 is the result, 4 is m3; ZERO is an immediate *)
Definition proth_redc_text : list instr :=
  [Mov (Mem 4 0) RDX; Mov (Mem 0 0) R8; Xor (Reg R9) R9; Xor (Reg R10) R10; Neg R8; Sbb (Mem 0 1) R9; Sbb (Mem 0 2) R10;
   Mov (Imm 0) RAX; Adox (Reg RAX) RAX; Mulx (Reg R8) R8 R11; Adcx (Mem 0 3) R8; Store R12 2 3; Adox (Mem 1 0) R11;
   Mulx (Reg R9) RAX R9; Adcx (Reg RAX) R11; Adox (Mem 1 1) R9; Mulx (Reg R10) RAX R10; Adcx (Reg RAX) R9; Adox (Mem 1 2) R10;
   Adcx (Imm 0) R10; Mov (Imm 0) R12; Adox (Mem 1 3) R12; Adcx (Imm 0) R12; Neg R8; Adcx (Imm 0) R11; Adcx (Imm 0) R9;
   Mulx (Reg R8) RAX RBX; Adcx (Reg RAX) R10; Adcx (Reg RBX) R12; Mov (Reg R11) RAX; Mov (Reg R9) RBX; Mov (Reg R10) R13;
   Mov (Reg R12) R14; Sub (Imm 1) RAX; Sbb (Imm 0) RBX; Sbb (Imm 0) R13; Sbb (Reg RDX) R14; Cmovnc (Reg RAX) R11; Cmovnc (Reg RBX) R9;
   Cmovnc (Reg R13) R10; Cmovnc (Reg R14) R12; Store R11 2 0; Store R9 2 1; Store R10 2 2; Store R12 2 3].
Definition x_proth_redc (s : machine) (m3 : Z) (lo hi : u256) : u256 :=
  array (run proth_redc_text (load [words lo; words hi; []; []; [m3]] s)) 2.

(** x86_64_adx/mod.rs:124-166 [mul_1_asm]: r0..r4 are O0..O4, lo is O5, b0..b3 are array 1 *)
Definition mul_1_text : list instr :=
  [Mulx (Mem 1 0) O0 O1; Mulx (Mem 1 1) O5 O2; Add (Reg O5) O1; Mulx (Mem 1 2) O5 O3; Adc (Reg O5) O2; Mulx (Mem 1 3) O5 O4;
   Adc (Reg O5) O3; Adc (Imm 0) O4].
Definition x_mul_1 (s : machine) (a b0 b1 b2 b3 : Z) : Z * Z * Z * Z * Z :=
  let s := run mul_1_text (set RDX a (load [[]; [b0; b1; b2; b3]] s)) in
  (get s O0, get s O1, get s O2, get s O3, get s O4).
(** x86_64_adx/mod.rs:173-229 [mul_add_1_asm]: r0..r4 are O0..O4, lo and hi are O5 and O6, b0..b3 are array 1. The
    result is r0..r3 and the returned r4. *)
Definition mul_add_1_text : list instr :=
  [Xor (Reg O4) O4; Mulx (Mem 1 0) O5 O6; Adcx (Reg O5) O0; Adox (Reg O6) O1; Mulx (Mem 1 1) O5 O6; Adcx (Reg O5) O1;
   Adox (Reg O6) O2; Mulx (Mem 1 2) O5 O6; Adcx (Reg O5) O2; Adox (Reg O6) O3; Mulx (Mem 1 3) O5 O6; Adcx (Reg O5) O3;
   Adcx (Reg O4) O4; Adox (Reg O6) O4].
Definition x_mul_add_1 (s : machine) (r0 r1 r2 r3 a b0 b1 b2 b3 : Z) : Z * Z * Z * Z * Z :=
  let s := set O0 r0 (set O1 r1 (set O2 r2 (set O3 r3 (load [[]; [b0; b1; b2; b3]] s)))) in
  let s := run mul_add_1_text (set RDX a s) in
  (get s O0, get s O1, get s O2, get s O3, get s O4).
(** x86_64_adx/mod.rs:232-249 [full_mul_asm2]; each block of assembly starts from a state of its own *)
Definition x_full_mul2 (s s1 s2 s3 : machine) (x y : u256) : u256 * u256 :=
  let '(r0, r1, r2, r3, r4) := x_mul_1 s (l0 x) (l0 y) (l1 y) (l2 y) (l3 y) in
  let '(r1, r2, r3, r4, r5) := x_mul_add_1 s1 r1 r2 r3 r4 (l1 x) (l0 y) (l1 y) (l2 y) (l3 y) in
  let '(r2, r3, r4, r5, r6) := x_mul_add_1 s2 r2 r3 r4 r5 (l2 x) (l0 y) (l1 y) (l2 y) (l3 y) in
  let '(r3, r4, r5, r6, r7) := x_mul_add_1 s3 r3 r4 r5 r6 (l3 x) (l0 y) (l1 y) (l2 y) (l3 y) in
  (mk r0 r1 r2 r3, mk r4 r5 r6 r7).

(** x86_64_adx/mod.rs:255-315 [mul_asm]: array 0 is x, 1 is y, 2 is the result *)
Definition mul_text : list instr :=
  [Xor (Reg RAX) RAX; Mov (Mem 0 0) RDX; Mulx (Mem 1 0) RAX R8; Store RAX 2 0; Mulx (Mem 1 1) RAX R9; Adcx (Reg RAX) R8;
   Mulx (Mem 1 2) RAX R10; Adcx (Reg RAX) R9; Mulx (Mem 1 3) RAX R11; Adcx (Reg RAX) R10; Xor (Reg R11) R11; Mov (Mem 0 1) RDX;
   Mulx (Mem 1 0) RAX RBX; Adcx (Reg RAX) R8; Adox (Reg RBX) R9; Store R8 2 1; Mulx (Mem 1 1) RAX RBX; Adcx (Reg RAX) R9;
   Adox (Reg RBX) R10; Mulx (Mem 1 2) RAX R11; Adcx (Reg RAX) R10; Xor (Reg R11) R11; Mov (Mem 0 2) RDX; Mulx (Mem 1 0) RAX RBX;
   Adcx (Reg RAX) R9; Adox (Reg RBX) R10; Store R9 2 2; Mulx (Mem 1 1) RAX R11; Adcx (Reg RAX) R10; Xor (Reg R11) R11;
   Mov (Mem 0 3) RDX; Mulx (Mem 1 0) RAX R11; Adcx (Reg RAX) R10; Store R10 2 3].
Definition x_mul (s : machine) (x y : u256) : u256 := array (run mul_text (load [words x; words y] s)) 2.

(** x86_64_adx/mod.rs:318-411 [full_mul_asm]: array 0 is x, 1 is y, 2 is lo, 3 is hi; ZERO is an immediate *)
Definition full_mul_text : list instr :=
  [Xor (Reg RAX) RAX; Mov (Mem 0 0) RDX; Mulx (Mem 1 0) RAX R8; Store RAX 2 0; Mulx (Mem 1 1) RAX R9; Adcx (Reg RAX) R8;
   Mulx (Mem 1 2) RAX R10; Adcx (Reg RAX) R9; Mulx (Mem 1 3) RAX R11; Adcx (Reg RAX) R10; Adcx (Imm 0) R11; Mov (Mem 0 1) RDX;
   Mulx (Mem 1 0) RAX RBX; Adcx (Reg RAX) R8; Adox (Reg RBX) R9; Store R8 2 1; Mulx (Mem 1 1) RAX RBX; Adcx (Reg RAX) R9;
   Adox (Reg RBX) R10; Mulx (Mem 1 2) RAX RBX; Adcx (Reg RAX) R10; Adox (Reg RBX) R11; Mulx (Mem 1 3) RAX R8; Adcx (Reg RAX) R11;
   Adox (Imm 0) R8; Adcx (Imm 0) R8; Mov (Mem 0 2) RDX; Mulx (Mem 1 0) RAX RBX; Adcx (Reg RAX) R9; Adox (Reg RBX) R10; Store R9 2 2;
   Mulx (Mem 1 1) RAX RBX; Adcx (Reg RAX) R10; Adox (Reg RBX) R11; Mulx (Mem 1 2) RAX RBX; Adcx (Reg RAX) R11; Adox (Reg RBX) R8;
   Mulx (Mem 1 3) RAX R9; Adcx (Reg RAX) R8; Adox (Imm 0) R9; Adcx (Imm 0) R9; Mov (Mem 0 3) RDX; Mulx (Mem 1 0) RAX RBX;
   Adcx (Reg RAX) R10; Adox (Reg RBX) R11; Store R10 2 3; Mulx (Mem 1 1) RAX RBX; Adcx (Reg RAX) R11; Adox (Reg RBX) R8;
   Mulx (Mem 1 2) RAX RBX; Adcx (Reg RAX) R8; Adox (Reg RBX) R9; Mulx (Mem 1 3) RAX R10; Adcx (Reg RAX) R9; Adox (Imm 0) R10;
   Adcx (Imm 0) R10; Store R11 3 0; Store R8 3 1; Store R9 3 2; Store R10 3 3].
Definition x_full_mul (s : machine) (x y : u256) : u256 * u256 :=
  let s := run full_mul_text (load [words x; words y] s) in (array s 2, array s 3).

(** x86_64_adx/mod.rs:425-577 [mul_redc]: array 0 is a, 1 is b, 2 is the result, 4 is the modulus, 5 is M64; ZERO is
    an immediate *)
Definition mul_redc_text : list instr :=
  [Mov (Mem 0 0) RDX; Xor (Reg R8) R8; Mulx (Mem 1 1) R8 R9; Mulx (Mem 1 3) RDI R12; Mulx (Mem 1 0) R13 R14; Mulx (Mem 1 2) R15 R10;
   Mov (Reg R13) RDX; Mulx (Mem 5 0) RDX R11; Adcx (Reg R8) R14; Adox (Reg RDI) R10; Adcx (Reg R9) R15; Adox (Imm 0) R12;
   Adcx (Imm 0) R10; Mulx (Mem 4 0) R8 R9; Mulx (Mem 4 1) RDI R11; Adox (Reg R8) R13; Adcx (Reg RDI) R14; Adox (Reg R9) R14;
   Adcx (Reg R11) R15; Mulx (Mem 4 2) R8 R9; Mulx (Mem 4 3) RDI R11; Adox (Reg R8) R15; Adcx (Reg RDI) R10; Adox (Reg R9) R10;
   Adcx (Reg R11) R12; Adox (Imm 0) R12; Mov (Mem 0 1) RDX; Mulx (Mem 1 0) R8 R9; Mulx (Mem 1 1) RDI R11; Adcx (Reg R8) R14;
   Adox (Reg R9) R15; Adcx (Reg RDI) R15; Adox (Reg R11) R10; Mulx (Mem 1 2) R8 R9; Mulx (Mem 1 3) RDI R13; Adcx (Reg R8) R10;
   Adox (Reg RDI) R12; Adcx (Reg R9) R12; Adox (Imm 0) R13; Adcx (Imm 0) R13; Mov (Reg R14) RDX; Mulx (Mem 5 0) RDX R8;
   Mulx (Mem 4 0) R8 R9; Mulx (Mem 4 1) RDI R11; Adox (Reg R8) R14; Adcx (Reg RDI) R15; Adox (Reg R9) R15; Adcx (Reg R11) R10;
   Mulx (Mem 4 2) R8 R9; Mulx (Mem 4 3) RDI R11; Adox (Reg R8) R10; Adcx (Reg R9) R12; Adox (Reg RDI) R12; Adcx (Reg R11) R13;
   Adox (Imm 0) R13; Mov (Mem 0 2) RDX; Mulx (Mem 1 0) R8 R9; Mulx (Mem 1 1) RDI R11; Adcx (Reg R8) R15; Adox (Reg R9) R10;
   Adcx (Reg RDI) R10; Adox (Reg R11) R12; Mulx (Mem 1 2) R8 R9; Mulx (Mem 1 3) RDI R14; Adcx (Reg R8) R12; Adox (Reg R9) R13;
   Adcx (Reg RDI) R13; Adox (Imm 0) R14; Adcx (Imm 0) R14; Mov (Reg R15) RDX; Mulx (Mem 5 0) RDX R8; Mulx (Mem 4 0) R8 R9;
   Mulx (Mem 4 1) RDI R11; Adox (Reg R8) R15; Adcx (Reg R9) R10; Adox (Reg RDI) R10; Adcx (Reg R11) R12; Mulx (Mem 4 2) R8 R9;
   Mulx (Mem 4 3) RDI R11; Adox (Reg R8) R12; Adcx (Reg R9) R13; Adox (Reg RDI) R13; Adcx (Reg R11) R14; Adox (Imm 0) R14;
   Mov (Mem 0 3) RDX; Mulx (Mem 1 0) R8 R9; Mulx (Mem 1 1) RDI R11; Adcx (Reg R8) R10; Adox (Reg R9) R12; Adcx (Reg RDI) R12;
   Adox (Reg R11) R13; Mulx (Mem 1 2) R8 R9; Mulx (Mem 1 3) RDI R15; Adcx (Reg R8) R13; Adox (Reg R9) R14; Adcx (Reg RDI) R14;
   Adox (Imm 0) R15; Adcx (Imm 0) R15; Mov (Reg R10) RDX; Mulx (Mem 5 0) RDX R8; Mulx (Mem 4 0) R8 R9; Mulx (Mem 4 1) RDI R11;
   Adox (Reg R8) R10; Adcx (Reg R9) R12; Adox (Reg RDI) R12; Adcx (Reg R11) R13; Mulx (Mem 4 2) R8 R9; Mulx (Mem 4 3) RDI RDX;
   Adox (Reg R8) R13; Adcx (Reg R9) R14; Adox (Reg RDI) R14; Adcx (Reg RDX) R15; Adox (Imm 0) R15; Store R12 2 0; Store R13 2 1;
   Store R14 2 2; Store R15 2 3].
Definition x_mul_redc (s : machine) (M : mparams) (a b : u256) : u256 :=
  let r := array (run mul_redc_text (load [words a; words b; []; []; words (MODULUS M); [M64 M]] s)) 2 in
  if u_geb r (MODULUS M) then u_sub r (MODULUS M) else r.
