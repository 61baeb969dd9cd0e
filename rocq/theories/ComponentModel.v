(** crypto/stark/src/component: the combinators for constraint systems. [None] is a panic. Sizes, indices
    and row offsets are taken to be exact (they are bounded by the sizes of trace tables in memory). *)
Require Import ZArith Lia Bool List.
From Verif Require Import Word KnuthModel FieldSig FieldAlgModel Arr FftModel StarkBase PolyModel TraceModel ExprModel.
Import ListNotations.
Open Scope nat_scope.

(** One call of [PolynomialWriter::write]: polynomial, location, value *)
Definition write (F : Type) : Type := (nat * nat * F)%type.
(** component/mod.rs:51-71 [Component]. [trace] is generic in the writer, of which it sees the two sizes
    only: it is the list of its calls of [write] as a function of [num_polynomials()] and [polynomial_size()]
    of the writer. *)
Record component (F C W : Type) : Type := Component {
  k_polynomials : nat; k_size : option nat; k_claim : W -> C; k_constraints : C -> option (list (rexpr F));
  k_trace : nat -> nat -> W -> option (list (write F)) }.
Arguments Component {F C W}. Arguments k_polynomials {F C W}. Arguments k_size {F C W}. Arguments k_claim {F C W}. Arguments k_constraints {F C W}. Arguments k_trace {F C W}.

Section Component.
Context {F : Type} (o : ops F) (e : engine F).
(** component/mod.rs:38-46: the calls of [write] on a TraceTable *)
Definition apply_writes (t : table F) (ws : list (write F)) : option (table F) := for_each ws (fun t w => match w with (p, l, v) => t_set t l p v end) t.
(** component/mod.rs:80-88 [trace_table] *)
Definition trace_table {C W} (c : component F C W) (w : W) : option (table F) :=
  let? size := k_size c in
  let? ws := k_trace c (k_polynomials c) size w in
  apply_writes (t_new o size (k_polynomials c)) ws.
(** component/mod.rs:110-121 [check]: the inner None is Ok(()), Some (row, constraint) is Err *)
Definition k_check {C W} (c : component F C W) (w : W) : option (option (nat * nat)) :=
  let? size := k_size c in
  let? cs := k_constraints c (k_claim c w) in
  let? r := from_expressions e size (k_polynomials c) cs in
  let? con := r in
  let? t := trace_table c w in
  check_constraints o e (c_exprs con) t.

(** component/mapped.rs:26-43 [Mapped]: the calls forwarded to the inner writer *)
Definition mapped (dbg : bool) (n s : nat) (f : nat -> nat -> option (nat * nat)) (ws : list (write F)) : option (list (write F)) :=
  option_all (map (fun w => match w with (p, l, v) =>
    let? _ := dassert dbg (p <? n) in
    let? _ := dassert dbg (l <? s) in
    let? (p, l) := f p l in Some (p, l, v) end) ws).

(** component/empty.rs:4-31 [Empty] *)
Definition k_empty (polynomials size : nat) : component F unit unit :=
  Component polynomials (Some size) (fun _ => tt) (fun _ => Some []) (fun _ _ _ => Some []).

(** component/horizontal.rs:33-93 [Horizontal] *)
Definition shift_columns (n : nat) (c : rexpr F) : option (rexpr F) :=
  map_expr (fun x => Some match x with ETrace i j => ETrace (i + n) j | x => x end) c.
Definition k_horizontal {C W C' W'} (dbg : bool) (left : component F C W) (right : component F C' W') : component F (C * C') (W * W') :=
  Component (k_polynomials left + k_polynomials right)
    (let? l := k_size left in let? r := k_size right in if l =? r then Some l else None)
    (fun w => (k_claim left (fst w), k_claim right (snd w)))
    (fun c => let? l := k_constraints left (fst c) in let? r := k_constraints right (snd c) in
              let? r := option_all (map (shift_columns (k_polynomials left)) r) in Some (l ++ r))
    (fun _ _ w =>
       let? ls := k_size left in
       let? lw := k_trace left (k_polynomials left) ls (fst w) in
       let? lw := mapped dbg (k_polynomials left) ls (fun p l => Some (p, l)) lw in
       let? rs := k_size right in
       let? rw := k_trace right (k_polynomials right) rs (snd w) in
       let? rw := mapped dbg (k_polynomials right) rs (fun p l => Some (p + k_polynomials left, l)) rw in
       Some (lw ++ rw)).

(** component/vertical.rs:15-90 [Vertical]; [new] panics unless [size] is a power of two. *)
Definition power_x (size : nat) (c : rexpr F) : option (rexpr F) :=
  map_expr (fun x => Some match x with EX => EExp EX (Z.of_nat size) | x => x end) c.
Definition k_vertical {C W} (dbg : bool) (element : component F C W) (size : nat) : option (component F (list C) (list W)) :=
  if is_power_of_two size then Some
    (Component (k_polynomials element)
       (let? s := k_size element in Some (s * size))
       (map (k_claim element))
       (fun cs => match cs with [] => None | c :: _ => let? l := k_constraints element c in option_all (map (power_x size) l) end)
       (fun _ _ ws =>
          let? s := k_size element in
          let? l := option_all (map (fun iw => match iw with (i, w) =>
                      let? ew := k_trace element (k_polynomials element) s w in
                      mapped dbg (k_polynomials element) s (fun p l => Some (p, l + i * s)) ew end) (List.combine (seq 0 (length ws)) ws)) in
          Some (concat l)))
  else None.

(** component/fold.rs:23-39 [new], [map_up]; [1 << folds] panics in the debug profile if folds is 64 or more and is
    [1 << (folds % 64)] in the release profile. *)
Definition reduction (dbg : bool) (folds : nat) : option nat := if folds <? 64 then Some (2 ^ folds) else if dbg then None else Some (2 ^ (folds mod 64)).
Definition map_up (dbg : bool) (red row column : nat) : option (nat * nat) :=
  let? folded := permute_index dbg red (column mod red) in Some (row * red + folded, column / red).
(** component/fold.rs:108-115 [ceil_div] *)
Definition ceil_div (a b : nat) : nat := if a =? 0 then 0 else 1 + (a - 1) / b.
Definition fold_cell (dbg : bool) (red : nat) (c : rexpr F) : option (rexpr F) :=
  map_expr (fun x => match x with
    | ETrace i j => let? off := permute_index dbg red (i mod red) in Some (ETrace (i / red) (Z.of_nat red * j + Z.of_nat off))
    | x => Some x end) c.
(** component/fold.rs:42-105 [Fold] *)
Definition k_fold {C W} (dbg : bool) (element : component F C W) (folds : nat) : option (component F C W) :=
  let? red := reduction dbg folds in
  Some (Component (ceil_div (k_polynomials element) red)
    (let? s := k_size element in Some (s * red))
    (k_claim element)
    (fun c => let? l := k_constraints element c in option_all (map (fold_cell dbg red) l))
    (fun _ _ w =>
       let? s := k_size element in
       let? ew := k_trace element (k_polynomials element) s w in
       mapped dbg (k_polynomials element) s (fun p l => let? folded := permute_index dbg red (p mod red) in Some (p / red, l * red + folded)) ew)).

(** component/test.rs:17-96 [Test]: witness (claim, second value) *)
Fixpoint test_writes (columns i n : nat) (c x0 x1 : F) : list (write F) :=
  match n with O => [] | S n => (i mod columns, i / columns, x0) :: test_writes columns (S i) n c x1 (fadd o (fmul o x0 x1) c) end.
Definition test_sources (i columns : nat) : rexpr F * rexpr F :=
  if (i =? 0) && (columns =? 1) then (ETrace 0 (-2), ETrace 0 (-1))
  else if i =? 0 then (ETrace (columns - 2) (-1), ETrace (columns - 1) (-1))
  else if i =? 1 then (ETrace (columns - 1) (-1), ETrace 0 0)
  else (ETrace (i - 2) 0, ETrace (i - 1) 0).
Definition test_exceptions (omega : F) (i columns : nat) : rexpr F :=
  if (i =? 0) && (columns =? 1) then EMul (e_sub EX (EExp (EConst omega) 0)) (e_sub EX (EExp (EConst omega) 1))
  else if i <=? 1 then e_sub EX (EExp (EConst omega) 0)
  else EConst (f1 o).
Definition test_constraint (omega : F) (rows columns : nat) (claim : F) (i : nat) : rexpr F :=
  let '(x0, x1) := test_sources i columns in
  e_div (EMul (e_sub (e_sub (ETrace i 0) (EMul x0 x1)) (EConst claim)) (test_exceptions omega i columns)) (e_sub (EExp EX (Z.of_nat rows)) (EConst (f1 o))).
Definition k_test (dbg : bool) (rows columns : nat) (seed : F) : component F F (F * F) :=
  Component columns (Some rows) fst
    (fun claim =>
       let? r := eroot e rows in
       let? omega := r in
       Some ((if 1 <=? rows * columns then [e_div (e_sub (ETrace 0 0) (EConst seed)) (e_sub EX (EExp (EConst omega) 0))] else []) ++
             (if 3 <=? rows * columns then map (test_constraint omega rows columns claim) (seq 0 columns) else [])))
    (fun n s w =>
       let? _ := dassert dbg (n =? columns) in
       let? _ := dassert dbg (s =? rows) in
       Some (test_writes columns 0 (rows * columns) (fst w) seed (snd w))).
End Component.
