(** crypto/stark/src/trace_table.rs *)
Require Import ZArith Lia Bool List.
From Verif Require Import Word KnuthModel FieldSig FieldAlgModel Arr FftModel StarkBase PolyModel.
Import ListNotations.
Open Scope nat_scope.

(** trace_table.rs:10-16 [TraceTable] *)
Record table (F : Type) : Type := Table { t_rows : nat; t_cols : nat; t_values : list F }.
Arguments Table {F}. Arguments t_rows {F}. Arguments t_cols {F}. Arguments t_values {F}.

(** [v.iter().step_by(s)], s > 0: the first element, then every s-th one. *)
Fixpoint step_by {A} (fuel s : nat) (v : list A) : list A :=
  match fuel, v with
  | S fuel, a :: _ => a :: step_by fuel s (skipn s v)
  | _, _ => []
  end.

Section Trace.
Context {F : Type} (o : ops F).
(** trace_table.rs:20-30 [new] *)
Definition t_new (trace_length num_columns : nat) : table F := Table trace_length num_columns (repeat (f0 o) (trace_length * num_columns)).
(** trace_table.rs:95-102 [Index<(usize, usize)>] *)
Definition t_get (t : table F) (i j : nat) : option F := if (i <? t_rows t) && (j <? t_cols t) then get (t_values t) (i * t_cols t + j) else None.
(** trace_table.rs:105-112 [IndexMut<(usize, usize)>], and component/mod.rs:43-45 [write] *)
Definition t_set (t : table F) (i j : nat) (x : F) : option (table F) :=
  if (i <? t_rows t) && (j <? t_cols t) then let? v := set (t_values t) (i * t_cols t + j) x in Some (Table (t_rows t) (t_cols t) v) else None.
(** trace_table.rs:115-122 [Index<usize>], 44-47 [iter_row] *)
Definition t_row (t : table F) (i : nat) : option (list F) :=
  if i <? t_rows t then if (i + 1) * t_cols t <=? length (t_values t) then Some (firstn (t_cols t) (skipn (i * t_cols t) (t_values t))) else None else None.
(** trace_table.rs:49-51 [iter_column], 60-66 [column_to_mmapvec]: the slice [j..] panics beyond the end, a step of
    zero panics; there is no check of j against the number of columns. *)
Definition t_column (t : table F) (j : nat) : option (list F) :=
  if j <=? length (t_values t) then if t_cols t =? 0 then None else Some (step_by (length (t_values t)) (t_cols t) (skipn j (t_values t))) else None.
(** trace_table.rs:68-91 [interpolate] *)
Fixpoint option_all {A} (l : list (option A)) : option (list A) :=
  match l with [] => Some [] | x :: l => let? x := x in let? l := option_all l in Some (x :: l) end.
Definition interpolate_column (e : engine F) (t : table F) (j : nat) : option (list F) :=
  let? v := t_column t j in
  let? v := e_ifft o e v in
  let? v := permute (edbg e) v in
  poly_new v.
Definition interpolate (e : engine F) (t : table F) : option (list (list F)) := option_all (map (interpolate_column e t) (seq 0 (t_cols t))).
(** trace_table.rs:40-42 [generator] *)
Definition t_generator (e : engine F) (t : table F) : option F := let? r := eroot e (t_rows t) in r.
End Trace.
