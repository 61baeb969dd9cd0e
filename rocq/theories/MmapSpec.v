(** A vector with a fixed capacity, as a list. *)
Require Import ZArith Bool List.
Import ListNotations.
Open Scope nat_scope.

Section Spec.
Context {T : Type}.
Inductive operation : Type :=
| Push (v : T)
| Truncate (n : nat)
| Clear
| Resize (n : nat) (v : T)
| ExtendFromSlice (l : list T)
| Extend (l : list T)
| Assign (i : nat) (v : T).
(** What an operation does to the list of elements; None is a panic. *)
Definition list_step (cap : nat) (items : list T) (c : operation) : option (list T) :=
  match c with
  | Push v => if length items <? cap then Some (items ++ [v]) else None
  | Truncate n => Some (firstn n items)
  | Clear => Some []
  | Resize n v => if n <=? cap then Some (firstn n items ++ repeat v (n - length items)) else None
  | ExtendFromSlice l | Extend l => if length items + length l <=? cap then Some (items ++ l) else None
  | Assign i v => if i <? length items then Some (firstn i items ++ v :: skipn (S i) items) else None
  end.
Fixpoint list_run (cap : nat) (items : list T) (cs : list operation) : option (list T) :=
  match cs with [] => Some items | c :: cs => match list_step cap items c with None => None | Some items => list_run cap items cs end end.
End Spec.
Arguments operation T : clear implicits.
