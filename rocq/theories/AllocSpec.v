(** What the counters of the allocator have to be, for C69. *)
Require Import ZArith Lia Bool List.
From Verif Require Import Word AllocModel.
Import ListNotations.
Open Scope Z_scope.

Definition trace : Type := list (option event * state).
(** Sum over what was observed *)
Fixpoint bytes (f : event -> Z) (tr : trace) : Z :=
  match tr with [] => 0 | (Some e, _) :: tr => f e + bytes f tr | (None, _) :: tr => bytes f tr end.
(** Bytes that the system gave *)
Definition given (e : event) : Z := match e with Got size => size | _ => 0 end.
Definition given_times (e : event) : Z := match e with Got _ => 1 | _ => 0 end.
(** Bytes that have been freed, when [dealloc] returns *)
Definition freed (e : event) : Z := match e with ReturnDealloc size => size | _ => 0 end.
(** Bytes that the program received and bytes that it gave back, when it calls [dealloc] *)
Definition received (e : event) : Z := match e with ReturnAlloc size ptr => if ptr =? 0 then 0 else size | _ => 0 end.
Definition given_back (e : event) : Z := match e with CallDealloc size _ => size | _ => 0 end.
Definition observed (e : event) (tr : trace) : Prop := exists s, In (Some e, s) tr.
Definition quiet (s : state) : Prop := forall t, In t (snd s) -> t = Idle.
(** The states from the start on *)
Definition visited (n : nat) (tr : trace) : list state := (new, repeat Idle n) :: map snd tr.
(** Never are 2^64 bytes in use *)
Fixpoint in_range (tr : trace) : Prop := bytes given tr - bytes freed tr < 2 ^ 64 /\ match tr with [] => True | _ :: tr => in_range tr end.
