(** utils/mmap-vec/src/mmap_vec.rs: a vector with fixed capacity in an anonymous memory map.

    The map is a list of slots, one for each element up to the capacity; a slot holds either the
    zero bytes the operating system provides or the bytes of a value. Dropping runs the destructor
    on whatever the bytes of a slot are: [dropped] lists the slots destroyed so far, oldest first.
    [None] is a panic. Lengths are nat: they are bounded by the capacity. *)
Require Import ZArith Lia Bool List.
From Verif Require Import Word U256Model Arr.
Import ListNotations.
Open Scope nat_scope.

Section Mmap.
Context {T : Type}.
Inductive slot : Type := Zeroed | Bytes (v : T).
(** mmap_vec.rs:25-30 [MmapVec] *)
Record mmap_vec : Type := MV { mem : list slot; length_ : nat; capacity : nat; dropped : list slot }.

(** mmap_vec.rs:34-49 [with_capacity] *)
Definition with_capacity (cap : nat) : mmap_vec := MV (repeat Zeroed cap) 0 cap [].
(** mmap_vec.rs:59-63 [zero_initialized] *)
Definition zero_initialized (len : nat) : mmap_vec := MV (repeat Zeroed len) len len [].
(** mmap_vec.rs:70-73 [len], 66-68 [is_empty] *)
Definition mv_len (m : mmap_vec) : nat := length_ m.
Definition mv_is_empty (m : mmap_vec) : bool := length_ m =? 0.
(** mmap_vec.rs:179-186 [deref]: the slice of the first [length] slots *)
Definition as_slots (m : mmap_vec) : list slot := firstn (length_ m) (mem m).
(** indexing through [deref]: out of range panics *)
Definition mv_get (m : mmap_vec) (i : nat) : option slot := get (as_slots m) i.
(** indexed assignment through [deref_mut], 188-193: the old contents are dropped *)
Definition mv_set (m : mmap_vec) (i : nat) (v : T) : option mmap_vec :=
  let? old := mv_get m i in
  let? mem' := set (mem m) i (Bytes v) in
  Some (MV mem' (length_ m) (capacity m) (dropped m ++ [old])).
(** mmap_vec.rs:75-82 [push] *)
Definition mv_push (m : mmap_vec) (next : T) : option mmap_vec :=
  if length_ m =? capacity m then None
  else mv_set (MV (mem m) (length_ m + 1) (capacity m) (dropped m)) (length_ m) next.
(** mmap_vec.rs:88-106 [truncate], 84-86 [clear] *)
Definition mv_truncate (m : mmap_vec) (len : nat) : mmap_vec :=
  if length_ m <=? len then m
  else MV (mem m) len (capacity m) (dropped m ++ skipn len (as_slots m)).
Definition mv_clear (m : mmap_vec) : mmap_vec := mv_truncate m 0.
(** mmap_vec.rs:157-174 [extend], both instances *)
Fixpoint mv_extend (m : mmap_vec) (items : list T) : option mmap_vec :=
  match items with
  | [] => Some m
  | i :: rest => let? m := mv_push m i in mv_extend m rest
  end.
(** mmap_vec.rs:108-116 [resize]: the loop pushes until the length is [size] *)
Definition mv_resize (m : mmap_vec) (size : nat) (fill : T) : option mmap_vec :=
  if capacity m <? size then None
  else let? m := mv_extend m (repeat fill (size - length_ m)) in
    Some (MV (mem m) size (capacity m) (dropped m)).
(** [clone_from_slice] assigns element by element, from position [start] *)
Fixpoint mv_assign (m : mmap_vec) (start : nat) (items : list T) : option mmap_vec :=
  match items with
  | [] => Some m
  | i :: rest => let? m := mv_set m start i in mv_assign m (start + 1) rest
  end.
(** mmap_vec.rs:118-125 [extend_from_slice] *)
Definition mv_extend_from_slice (m : mmap_vec) (items : list T) : option mmap_vec :=
  if capacity m <? length_ m + length items then None
  else mv_assign (MV (mem m) (length_ m + length items) (capacity m) (dropped m)) (length_ m) items.
(** The value read from a slot; [zero] is what zero bytes mean at type T. *)
Definition slot_value (zero : T) (s : slot) : T := match s with Zeroed => zero | Bytes v => v end.
Definition as_slice (zero : T) (m : mmap_vec) : list T := map (slot_value zero) (as_slots m).
(** mmap_vec.rs:149-155 [clone] *)
Definition mv_clone (zero : T) (m : mmap_vec) : option mmap_vec := mv_extend (with_capacity (capacity m)) (as_slice zero m).
(** mmap_vec.rs:140-147 [eq] *)
Definition mv_eqb (eqb : T -> T -> bool) (zero : T) (m n : mmap_vec) : bool :=
  if negb (mv_len m =? mv_len n) then false
  else forallb (fun '(a, b) => eqb a b) (combine (as_slice zero m) (as_slice zero n)).
End Mmap.

(** mmap_vec.rs:37, the number of bytes requested: the product panics on overflow in a debug build
    and wraps in a release build *)
Definition map_bytes (dbg : bool) (cap size : Z) : option Z :=
  let? n := (if dbg then (if (cap * size <? B)%Z then Some (cap * size)%Z else None) else Some ((cap * size) mod B)%Z) in
  Some (Z.max 1 n).
