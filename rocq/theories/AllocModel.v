(** utils/logging-allocator/src/logging_allocator.rs: the counters of the allocator, under every interleaving of threads.

    The allocator of the system is an environment that returns null or any pointer. Log messages and their text, and
    the contents of memory, are not modelled. [realloc] and [alloc_zeroed] are the default methods of the trait, which
    call [alloc] and [dealloc]. All atomic accesses of the code are [Relaxed]: here an update is atomic, a load or a
    failed exchange returns any value that the location has had. *)
Require Import ZArith Lia Bool List.
From Verif Require Import Word.
Import ListNotations.
Open Scope Z_scope.

(** logging_allocator.rs:11-21; [peaks] and [largests] are all the values two of them have had, [held] is what the
    program owns: pointers and sizes. *)
Record shared := Shared { allocated : Z; peak : Z; total : Z; largest : Z; count : Z; peaks : list Z; largests : list Z; held : list (Z * Z) }.
(** What a thread does next. *)
Inductive thread :=
  | Idle
  | Alloc (size : Z)
  | AddAllocated (size ptr : Z)
  | AddTotal (size ptr old : Z)
  | AddCount (size ptr old : Z)
  | LoadPeak (size ptr old : Z)
  | MaxPeak (size ptr old prev : Z)
  | LoadLargest (size ptr : Z)
  | MaxLargest (size ptr prev : Z)
  | Return (size ptr : Z)
  | Dealloc (size ptr : Z)
  | SubAllocated (size ptr : Z).
(** What can be observed: calls and returns, and the pointers that the system gives *)
Inductive event :=
  | CallAlloc (size : Z) | Got (size : Z) | ReturnAlloc (size ptr : Z)
  | CallDealloc (size ptr : Z) | ReturnDealloc (size : Z).
(** logging_allocator.rs:33 *)
Definition reject : Z := 1000000000000.
(** A step of one thread. The program calls [dealloc] on a pointer it owns, with the size it asked for. *)
Inductive tstep : shared -> thread -> option event -> shared -> thread -> Prop :=
  (* logging_allocator.rs:75 *)
  | t_call a p t l n ps ls h size : 0 <= size < 2 ^ 64 -> tstep (Shared a p t l n ps ls h) Idle (Some (CallAlloc size)) (Shared a p t l n ps ls h) (Alloc size)
  (* logging_allocator.rs:98-105 *)
  | t_reject a p t l n ps ls h size : reject <= size -> tstep (Shared a p t l n ps ls h) (Alloc size) None (Shared a p t l n ps ls h) (Return size 0)
  (* logging_allocator.rs:106-107 *)
  | t_null a p t l n ps ls h size : size < reject -> tstep (Shared a p t l n ps ls h) (Alloc size) None (Shared a p t l n ps ls h) (Return size 0)
  | t_got a p t l n ps ls h size ptr : size < reject -> ptr <> 0 -> tstep (Shared a p t l n ps ls h) (Alloc size) (Some (Got size)) (Shared a p t l n ps ls h) (AddAllocated size ptr)
  (* logging_allocator.rs:110-112 *)
  | t_allocated a p t l n ps ls h size ptr : tstep (Shared a p t l n ps ls h) (AddAllocated size ptr) None (Shared ((a + size) mod 2 ^ 64) p t l n ps ls h) (AddTotal size ptr a)
  | t_total a p t l n ps ls h size ptr old : tstep (Shared a p t l n ps ls h) (AddTotal size ptr old) None (Shared a p ((t + size) mod 2 ^ 64) l n ps ls h) (AddCount size ptr old)
  | t_count a p t l n ps ls h size ptr old : tstep (Shared a p t l n ps ls h) (AddCount size ptr old) None (Shared a p t l ((n + 1) mod 2 ^ 64) ps ls h) (LoadPeak size ptr old)
  (* logging_allocator.rs:114, 129-138 [fetch_max] *)
  | t_load_peak a p t l n ps ls h size ptr old prev : In prev ps -> tstep (Shared a p t l n ps ls h) (LoadPeak size ptr old) None (Shared a p t l n ps ls h) (MaxPeak size ptr old prev)
  | t_peak_ok a p t l n ps ls h size ptr old : p < old -> tstep (Shared a p t l n ps ls h) (MaxPeak size ptr old p) None (Shared a old t l n (old :: ps) ls h) (LoadLargest size ptr)
  | t_peak_fail a p t l n ps ls h size ptr old prev next : prev < old -> In next ps -> tstep (Shared a p t l n ps ls h) (MaxPeak size ptr old prev) None (Shared a p t l n ps ls h) (MaxPeak size ptr old next)
  | t_peak_end a p t l n ps ls h size ptr old prev : old <= prev -> tstep (Shared a p t l n ps ls h) (MaxPeak size ptr old prev) None (Shared a p t l n ps ls h) (LoadLargest size ptr)
  (* logging_allocator.rs:115 *)
  | t_load_largest a p t l n ps ls h size ptr prev : In prev ls -> tstep (Shared a p t l n ps ls h) (LoadLargest size ptr) None (Shared a p t l n ps ls h) (MaxLargest size ptr prev)
  | t_largest_ok a p t l n ps ls h size ptr : l < size -> tstep (Shared a p t l n ps ls h) (MaxLargest size ptr l) None (Shared a p t size n ps (size :: ls) h) (Return size ptr)
  | t_largest_fail a p t l n ps ls h size ptr prev next : prev < size -> In next ls -> tstep (Shared a p t l n ps ls h) (MaxLargest size ptr prev) None (Shared a p t l n ps ls h) (MaxLargest size ptr next)
  | t_largest_end a p t l n ps ls h size ptr prev : size <= prev -> tstep (Shared a p t l n ps ls h) (MaxLargest size ptr prev) None (Shared a p t l n ps ls h) (Return size ptr)
  (* logging_allocator.rs:104, 117 *)
  | t_return a p t l n ps ls h size ptr : tstep (Shared a p t l n ps ls h) (Return size ptr) (Some (ReturnAlloc size ptr)) (Shared a p t l n ps ls (if ptr =? 0 then h else (ptr, size) :: h)) Idle
  (* logging_allocator.rs:120-123 *)
  | t_free a p t l n ps ls h1 h2 size ptr : tstep (Shared a p t l n ps ls (h1 ++ (ptr, size) :: h2)) Idle (Some (CallDealloc size ptr)) (Shared a p t l n ps ls (h1 ++ h2)) (Dealloc size ptr)
  | t_dealloc a p t l n ps ls h size ptr : tstep (Shared a p t l n ps ls h) (Dealloc size ptr) None (Shared a p t l n ps ls h) (SubAllocated size ptr)
  | t_sub a p t l n ps ls h size ptr : tstep (Shared a p t l n ps ls h) (SubAllocated size ptr) (Some (ReturnDealloc size)) (Shared ((a - size) mod 2 ^ 64) p t l n ps ls h) Idle.
Definition state : Type := shared * list thread.
Inductive step : state -> option event -> state -> Prop :=
  | step_thread s e s' l1 t t' l2 : tstep s t e s' t' -> step (s, l1 ++ t :: l2) e (s', l1 ++ t' :: l2).
(** logging_allocator.rs:28-40 [new] *)
Definition new : shared := Shared 0 0 0 0 0 [0] [0] [].
(** An execution: the last moment first, each with what was observed and the state after it *)
Inductive exec (n : nat) : list (option event * state) -> state -> Prop :=
  | exec_start : exec n [] (new, repeat Idle n)
  | exec_step tr s e s' : exec n tr s -> step s e s' -> exec n ((e, s') :: tr) s'.
