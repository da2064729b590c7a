(** Model of the sharing of the processor: /repo/src/geometry/geometry_computer.cpp:24-40 request_cpu and
    release_cpu.  Nothing in the repository calls them (144 is a comment).

    Each read or write of a shared variable is one step, and steps of threads interleave in any
    order (sequential consistency; cpu_busy is a plain bool that is also read outside the lock, for
    which the C++ standard gives no such guarantee). *)
From Coq Require Import List Bool Arith.
Import ListNotations.

(** Where a thread is: outside; before pthread_mutex_lock (26); at the second test (27); about to set
    cpu_busy (28); about to unlock and answer false (31); computing, having got true (29); between the
    two statements of release_cpu (38-39). *)
Inductive place := Out | WantLock | Check | SetBusy | GiveUp | Use | Unlock.
(** geometry.h: cpu_lock (its holder) and cpu_busy, and the threads. *)
Record st := St { lock : option nat; busy : bool; thrs : nat -> place }.

(** geometry_computer.cpp:24-40: assignment to one thread. *)
Definition setp (f : nat -> place) (t : nat) (p : place) : nat -> place := fun j => if Nat.eqb j t then p else f j.

(** geometry_computer.cpp:24-40: one step of thread [t]; the numbers are lines. *)
Inductive step (t : nat) : st -> st -> Prop :=
(* 25, 34: false at once *)
| s_no l ts : ts t = Out -> step t (St l true ts) (St l true (setp ts t Out))
| s_try l ts : ts t = Out -> step t (St l false ts) (St l false (setp ts t WantLock))
(* 26 *)
| s_lock b ts : ts t = WantLock -> step t (St None b ts) (St (Some t) b (setp ts t Check))
(* 27 *)
| s_free l ts : ts t = Check -> step t (St l false ts) (St l false (setp ts t SetBusy))
| s_taken l ts : ts t = Check -> step t (St l true ts) (St l true (setp ts t GiveUp))
(* 28-29 *)
| s_set l b ts : ts t = SetBusy -> step t (St l b ts) (St l true (setp ts t Use))
(* 31, 34 *)
| s_giveup l b ts : ts t = GiveUp -> step t (St l b ts) (St None b (setp ts t Out))
(* 38 *)
| s_clear l b ts : ts t = Use -> step t (St l b ts) (St l false (setp ts t Unlock))
(* 39 *)
| s_unlock l b ts : ts t = Unlock -> step t (St l b ts) (St None b (setp ts t Out)).

(** geometry_computer.cpp:24-40: any number of steps of any threads. *)
Inductive steps : st -> st -> Prop :=
| steps_refl s : steps s s
| steps_next s s' s'' t : steps s s' -> step t s' s'' -> steps s s''.

(** geometry.h:124-126 and the constructor (138-141): not busy, the lock free. *)
Definition start : st := St None false (fun _ => Out).
