(** Model of the sharing of the graphics cards among threads:
    /repo/src/geometry/geometry_computer.cpp:46-73 request_gpu and release_gpu with their callers
    82-99 (always force = true), and gpu_info of mygpu.h:18-25.

    Each read or write of a shared variable is one step, and steps of threads interleave in any
    order (sequential consistency; busy is a plain bool that is also read outside the lock, for
    which the C++ standard gives no such guarantee). *)
From Coq Require Import List ZArith Bool Arith.
Import ListNotations.
Open Scope Z_scope.

(** geometry_computer.cpp:83 and 92: the memory asked for, in megabytes; cc.data_size is a 32 bit
    unsigned, k is 6 for segments and 9 for triangles, so the first product is cut to 32 bits
    before it is multiplied by sizeof(float). *)
Definition wanted (k data_size : Z) : Z := (data_size * k mod 2 ^ 32) * 4 / 1024 / 1024.

(** Where a thread is: outside; at the test of device i (56); before and after
    pthread_mutex_lock (57); about to set busy (59); about to unlock after a failed test (62);
    computing (85, 94); between the two statements of release_gpu (71-72). *)
Inductive pc := Idle | Scan (i : nat) | WantLock (i : nat) | Check (i : nat) | SetBusy (i : nat) | GiveUp (i : nat) | Use (i : nat) | Clear (i : nat).

(** A thread: where, the size asked for by the current request, the requests to come. *)
Record thr := Th { t_pc : pc; t_size : Z; t_todo : list Z }.
(** The fields lock (the holder) and busy of each gpu_info, and the threads. *)
Record st := St { locks : nat -> option nat; busy : nat -> bool; thrs : nat -> thr }.

(** geometry_computer.cpp:57-62, 71-72: assignment to a field of one device or thread. *)
Definition setf {A} (f : nat -> A) (i : nat) (x : A) : nat -> A := fun j => if Nat.eqb j i then x else f j.

(** [mem] is mem_size of each device, a size_t; min_size + 1 is an int that is compared as size_t.
    The test 56: not busy and enough memory. *)
Definition fits (m size : Z) : bool := size + 1 <? m.

(** geometry_computer.cpp:50-73: one step of one thread; the numbers are lines. *)
Inductive step (mem : list Z) : st -> st -> Prop :=
| s_request l b ts t size s todo : ts t = Th Idle size (s :: todo) ->
    step mem (St l b ts) (St l b (setf ts t (Th (Scan 0) s todo)))
(* 55, 65: past the last device, once more from the first *)
| s_again l b ts t i size todo : ts t = Th (Scan i) size todo -> nth_error mem i = None ->
    step mem (St l b ts) (St l b (setf ts t (Th (Scan 0) size todo)))
(* 56 *)
| s_skip l b ts t i size todo m : ts t = Th (Scan i) size todo -> nth_error mem i = Some m ->
    negb (b i) && fits m size = false ->
    step mem (St l b ts) (St l b (setf ts t (Th (Scan (S i)) size todo)))
| s_try l b ts t i size todo m : ts t = Th (Scan i) size todo -> nth_error mem i = Some m ->
    negb (b i) && fits m size = true ->
    step mem (St l b ts) (St l b (setf ts t (Th (WantLock i) size todo)))
(* 57 *)
| s_lock l b ts t i size todo : ts t = Th (WantLock i) size todo -> l i = None ->
    step mem (St l b ts) (St (setf l i (Some t)) b (setf ts t (Th (Check i) size todo)))
(* 58 *)
| s_free l b ts t i size todo : ts t = Th (Check i) size todo -> b i = false ->
    step mem (St l b ts) (St l b (setf ts t (Th (SetBusy i) size todo)))
| s_taken l b ts t i size todo : ts t = Th (Check i) size todo -> b i = true ->
    step mem (St l b ts) (St l b (setf ts t (Th (GiveUp i) size todo)))
(* 59-60 *)
| s_set l b ts t i size todo : ts t = Th (SetBusy i) size todo ->
    step mem (St l b ts) (St l (setf b i true) (setf ts t (Th (Use i) size todo)))
(* 62 *)
| s_giveup l b ts t i size todo : ts t = Th (GiveUp i) size todo ->
    step mem (St l b ts) (St (setf l i None) b (setf ts t (Th (Scan (S i)) size todo)))
(* 71 *)
| s_unlock l b ts t i size todo : ts t = Th (Use i) size todo ->
    step mem (St l b ts) (St (setf l i None) b (setf ts t (Th (Clear i) size todo)))
(* 72 *)
| s_clear l b ts t i size todo : ts t = Th (Clear i) size todo ->
    step mem (St l b ts) (St l (setf b i false) (setf ts t (Th Idle size todo))).

(** geometry_computer.cpp:50-73: any number of steps of any threads. *)
Inductive steps (mem : list Z) : st -> st -> Prop :=
| steps_refl s : steps mem s s
| steps_next s s' s'' : step mem s s' -> steps mem s' s'' -> steps mem s s''.

(** Nobody has asked for anything yet; get_gpus (cuda_common.cu) sets busy to false. *)
Definition start (todo : nat -> list Z) : st := St (fun _ => None) (fun _ => false) (fun t => Th Idle 0 (todo t)).

(** SegDist.cu:189-204: where the parts of a batch of [n] segments and [p] pairs lie in the memory
    of the device, each with its first byte and the bytes written: the segments, their vectors, the
    results, the offsets and sizes. The places are computed with size_t; the lengths copied
    (segment_num*6, pair_num*4) are first cut to 32 bits. *)
Definition seg_parts (n p : Z) : list (Z * Z) :=
  let vec := 6 * 4 * n in
  let dist := vec + 3 * 4 * n in
  let os := dist + 4 * p in
  [(0, n * 6 mod 2 ^ 32 * 4); (vec, 3 * 4 * n); (dist, 4 * p); (os, p * 4 mod 2 ^ 32 * 4)].

(** TriInt.cu:322-332: the same for a batch of [n] triangles and [p] pairs; here 9*triangle_num is
    cut to 32 bits too. *)
Definition tri_parts (n p : Z) : list (Z * Z) :=
  let inter := 9 * n mod 2 ^ 32 * 4 in
  let os := inter + 4 * p in
  [(0, n * 9 mod 2 ^ 32 * 4); (inter, 4 * p); (os, p * 4 mod 2 ^ 32 * 4)].

(** cuda_common.cu:27-32: the megabytes of a device of which [total] bytes are installed. *)
Definition mem_size (total : Z) : Z := let m := total / 1024 / 1024 * 4 / 5 in if 2048 <? m then 2048 else m.
