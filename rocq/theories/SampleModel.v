(** Model of the parallel extraction of voxels from sampled lines: /repo/src/partition/partition.cpp:21-146.
    Memory is sequentially consistent; every access to a shared variable is one step.  [A] is the type of
    lines, [box] what lines 57-66 add to the local list for a line ([[]] if get_mesh yields NULL).  Progress
    reports and the sleeping are left out, a waiting loop is a step that is not enabled. *)
From Coq Require Import List Bool Arith.
From Verif Require Import Arr.
Import ListNotations.

(** partition.cpp:21 LOCAL_QUEUE_SIZE *)
Definition local_queue : nat := 10.

(** get_mbbs_unit, partition.cpp:31-76: [UComplete], [UEmpty] the two reads of line 39, [UWant] line 42,
    [UFetch i] the loop of lines 43-49 under the lock, [UProcess] lines 51-68, [UWantInsert] line 71, [UInsert]
    lines 72-74 under the lock, [UDone] line 75. *)
Inductive upc := UComplete | UEmpty | UWant | UFetch (i : nat) | UProcess | UWantInsert | UInsert | UDone.
(** [u_lines]: local_input_lines, [u_vox]: local_voxels. *)
Record unit_ (A V : Type) := Unit_ { u_pc : upc; u_lines : list A; u_vox : list V }.
Arguments Unit_ {A V}. Arguments u_pc {A V}. Arguments u_lines {A V}. Arguments u_vox {A V}.

(** get_voxels, partition.cpp:111-145: [RNext] getline and the sampling, [RLock] line 123, [RPush] lines 124-126
    under the lock, [RWait] line 131, [RJoin] after line 140. *)
Inductive rpc (A : Type) := RNext | RLock | RPush (todo : list A) | RWait | RJoin.
Arguments RNext {A}. Arguments RLock {A}. Arguments RPush {A}. Arguments RWait {A}. Arguments RJoin {A}.

(** [r_input]: the lines of all files in order, each with the outcome of get_rand_sample (line 115).
    [r_buf]: the local buffer of line 106; [r_queue]: input_lines; [r_out]: voxels. *)
Record sstate (A V : Type) := R { r_main : rpc A; r_input : list (A * bool); r_buf : list A; r_queue : list A; r_complete : bool; r_us : list (unit_ A V); r_out : list V }.
Arguments R {A V}. Arguments r_main {A V}. Arguments r_input {A V}. Arguments r_buf {A V}. Arguments r_queue {A V}. Arguments r_complete {A V}. Arguments r_us {A V}. Arguments r_out {A V}.

(** Who holds the mutex. *)
Definition holding {A V} (u : unit_ A V) : bool := match u_pc u with UFetch _ | UInsert => true | _ => false end.
Definition pushing {A} (m : rpc A) : bool := match m with RPush _ => true | _ => false end.
Definition mutex_free {A V} (m : rpc A) (us : list (unit_ A V)) : bool := negb (pushing m) && negb (existsb holding us).

(** The main thread, partition.cpp:111-140. *)
Inductive reader_step {A V : Type} (num_threads : nat) : sstate A V -> sstate A V -> Prop :=
| r_skip l r b q c us o : reader_step num_threads (R RNext ((l, false) :: r) b q c us o) (R RNext r b q c us o)
| r_full l r b q c us o : length (b ++ [l]) = local_queue -> reader_step num_threads (R RNext ((l, true) :: r) b q c us o) (R RLock r (b ++ [l]) q c us o)
| r_keep l r b q c us o : length (b ++ [l]) <> local_queue -> reader_step num_threads (R RNext ((l, true) :: r) b q c us o) (R RWait r (b ++ [l]) q c us o)
| r_lock r b q c us o : mutex_free (@RLock A) us = true -> reader_step num_threads (R RLock r b q c us o) (R (RPush b) r b q c us o)
| r_push x t r b q c us o : reader_step num_threads (R (RPush (x :: t)) r b q c us o) (R (RPush t) r b (q ++ [x]) c us o)
| r_unlock r b q c us o : reader_step num_threads (R (RPush []) r b q c us o) (R RWait r [] q c us o)
| r_wait r b q c us o : length q <= num_threads * local_queue -> reader_step num_threads (R RWait r b q c us o) (R RNext r b q c us o)
| r_eof b q c us o : reader_step num_threads (R RNext [] b q c us o) (R RJoin [] b q true us o).

(** A worker seen from its own variables, partition.cpp:39-75: it reads [complete], the queue and whether the mutex
    is free, and yields its new variables, the new queue and what it adds to the result. *)
Inductive unit_step {A V : Type} (box : A -> list V) (complete free : bool) : unit_ A V -> list A -> unit_ A V -> list A -> list V -> Prop :=
| u_more l v q : complete = false -> unit_step box complete free (Unit_ UComplete l v) q (Unit_ UWant l v) q []
| u_last l v q : complete = true -> unit_step box complete free (Unit_ UComplete l v) q (Unit_ UEmpty l v) q []
| u_rest l v x q : unit_step box complete free (Unit_ UEmpty l v) (x :: q) (Unit_ UWant l v) (x :: q) []
| u_end l v : unit_step box complete free (Unit_ UEmpty l v) [] (Unit_ UWantInsert l v) [] []
| u_lock l v q : free = true -> unit_step box complete free (Unit_ UWant l v) q (Unit_ (UFetch 0) l v) q []
| u_fetch i l v x q : i < local_queue -> unit_step box complete free (Unit_ (UFetch i) l v) (x :: q) (Unit_ (UFetch (S i)) (l ++ [x]) v) q []
| u_break i l v : i < local_queue -> unit_step box complete free (Unit_ (UFetch i) l v) [] (Unit_ UProcess l v) [] []
| u_enough i l v q : local_queue <= i -> unit_step box complete free (Unit_ (UFetch i) l v) q (Unit_ UProcess l v) q []
| u_process x l v q : unit_step box complete free (Unit_ UProcess (x :: l) v) q (Unit_ UProcess l (v ++ box x)) q []
| u_again v q : unit_step box complete free (Unit_ UProcess [] v) q (Unit_ UComplete [] v) q []
| u_lock2 l v q : free = true -> unit_step box complete free (Unit_ UWantInsert l v) q (Unit_ UInsert l v) q []
| u_insert l v q : unit_step box complete free (Unit_ UInsert l v) q (Unit_ UDone l []) q v.

(** The whole program: any thread may move. *)
Inductive sstep {A V : Type} (box : A -> list V) (num_threads : nat) : sstate A V -> sstate A V -> Prop :=
| s_reader g g' : reader_step num_threads g g' -> sstep box num_threads g g'
| s_unit i u u' q q' add m r b c us o : nth_error us i = Some u -> unit_step box c (mutex_free m us) u q u' q' add ->
    sstep box num_threads (R m r b q c us o) (R m r b q' c (upd us i u') (o ++ add)).
Inductive ssteps {A V : Type} (box : A -> list V) (num_threads : nat) : sstate A V -> sstate A V -> Prop :=
| ss_refl g : ssteps box num_threads g g
| ss_step g g1 g2 : sstep box num_threads g g1 -> ssteps box num_threads g1 g2 -> ssteps box num_threads g g2.

(** partition.cpp:80-107: the start; 141-145: all workers joined. *)
Definition sinit {A V} (input : list (A * bool)) (n : nat) : sstate A V := R RNext input [] [] false (repeat (Unit_ UComplete [] []) n) [].
Definition sfinal {A V} (g : sstate A V) : Prop := r_main g = RJoin /\ Forall (fun u => u_pc u = UDone) (r_us g).
