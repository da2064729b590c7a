(** Model of the parallel compressor: /repo/src/test/compress.cpp:32-183.  One main thread hands out
    lines through the shared arrays processing_line and is_working, the workers compress and write under
    output_lock.  Memory is sequentially consistent; every access to a shared variable is one step.
    [A] is the type of input lines, [record] the bytes flush_mesh_buffer writes for the object made
    from a line (compress.cpp:47-56); compressing itself is not modelled here.  The lock taken around
    the log message (lines 67-69) and the progress report are left out. *)
From Coq Require Import List Bool Arith.
From Verif Require Import Arr.
Import ListNotations.

(** compress.cpp:34-41 the shared variables of one worker and its position in mycompress:
    [CheckStop], [CheckWork]: the two reads of line 76, [BodyCheck]: line 77, [Compress]: lines 81-86,
    [MaybeFlush]: line 88, [WantLock]/[Writing]: flush_mesh_buffer (lines 45-59, with the bytes still to
    be written), [ClearLine], [ClearWork]: lines 91, 92, [Done]: after line 95.  The flag of [WantLock]
    and [Writing] tells the last flush (line 95) from the one inside the loop (line 89). *)
Inductive wpc (B : Type) := CheckStop | CheckWork | BodyCheck | Compress | MaybeFlush | WantLock (last : bool) | Writing (last : bool) (todo : list B) | ClearLine | ClearWork | Done.
Arguments CheckStop {B}. Arguments CheckWork {B}. Arguments BodyCheck {B}. Arguments Compress {B}. Arguments MaybeFlush {B}.
Arguments WantLock {B}. Arguments Writing {B}. Arguments ClearLine {B}. Arguments ClearWork {B}. Arguments Done {B}.
(** [w_line]: processing_line[id], [None] when cleared.  [w_buf]: mesh_buffer with the voxels, by line. *)
Record worker (A B : Type) := Worker { w_pc : wpc B; w_working : bool; w_line : option A; w_buf : list A }.
Arguments Worker {A B}. Arguments w_pc {A B}. Arguments w_working {A B}. Arguments w_line {A B}. Arguments w_buf {A B}.

(** The main thread: [Next] line 142 getline, [Scan] the test of line 146 for worker i, [Assign] line 147,
    [SetWork] line 148, [CheckMax] lines 159-166, [SetStop] line 168, [Joining] lines 170-173. *)
Inductive mpc (A : Type) := Next | Scan (i : nat) (l : A) | Assign (i : nat) (l : A) | SetWork (i : nat) (l : A) | CheckMax | SetStop | Joining.
Arguments Next {A}. Arguments Scan {A}. Arguments Assign {A}. Arguments SetWork {A}. Arguments CheckMax {A}. Arguments SetStop {A}. Arguments Joining {A}.

(** [g_log] is not part of the program: who compressed which line, in order. *)
Record gstate (A B : Type) := G { g_main : mpc A; g_input : list A; g_count : nat; g_stop : bool; g_ws : list (worker A B); g_out : list B; g_log : list (nat * A) }.
Arguments G {A B}. Arguments g_main {A B}. Arguments g_input {A B}. Arguments g_count {A B}. Arguments g_stop {A B}. Arguments g_ws {A B}. Arguments g_out {A B}. Arguments g_log {A B}.

(** output_lock is free when nobody is writing. *)
Definition is_writing {A B} (w : worker A B) : bool := match w_pc w with Writing _ _ => true | _ => false end.
Definition lock_free {A B} (ws : list (worker A B)) : bool := negb (existsb is_writing ws).

(** One step of the main thread, compress.cpp:142-173.  [maximum] is maximum_lines. *)
Inductive main_step {A B : Type} (maximum : nat) : gstate A B -> gstate A B -> Prop :=
| m_getline l rest c s ws o lg : main_step maximum (G Next (l :: rest) c s ws o lg) (G (Scan 0 l) rest c s ws o lg)
| m_eof c s ws o lg : main_step maximum (G Next [] c s ws o lg) (G SetStop [] c s ws o lg)
| m_busy i l w inp c s ws o lg : nth_error ws i = Some w -> w_working w = true ->
    main_step maximum (G (Scan i l) inp c s ws o lg) (G (Scan (S i) l) inp c s ws o lg)
| m_again i l inp c s ws o lg : nth_error ws i = None -> main_step maximum (G (Scan i l) inp c s ws o lg) (G (Scan 0 l) inp c s ws o lg)
| m_free i l w inp c s ws o lg : nth_error ws i = Some w -> w_working w = false ->
    main_step maximum (G (Scan i l) inp c s ws o lg) (G (Assign i l) inp c s ws o lg)
| m_assign i l w inp c s ws o lg : nth_error ws i = Some w ->
    main_step maximum (G (Assign i l) inp c s ws o lg) (G (SetWork i l) inp c s (upd ws i (Worker (w_pc w) (w_working w) (Some l) (w_buf w))) o lg)
| m_set i l w inp c s ws o lg : nth_error ws i = Some w ->
    main_step maximum (G (SetWork i l) inp c s ws o lg) (G CheckMax inp (S c) s (upd ws i (Worker (w_pc w) true (w_line w) (w_buf w))) o lg)
| m_more inp c s ws o lg : c <> maximum -> main_step maximum (G CheckMax inp c s ws o lg) (G Next inp c s ws o lg)
| m_enough inp c s ws o lg : c = maximum -> main_step maximum (G CheckMax inp c s ws o lg) (G SetStop inp c s ws o lg)
| m_stop inp c s ws o lg : main_step maximum (G SetStop inp c s ws o lg) (G Joining inp c true ws o lg).

(** One step of a worker, compress.cpp:65-99, seen from its own variables: it reads [stop] and whether the
    lock is free, and yields its new variables, the bytes appended to the output file and the lines
    compressed.  [queue_size] is QUEUE_SIZE. *)
Inductive local_step {A B : Type} (record : A -> list B) (queue_size : nat) (stop free : bool) : worker A B -> worker A B -> list B -> list A -> Prop :=
| w_go k l b : stop = false -> local_step record queue_size stop free (Worker CheckStop k l b) (Worker BodyCheck k l b) [] []
| w_stop k l b : stop = true -> local_step record queue_size stop free (Worker CheckStop k l b) (Worker CheckWork k l b) [] []
| w_yes l b : local_step record queue_size stop free (Worker CheckWork true l b) (Worker BodyCheck true l b) [] []
| w_no l b : local_step record queue_size stop free (Worker CheckWork false l b) (Worker (WantLock true) false l b) [] []
| w_idle l b : local_step record queue_size stop free (Worker BodyCheck false l b) (Worker CheckStop false l b) [] []
| w_busy l b : local_step record queue_size stop free (Worker BodyCheck true l b) (Worker Compress true l b) [] []
| w_compress k l b : local_step record queue_size stop free (Worker Compress k (Some l) b) (Worker MaybeFlush k (Some l) (b ++ [l])) [] [l]
| w_full k l b : queue_size <= length b -> local_step record queue_size stop free (Worker MaybeFlush k l b) (Worker (WantLock false) k l b) [] []
| w_room k l b : length b < queue_size -> local_step record queue_size stop free (Worker MaybeFlush k l b) (Worker ClearLine k l b) [] []
| w_lock last k l b : free = true -> local_step record queue_size stop free (Worker (WantLock last) k l b) (Worker (Writing last (flat_map record b)) k l b) [] []
| w_write last x r k l b : local_step record queue_size stop free (Worker (Writing last (x :: r)) k l b) (Worker (Writing last r) k l b) [x] []
| w_unlock k l b : local_step record queue_size stop free (Worker (Writing false []) k l b) (Worker ClearLine k l []) [] []
| w_finish k l b : local_step record queue_size stop free (Worker (Writing true []) k l b) (Worker Done k l []) [] []
| w_clear k l b : local_step record queue_size stop free (Worker ClearLine k l b) (Worker ClearWork k None b) [] []
| w_ready k l b : local_step record queue_size stop free (Worker ClearWork k l b) (Worker CheckStop false l b) [] [].

(** The whole program: any thread may move. *)
Inductive cstep {A B : Type} (record : A -> list B) (queue_size maximum : nat) : gstate A B -> gstate A B -> Prop :=
| c_main g g' : main_step maximum g g' -> cstep record queue_size maximum g g'
| c_worker i w w' out ls m inp c s ws o lg : nth_error ws i = Some w -> local_step record queue_size s (lock_free ws) w w' out ls ->
    cstep record queue_size maximum (G m inp c s ws o lg) (G m inp c s (upd ws i w') (o ++ out) (lg ++ map (pair i) ls)).
Inductive csteps {A B : Type} (record : A -> list B) (queue_size maximum : nat) : gstate A B -> gstate A B -> Prop :=
| cs_refl g : csteps record queue_size maximum g g
| cs_step g g1 g2 : cstep record queue_size maximum g g1 -> csteps record queue_size maximum g1 g2 -> csteps record queue_size maximum g g2.

(** compress.cpp:121-139: the start, with n workers. *)
Definition cinit {A B} (lines : list A) (n : nat) : gstate A B := G Next lines 0 false (repeat (Worker CheckStop false None []) n) [] [].
(** The end: main has joined all workers. *)
Definition cfinal {A B} (g : gstate A B) : Prop := g_main g = Joining /\ Forall (fun w => w_pc w = Done) (g_ws g).
