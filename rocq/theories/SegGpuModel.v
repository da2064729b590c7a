(** Model of the batch distance on the graphics card: SegDist_cuda and the host loop of
    SegDist_batch_gpu, /repo/src/geometry/SegDist.cu:116-141 and 172-227.  One pair of voxels (one
    block of threads) is followed; the blocks of other pairs write other cells.  The cell
    dist[batch_id] is shared by the threads of a block, which read and write it without any
    synchronisation; a thread is therefore two steps, interleaved arbitrarily with the others.
    Launches of the same stream run one after the other. *)
From Coq Require Import QArith List Bool Arith.
From Verif Require Import AabModel SegDistModel.
Import ListNotations.

(** SegDist.cu:209-216: the launches in order, as (cur_offset_1, cur_offset_2_start, dim2). *)
Definition block : nat := N.to_nat 1024%N.
Definition launches (max1 max2 : nat) : list (nat * nat * nat) :=
  flat_map (fun k => map (fun c1 => (c1, k * block, Nat.min (max2 - k * block) block)%nat) (seq 0 max1))
           (seq 0 ((max2 + (block - 1)) / block)).

(** SegDist.cu:119-129: the threads of a launch that do not return at once, as the pair
    (cur_offset_1, cur_offset_2) each works on. *)
Definition threads (size1 size2 : nat) (l : nat * nat * nat) : list (nat * nat) :=
  let '(c1, start, dim2) := l in
  if (size1 <=? c1)%nat then [] else map (pair c1) (filter (fun c2 => (c2 <? size2)%nat) (seq start dim2)).

(** SegDist.cu:136-140: a thread has not started, has read dist[batch_id], or has ended. *)
Inductive tst := Start | Loaded (v : dist_t) | Done.

(** SegDist.cu:136-140: the state of one thread changes. *)
Fixpoint set_at {A} (l : list A) (i : nat) (x : A) : list A :=
  match l, i with
  | [], _ => []
  | _ :: l, O => x :: l
  | y :: l, S i => y :: set_at l i x
  end.

(** One step of one thread of a launch; [d] is what SegDist_kernel returns for a pair.  The first
    disjunct of SegDist.cu:138 makes the thread of the pair (0, 0) write without reading. *)
Inductive tstep (d : nat * nat -> dist_t) (ths : list (nat * nat)) : dist_t * list tst -> dist_t * list tst -> Prop :=
| ts_first i cell st : nth_error ths i = Some (0, 0)%nat -> nth_error st i = Some Start ->
    tstep d ths (cell, st) (d (0, 0)%nat, set_at st i Done)
| ts_load i p cell st : nth_error ths i = Some p -> p <> (0, 0)%nat -> nth_error st i = Some Start ->
    tstep d ths (cell, st) (cell, set_at st i (Loaded cell))
| ts_store i p v cell st : nth_error ths i = Some p -> nth_error st i = Some (Loaded v) ->
    tstep d ths (cell, st) (if dlt (d p) v then d p else cell, set_at st i Done).

(** SegDist.cu:128-141: any number of steps of the threads of a launch. *)
Inductive tsteps d ths : dist_t * list tst -> dist_t * list tst -> Prop :=
| tss_nil s : tsteps d ths s s
| tss_cons s s' s'' : tstep d ths s s' -> tsteps d ths s' s'' -> tsteps d ths s s''.

(** A launch runs until all its threads have ended. *)
Definition launch_run (d : nat * nat -> dist_t) (ths : list (nat * nat)) (cell cell' : dist_t) : Prop :=
  tsteps d ths (cell, repeat Start (length ths)) (cell', repeat Done (length ths)).

(** All launches one after the other. *)
Inductive batch_run (d : nat * nat -> dist_t) (size1 size2 : nat) : list (nat * nat * nat) -> dist_t -> dist_t -> Prop :=
| br_nil cell : batch_run d size1 size2 [] cell cell
| br_cons l ls cell cell' cell'' : launch_run d (threads size1 size2 l) cell cell' ->
    batch_run d size1 size2 ls cell' cell'' -> batch_run d size1 size2 (l :: ls) cell cell''.

(** SegDist.cu:130-134 and 160-166: the distance of a pair of segments of the two buffers. *)
Definition kernel_dist (data1 data2 : list Q) (p : nat * nat) : dist_t :=
  let '(i, j) := p in
  SegDist_kernel (vec_at data1 (i * 6)) (vec_at data2 (j * 6))
    (vsub (vec_at data1 (i * 6 + 3)) (vec_at data1 (i * 6))) (vsub (vec_at data2 (j * 6 + 3)) (vec_at data2 (j * 6))).

(** A whole batch for one pair of voxels; [garbage] is what the memory held before. *)
Definition gpu_batch (data1 data2 : list Q) (size1 size2 max1 max2 : nat) (garbage result : dist_t) : Prop :=
  batch_run (kernel_dist data1 data2) size1 size2 (launches max1 max2) garbage result.
