(** Model of a whole batch of distances on the graphics card: get_vector_kernel, SegDist_cuda for all
    pairs of voxels at once and the host side of SegDist_batch_gpu,
    /repo/src/geometry/SegDist.cu:116-141 and 159-227.  One pair followed by itself is SegGpuModel. *)
From Coq Require Import QArith List Bool Arith.
From Verif Require Import AabModel SegDistModel SegGpuModel TriIntModel.
Import ListNotations.
Open Scope nat_scope.

(** SegDist.cu:178-187: the largest sizes among the pairs. *)
Definition max_sizes (os : list nat) (pair_num : nat) : nat * nat :=
  fold_left (fun m i => (if fst m <? os_at os (i * 4 + 1) then os_at os (i * 4 + 1) else fst m,
                         if snd m <? os_at os (i * 4 + 3) then os_at os (i * 4 + 3) else snd m)) (seq 0 pair_num) (0, 0).

(** SegDist.cu:157-163 get_vector_kernel, one thread; VmV_d writes three cells. *)
Definition vector_thread (data : list Q) (segment_num : nat) (vec : list Q) (id : nat) : list Q :=
  if id <? segment_num then
    let v := vsub (vec_at data (id * 6 + 3)) (vec_at data (id * 6)) in
    set_at (set_at (set_at vec (id * 3) (v AX)) (id * 3 + 1) (v AY)) (id * 3 + 2) (v AZ)
  else vec.
(** SegDist.cu:210: the threads of the grid, in some order; each writes cells of its own. *)
Definition fill_vectors (data : list Q) (segment_num : nat) (order : list nat) (vec : list Q) : list Q :=
  fold_left (vector_thread data segment_num) order vec.

(** SegDist.cu:130-137: what the thread of pair [k] for the segments [p] computes; the products of
    unsigned numbers are taken as exact. *)
Definition thread_dist (data vec : list Q) (os : list nat) (k : nat) (p : nat * nat) : dist_t :=
  let s := os_at os (k * 4) + fst p in
  let t := os_at os (k * 4 + 2) + snd p in
  SegDist_kernel (vec_at data (6 * s)) (vec_at data (6 * t)) (vec_at vec (3 * s)) (vec_at vec (3 * t)).
(** SegDist.cu:119-129: the threads of block [k] in a launch that do not return at once. *)
Definition block_threads (os : list nat) (l : nat * nat * nat) (k : nat) : list (nat * nat) :=
  threads (os_at os (k * 4 + 1)) (os_at os (k * 4 + 3)) l.

(** A step of any thread of any block: cell [k] of dist belongs to block [k]. *)
Inductive gstep (d : nat -> nat * nat -> dist_t) (ths : nat -> list (nat * nat)) : list dist_t * list (list tst) -> list dist_t * list (list tst) -> Prop :=
| gs k cells sts c st c' st' : nth_error cells k = Some c -> nth_error sts k = Some st ->
    tstep (d k) (ths k) (c, st) (c', st') -> gstep d ths (cells, sts) (set_at cells k c', set_at sts k st').
Inductive gsteps d ths : list dist_t * list (list tst) -> list dist_t * list (list tst) -> Prop :=
| gss_nil s : gsteps d ths s s
| gss_cons s s' s'' : gstep d ths s s' -> gsteps d ths s' s'' -> gsteps d ths s s''.
(** SegDist.cu:216: a launch runs until all threads of all [n] blocks have ended. *)
Definition grid_run (n : nat) (d : nat -> nat * nat -> dist_t) (ths : nat -> list (nat * nat)) (cells cells' : list dist_t) : Prop :=
  gsteps d ths (cells, map (fun k => repeat Start (length (ths k))) (seq 0 n)) (cells', map (fun k => repeat Done (length (ths k))) (seq 0 n)).
(** SegDist.cu:213-220: launches of the same stream run one after the other. *)
Inductive grids_run (n : nat) (d : nat -> nat * nat -> dist_t) (ths : nat * nat * nat -> nat -> list (nat * nat)) : list (nat * nat * nat) -> list dist_t -> list dist_t -> Prop :=
| gr_nil cells : grids_run n d ths [] cells cells
| gr_cons l ls cells cells' cells'' : grid_run n d (ths l) cells cells' -> grids_run n d ths ls cells' cells'' -> grids_run n d ths (l :: ls) cells cells''.

(** SegDist.cu:172-226 SegDist_batch_gpu: [order] is the order of the threads that make the vectors,
    [vec] and [dist] what the memory of the card holds before. *)
Definition SegDist_batch_gpu (data : list Q) (os : list nat) (pair_num segment_num : nat) (order : list nat) (vec : list Q) (dist result : list dist_t) : Prop :=
  let m := max_sizes os pair_num in
  grids_run pair_num (thread_dist data (fill_vectors data segment_num order vec) os) (block_threads os) (launches (fst m) (snd m)) dist result.
