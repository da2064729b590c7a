(** Model of the boxes that get_boxes writes, /repo/src/test/get_boxes.cpp:28-35, for the voxels of VoxelModel.  Exact rationals. *)
From Coq Require Import QArith List.
From Verif Require Import AabModel VoxelModel.
Import ListNotations.

(** get_boxes.cpp:30-34: the common box; updating with the default box (aab.h:56-61, 94-103) changes nothing. *)
Definition common_box (vs : list voxel) : option aab :=
  fold_left (fun b v => match v_box v with Some c => acc_box b c | None => b end) vs None.
(** get_boxes.cpp:30-35: the boxes written one after the other, [None] is the default box; the number of each voxel is part of its
    file name, the last one goes to aab.off. *)
Definition boxes_written (vs : list voxel) : list (option aab) := map v_box vs ++ [common_box vs].
