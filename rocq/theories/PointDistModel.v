(** Model of the distances between points: /repo/src/spatial/spatial.h:60-76 (distance, mdistance) and
    /repo/src/PPMC/mymesh.h:533-539 (get_distance).  Exact rationals; rounding is left out. *)
From Coq Require Import List QArith Qabs.
Import ListNotations.
Open Scope Q_scope.

(** A point, its coordinates 0, 1, 2. *)
Definition point := nat -> Q.
(** spatial.h:60-66 distance. *)
Definition distance (p1 p2 : point) : Q :=
  fold_left (fun dist i => dist + (p2 i - p1 i) * (p2 i - p1 i)) [0; 1; 2]%nat 0.
(** spatial.h:69-75 mdistance. *)
Definition mdistance (p1 p2 : point) : Q :=
  fold_left (fun dist i => dist + Qabs (p2 i - p1 i)) [0; 1; 2]%nat 0.
(** mymesh.h:533-539 get_distance. *)
Definition get_distance (p1 p2 : point) : Q :=
  fold_left (fun dist i => dist + (p2 i - p1 i) * (p2 i - p1 i)) [0; 1; 2]%nat 0.
