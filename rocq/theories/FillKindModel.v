(** Model of asking the same object for its segments and for its triangles: /repo/src/spatial/himesh.cpp:340-423
    (fill_voxel), 540-547 (fill_voxels), 329-336 (advance_to), /repo/src/spatial/himesh.h:49-71 and 181-187 (reset),
    /repo/src/join/SpatialJoin.cpp:381-384 and 734-739 (the copies a join makes of what a voxel holds). *)
From Coq Require Import List Arith ZArith Bool.
Import ListNotations.
Close Scope Z_scope.
Open Scope nat_scope.

(** himesh.h:73-76 data_type. *)
Inductive kind := Segments | Triangles.
(** himesh.cpp:355 and 360: the floats of one datum. *)
Definition width (k : kind) : nat := match k with Segments => 6 | Triangles => 9 end.
(** Coordinates; only copied here. *)
Definition floats : Type := list Z.
(** What fill_segments and fill_triangles (himesh.cpp:231-283) give at a level, one list of floats for each datum, and the
    voxel a datum is nearest to (himesh.cpp:387-402, modelled in VoxelModel). *)
Record source := Source { data_of : kind -> nat -> list floats; near : floats -> nat }.
(** himesh.h:58-59: the entries of [size] and [data] at one level; [None] is NULL. *)
Record cell := Cell { c_size : nat; c_data : option floats }.
(** The maps of one voxel. *)
Definition voxel : Type := list (nat * cell).
(** A wrapper with its mesh decoded: i_decompPercentage and the voxels. *)
Record object := Object { o_level : nat; o_voxels : list voxel }.

(** std::map::find. *)
Fixpoint find_level (l : nat) (v : voxel) : option cell :=
  match v with [] => None | (x, c) :: r => if x =? l then Some c else find_level l r end.
(** std::map::operator[] followed by an assignment. *)
Fixpoint put_level (l : nat) (c : cell) (v : voxel) : voxel :=
  match v with [] => [(l, c)] | (x, d) :: r => if x =? l then (x, c) :: r else (x, d) :: put_level l c r end.
(** himesh.cpp:404-418: what voxel [i] is given; an array is made only when there is something to store. *)
Definition cell_of (s : source) (i : nat) (ds : list floats) : cell :=
  let g := filter (fun d => near s d =? i) ds in
  Cell (length g) (if 0 <? length g then Some (concat g) else None).
(** himesh.cpp:380-418 over the voxels from number [i] on. *)
Fixpoint fill_from (s : source) (l : nat) (ds : list floats) (i : nat) (vs : list voxel) : list voxel :=
  match vs with [] => [] | v :: r => put_level l (cell_of s i ds) v :: fill_from s l ds (S i) r end.
(** himesh.cpp:342-423 fill_voxel; [None] is the failed assertion of line 343. *)
Definition fill (s : source) (k : kind) (o : object) : option object :=
  match o_voxels o with
  | [] => None
  | v :: r =>
    match find_level (o_level o) v with
    | Some _ => Some o
    | None =>
      let ds := data_of s k (o_level o) in
      match r with
      | [] => Some (Object (o_level o) [put_level (o_level o) (Cell (length ds) (Some (concat ds))) v])
      | _ :: _ => Some (Object (o_level o) (fill_from s (o_level o) ds 0 (v :: r)))
      end
    end
  end.
(** himesh.cpp:329-336: decoding only goes on. *)
Definition advance (l : nat) (o : object) : object := Object (Nat.max (o_level o) l) (o_voxels o).
(** himesh.h:181-187. *)
Definition reset (o : object) : object := Object (o_level o) (map (fun _ => []) (o_voxels o)).

(** The calls a program makes on one object (himesh.h:170-187). *)
Inductive call := Advance (l : nat) | Fill (k : kind) | Reset.
(** himesh.h:170-187, one call. *)
Definition step (s : source) (c : call) (o : object) : option object :=
  match c with Advance l => Some (advance l o) | Fill k => fill s k o | Reset => Some (reset o) end.
(** Several calls. *)
Fixpoint run (s : source) (cs : list call) (o : object) : option object :=
  match cs with [] => Some o | c :: r => match step s c o with Some o => run s r o | None => None end end.
(** tile.cpp:164-187: the mesh just made, its [n] voxels empty. *)
Definition opened (n : nat) : object := Object 0 (repeat [] n).

(** SpatialJoin.cpp:381-384 (segments) and 734-739 (triangles): memcpy of size times the width of the kind the join is
    after; [None] when it reads past the array.  A level not there is made empty by operator[]. *)
Definition copy_out (k : kind) (l : nat) (v : voxel) : option floats :=
  match find_level l v with
  | None => Some []
  | Some c =>
    match c_data c with
    | None => if c_size c =? 0 then Some [] else None
    | Some a => if c_size c * width k <=? length a then Some (firstn (c_size c * width k) a) else None
    end
  end.
