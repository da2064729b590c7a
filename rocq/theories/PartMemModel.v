(** Model of the memory the partitioner takes and gives back: /repo/src/test/partitioner.cpp:15-66,
    /repo/src/partition/partition.cpp:31-75 (the threads) and 147-154 (persist_tile), /repo/src/index/stree.cpp:19-154 and
    index.h:61-89 (SPNode).  The threads are taken one after the other; what CGAL and the containers of the standard library
    take by themselves is left out. *)
From Coq Require Import List Arith ZArith Bool.
From Verif Require Import TileMemModel SpModel.
Import ListNotations.
Close Scope Z_scope.
Open Scope nat_scope.

(** partition.cpp:56-67: the box of one line; [false] is an empty line, for which get_mesh gives NULL.  get_mesh copies the text
    (spatial_common.cpp:107), the mesh has its p_data (mymesh.cpp:46), the mesh is deleted (mymesh.cpp:103-107). *)
Definition line_voxel (filled : bool) (h : heap) : list nat * heap :=
  if filled then
    let (text, h) := new Array h in let h := happen (Use text) h in
    let (mesh, h) := new Single h in let (data, h) := new Array h in
    let h := happen (Use text) (happen (Use data) h) in
    let (v, h) := new Single h in
    let h := happen (Use v) (happen (Use mesh) h) in
    ([v], happen (Delete Single mesh) (happen (Delete Array data) h))
  else ([], h).
(** partition.cpp:31-75 get_mbbs_unit: the lines one after the other; the voxels are collected. *)
Fixpoint get_voxels (lines : list bool) (h : heap) : list nat * heap :=
  match lines with
  | [] => ([], h)
  | l :: r => let (v, h) := line_voxel l h in let (vs, h) := get_voxels r h in (v ++ vs, h)
  end.

(** index.h:61-64: the block of a node and its children. *)
Inductive pnode := PNode (blk : nat) (kids : list pnode).
Definition p_blk (t : pnode) : nat := let '(PNode b _) := t in b.
Definition p_kids (t : pnode) : list pnode := let '(PNode _ k) := t in k.
(** stree.cpp:103-154 build_sort_partition and 29-56 load: the nodes of the tree [t] are made in this order, a child is added
    to its parent when it is complete. *)
Fixpoint build {B} (t : spnode B) (h : heap) : pnode * heap :=
  match t with SP _ _ kids _ =>
    let (b, h) := new Single h in
    let '(ks, h) := (fix go (l : list (spnode B)) (h : heap) : list pnode * heap :=
      match l with
      | [] => ([], h)
      | t :: r => let (k, h) := build t h in let h := happen (Use (p_blk k)) (happen (Use b) h) in let (ks, h) := go r h in (k :: ks, h)
      end) kids h in
    (PNode b ks, h)
  end.
(** index.h:69-74, the destructor, then the block of the node. *)
Fixpoint delete_node (t : pnode) (h : heap) : heap :=
  match t with PNode b kids => happen (Delete Single b) (fold_left (fun h k => delete_node k h) kids h) end.
(** stree.cpp:19-27 genTiles and 57-91 persist: the nodes are read. *)
Fixpoint read_node (t : pnode) (h : heap) : heap :=
  match t with PNode b kids => fold_left (fun h k => read_node k h) kids (happen (Use b) h) end.
(** partition.cpp:147-154 with spatial_common.cpp:18-49, one tile: the polyhedron of its box is written. *)
Definition write_tile (h : heap) : heap := let (p, h) := new Single h in happen (Use p) h.
(** partitioner.cpp:38-64: [cached] when tmp.part exists; [lines] are the lines sampled, [t] the tree that is built or loaded. *)
Definition partitioner {B} (cached : bool) (lines : list bool) (t : spnode B) : list event :=
  let h := Heap [] 0 in
  let (sp, h) :=
    if cached then build t h else
    let (vs, h) := get_voxels lines h in
    let h := fold_left (fun h v => happen (Use v) h) vs h in
    let (sp, h) := build t h in
    let h := fold_left (fun h v => happen (Delete Single v) h) vs h in
    (sp, read_node sp h) in
  let h := Nat.iter (length (genTiles t)) write_tile (read_node sp h) in
  rev (trace (delete_node sp h)).
