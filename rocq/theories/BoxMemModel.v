(** Model of the memory of the program that writes the boxes of an object, /repo/src/test/get_boxes.cpp:19-37, with
    /repo/src/spatial/spatial_common.cpp:18-59 (make_cube, write_box) and 100-129 (get_mesh, read_mesh).  Meshes, skeletons and
    voxels as in CompressMemModel; left out is what is left out there. *)
From Coq Require Import List Arith Bool.
From Verif Require Import TileMemModel CompressMemModel.
Import ListNotations.
Close Scope Z_scope.
Open Scope nat_scope.

(** spatial_common.cpp:51-59 write_box, 18-42 make_cube: the polyhedron is made and written, nobody deletes it. *)
Definition write_box (h : heap) : heap := let (p, h) := new Single h in happen (Use p) h.
(** get_boxes.cpp:31-34: the box of each voxel is read for the common box, and written. *)
Definition write_boxes (vs : list nat) (h : heap) : heap := fold_left (fun h v => write_box (happen (Use v) (happen (Use v) h))) vs h.
(** himesh.h:100-106 and mymesh.cpp:103-107, the destructors; no tree was built. *)
Definition delete_himesh (himesh codes : nat) (s : option nat) (h : heap) : heap :=
  let h := match s with Some s => happen (Delete Single s) h | None => h end in
  happen (Delete Single himesh) (happen (Delete Array codes) h).
(** get_boxes.cpp:19-37 main, for the object [l]: the input is read and encoded (21-22), a HiMesh takes a copy of the codes and
    decodes it (23-24), is written (26), gets voxels (28), which are written (30-35); only the HiMesh is deleted (36). *)
Definition get_boxes (l : line) : list event :=
  let (text, h) := new Array (Heap [] 0) in let h := happen (Use text) h in
  let (mesh, h) := new Single h in let (data, h) := new Array h in
  let h := happen (Use text) (happen (Use data) h) in
  let h := Nat.iter (l_rounds l) (encode_round data) h in
  let (himesh, h) := new Single h in let (codes, h) := new Array h in
  let h := read_base (l_faces l) codes (happen (Use codes) (happen (Use data) h)) in
  let '(s, vs, h) := make_voxels l (happen (Use codes) h) in
  rev (trace (delete_himesh himesh codes s (write_box (write_boxes vs h)))).
