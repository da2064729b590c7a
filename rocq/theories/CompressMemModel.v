(** Model of the memory a thread of the compressor takes and gives back: /repo/src/test/compress.cpp:43-99 (mycompress,
    flush_mesh_buffer), /repo/src/spatial/spatial_common.cpp:100-122 (get_mesh), /repo/src/PPMC/mymesh.cpp:24-107 (MyMesh and its
    destructor), mymeshComp.cpp:515-574, mymeshIO.cpp:252-331, /repo/src/spatial/himesh.cpp:28-229 (skeletons and voxels) and
    himesh.h:100-106.  Left out: the models of the range coder, what CGAL and the containers of the standard library take by
    themselves.  The blocks of several threads have nothing to do with each other. *)
From Coq Require Import List Arith ZArith Bool.
From Verif Require Import TileMemModel.
Import ListNotations.
Close Scope Z_scope.
Open Scope nat_scope.

(** What the memory depends on for one line of input: the rounds that remove vertices, the faces of the base mesh, whether
    there are fewer vertices than voxel_size (himesh.cpp:168), the points of the skeleton kept (180), whether need_keep is
    made (105-110), and which voxels get no vertex (216-225). *)
Record line := Line { l_rounds : nat; l_faces : nat; l_small : bool; l_points : nat; l_sampled : bool; l_empty : nat -> bool }.

(** mymeshComp.cpp:518-520, 573-574, the counting coder of one round; the codes go to p_data [d]. *)
Definition encode_round (d : nat) (h : heap) : heap :=
  let (off, h) := new Single h in let (mes, h) := new Array h in
  let h := happen (Use off) (happen (Use mes) (happen (Use d) h)) in
  happen (Delete Single off) (happen (Delete Array mes) h).
(** mymeshIO.cpp:305-316: an array for each face. *)
Fixpoint new_faces (n : nat) (h : heap) : list nat * heap :=
  match n with O => ([], h) | S n => let (f, h) := new Array h in let (fs, h) := new_faces n h in (f :: fs, h) end.
(** mymeshIO.cpp:252-326 readBaseMesh, from the data [d]. *)
Definition read_base (n d : nat) (h : heap) : heap :=
  let (points, h) := new Single h in let (faces, h) := new Single h in
  let (fs, h) := new_faces n (happen (Use d) h) in
  let h := fold_left (fun h f => happen (Use f) h) fs (happen (Use faces) (happen (Use points) h)) in
  let h := fold_left (fun h f => happen (Delete Array f) h) fs h in
  happen (Delete Single points) (happen (Delete Single faces) h).
(** himesh.cpp:181-188: a voxel for each point. *)
Fixpoint new_blocks (n : nat) (h : heap) : list nat * heap :=
  match n with O => ([], h) | S n => let (v, h) := new Single h in let (vs, h) := new_blocks n h in (v :: vs, h) end.
(** himesh.cpp:216-225: voxels without data are taken out of the vector; nothing is deleted. *)
Fixpoint keep_full (empty : nat -> bool) (i : nat) (vs : list nat) : list nat :=
  match vs with [] => [] | v :: r => if empty i then keep_full empty (S i) r else v :: keep_full empty (S i) r end.
(** himesh.cpp:163-229 generate_voxels with 28-91 and 93-156: the skeleton if one is made, and the voxels. *)
Definition make_voxels (l : line) (h : heap) : option nat * list nat * heap :=
  if l_small l then let (v, h) := new Single h in (None, [v], h) else
  let (s, h) := new Single h in let h := happen (Use s) h in
  let h := if l_sampled l then let (k, h) := new Array h in happen (Delete Array k) (happen (Use k) h) else h in
  let (vs, h) := new_blocks (l_points l) h in
  match vs with
  | [] => let (v, h) := new Single h in (Some s, [v], h)
  | [v] => (Some s, [v], h)
  | _ => (Some s, keep_full (l_empty l) 0 vs, h)
  end.
(** An element of mesh_buffer with its voxels: the HiMesh, its p_data, its skeleton. *)
Record held := Held { k_mesh : nat; k_data : nat; k_skeleton : option nat; k_voxels : list nat }.
(** compress.cpp:80-86: get_mesh copies the text into an array (spatial_common.cpp:107), from which the mesh reads
    (mymesh.cpp:44-54, into a p_data of its own); the HiMesh copies the codes (mymesh.cpp:76-78); the mesh is deleted. *)
Definition compress_line (l : line) (h : heap) : held * heap :=
  let (text, h) := new Array h in let h := happen (Use text) h in
  let (mesh, h) := new Single h in let (data, h) := new Array h in
  let h := happen (Use text) (happen (Use data) h) in
  let h := Nat.iter (l_rounds l) (encode_round data) h in
  let (himesh, h) := new Single h in let (codes, h) := new Array h in
  let h := read_base (l_faces l) codes (happen (Use codes) (happen (Use data) h)) in
  let '(s, vs, h) := make_voxels l (happen (Use codes) h) in
  (Held himesh codes s vs, happen (Delete Single mesh) (happen (Delete Array data) h)).
(** compress.cpp:45-58, one object: written, voxels deleted, mesh deleted (himesh.h:100-106, mymesh.cpp:103-107). *)
Definition flush_one (k : held) (h : heap) : heap :=
  let h := happen (Use (k_data k)) h in
  let h := fold_left (fun h v => happen (Delete Single v) (happen (Use v) h)) (k_voxels k) h in
  let h := match k_skeleton k with Some s => happen (Delete Single s) h | None => h end in
  happen (Delete Single (k_mesh k)) (happen (Delete Array (k_data k)) h).
Definition flush (ks : list held) (h : heap) : heap := fold_left (fun h k => flush_one k h) ks h.
(** compress.cpp:75-97: the lines one after the other, QUEUE_SIZE (100) objects are kept before they are written. *)
Fixpoint work (lines : list line) (ks : list held) (h : heap) : heap :=
  match lines with
  | [] => flush ks h
  | l :: r =>
    let (k, h) := compress_line l h in let ks := ks ++ [k] in
    if 100 <=? length ks then work r [] (flush ks h) else work r ks h
  end.
(** All that a thread does. *)
Definition worker (lines : list line) : list event := rev (trace (work lines [] (Heap [] 0))).
