(** Model of the memory a tile takes and gives back: objects, voxels, compressed data, arrays of segments and
    triangles, search trees (/repo/src/storage/tile.cpp, /repo/src/spatial/himesh.cpp, himesh.h, /repo/src/PPMC/mymesh.cpp).
    Left out: what CGAL and the containers of the standard library allocate by themselves, skeletons. *)
From Coq Require Import List Arith ZArith Bool.
Import ListNotations.
Close Scope Z_scope.
Open Scope nat_scope.

(** C++: new and delete of one object, new[] and delete[] of an array, and a use of the memory.  Blocks are numbered as
    they are made. *)
Inductive form := Single | Array.
Inductive event := New (f : form) (b : nat) | Delete (f : form) (b : nat) | Use (b : nat).
(** What happened so far, the latest event first, and the number of the next block. *)
Record heap := Heap { trace : list event; fresh : nat }.
Definition happen (e : event) (h : heap) : heap := Heap (e :: trace h) (fresh h).
Definition new (f : form) (h : heap) : nat * heap := (fresh h, Heap (New f (fresh h) :: trace h) (S (fresh h))).

(** himesh.h:49-71 Voxel: its block and the arrays of its levels, [None] is NULL. *)
Record voxel := Voxel { v_block : nat; v_data : list (Z * option nat) }.
(** himesh.h:88-106, mymesh.h:517: a mesh, its p_data and its tree, and i_decompPercentage. *)
Record mesh := Mesh { m_block : nat; m_data : nat; m_tree : option nat; m_lod : Z }.
(** himesh.h:142-152 HiMesh_Wrapper; data_size is not needed. *)
Record wrapper := Wrapper { w_block : nat; w_voxels : list voxel; w_mesh : option mesh }.

(** himesh.h:61-70 Voxel::reset. *)
Definition reset_voxel (v : voxel) (h : heap) : voxel * heap :=
  (Voxel (v_block v) [], fold_left (fun h d => match snd d with Some b => happen (Delete Array b) h | None => h end) (v_data v) h).
(** himesh.h:51-53: the destructor resets, then the block of the voxel goes. *)
Definition delete_voxel (v : voxel) (h : heap) : heap := happen (Delete Single (v_block v)) (snd (reset_voxel v h)).
(** himesh.cpp:474-480 clear_aabb_tree. *)
Definition clear_tree (m : mesh) (h : heap) : mesh * heap :=
  match m_tree m with Some t => (Mesh (m_block m) (m_data m) None (m_lod m), happen (Delete Single t) h) | None => (m, h) end.
(** himesh.h:100-106 and mymesh.cpp:103-107, the destructors: the tree, then p_data whoever made it. *)
Definition delete_mesh (m : mesh) (h : heap) : heap :=
  let (m, h) := clear_tree m h in happen (Delete Single (m_block m)) (happen (Delete Array (m_data m)) h).
(** himesh.h:156-164, the destructor of a wrapper. *)
Definition delete_wrapper (w : wrapper) (h : heap) : heap :=
  let h := fold_left (fun h v => delete_voxel v h) (w_voxels w) h in
  let h := match w_mesh w with Some m => delete_mesh m h | None => h end in
  happen (Delete Single (w_block w)) h.
(** tile.cpp:47-56, the destructor of a tile. *)
Definition delete_tile (ws : list wrapper) (h : heap) : heap := fold_left (fun h w => delete_wrapper w h) ws h.

(** tile.cpp:96-128 load, 131-161 parse_raw: a wrapper and its voxels for each object; [sizes] are the numbers of voxels. *)
Fixpoint new_voxels (n : nat) (h : heap) : list voxel * heap :=
  match n with O => ([], h) | S n => let (b, h) := new Single h in let (vs, h) := new_voxels n h in (Voxel b [] :: vs, h) end.
Fixpoint open_objects (sizes : list nat) (h : heap) : list wrapper * heap :=
  match sizes with
  | [] => ([], h)
  | n :: r => let (b, h) := new Single h in let (vs, h) := new_voxels n h in let (ws, h) := open_objects r h in (Wrapper b vs None :: ws, h)
  end.
(** tile.cpp:58-73 disable_innerpart. *)
Definition disable_wrapper (w : wrapper) (h : heap) : wrapper * heap :=
  if 1 <? length (w_voxels w) then
    let h := fold_left (fun h v => delete_voxel v h) (w_voxels w) h in
    let (b, h) := new Single h in (Wrapper (w_block w) [Voxel b []] (w_mesh w), h)
  else (w, h).
(** tile.cpp:164-187 retrieve_mesh: the data are read into a new array, which the mesh takes over (copy_data is false). *)
Definition retrieve (w : wrapper) (h : heap) : wrapper * heap :=
  match w_mesh w with
  | Some _ => (w, h)
  | None => let (d, h) := new Array h in let h := happen (Use d) h in let (b, h) := new Single h in
            (Wrapper (w_block w) (w_voxels w) (Some (Mesh b d None 0%Z)), happen (Use d) h)
  end.
(** himesh.cpp:329-336 advance_to: the rounds are decoded from the data. *)
Definition advance (m : mesh) (lod : Z) (h : heap) : mesh * heap :=
  if (lod <=? m_lod m)%Z then (m, h) else (Mesh (m_block m) (m_data m) (m_tree m) lod, happen (Use (m_data m)) h).
(** tile.cpp:198-207 decode_to. *)
Definition decode (w : wrapper) (lod : Z) (h : heap) : wrapper * heap :=
  let (w, h) := retrieve w h in
  match w_mesh w with
  | Some m => let (m, h) := advance m lod h in (Wrapper (w_block w) (w_voxels w) (Some m), h)
  | None => (w, h)
  end.
(** himesh.cpp:368, 384, 407: data[lod] = d; an earlier entry of this level is overwritten. *)
Definition set_data (lod : Z) (d : option nat) (l : list (Z * option nat)) : list (Z * option nat) :=
  (lod, d) :: filter (fun x => negb (Z.eqb (fst x) lod)) l.
(** himesh.cpp:382-386, 405-409: arrays for the voxels that get data; [counts] says which. *)
Fixpoint give_arrays (lod : Z) (counts : nat -> nat) (i : nat) (vs : list voxel) (h : heap) : list voxel * heap :=
  match vs with
  | [] => ([], h)
  | v :: r =>
    let (d, h) := if 0 <? counts i then let (b, h) := new Array h in (Some b, h) else (None, h) in
    let (r, h) := give_arrays lod counts (S i) r h in (Voxel (v_block v) (set_data lod d (v_data v)) :: r, h)
  end.
(** himesh.cpp:412-418: every datum is copied into the array of its voxel. *)
Definition copied (lod : Z) (vs : list voxel) (h : heap) : heap :=
  fold_left (fun h v => match v_data v with (_, Some b) :: _ => happen (Use b) h | _ => h end) vs h.
(** himesh.cpp:342-423 fill_voxel.  The map of a voxel is a list, the newest level first; [counts] gives the
    number of data of each voxel.  No voxel: undefined, nothing is done here. *)
Definition fill (w : wrapper) (counts : nat -> nat) (h : heap) : wrapper * heap :=
  match w_mesh w, w_voxels w with
  | Some m, v0 :: r =>
    if existsb (fun d => Z.eqb (fst d) (m_lod m)) (v_data v0) then (w, h) else
    let (buffer, h) := new Array h in let h := happen (Use buffer) h in
    match r with
    | [] =>
      let (d, h) := new Array h in
      let h := happen (Delete Array buffer) (happen (Use buffer) (happen (Use d) h)) in
      (Wrapper (w_block w) [Voxel (v_block v0) (set_data (m_lod m) (Some d) (v_data v0))] (w_mesh w), h)
    | _ =>
      let (groups, h) := new Array h in let (group_count, h) := new Array h in
      let (vs, h) := give_arrays (m_lod m) counts 0 (w_voxels w) h in
      let h := happen (Use group_count) (happen (Use groups) (happen (Use buffer) (copied (m_lod m) vs h))) in
      (Wrapper (w_block w) vs (w_mesh w), happen (Delete Single buffer) (happen (Delete Single group_count) (happen (Delete Single groups) h)))
    end
  | _, _ => (w, h)
  end.
(** himesh.cpp:482-490 get_aabb_tree. *)
Definition get_tree (w : wrapper) (h : heap) : wrapper * heap :=
  match w_mesh w with
  | Some m => match m_tree m with
    | Some t => (w, happen (Use t) h)
    | None => let (t, h) := new Single h in (Wrapper (w_block w) (w_voxels w) (Some (Mesh (m_block m) (m_data m) (Some t) (m_lod m))), happen (Use t) h)
    end
  | None => (w, h)
  end.
(** himesh.h:181-187 HiMesh_Wrapper::reset. *)
Fixpoint reset_all (vs : list voxel) (h : heap) : list voxel * heap :=
  match vs with [] => ([], h) | v :: r => let (v, h) := reset_voxel v h in let (r, h) := reset_all r h in (v :: r, h) end.

(** What the joins do with an object of a tile (SpatialJoin.cpp:443-514, 556-650, 695-760): decode it, fill its voxels, build and
    drop its tree, reset its voxels; and disable_innerpart for an object. *)
Inductive op := Decode (lod : Z) | Fill (counts : nat -> nat) | Tree | ClearTree | Reset | Disable.
Definition act (o : op) (w : wrapper) (h : heap) : wrapper * heap :=
  match o with
  | Decode lod => decode w lod h
  | Fill counts => fill w counts h
  | Tree => get_tree w h
  | ClearTree => match w_mesh w with Some m => let (m, h) := clear_tree m h in (Wrapper (w_block w) (w_voxels w) (Some m), h) | None => (w, h) end
  | Reset => let (vs, h) := reset_all (w_voxels w) h in (Wrapper (w_block w) vs (w_mesh w), h)
  | Disable => disable_wrapper w h
  end.
(** Operations on the objects of a tile one after the other; an index outside the objects does nothing. *)
Fixpoint act_at (i : nat) (o : op) (ws : list wrapper) (h : heap) : list wrapper * heap :=
  match ws, i with
  | [], _ => ([], h)
  | w :: r, O => let (w, h) := act o w h in (w :: r, h)
  | w :: r, S i => let (r, h) := act_at i o r h in (w :: r, h)
  end.
Definition run (ops : list (nat * op)) (s : list wrapper * heap) : list wrapper * heap :=
  fold_left (fun s o => act_at (fst o) (snd o) (fst s) (snd s)) ops s.
(** The life of a tile: opened, used, deleted; the events in the order they happen. *)
Definition life (sizes : list nat) (ops : list (nat * op)) : list event :=
  let (ws, h) := run ops (open_objects sizes (Heap [] 0)) in rev (trace (delete_tile ws h)).
