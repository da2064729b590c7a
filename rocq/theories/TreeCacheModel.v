(** Model of the trees kept with the meshes (option --aabb): /repo/src/spatial/himesh.cpp:329-336
    (advance_to), 474-490 (clear_aabb_tree, get_aabb_tree), and of when a join asks for them and for
    the vertices: /repo/src/join/SpatialJoin.cpp:309-347, 443-462 and 556-580.  What a tree answers is in
    TreeDistModel; here a tree is the level its edges were taken at. *)
From Coq Require Import QArith List Bool Arith.
From Verif Require Import AabModel OctreeModel JoinModel TreeDistModel.
Import ListNotations.

(** A mesh: the level it is decoded to (mymesh.h i_decompPercentage), the levels its voxels have data
    of (himesh.h:61, the keys of [data]; fill_voxel gives all voxels of a mesh data at once) and the
    level of the tree, if there is one (himesh.h:92). *)
Record mesh := Mesh { m_level : nat; m_data : list nat; m_tree : option nat }.
(** The meshes by the addresses of their wrappers. *)
Definition meshes : Type := nat -> mesh.
Definition key (w : wrapper) : nat := o_ptr (w_obj w).
Definition upd (ms : meshes) (k : nat) (m : mesh) : meshes := fun i => if Nat.eqb i k then m else ms i.
(** tile.cpp: wrappers of tiles just loaded; the mesh is made at level 0 (himesh.cpp:425-430). *)
Definition fresh : meshes := fun _ => Mesh 0 [] None.

(** himesh.cpp:329-336 advance_to (the tree is left as it is), then himesh.cpp:340-423 fill_voxel, which
    stores data for the level of the mesh. *)
Definition decode (lod : nat) (ms : meshes) (k : nat) : meshes :=
  let m := ms k in
  if existsb (Nat.eqb lod) (m_data m) then ms
  else let l := if Nat.leb lod (m_level m) then m_level m else lod in upd ms k (Mesh l (l :: m_data m) (m_tree m)).
(** himesh.cpp:482-490 get_aabb_tree. *)
Definition get_tree (ms : meshes) (k : nat) : meshes :=
  let m := ms k in match m_tree m with Some _ => ms | None => upd ms k (Mesh (m_level m) (m_data m) (Some (m_level m))) end.
(** himesh.cpp:474-480 clear_aabb_tree. *)
Definition clear_tree (ms : meshes) (k : nat) : meshes := upd ms k (Mesh (m_level (ms k)) (m_data (ms k)) None).

(** One question to a tree: the first object with its level, the second with its level, and the level
    of the tree that answers. *)
Record ask := Ask { a_first : nat; a_level1 : nat; a_second : nat; a_level2 : nat; a_tree : option nat }.
(** SpatialJoin.cpp:334-342: one question for each vertex of the first object, [nv] of them. *)
Fixpoint ask_vertices (nv k1 k2 : nat) (ms : meshes) : meshes * list ask :=
  match nv with
  | O => (ms, [])
  | S n =>
    let ms := get_tree ms k2 in
    let a := Ask k1 (m_level (ms k1)) k2 (m_level (ms k2)) (m_tree (ms k2)) in
    let (ms', l) := ask_vertices n k1 k2 ms in (ms', a :: l)
  end.
(** SpatialJoin.cpp:331-346: the candidates of one object, each tree deleted afterwards.  [nv] is the
    number of vertices of an object at a level. *)
Fixpoint ask_infos (nv : nat -> nat -> nat) (k1 : nat) (cl : list cinfo) (ms : meshes) : meshes * list ask :=
  match cl with
  | [] => (ms, [])
  | c :: r =>
    let (ms1, l1) := ask_vertices (nv k1 (m_level (ms k1))) k1 (key (c_wrapper c)) ms in
    let (ms2, l2) := ask_infos nv k1 r (clear_tree ms1 (key (c_wrapper c))) in (ms2, l1 ++ l2)
  end.
(** SpatialJoin.cpp:323-348. *)
Fixpoint ask_entries (nv : nat -> nat -> nat) (cs : list centry) (ms : meshes) : meshes * list ask :=
  match cs with
  | [] => (ms, [])
  | e :: r =>
    if Nat.leb (length (snd e)) 1 then ask_entries nv r ms
    else let (ms1, l1) := ask_infos nv (key (fst e)) (snd e) ms in
         let (ms2, l2) := ask_entries nv r ms1 in (ms2, l1 ++ l2)
  end.
(** SpatialJoin.cpp:311-319: the trees are built beforehand; only the nearest-neighbour join passes over
    objects with a single candidate. *)
Definition build_trees (nn : bool) (cs : list centry) (ms : meshes) : meshes :=
  fold_left get_tree (flat_map (fun e => if (nn && Nat.leb (length (snd e)) 1)%bool then [] else map (fun c => key (c_wrapper c)) (snd e)) cs) ms.
(** SpatialJoin.cpp:443-462 (within) and 556-580 (nearest neighbour, which passes over objects with a
    single candidate): both meshes of each pair of voxels are decoded. *)
Definition decode_all (nn : bool) (lod : nat) (cs : list centry) (ms : meshes) : meshes :=
  fold_left (decode lod)
    (flat_map (fun e => if (nn && Nat.leb (length (snd e)) 1)%bool then [] else
       flat_map (fun c => flat_map (fun _ => [key (fst e); key (c_wrapper c)]) (c_pairs c)) (snd e)) cs) ms.

(** A level of a join: the level, whether it is the highest, which pairs have data, the distances. *)
Record tround := TRound { t_lod : nat; t_highest : bool; t_filled : vpair -> bool; t_dist : wrapper -> wrapper -> Q }.
(** One level of the nearest-neighbour join ([nn = true], SpatialJoin.cpp:546-650) or of the within join
    (432-514) with use_aabb; the candidates change as in TreeDistModel. *)
Definition join_round (nn : bool) (max_dist : Q) (nv : nat -> nat -> nat) (r : tround) (s : meshes * (list centry * list centry)) :
  meshes * (list centry * list centry) * list ask :=
  let (ms, q) := s in
  let ms := decode_all nn (t_lod r) (fst q) ms in
  if negb (existsb (t_filled r) (all_pairs (fst q))) then ((ms, q), [])
  else
    let (ms', l) := ask_entries nv (fst q) (build_trees nn (fst q) ms) in
    let q' := if nn then nn_round_tree (t_highest r) (t_filled r) (t_dist r) q
              else within_round_tree max_dist (t_highest r) (t_filled r) (t_dist r) q in
    ((ms', q'), l).
(** All levels; the questions of each with the level. *)
Fixpoint join_rounds (nn : bool) (max_dist : Q) (nv : nat -> nat -> nat) (rs : list tround) (s : meshes * (list centry * list centry)) :
  meshes * (list centry * list centry) * list (nat * ask) :=
  match rs with
  | [] => (s, [])
  | r :: rs' =>
    let (s1, l1) := join_round nn max_dist nv r s in
    let (s2, l2) := join_rounds nn max_dist nv rs' s1 in (s2, map (pair (t_lod r)) l1 ++ l2)
  end.
