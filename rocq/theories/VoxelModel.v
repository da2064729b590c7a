(** Model of the voxels of an object: /repo/src/spatial/himesh.cpp:93-423 (sampling of the skeleton,
    grouping of the vertices, buffers of edges and triangles) and himesh.h:49-71 (class Voxel).
    Floats are exact rationals; the mesh is given by its vertices, edges and facets at the current
    level of detail (CGAL iterates over them in a fixed order). *)
From Coq Require Import QArith ZArith List Bool.
From Verif Require Import Arr AabModel.
Import ListNotations.
Open Scope Z_scope.

(** The part of class HiMesh used here: i_decompPercentage, the vertices, the two ends of each edge
    (himesh.cpp:236-238) and the first three corners of each facet (himesh.cpp:263-266). *)
Record mesh := Mesh { m_lod : Z; m_vertices : list vec; m_edges : list (vec * vec); m_facets : list (vec * vec * vec) }.

(** himesh.h:49-71 class Voxel.  [v_core] is [None] while the array is not initialised, [v_box] while it
    is the default box.  [v_data] maps a level to a buffer of floats ([None] in a cell: allocated by
    new[] and not written yet); a NULL pointer is the empty buffer, since both allow no access.
    [v_size] maps a level to a count (int, no overflow modelled). *)
Record voxel := Voxel { v_core : option vec; v_box : option aab; v_data : Z -> option (list (option Q)); v_size : Z -> option Z }.
(** himesh.h:49-60: a voxel as created by [new Voxel()]. *)
Definition new_voxel : voxel := Voxel None None (fun _ => None) (fun _ => None).
(** std::map::operator[] with an assignment, used for himesh.h:59-60. *)
Definition put {A} (f : Z -> option A) (k : Z) (a : A) : Z -> option A := fun i => if i =? k then Some a else f i.
Definition set_size (v : voxel) (lod n : Z) : voxel := Voxel (v_core v) (v_box v) (v_data v) (put (v_size v) lod n).
Definition set_data (v : voxel) (lod : Z) (d : list (option Q)) : voxel := Voxel (v_core v) (v_box v) (put (v_data v) lod d) (v_size v).
Definition set_box (v : voxel) (b : option aab) : voxel := Voxel (v_core v) b (v_data v) (v_size v).

(** spatial.h:60-66 and geometry.h:105-111: squared distance of two points (the operands of the two
    overloads are swapped, which does not matter for a square). *)
Definition sq_distance (p q : vec) : Q := sum3 (fun a => (p a - q a) * (p a - q a))%Q.

(** himesh.cpp:203-211 and 391-399: the search for the nearest core.  [best] is (gid, min_dist);
    [None] is gid = -1 with min_dist = DBL_MAX stored in a float, i.e. infinity. *)
Fixpoint nearest (j : Z) (cores : list vec) (p : vec) (best : option (Z * Q)) : option (Z * Q) :=
  match cores with
  | [] => best
  | c :: r =>
    let cur_dist := sq_distance c p in
    let closer := match best with None => true | Some (_, min_dist) => Qltb cur_dist min_dist end in
    nearest (j + 1) r p (if closer then Some (j, cur_dist) else best)
  end.
Definition gid (cores : list vec) (p : vec) : Z := match nearest 0 cores p None with Some (j, _) => j | None => -1 end.

(** util.h:94-96 get_rand_number, with the value that rand() returned. *)
Definition get_rand_number (r max_value : Z) : Z := r mod max_value + 1.

(** himesh.cpp:118-125: at most ten tries to find a point not kept yet.  [rand] gives the successive
    values of rand(), [k] how many were used.  The flag [assigned] is initialised with true (line 117),
    so the two loops of lines 126-143 never run and are left out. *)
Fixpoint try_round (left : nat) (rand : nat -> Z) (k : nat) (num_cores : Z) (need_keep : list bool) : option (nat * list bool) :=
  match left with
  | O => Some (k, need_keep)
  | S l =>
    let target := get_rand_number (rand k) num_cores in
    do b <- aget need_keep target;
    if b then try_round l rand (S k) num_cores need_keep
    else do need_keep' <- aset need_keep target true; Some (S k, need_keep')
  end.
(** himesh.cpp:114-145: num_cores rounds. *)
Fixpoint rounds (n : nat) (rand : nat -> Z) (k : nat) (num_cores : Z) (need_keep : list bool) : option (list bool) :=
  match n with
  | O => Some need_keep
  | S m => do (k', need_keep') <- try_round 10 rand k num_cores need_keep; rounds m rand k' num_cores need_keep'
  end.
(** himesh.cpp:146-153: erase the points that are not kept. *)
Fixpoint erase_others {A} (pts : list A) (need_keep : list bool) : list A :=
  match pts, need_keep with
  | p :: r, b :: s => if b then p :: erase_others r s else erase_others r s
  | _, _ => []
  end.
(** himesh.cpp:93-156 get_skeleton_points.  [skeleton] is what extract_skeleton produced (NULL: [None]);
    that function (CGAL) is not modelled.  Line 105 divides by the number of points. *)
Definition get_skeleton_points {A} (rand : nat -> Z) (skeleton : option (list A)) (num_cores : Z) : option (list A) :=
  match skeleton with
  | None => Some []
  | Some ret =>
    let num_points := Z.of_nat (length ret) in
    if num_points =? 0 then None
    else if num_points <? num_cores then Some ret
    else do need_keep <- rounds (Z.to_nat num_cores) rand 0 num_cores (repeat false (length ret));
         Some (erase_others ret need_keep)
  end.

(** mymesh.cpp:168-180 computeBoundingBox: CGAL's bounding box of the vertices. *)
Definition bounding_box (m : mesh) : option aab := fold_left acc_point (m_vertices m) None.

(** himesh.cpp:201-214: one vertex is put into the voxel of the nearest skeleton point. *)
Definition assign_vertex (lod : Z) (cores : list vec) (vs : list voxel) (p : vec) : option (list voxel) :=
  let g := gid cores p in
  do v <- aget vs g;
  do n <- v_size v lod;
  aset vs g (set_size (set_box v (acc_point (v_box v) p)) lod (n + 1)).
Fixpoint assign_vertices (lod : Z) (cores : list vec) (vs : list voxel) (ps : list vec) : option (list voxel) :=
  match ps with
  | [] => Some vs
  | p :: r => do vs' <- assign_vertex lod cores vs p; assign_vertices lod cores vs' r
  end.
(** himesh.cpp:216-225: voxels without vertices are erased. *)
Definition has_data (lod : Z) (v : voxel) : bool := match v_size v lod with Some 0 => false | _ => true end.

(** himesh.cpp:163-229 generate_voxels after the skeleton has been sampled. *)
Definition voxels_of_cores (m : mesh) (cores : list vec) : option (list voxel) :=
  let lod := m_lod m in
  let vs := map (fun c => Voxel (Some c) None (fun _ => None) (put (fun _ => None) lod 0)) cores in
  match (match vs with [] => [new_voxel] | _ => vs end) with
  | [v] => Some [set_size (set_box v (bounding_box m)) lod (Z.of_nat (length (m_edges m)))]
  | vs => do vs' <- assign_vertices lod cores vs (m_vertices m); Some (filter (has_data lod) vs')
  end.
(** himesh.cpp:163-229 generate_voxels. *)
Definition generate_voxels (rand : nat -> Z) (skeleton : option (list vec)) (voxel_size : Z) (m : mesh) : option (list voxel) :=
  let nv := Z.of_nat (length (m_vertices m)) in
  if nv <? voxel_size
  then Some [set_size (set_box new_voxel (bounding_box m)) (m_lod m) (Z.of_nat (length (m_edges m)))]
  else do cores <- get_skeleton_points rand skeleton (nv / voxel_size - 1 + 1); voxels_of_cores m cores.

(** himesh.cpp:231-255 fill_segments: six floats per edge; an edge of length zero is padded. *)
Definition Qeqv (p q : vec) : bool := all3 (fun a => Qeq_bool (p a) (q a)).
Definition segment_datum (e : vec * vec) : list Q :=
  let (p1, p2) := e in
  [p1 AX; p1 AY; p1 AZ; p2 AX; p2 AY; (p2 AZ + (if Qeqv p1 p2 then 1 # 10 else 0))%Q].
Definition fill_segments (m : mesh) : list Q := flat_map segment_datum (m_edges m).
(** himesh.cpp:258-283 fill_triangles: nine floats per facet, a corner and two edge vectors. *)
Definition triangle_datum (f : vec * vec * vec) : list Q :=
  match f with (p1, p2, p3) =>
    [p1 AX; p1 AY; p1 AZ; (p2 AX - p1 AX)%Q; (p2 AY - p1 AY)%Q; (p2 AZ - p1 AZ)%Q;
     (p3 AX - p1 AX)%Q; (p3 AY - p1 AY)%Q; (p3 AZ - p1 AZ)%Q] end.
Definition fill_triangles (m : mesh) : list Q := flat_map triangle_datum (m_facets m).

(** himesh.h:73-76 enum data_type. *)
Inductive data_type := DT_Segment | DT_Triangle.

(** A pointer to three floats inside a buffer (himesh.cpp:390). *)
Definition point_at (buf : list Q) (k : Z) : option vec :=
  do x <- aget buf k; do y <- aget buf (k + 1); do z <- aget buf (k + 2); Some (v3 x y z).
(** himesh.cpp:387-402: the group of every datum and the number of data per group. *)
Fixpoint group_data (n : nat) (i w : Z) (cores : list vec) (buf : list Q) (group_count : list Z) : option (list Z * list Z) :=
  match n with
  | O => Some ([], group_count)
  | S m =>
    do p1 <- point_at buf (i * w);
    let g := gid cores p1 in
    do c <- aget group_count g;
    do group_count' <- aset group_count g (c + 1);
    do (gs, cs) <- group_data m (i + 1) w cores buf group_count';
    Some (g :: gs, cs)
  end.
(** memcpy of w floats between two buffers (himesh.cpp:414-416). *)
Definition memcpy (dst : list (option Q)) (o : Z) (src : list Q) (s w : Z) : option (list (option Q)) :=
  if ((0 <=? o) && (o + w <=? Z.of_nat (length dst)) && (0 <=? s) && (s + w <=? Z.of_nat (length src)))%bool
  then Some (firstn (Z.to_nat o) dst ++ map Some (firstn (Z.to_nat w) (skipn (Z.to_nat s) src)) ++ skipn (Z.to_nat (o + w)) dst)
  else None.
(** himesh.cpp:412-418: copy each datum behind the data its voxel has so far. *)
Fixpoint copy_data (lod w i : Z) (gs : list Z) (buf : list Q) (vs : list voxel) : option (list voxel) :=
  match gs with
  | [] => Some vs
  | g :: r =>
    do v <- aget vs g;
    do dst <- v_data v lod;
    do n <- v_size v lod;
    do dst' <- memcpy dst (n * w) buf (i * w) w;
    do vs' <- aset vs g (set_size (set_data v lod dst') lod (n + 1));
    copy_data lod w (i + 1) r buf vs'
  end.
(** All cores must be initialised where they are read (himesh.cpp:394). *)
Fixpoint cores_of (vs : list voxel) : option (list vec) :=
  match vs with [] => Some [] | v :: r => do c <- v_core v; do cs <- cores_of r; Some (c :: cs) end.
(** himesh.cpp:382-386 and 405-409: sizes start at zero, buffers as large as the count of the group. *)
Fixpoint allocate (lod w : Z) (vs : list voxel) (group_count : list Z) : option (list voxel) :=
  match vs, group_count with
  | [], _ => Some []
  | v :: r, c :: cs => do r' <- allocate lod w r cs; Some (set_data (set_size v lod 0) lod (repeat None (Z.to_nat (c * w))) :: r')
  | _ :: _, [] => None
  end.
(** himesh.cpp:342-423 fill_voxel.  Line 343 asserts at least one voxel. *)
Definition fill_voxel (m : mesh) (t : data_type) (vs : list voxel) : option (list voxel) :=
  let lod := m_lod m in
  match vs with
  | [] => None
  | v0 :: rest =>
    match v_data v0 lod with
    | Some _ => Some vs
    | None =>
      let '(num_of_data, w, buf) :=
        match t with
        | DT_Segment => (length (m_edges m), 6, fill_segments m)
        | DT_Triangle => (length (m_facets m), 9, fill_triangles m)
        end in
      match rest with
      | [] => Some [set_data (set_size v0 lod (Z.of_nat num_of_data)) lod (map Some buf)]
      | _ :: _ =>
        do cores <- cores_of vs;
        do (groups, group_count) <- group_data num_of_data 0 w cores buf (repeat 0 (length vs));
        do vs' <- allocate lod w vs group_count;
        copy_data lod w 0 groups buf vs'
      end
    end
  end.
