(** Model of HiMesh::extract_skeleton, /repo/src/spatial/himesh.cpp:28-91, and of the voxels made from a
    skeleton as far as it decides whether there are any.  CGAL's skeletonization is a parameter. *)
From Coq Require Import QArith ZArith List Bool.
From Verif Require Import Arr AabModel VoxelModel.
Import ListNotations.
Open Scope Z_scope.

(** The facets of the mesh, each the list of its corners. *)
Definition facets := list (list nat).
(** himesh.cpp:48 CGAL::is_triangle_mesh. *)
Definition is_triangle_mesh (fs : facets) : bool := forallb (fun f => Nat.eqb (length f) 3) fs.
(** A call of exit(-1), or the value returned. *)
Inductive ended (A : Type) := Exited | Returned (a : A).
Arguments Exited {A}. Arguments Returned {A} a.

Section Skel.
(** [asserts]: whether the code is compiled without NDEBUG; src/Makefile:11-15 defines NDEBUG in either
    case, so [asserts] is false in every build.  [triangulate] is
    CGAL::Polygon_mesh_processing::triangulate_faces with its result; [skeletonize] is himesh.cpp:53-84,
    [None] when it throws. *)
Variable asserts : bool.
Variable triangulate : facets -> bool * facets.
Variable skeletonize : facets -> option (list vec).

(** himesh.cpp:42: the call stands inside the assert, so it is made only when asserts are compiled; a
    false result then aborts ([Exited], too). *)
Definition triangulated (fs : facets) : ended facets :=
  if asserts then (let (ok, fs') := triangulate fs in if ok then Returned fs' else Exited) else Returned fs.
(** himesh.cpp:28-91.  [skeletons] is the map kept in the object, [lod] is i_decompPercentage; the mesh
    written and read again at 36-39 has the facets [fs].  Lines 43-46 only print. *)
Definition extract_skeleton (skeletons : Z -> option (list vec)) (lod : Z) (fs : facets) : ended (list vec * (Z -> option (list vec))) :=
  match skeletons lod with
  | Some s => Returned (s, skeletons)
  | None =>
    match triangulated fs with
    | Exited => Exited
    | Returned tmesh =>
      if negb (is_triangle_mesh tmesh) then Exited
      else match skeletonize tmesh with
           | None => Exited
           | Some s => Returned (s, put skeletons lod s)
           end
    end
  end.
(** himesh.cpp:163-224 generate_voxels with 93-98: the skeleton is asked for only when there are at least
    voxel_size vertices. *)
Definition make_voxels (rand : nat -> Z) (skeletons : Z -> option (list vec)) (voxel_size : Z) (m : mesh) (fs : facets) : ended (option (list voxel)) :=
  if Z.of_nat (length (m_vertices m)) <? voxel_size then Returned (generate_voxels rand None voxel_size m)
  else match extract_skeleton skeletons (m_lod m) fs with
       | Exited => Exited
       | Returned (s, _) => Returned (generate_voxels rand (Some s) voxel_size m)
       end.
End Skel.
