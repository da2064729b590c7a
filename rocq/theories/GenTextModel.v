(** Model of what the generator writes of an object and of its voxels, /repo/src/test/data_generator.cpp:36-51 and
    148-199.  Coordinates are exact rationals but for the six digits of text; the quantisation behind it and the
    rounding of the sums are left out. *)
From Coq Require Import QArith List.
From Verif Require Import AabModel TextModel GenModel.
Import ListNotations.
Open Scope Q_scope.

(** data_generator.cpp:36-51 poly_to_himesh and poly_to_mesh: the vertices go through a stringstream. *)
Definition through_text (pts : list vec) : list vec := map (fun p a => shown 6 (p a)) pts.
(** data_generator.cpp:148-158 shift_polyhedron: a copy through a stringstream, then moved. *)
Definition shift_polyhedron (shift : vec) (pts : list vec) : list vec := map (fun p a => p a + shift a) (through_text pts).
(** data_generator.cpp:165-171: the vertices of the mesh that is written for an object. *)
Definition object_written (shift : vec) (pts : list vec) : list vec := through_text (shift_polyhedron shift pts).
(** data_generator.cpp:112-114, 284-285: the voxels are made of the mesh as loaded. *)
Definition voxel_mesh (pts : list vec) : list vec := through_text pts.
(** data_generator.cpp:178-189: the box of a voxel that is written. *)
Definition voxel_written (shift : vec) (v : aab) : aab := Aab (fun a => bmin v a + shift a) (fun a => bmax v a + shift a).
