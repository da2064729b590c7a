(** Model of the normals of facets and vertices in /repo/src/PPMC/mymeshUtils.cpp:23-92, in real numbers. *)
From Coq Require Import Reals List.
From Verif Require Import SurfModel.
Import ListNotations.
Open Scope R_scope.

(** mymeshUtils.cpp:26-33: the walk round a facet; [first] is the corner it began with. *)
Fixpoint facet_walk (first : pt) (l : list pt) (n : pt) : pt :=
  match l with
  | [] => n
  | op :: r => let op2 := match r with q :: _ => q | [] => first end in facet_walk first r (padd n (pcross op op2))
  end.
(** mymeshUtils.cpp:23-37 computeNormal of a facet, its corners in order from facet_begin. *)
Definition normal_of_facet (facet : list pt) : pt := match facet with [] => porigin | p :: _ => unit_of (facet_walk p facet porigin) end.
(** mymeshUtils.cpp:40-54 computeNormal of a half-edge: the corners of its facet from the half-edge on. *)
Definition normal_of_gate (before : list pt) (from : list pt) : pt := normal_of_polygon (from ++ before).
(** mymeshUtils.cpp:81-92 computeVertexNormal: the normals of the facets about a vertex, each facet given as its
    corners from the half-edge on that leaves the vertex. *)
Definition vertex_normal (facets : list (list pt)) : pt :=
  unit_of (fold_left (fun n f => padd n (normal_of_gate [] f)) facets porigin).
