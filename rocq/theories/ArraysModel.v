(** Model of the arrays of vertices and corners of a mesh, /repo/src/spatial/himesh.cpp:285-325. *)
From Coq Require Import ZArith QArith List Arith.
Import ListNotations.
Close Scope Q_scope. Close Scope Z_scope.
Open Scope nat_scope.

(** The mesh as the iterators of himesh.cpp:293 and 314 show it: the number of vertices, their points and ids
    (mymesh.h:216-224) in the order of the vertices, and the corners of each facet, from halfedge() on, as places in
    that order. *)
Record amesh := AMesh { m_size : nat; m_point : nat -> Q * Q * Q; m_id : nat -> nat; m_facets : list (list nat) }.
(** mymesh.h:198-199: a vertex is made with id 0; only writeBaseMesh, which is compression, sets ids
    (mymeshIO.cpp:202 and 222).  So the ids of a decoded mesh. *)
Definition decoded (n : nat) (point : nat -> Q * Q * Q) (facets : list (list nat)) : amesh := AMesh n point (fun _ => 0) facets.

(** himesh.cpp:285-303 fill_vertices; coordinates are not rounded to float. *)
Definition fill_vertices (m : amesh) : list Q := flat_map (fun i => let '(x, y, z) := m_point m i in [x; y; z]) (seq 0 (m_size m)).
(** himesh.cpp:315-319: the corner [k] steps of next() on; (unsigned short) keeps 16 bits. *)
Definition corner (f : list nat) (k : nat) : nat := nth (k mod length f) f 0.
Definition short (id : nat) : nat := Z.to_nat (Z.of_nat id mod 65536).
(** himesh.cpp:306-325 fill_topology; the assertion of line 322 is compiled out. *)
Definition fill_topology (m : amesh) : list nat :=
  flat_map (fun f => map (fun k => short (m_id m (corner f k))) [0; 1; 2]) (m_facets m).
