(** Model of the distances computed with CGAL's trees (option --aabb):
    /repo/src/join/SpatialJoin.cpp:299-347 (calculate_distance, first branch) and
    /repo/src/spatial/himesh.cpp:431-440, 488-496 (get_segments, get_aabb_tree).  A CGAL AABB tree of
    segments is modelled by its documented answer, the smallest squared distance to a segment.
    Floats are exact rationals. *)
From Coq Require Import QArith List Bool Arith.
From Verif Require Import AabModel SegDistModel JoinModel.
Import ListNotations.
Open Scope Q_scope.

(** himesh.cpp:431-440 get_segments: the end points of the edges, those of length zero left out. *)
Definition same_point (p q : vec) : bool := all3 (fun a => Qeq_bool (p a) (q a)).
Definition get_segments (edges : list (vec * vec)) : list (vec * vec) :=
  filter (fun e => negb (same_point (fst e) (snd e))) edges.

(** CGAL::squared_distance of a point and a segment: the foot of the perpendicular, cut to the
    segment. *)
Definition pt_seg (p : vec) (s : vec * vec) : Q :=
  let d := vsub (snd s) (fst s) in
  let t := vdot (vsub p (fst s)) d / vdot d d in
  let t := if Qle_bool t 0 then 0 else if Qle_bool 1 t then 1 else t in
  let x := vsub p (vaxpy (fst s) d t) in vdot x x.

(** The smaller of two distances, [None] being DBL_MAX (SpatialJoin.cpp:328, 334-336). *)
Definition dmin (a : option Q) (x : Q) : option Q :=
  match a with None => Some x | Some m => if Qltb x m then Some x else a end.
(** AABB_tree::squared_distance; there is no answer for a tree without segments. *)
Definition tree_dist (segs : list (vec * vec)) (p : vec) : option Q := fold_left (fun a s => dmin a (pt_seg p s)) segs None.
(** SpatialJoin.cpp:328-337: the smallest distance of a vertex of the first object to an edge of
    the second. *)
Fixpoint mesh_dist (segs : list (vec * vec)) (vertices : list vec) (min_dist : option Q) : option Q :=
  match vertices with
  | [] => min_dist
  | p :: r => match tree_dist segs p with None => None | Some d => mesh_dist segs r (dmin min_dist d) end
  end.

(** SpatialJoin.cpp:319-343: the distances are stored one for each candidate, entries with a single
    candidate are passed over; [D] is the distance of two objects at this level. *)
Definition tree_stored (D : wrapper -> wrapper -> Q) (cs : list centry) : list Q :=
  flat_map (fun e => if Nat.leb (length (snd e)) 1 then [] else map (fun c => D (fst e) (c_wrapper c)) (snd e)) cs.
(** SpatialJoin.cpp:302-305: what has not been stored is 0. *)
Definition tree_dists (D : wrapper -> wrapper -> Q) (cs : list centry) (i : nat) : Q := nth i (tree_stored D cs) 0.

(** SpatialJoin.cpp:546-650 nearest_neighbor and 432-514 within, one level with use_aabb. *)
Definition nn_round_tree (highest : bool) (filled : vpair -> bool) (D : wrapper -> wrapper -> Q) (s : list centry * list centry) : list centry * list centry :=
  let (cs, settled) := s in
  if negb (existsb filled (all_pairs cs)) then s else
  let (cs', out) := drop_settled (nn_round_entries highest filled (tree_dists D cs) 0 cs) in
  (cs', settled ++ out).
Definition within_round_tree (max_dist : Q) (highest : bool) (filled : vpair -> bool) (D : wrapper -> wrapper -> Q) (s : list centry * list centry) :
  list centry * list centry :=
  let (cs, found) := s in
  if negb (existsb filled (all_pairs cs)) then s else
  let (cs', out) := update_candidate_list_intersect (within_round_entries max_dist highest filled (tree_dists D cs) 0 cs) in
  (cs', found ++ out).
