(** Model of make_cube (/repo/src/spatial/spatial_common.cpp:18-42) over the Euler operators of CGAL,
    and of the program that moves and shrinks objects (/repo/src/test/adjust_polyhedron.cpp). *)
From Coq Require Import List ZArith QArith Qround Bool Arith.
From Verif Require Import Arr AabModel TextModel.
Import ListNotations.
Open Scope nat_scope.

(** * CGAL's Polyhedron_3, as documented.  Half-edges, vertices and faces are numbers; the lists give
    next, opposite, incident vertex and incident face of each half-edge, and the point of each vertex. *)
Record hds := Hds { h_next : list nat; h_opp : list nat; h_vert : list nat; h_face : list nat; v_point : list point; n_faces : nat }.
Definition get (l : list nat) (i : nat) : nat := nth i l 0.
Notation nx p h := (get (h_next p) h).
Notation op p h := (get (h_opp p) h).
Notation vt p h := (get (h_vert p) h).
(** make_tetrahedron(p1, p2, p3, p4) on an empty polyhedron: returns the half-edge (number 0) at p1;
    the next two are at p2 and p3. *)
Definition make_tetrahedron (p1 p2 p3 p4 : point) : hds * nat :=
  (Hds [1;2;0; 4;5;3; 7;8;6; 10;11;9] [3;6;9; 0;11;7; 1;5;10; 2;8;4]
       [0;1;2; 2;3;0; 0;3;1; 1;3;2] [0;0;0; 1;1;1; 2;2;2; 3;3;3] [p1; p2; p3; p4] 4, 0).
(** The half-edge before h. *)
Definition prev (p : hds) (h : nat) : nat :=
  match find (fun k => nx p k =? h) (seq 0 (length (h_next p))) with Some k => k | None => 0 end.
(** split_edge(h): a new vertex on the edge of h; the new half-edge points to it and is followed by h.
    The new vertex is a copy of the one h came from. *)
Definition split_edge (p : hds) (h : nat) : hds * nat :=
  let n := length (h_next p) in
  let o := op p h in
  let v := length (v_point p) in
  (Hds (upd (upd (h_next p) (prev p h) n) o (S n) ++ [h; if nx p o =? h then n else nx p o])
       (h_opp p ++ [S n; n])
       (upd (h_vert p) o v ++ [v; vt p o])
       (h_face p ++ [get (h_face p) h; get (h_face p) o])
       (v_point p ++ [nth (vt p o) (v_point p) (0, 0, 0)%Q]) (n_faces p), n).
(** The half-edges from h on, by next. *)
Fixpoint orbit (p : hds) (fuel h h0 : nat) : list nat :=
  match fuel with O => [] | S k => h :: (if nx p h =? h0 then [] else orbit p k (nx p h) h0) end.
Definition around (p : hds) (h : nat) : list nat := orbit p (length (h_next p)) h h.
(** split_facet(h, g): a new diagonal from the vertex of h to that of g; it is returned, with the old
    face to its left and the new one to its right. *)
Definition split_facet (p : hds) (h g : nat) : hds * nat :=
  let n := length (h_next p) in
  let q := Hds (upd (upd (h_next p) h n) g (S n) ++ [nx p g; nx p h])
       (h_opp p ++ [S n; n]) (h_vert p ++ [vt p g; vt p h]) (h_face p ++ [get (h_face p) h; n_faces p]) (v_point p) (S (n_faces p)) in
  (Hds (h_next q) (h_opp q) (h_vert q) (fold_left (fun fs k => upd fs k (n_faces p)) (around q (S n)) (h_face q)) (v_point q) (n_faces q), n).
(** An assignment to h->vertex()->point(). *)
Definition put (p : hds) (h : nat) (v : point) : hds :=
  Hds (h_next p) (h_opp p) (h_vert p) (h_face p)
      (firstn (vt p h) (v_point p) ++ [v] ++ skipn (S (vt p h)) (v_point p)) (n_faces p).
(** The corner of a box with the larger coordinate on the axes that say so. *)
Definition corner (b : aab) (x y z : bool) : point :=
  ((if x then bmax b AX else bmin b AX), (if y then bmax b AY else bmin b AY), (if z then bmax b AZ else bmin b AZ)).
(** spatial_common.cpp:18-42 make_cube. *)
Definition make_cube (box : aab) : hds :=
  let '(p, h) := make_tetrahedron (corner box true false false) (corner box false false true)
                                  (corner box false false false) (corner box false true false) in
  let g := nx p (op p (nx p h)) in
  let '(p, _) := split_edge p (nx p h) in
  let '(p, _) := split_edge p (nx p g) in
  let '(p, _) := split_edge p g in
  let p := put p (nx p h) (corner box true false true) in
  let p := put p (nx p g) (corner box false true true) in
  let p := put p (op p g) (corner box true true false) in
  let '(p, f) := split_facet p (nx p g) (nx p (nx p (nx p g))) in
  let '(p, e) := split_edge p f in
  let p := put p e (corner box true true true) in
  fst (split_facet p e (nx p (nx p f))).
(** The faces as output (operator<<): for each face its half-edges, for each of those its vertex. *)
Definition first_of (p : hds) (f : nat) : option nat :=
  find (fun h => get (h_face p) h =? f) (seq 0 (length (h_face p))).
Definition face_verts (p : hds) (f : nat) : list nat :=
  match first_of p f with Some h => map (fun k => vt p k) (around p h) | None => [] end.
Definition face_list (p : hds) : list (list nat) := map (face_verts p) (seq 0 (n_faces p)).

(** * adjust_polyhedron.cpp *)
Open Scope Z_scope.
(** Conversion to int drops the fraction; [None] outside int (undefined). *)
Definition to_int (q : Q) : option Z :=
  let t := if Qle_bool 0 q then Qfloor q else - Qfloor (- q) in
  if (- 2147483648 <=? t) && (t <=? 2147483647) then Some t else None.
(** adjust_polyhedron.cpp:27-37 for one axis: the smallest coordinate (starting from DBL_MAX, larger
    than any float: the first coordinate replaces it) and mean_co, an int to which each coordinate is
    added in floating point and cut off again. *)
Fixpoint gather (cs : list Q) (mn : option Q) (mean : Z) : option (option Q * Z) :=
  match cs with
  | [] => Some (mn, mean)
  | c :: r =>
    do m <- to_int (inject_Z mean + c);
    gather r (Some (match mn with None => c | Some x => if Qltb c x then c else x end)) m
  end.
(** adjust_polyhedron.cpp:39-41: mean_co /= counter, integers; without vertices a division by zero. *)
Definition mean_of (mean : Z) (counter : nat) : option Z :=
  match counter with O => None | _ => Some (Z.quot mean (Z.of_nat counter)) end.
(** adjust_polyhedron.cpp:43-52 for one axis.  Division by zero: [None]. *)
Definition move (shift : Z) (shrink : Q) (mn : Q) (mean : Z) (c : Q) : option Q :=
  if Qeq_bool shrink 0 then None else
  Some (if Qltb 1 shrink then (c + inject_Z shift - mn) / shrink + inject_Z mean else (c + inject_Z shift) / shrink)%Q.
(** adjust_polyhedron.cpp:13-54 for one axis of all vertices (the axes do not interact): copied through
    a stream with six digits, then moved. *)
Definition adjust_axis (shift : Z) (shrink : Q) (cs0 : list Q) : option (list Q) :=
  let cs := map (shown 6) cs0 in
  do (mn, mean) <- gather cs None 0;
  do mean' <- mean_of mean (length cs);
  match mn with
  | None => None
  | Some m => fold_right (fun c acc => do x <- move shift shrink m mean' c; do l <- acc; Some (x :: l)) (Some []) cs
  end.
