(** Model of the surfaces and of the error of a removal in /repo/src/PPMC/mymeshUtils.cpp and
    mymeshCompTests.cpp.  Coordinates and results are real numbers (the code rounds to float). *)
From Coq Require Import Reals List.
Import ListNotations.
Open Scope R_scope.

(** CGAL's Point and Vector with the operations used. *)
Record pt := Pt { px : R; py : R; pz : R }.
Definition psub (p q : pt) : pt := Pt (px p - px q) (py p - py q) (pz p - pz q).
Definition padd (p q : pt) : pt := Pt (px p + px q) (py p + py q) (pz p + pz q).
Definition pscale (k : R) (p : pt) : pt := Pt (k * px p) (k * py p) (k * pz p).
Definition pdot (p q : pt) : R := px p * px q + py p * py q + pz p * pz q.
Definition pcross (p q : pt) : pt := Pt (py p * pz q - pz p * py q) (pz p * px q - px p * pz q) (px p * py q - py p * px q).
Definition porigin : pt := Pt 0 0 0.
Definition plen (p : pt) : R := sqrt (pdot p p).

(** mymeshUtils.cpp:196-206 triangleSurface: Heron's formula. *)
Definition triangleSurface (p0 p1 p2 : pt) : R :=
  let a := plen (psub p0 p1) in let b := plen (psub p1 p2) in let c := plen (psub p2 p0) in
  let s := (a + b + c) / 2 in
  let f_sqSurface := s * (s - a) * (s - b) * (s - c) in
  if Rle_dec f_sqSurface 0 then 0 else sqrt f_sqSurface.
(** mymeshUtils.cpp:67-68: a sum divided by its length, the null vector when that is 0. *)
Definition unit_of (n : pt) : pt := if Req_EM_T (pdot n n) 0 then porigin else pscale (/ sqrt (pdot n n)) n.
Definition corner_at (poly : list pt) (i : nat) : pt := nth i poly porigin.
Definition next_at (poly : list pt) (i : nat) : pt := corner_at poly (Nat.modulo (i + 1) (length poly)).
(** mymeshUtils.cpp:56-69 computeNormal of a polygon, before and after the division. *)
Definition area_vector (poly : list pt) : pt :=
  fold_left (fun n i => padd n (pcross (corner_at poly i) (next_at poly i))) (seq 0 (length poly)) porigin.
Definition normal_of_polygon (poly : list pt) : pt := unit_of (area_vector poly).
(** mymeshUtils.cpp:73-78 computeNormal of a triangle. *)
Definition normal_of_triangle (p0 p1 p2 : pt) : pt := unit_of (pcross (psub p1 p0) (psub p2 p1)).
(** mymeshUtils.cpp:127-134 barycenter of a polygon: the points divided by their number are added up. *)
Definition barycenter (poly : list pt) : pt := fold_left (fun b p => padd b (pscale (/ INR (length poly)) p)) poly porigin.
(** mymeshUtils.cpp:109-124 barycenter of the facet of a half-edge: the sum is divided at the end. *)
Definition barycenter_gate (poly : list pt) : pt := pscale (/ INR (length poly)) (fold_left padd poly porigin).
(** mymeshUtils.cpp:211-215 edgeLen and 221-230 facePerimeter; mymeshCompTests.cpp:149-152 the same sum. *)
Definition perimeter (poly : list pt) : R :=
  fold_left (fun f i => f + plen (psub (next_at poly i) (corner_at poly i))) (seq 0 (length poly)) 0.
(** mymeshUtils.cpp:236-268 faceSurface; the corners start at the half-edge given. *)
Definition faceSurface (poly : list pt) : R :=
  let b := barycenter_gate poly in
  fold_left (fun f i => f + triangleSurface b (corner_at poly i) (next_at poly i)) (seq 0 (length poly)) 0.

(** mymeshCompTests.cpp:154-163: the area of the polygon. *)
Definition fan_area (poly : list pt) : R :=
  fold_left (fun f i => f + triangleSurface (corner_at poly i) (next_at poly i) (barycenter poly)) (seq 0 (length poly)) 0.
(** mymeshCompTests.cpp:165-179: the volume.  The third corner of the triangles is the barycenter [b] (176). *)
Definition removal_volume (poly : list pt) : R :=
  let b := barycenter poly in
  fold_left (fun f i =>
      f + 1 / 3 * triangleSurface (corner_at poly i) (next_at poly i) b
          * pdot (corner_at poly i) (normal_of_triangle (corner_at poly i) (next_at poly i) b))
    (seq 0 (length poly)) (1 / 3 * fan_area poly * pdot b (pscale (- 1) (normal_of_polygon poly))).
(** mymeshCompTests.cpp:142-184 removalError; pow(x, 1.0 / 3) is [Rpower]. *)
Definition removalError (v : pt) (poly : list pt) : R :=
  let f_volume := removal_volume poly in
  if Rlt_dec 0 f_volume then Rpower f_volume (1 / 3) * INR (length poly) / perimeter poly else 0.

(** mymeshCompTests.cpp:116-135 isPlanar: the mean squared distance from the barycenter, then the distance
    of each corner from the plane through it. *)
Definition characteristic_size (poly : list pt) : R :=
  fold_left (fun f i => f + pdot (psub (barycenter poly) (corner_at poly i)) (psub (barycenter poly) (corner_at poly i))) (seq 0 (length poly)) 0
  / INR (length poly).
Definition plane_dist (poly : list pt) (i : nat) : R := pdot (normal_of_polygon poly) (psub (corner_at poly i) (barycenter poly)).
Definition isPlanar (poly : list pt) (epsilon : R) : bool :=
  forallb (fun i => if Rlt_dec (epsilon * characteristic_size poly) (plane_dist poly i * plane_dist poly i) then false else true) (seq 0 (length poly)).
