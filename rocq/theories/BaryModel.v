(** Model of the three barycenters of /repo/src/PPMC/mymeshUtils.cpp:94-135, in exact rationals. *)
From Coq Require Import QArith ZArith List.
Import ListNotations.

(** A point or a vector. *)
Definition point : Type := (Q * Q * Q)%type.
Definition plus (p q : point) : point := let '(a, b, c) := p in let '(x, y, z) := q in (a + x, b + y, c + z)%Q.
Definition over (p : point) (d : Q) : point := let '(a, b, c) := p in (a / d, b / d, c / d)%Q.
Definition origin : point := (0, 0, 0)%Q.
Definition number {A} (l : list A) : Q := inject_Z (Z.of_nat (length l)).
(** mymeshUtils.cpp:94-106 barycenter of a facet: its corners from facet_begin, each divided by facet_degree. *)
Definition bary_facet (corners : list point) : point :=
  let d := number corners in fold_left (fun b p => plus b (over p d)) corners origin.
(** mymeshUtils.cpp:109-124 barycenter of the facet of a half-edge: the corners from there, counted; divided at the end. *)
Fixpoint sum_count (corners : list point) (b : point) (degree : Z) : point * Z :=
  match corners with [] => (b, degree) | p :: r => sum_count r (plus b p) (degree + 1)%Z end.
Definition bary_gate (corners : list point) : point :=
  let '(b, degree) := sum_count corners origin 0%Z in plus origin (over b (inject_Z degree)).
(** mymeshUtils.cpp:127-135 barycenter of a list of vertices. *)
Fixpoint bary_loop (n : Q) (l : list point) (b : point) : point :=
  match l with [] => b | p :: r => bary_loop n r (plus b (over p n)) end.
Definition bary_polygon (polygon : list point) : point := bary_loop (number polygon) polygon origin.
