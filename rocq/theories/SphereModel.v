(** The volume the R-tree is compiled with: RTREE_USE_SPHERICAL_VOLUME is defined (src/index/RTree.h:39),
    so CalcRectVolume (RTree.h:1220-1230) is RectSphericalVolume.
    Coordinates are the integers of RTreeModel.v, multiples of a unit [u]; every floating point number is
    such a multiple, with u = 2^-149 for single precision. *)
From Coq Require Import QArith ZArith List Bool Arith.
From Verif Require Import RTreeModel.
Import ListNotations.

Section Sphere.
(** The rounding of a result to ELEMTYPE, the square root, and pow(radius, NUMDIMS). *)
Variables rd sq : Q -> Q.
Variable pow : Q -> nat -> Q.
(** The unit of the coordinates, and m_unitSphereVolume (RTree.h:459-478). *)
Variables u unit : Q.

(** RTree.h:1199: halfExtent. *)
Definition half_extent (p : Z * Z) : Q := rd (rd (u * inject_Z (snd p - fst p)) * (1 # 2)).
(** RTree.h:1197-1201: sumOfSquares. *)
Definition sum_of_squares (r : Rect) : Q :=
  fold_left (fun s p => rd (s + rd (half_extent p * half_extent p))) r 0%Q.
(** RTree.h:1190-1217 RectSphericalVolume.  The product with pow in 1215 is rounded once. *)
Definition RectSphericalVolume (r : Rect) : Q :=
  let radius := sq (sum_of_squares r) in
  match length r with
  | 3%nat => rd (rd (rd (radius * radius) * radius) * unit)
  | 2%nat => rd (rd (radius * radius) * unit)
  | n => rd (pow radius n * unit)
  end.
End Sphere.
