(** Model of the local frame of a gate, /repo/src/PPMC/frenetRotation.cpp:26-43.  Exact rationals; the square root is
    that of [libm]. *)
From Coq Require Import QArith.
From Verif Require Import AabModel SegDistModel TriIntModel RotModel.
Open Scope Q_scope.

(** CGAL::cross_product, used in frenetRotation.cpp:43. *)
Definition cross_product (u v : vec) : vec := v3 (u AY * v AZ - u AZ * v AY) (u AZ * v AX - u AX * v AZ) (u AX * v AY - u AY * v AX).
(** frenetRotation.cpp:31-34: the gate from Q to P. *)
Definition gateVector (P Q0 : vec) : vec := fun a => P a - Q0 a.
(** frenetRotation.cpp:36-40: the part of the gate at right angles to the normal, divided by its length unless that is 0. *)
Definition flat_part (gate normal : vec) : vec := fun a => gate a - vdot gate normal * normal a.
Definition frame_t1 (L : libm) (P Q0 normal : vec) : vec :=
  let t1 := flat_part (gateVector P Q0) normal in
  let len := l_sqrt L (vdot t1 t1) in
  fun a => if Qeq_bool len 0 then t1 a else t1 a / len.
(** frenetRotation.cpp:42-43: the second tangent. *)
Definition frame_t2 (L : libm) (P Q0 normal : vec) : vec := cross_product normal (frame_t1 L P Q0 normal).
