(** Model of the triangle intersection test: /repo/src/geometry/TriInt.cpp.  The device copy in
    /repo/src/geometry/TriInt.cu:43-282 is the same text.  Floats are exact rationals.  A triangle
    is a corner and the two edge vectors leaving it. *)
From Coq Require Import QArith List Bool Arith.
From Verif Require Import AabModel SegDistModel.
Import ListNotations.
Open Scope Q_scope.

(** TriInt.cpp:53-71 EDGE_EDGE_TEST: [ax], [ay] is the direction of the first edge, starting at
    [v0]; the second edge goes from [u0] to [u1]; [i0], [i1] are the two axes kept. *)
Definition edge_edge (i0 i1 : axis) (ax ay : Q) (v0 u0 u1 : vec) : bool :=
  let bx := u0 i0 - u1 i0 in
  let by_ := u0 i1 - u1 i1 in
  let cx := v0 i0 - u0 i0 in
  let cy := v0 i1 - u0 i1 in
  let f := ay * bx - ax * by_ in
  let d := by_ * cx - bx * cy in
  if (Qltb 0 f && Qle_bool 0 d && Qle_bool d f) || (Qltb f 0 && Qle_bool d 0 && Qle_bool f d) then
    let e := ax * cy - ay * cx in
    if Qltb 0 f then Qle_bool 0 e && Qle_bool e f else Qle_bool e 0 && Qle_bool f e
  else false.

(** TriInt.cpp:73-84 EDGE_AGAINST_TRI_EDGES. *)
Definition edge_tri (i0 i1 : axis) (v0 v1 u0 u1 u2 : vec) : bool :=
  let ax := v1 i0 - v0 i0 in
  let ay := v1 i1 - v0 i1 in
  edge_edge i0 i1 ax ay v0 u0 u1 || edge_edge i0 i1 ax ay v0 u1 u2 || edge_edge i0 i1 ax ay v0 u2 u0.

(** TriInt.cpp:91-94, 96-99, 101-104: the value of the line through [u0], [u1] at [v]. *)
Definition side (i0 i1 : axis) (u0 u1 v : vec) : Q :=
  let a := u1 i1 - u0 i1 in
  let b := - (u1 i0 - u0 i0) in
  let c := - a * u0 i0 - b * u0 i1 in
  a * v i0 + b * v i1 + c.

(** TriInt.cpp:86-109 POINT_IN_TRI. *)
Definition point_in_tri (i0 i1 : axis) (v0 u0 u1 u2 : vec) : bool :=
  let d0 := side i0 i1 u0 u1 v0 in
  let d1 := side i0 i1 u1 u2 v0 in
  let d2 := side i0 i1 u2 u0 v0 in
  Qltb 0 (d0 * d1) && Qltb 0 (d0 * d2).

(** TriInt.cpp:125-127: std::abs. *)
Definition Qabsv (x : Q) : Q := if Qltb x 0 then - x else x.

(** TriInt.cpp:122-145: the pair of axes kept. *)
Definition kept_axes (N : vec) : axis * axis :=
  let a0 := Qabsv (N AX) in
  let a1 := Qabsv (N AY) in
  let a2 := Qabsv (N AZ) in
  if Qltb a1 a0 then if Qltb a2 a0 then (AY, AZ) else (AX, AY)
  else if Qltb a1 a2 then (AX, AY) else (AX, AZ).

(** TriInt.cpp:117-157 coplanar_tri_tri. *)
Definition coplanar_tri_tri (N V0 V1 V2 U0 U1 U2 : vec) : bool :=
  let '(i0, i1) := kept_axes N in
  edge_tri i0 i1 V0 V1 U0 U1 U2 || edge_tri i0 i1 V1 V2 U0 U1 U2 || edge_tri i0 i1 V2 V0 U0 U1 U2 ||
  point_in_tri i0 i1 V0 U0 U1 U2 || point_in_tri i0 i1 U0 V0 V1 V2.

(** geometry.h:57-64 VcrossV. *)
Definition vcross (a b : vec) : vec :=
  v3 (a AY * b AZ - a AZ * b AY) (a AZ * b AX - a AX * b AZ) (a AX * b AY - a AY * b AX).

(** TriInt.cpp:159-162 sVpsV_2: only the first two components. *)
Definition sVpsV_2 (s1 : Q) (V1 : vec) (s2 : Q) (V2 : vec) : Q * Q :=
  (s1 * V1 AX + s2 * V2 AX, s1 * V1 AY + s2 * V2 AY).

(** TriInt.cpp:198-199 and 260, 263: a parameter times the square of its denominator lies between
    zero and that square. *)
Definition legal (x det : Q) : bool := Qle_bool 0 x && Qle_bool x (det * det) && negb (Qeq_bool det 0).

(** TriInt.cpp:270-273 and the like: some end of the stretch, or the stretch itself, meets [0,1]. *)
Definition stretch (g1 det1 g2 det2 : Q) : bool :=
  (Qle_bool g1 0 && Qle_bool (- (det1 * det1)) g1) || (Qle_bool g2 0 && Qle_bool (- (det2 * det2)) g2) ||
  Qltb (g1 * g2) 0.

(** TriInt.cpp:248-288: the test in the plane; [r4] and [t] are the stretch of the second triangle,
    [p1] and [p2] the edges of the first. *)
Definition flat_test (p1 p2 r4 t : Q * Q) : bool :=
  let det1 := fst p1 * snd t - fst t * snd p1 in
  let gama1 := (fst p1 * snd r4 - fst r4 * snd p1) * det1 in
  let alpha1 := (fst r4 * snd t - fst t * snd r4) * det1 in
  let alpha1_legal := legal alpha1 det1 in
  let det2 := fst p2 * snd t - fst t * snd p2 in
  let alpha2 := (fst r4 * snd t - fst t * snd r4) * det2 in
  let gama2 := (fst p2 * snd r4 - fst r4 * snd p2) * det2 in
  let alpha2_legal := legal alpha2 det2 in
  let det3 := det2 - det1 in
  let gama3 := ((fst p2 - fst p1) * (snd r4 - snd p1) - (fst r4 - fst p1) * (snd p2 - snd p1)) * det3 in
  if alpha1_legal then
    if alpha2_legal then stretch gama1 det1 gama2 det2 else stretch gama1 det1 gama3 det3
  else if alpha2_legal then stretch gama2 det2 gama3 det3
  else false.

(** TriInt.cpp:170-289 TriInt(data1, data2). *)
Definition TriInt (C1 P1 P2 D1 Q1 Q2 : vec) : bool :=
  let r := vsub D1 C1 in
  let dp0 := P1 AY * P2 AZ - P2 AY * P1 AZ in
  let dp1 := P1 AX * P2 AZ - P2 AX * P1 AZ in
  let dp2 := P1 AX * P2 AY - P2 AX * P1 AY in
  let dq1 := Q1 AX * dp0 - Q1 AY * dp1 + Q1 AZ * dp2 in
  let dq2 := Q2 AX * dp0 - Q2 AY * dp1 + Q2 AZ * dp2 in
  let dr := - r AX * dp0 + r AY * dp1 - r AZ * dp2 in
  let beta1 := dr * dq2 in
  let beta2 := dr * dq1 in
  let beta1_legal := Qle_bool 0 beta2 && Qle_bool beta2 (dq1 * dq1) && negb (Qeq_bool dq1 0) in
  let beta2_legal := Qle_bool 0 beta1 && Qle_bool beta1 (dq2 * dq2) && negb (Qeq_bool dq2 0) in
  let dq3 := dq2 - dq1 in
  let dr3 := dr - dq1 in
  if Qeq_bool dq1 0 && Qeq_bool dq2 0 then
    if negb (Qeq_bool dr 0) then false
    else coplanar_tri_tri (vcross P1 P2) C1 (vadd C1 P1) (vadd C1 P2) D1 (vadd D1 Q1) (vadd D1 Q2)
  else if negb beta2_legal && negb beta1_legal then false
  else
    (* the scale, the stretch, and the edge and parameter of its first point *)
    let '(SF, t, Q1, beta1) :=
      if beta2_legal && beta1_legal then
        (dq1 * dq2, sVpsV_2 beta2 Q2 (- beta1) Q1, Q1, beta1)
      else if beta1_legal then
        let SF := dq1 * dq3 in
        let beta1 := beta1 - beta2 in
        let beta3 := dr3 * dq1 in
        (SF, sVpsV_2 (SF - beta3 - beta1) Q1 beta3 Q2, Q1, beta1)
      else
        let SF := dq2 * dq3 in
        let beta2 := beta1 - beta2 in
        let beta3 := dr3 * dq2 in
        (SF, sVpsV_2 (SF - beta3) Q1 (beta3 - beta2) Q2, Q2, beta2) in
    let r4 := sVpsV_2 SF r beta1 Q1 in
    flat_test (SF * P1 AX, SF * P1 AY) (SF * P2 AX, SF * P2 AY) r4 t.

(** TriInt.cpp:291-300 TriInt_single: the two nested loops with their early return; a triangle is
    nine floats. *)
Definition tri_int_at (data1 data2 : list Q) (i j : nat) : bool :=
  TriInt (vec_at data1 (9 * i)) (vec_at data1 (9 * i + 3)) (vec_at data1 (9 * i + 6))
         (vec_at data2 (9 * j)) (vec_at data2 (9 * j + 3)) (vec_at data2 (9 * j + 6)).
Fixpoint find_from (f : nat -> bool) (i n : nat) : bool :=
  match n with
  | O => false
  | S n => if f i then true else find_from f (S i) n
  end.
Definition TriInt_single (data1 data2 : list Q) (size1 size2 : nat) : bool :=
  find_from (fun i => find_from (fun j => tri_int_at data1 data2 i j) 0 size2) 0 size1.

(** TriInt.cu:286-308 TriInt_cuda: thread [idx] sets its own cell and then scans its pair of
    triangle ranges.  [offset_size] holds offset and size of both ranges for each pair; the 32 bit
    products [9*(offset+s)] are taken as exact. *)
Definition os_at (os : list nat) (k : nat) : nat := nth k os O.
Definition tri_kernel (data : list Q) (os : list nat) (idx : nat) : bool :=
  let offset1 := os_at os (idx * 4) in
  let size1 := os_at os (idx * 4 + 1) in
  let offset2 := os_at os (idx * 4 + 2) in
  let size2 := os_at os (idx * 4 + 3) in
  find_from (fun s1 => find_from (fun s2 => tri_int_at data data (offset1 + s1) (offset2 + s2)) 0 size2) 0 size1.
Definition tri_thread (data : list Q) (os : list nat) (pair_num : nat) (intersect : list bool) (idx : nat) : list bool :=
  if (pair_num <=? idx)%nat then intersect
  else firstn idx intersect ++ tri_kernel data os idx :: skipn (S idx) intersect.
(** TriInt.cu:336: the grid has pair_num/1024+1 blocks of 1024 threads; [block] is 1024 there. *)
Definition tri_grid (block pair_num : nat) : list nat :=
  flat_map (fun b => map (fun t => b * block + t)%nat (seq 0 block)) (seq 0 (pair_num / block + 1)).
(** The threads run in some order; each one touches only its own cell. *)
Definition tri_batch (data : list Q) (os : list nat) (pair_num : nat) (order : list nat) (intersect : list bool) : list bool :=
  fold_left (tri_thread data os pair_num) order intersect.
