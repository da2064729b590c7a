(** Model of the distance of line segments: /repo/src/geometry/SegDist.cpp (processor) and
    SegDist_kernel of /repo/src/geometry/SegDist.cu (graphics card).  Floats are exact rationals;
    an array of three floats is a [vec]. *)
From Coq Require Import QArith List Bool Arith.
From Verif Require Import AabModel.
Import ListNotations.
Open Scope Q_scope.

(** geometry.h:27-35 VmV. *)
Definition vsub (a b : vec) : vec := fun i => a i - b i.
(** geometry.h:38-45 VpV. *)
Definition vadd (a b : vec) : vec := fun i => a i + b i.
(** geometry.h:48-55 VpVxS. *)
Definition vaxpy (a b : vec) (s : Q) : vec := fun i => a i + b i * s.
(** geometry.h:67-72 VdotV. *)
Definition vdot (a b : vec) : Q := sum3 (fun i => a i * b i).

(** The [DBL_MAX] that stands for "no distance" (SegDist.cpp:33, 90) is [None]. *)
Definition dist_t := option Q.

(** SegDist.cpp:17-77 SegDist(seg1, seg2, A, B, A_dot_A, B_dot_B); the two segments are passed by
    their first points [P] and [Q0], all that is read of them. *)
Definition SegDist (P Q0 A B : vec) (A_dot_A B_dot_B : Q) : dist_t :=
  let Tmp := vsub Q0 P in
  let A_dot_B := vdot A B in
  let A_dot_T := vdot A Tmp in
  let B_dot_T := vdot B Tmp in
  if Qeq_bool A_dot_A 0 || Qeq_bool B_dot_B 0 then None else
  let denom := A_dot_A * B_dot_B - A_dot_B * A_dot_B in
  let t := if Qeq_bool denom 0 then 0 else (A_dot_T * B_dot_B - B_dot_T * A_dot_B) / denom in
  let u := (t * A_dot_B - B_dot_T) / B_dot_B in
  let '(Y, t) := if Qle_bool u 0 then (Q0, A_dot_T / A_dot_A)
                 else if Qle_bool 1 u then (vadd Q0 B, (A_dot_B + A_dot_T) / A_dot_A)
                 else (vaxpy Q0 B u, t) in
  let X := if Qle_bool t 0 then P else if Qle_bool 1 t then vadd P A else vaxpy P A t in
  Some (vdot (vsub X Y) (vsub X Y)).

(** SegDist.cu:55-114 SegDist_kernel(S, T, A, B). *)
Definition SegDist_kernel (S T A B : vec) : dist_t :=
  let ST := vsub T S in
  let A_dot_A := vdot A A in
  let B_dot_B := vdot B B in
  if Qeq_bool A_dot_A 0 || Qeq_bool B_dot_B 0 then None else
  let A_dot_B := vdot A B in
  let A_dot_ST := vdot A ST in
  let B_dot_ST := vdot B ST in
  let denom := A_dot_A * B_dot_B - A_dot_B * A_dot_B in
  let t := if Qeq_bool denom 0 then 0 else (A_dot_ST * B_dot_B - B_dot_ST * A_dot_B) / denom in
  let u := (t * A_dot_B - B_dot_ST) / B_dot_B in
  let u := if Qle_bool u 0 then 0 else if Qle_bool 1 u then 1 else u in
  let t := (A_dot_B * u + A_dot_ST) / A_dot_A in
  let t := if Qle_bool t 0 then 0 else if Qle_bool 1 t then 1 else t in
  Some (sum3 (fun i => let t1 := A i * t - ST i - B i * u in t1 * t1)).

(** A buffer of floats and the three floats at an index, [data+k]. *)
Definition vec_at (data : list Q) (k : nat) : vec :=
  v3 (nth k data 0) (nth (k + 1) data 0) (nth (k + 2) data 0).

(** [dist < local_min] with [DBL_MAX] for [None]. *)
Definition dlt (x y : dist_t) : bool :=
  match x, y with
  | None, _ => false
  | Some _, None => true
  | Some x, Some y => Qltb x y
  end.

(** SegDist.cpp:84-90 the sizes are cut to 10000. *)
Definition cut (size : nat) : nat := Nat.min size (N.to_nat 10000%N).

(** SegDist.cpp:95-102 the arrays A (or B) and AdA (or BdB). *)
Definition edge_vecs (data : list Q) (size : nat) : list (vec * Q) :=
  map (fun i => let a := vsub (vec_at data (i * 6 + 3)) (vec_at data (i * 6)) in (a, vdot a a)) (seq 0 size).

(** SegDist.cpp:81-120 SegDist_single.  Reads past the end of a buffer give 0 here; the theorems
    only speak about buffers holding the announced number of segments. *)
Definition SegDist_single (data1 data2 : list Q) (size1 size2 : nat) : dist_t :=
  let size1 := cut size1 in
  let size2 := cut size2 in
  let A := edge_vecs data1 size1 in
  let B := edge_vecs data2 size2 in
  fold_left (fun local_min i =>
    fold_left (fun local_min j =>
      let a := nth i A (v3 0 0 0, 0) in
      let b := nth j B (v3 0 0 0, 0) in
      let dist := SegDist (vec_at data1 (i * 6)) (vec_at data2 (j * 6)) (fst a) (fst b) (snd a) (snd b) in
      if dlt dist local_min then dist else local_min) (seq 0 size2) local_min)
    (seq 0 size1) None.
