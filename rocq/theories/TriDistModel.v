(** Model of the distance of triangles: /repo/src/geometry/TriDist.cpp.  The file is compiled into
    every program, though none of them calls it.  Floats are exact rationals; an array of three
    floats is a [vec], a triangle is given by its three corners S, S+3, S+6 as [S 0], [S 1], [S 2].
    The functions return square roots; here they return the number under the root. *)
From Coq Require Import QArith List Bool Arith.
From Verif Require Import AabModel SegDistModel.
Import ListNotations.
Open Scope Q_scope.

(** geometry.h:57-64 VcrossV. *)
Definition vcross (a b : vec) : vec :=
  v3 (a AY * b AZ - a AZ * b AY) (a AZ * b AX - a AX * b AZ) (a AX * b AY - a AY * b AX).
(** geometry.h:86-93 VxS. *)
Definition vscale (a : vec) (s : Q) : vec := fun i => a i * s.

(** TriDist.cpp:60-162 SegPoints: the points X and Y and the vector VEC. *)
Definition SegPoints (P A Q0 B : vec) : vec * vec * vec :=
  let T := vsub Q0 P in
  let A_dot_A := vdot A A in
  let B_dot_B := vdot B B in
  let A_dot_B := vdot A B in
  let A_dot_T := vdot A T in
  let B_dot_T := vdot B T in
  let denom := A_dot_A * B_dot_B - A_dot_B * A_dot_B in
  let t := if Qeq_bool denom 0 then 0 else (A_dot_T * B_dot_B - B_dot_T * A_dot_B) / denom in
  let u := if Qeq_bool B_dot_B 0 then 0 else (t * A_dot_B - B_dot_T) / B_dot_B in
  if Qle_bool u 0 then
    let Y := Q0 in
    let t := if Qeq_bool A_dot_A 0 then 0 else A_dot_T / A_dot_A in
    if Qle_bool t 0 then (P, Y, vsub Q0 P)
    else if Qle_bool 1 t then (vadd P A, Y, vsub Q0 (vadd P A))
    else (vaxpy P A t, Y, vcross A (vcross T A))
  else if Qle_bool 1 u then
    let Y := vadd Q0 B in
    let t := if Qeq_bool A_dot_A 0 then 0 else (A_dot_B + A_dot_T) / A_dot_A in
    if Qle_bool t 0 then (P, Y, vsub Y P)
    else if Qle_bool 1 t then (vadd P A, Y, vsub Y (vadd P A))
    else (vaxpy P A t, Y, vcross A (vcross (vsub Y P) A))
  else
    let Y := vaxpy Q0 B u in
    if Qle_bool t 0 then (P, Y, vcross B (vcross T B))
    else if Qle_bool 1 t then (vadd P A, Y, vcross B (vcross (vsub Q0 (vadd P A)) B))
    else
      let VEC := vcross A B in
      (vaxpy P A t, Y, if Qltb (vdot VEC T) 0 then vscale VEC (- (1)) else VEC).

(** TriDist.cpp:186-192: the sides Sv[i], from corner i to the next one. *)
Definition side (S : nat -> vec) (i : nat) : vec := vsub (S ((i + 1) mod 3)%nat) (S i).

(** What TriDist_seg hands back: closest_find and the distance, or mindd and shown_disjoint.
    mindd starts as DBL_MAX, here [None]. *)
Inductive seg_res := Found (dd : Q) | Open (mindd : dist_t) (shown_disjoint : bool).

(** TriDist.cpp:206-240, the body of the two loops for the pairs (i, j) to come. *)
Fixpoint seg_loop (S T : nat -> vec) (pairs : list (nat * nat)) (mindd : dist_t) (shown : bool) : seg_res :=
  match pairs with
  | [] => Open mindd shown
  | (i, j) :: pairs' =>
    let '(P, Q0, VEC) := SegPoints (S i) (side S i) (T j) (side T j) in
    let V := vsub Q0 P in
    let dd := vdot V V in
    if match mindd with None => true | Some m => Qle_bool dd m end then
      let a := vdot (vsub (S ((i + 2) mod 3)%nat) P) VEC in
      let b := vdot (vsub (T ((j + 2) mod 3)%nat) Q0) VEC in
      if Qle_bool a 0 && Qle_bool 0 b then Found dd else
      let p := vdot V VEC in
      let a := if Qltb a 0 then 0 else a in
      let b := if Qltb 0 b then 0 else b in
      seg_loop S T pairs' (Some dd) (shown || Qltb 0 (p - a + b))
    else seg_loop S T pairs' mindd shown
  end.
(** TriDist.cpp:177-245 TriDist_seg. *)
Definition edge_pairs : list (nat * nat) := list_prod (seq 0 3) (seq 0 3).
Definition TriDist_seg (S T : nat -> vec) : seg_res := seg_loop S T edge_pairs None false.

(** TriDist.cpp:294-301 and 349-358: the corner whose projection is the smallest, if all lie on one
    side. *)
Definition nearest_corner (Tp : nat -> Q) : option nat :=
  if Qltb 0 (Tp 0%nat) && Qltb 0 (Tp 1%nat) && Qltb 0 (Tp 2%nat) then
    let point := if Qltb (Tp 0%nat) (Tp 1%nat) then 0%nat else 1%nat in
    Some (if Qltb (Tp 2%nat) (Tp point) then 2%nat else point)
  else if Qltb (Tp 0%nat) 0 && Qltb (Tp 1%nat) 0 && Qltb (Tp 2%nat) 0 then
    let point := if Qltb (Tp 1%nat) (Tp 0%nat) then 0%nat else 1%nat in
    Some (if Qltb (Tp point) (Tp 2%nat) then 2%nat else point)
  else None.

(** TriDist.cpp:273-334, the first half of TriDist_other: shown_disjoint and the distance, or [None]
    if it goes on. *)
Definition face_corner (S T : nat -> vec) : bool * option Q :=
  let Sn := vcross (side S 0) (side S 1) in
  let Snl := vdot Sn Sn in
  if Qltb (1 # 1000000000000000) Snl then
    let Tp := fun k => vdot (vsub (S 0%nat) (T k)) Sn in
    match nearest_corner Tp with
    | None => (false, None)
    | Some point =>
      if Qltb 0 (vdot (vsub (T point) (S 0%nat)) (vcross Sn (side S 0))) &&
         Qltb 0 (vdot (vsub (T point) (S 1%nat)) (vcross Sn (side S 1))) &&
         Qltb 0 (vdot (vsub (T point) (S 2%nat)) (vcross Sn (side S 2))) then
        let P := vaxpy (T point) Sn (Tp point / Snl) in
        (true, Some (vdot (vsub P (T point)) (vsub P (T point))))
      else (true, None)
    end
  else (false, None).
(** TriDist.cpp:252-385 TriDist_other; the second half (336-381) is the first one with the triangles
    exchanged. *)
Definition TriDist_other (S T : nat -> vec) : bool * option Q :=
  let '(shown1, r1) := face_corner S T in
  match r1 with
  | Some d => (shown1, Some d)
  | None => let '(shown2, r2) := face_corner T S in (shown1 || shown2, r2)
  end.

(** TriDist.cpp:403-439 TriDist. *)
Definition TriDist (S T : nat -> vec) : dist_t :=
  match TriDist_seg S T with
  | Found dd => Some dd
  | Open mindd_seg shown =>
    let '(shown', other) := TriDist_other S T in
    match other with
    | Some d => Some d
    | None => if shown || shown' then mindd_seg else Some 0
    end
  end.

(** TriDist.cpp:441-454 TriDist_single; a triangle has nine floats. *)
Definition tri_at (data : list Q) (i : nat) : nat -> vec := fun k => vec_at data (i * 9 + k * 3)%nat.
Definition TriDist_single (data1 data2 : list Q) (size1 size2 : nat) : dist_t :=
  fold_left (fun local_min i =>
    fold_left (fun local_min j =>
      let dist := TriDist (tri_at data1 i) (tri_at data2 j) in
      if dlt dist local_min then dist else local_min) (seq 0 size2) local_min)
    (seq 0 size1) None.
