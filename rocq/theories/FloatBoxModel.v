(** Model of the distance of boxes in single precision: /repo/src/geometry/aab.h:176-193, and the
    octree query that uses it, /repo/src/index/octree.cpp:165-185.  A float is a rational of 24
    significant bits; the range of exponents is not bounded, so there is neither overflow nor
    underflow.  Each operation rounds once (x86-64 without fused multiply-add). *)
From Coq Require Import QArith Qabs Qround Qpower ZArith List Bool.
From Verif Require Import AabModel OctreeModel TextModel.
Import ListNotations.
Open Scope Q_scope.

(** The binary exponent of a number other than 0: 2^e <= |x| < 2^(e+1). *)
Definition bexp (x : Q) : Z :=
  let a := Qabs x in
  let e := (Z.log2 (Qnum a) - Z.log2 (Zpos (Qden a)))%Z in
  if Qle_bool (2 ^ e) a then e else (e - 1)%Z.
(** Rounding to 24 bits, nearest, ties to even (IEEE 754 binary32, round to nearest even). *)
Definition fl (x : Q) : Q :=
  if Qeq_bool x 0 then 0 else
  let e := bexp x in inject_Z (round_even (x * 2 ^ (23 - e))) * 2 ^ (e - 23).
Definition is_float (x : Q) : Prop := fl x == x.

(** aab.h:182-191, one axis: tmp1, tmp2 and what is added to maxdist and mindist.  Division by four
    is exact. *)
Definition tmp1_f (a b : aab) (i : axis) : Q := fl (bmin a i - bmax b i).
Definition tmp2_f (a b : aab) (i : axis) : Q := fl (bmax a i - bmin b i).
Definition max_term (a b : aab) (i : axis) : Q :=
  let s := fl (tmp1_f a b i + tmp2_f a b i) in fl (s * s) / 4.
Definition min_term (a b : aab) (i : axis) : option Q :=
  let t1 := tmp1_f a b i in
  let t2 := tmp2_f a b i in
  if Qltb t2 0 then Some (fl (t2 * t2)) else if Qltb 0 t1 then Some (fl (t1 * t1)) else None.
(** aab.h:176-193 distance: the sums are rounded after each axis. *)
Definition add_term (acc : Q) (t : option Q) : Q := match t with Some x => fl (acc + x) | None => acc end.
Definition distance_f (a b : aab) : range :=
  Range (fold_left add_term (map (min_term a b) [AX; AY; AZ]) 0)
        (fold_left (fun acc i => fl (acc + max_term a b i)) [AX; AY; AZ] 0).

(** geometry.h:75-80 VdistV2 in single precision: (dx*dx + dy*dy) + dz*dz. *)
Definition VdistV2_f (p q : vec) : Q :=
  let d := fun i => fl (p i - q i) in
  fl (fl (fl (d AX * d AX) + fl (d AY * d AY)) + fl (d AZ * d AZ)).

(** octree.cpp:165-185 query_within with these distances. *)
Fixpoint query_within_f (t : onode) (q : wobj) (max_dist : Q) : list (Z * range) :=
  if Qle_bool (mindist (distance_f (node_box t) (o_box q))) max_dist then
    match t with
    | Leaf _ _ _ objs =>
      map (fun o => (o_id o, distance_f (o_box o) (o_box q)))
        (filter (fun o => negb (Nat.eqb (o_ptr o) (o_ptr q)) &&
                          Qle_bool (mindist (distance_f (o_box o) (o_box q))) max_dist)%bool objs)
    | Inner _ _ _ kids => flat_map (fun k => query_within_f k q max_dist) kids
    end
  else [].
