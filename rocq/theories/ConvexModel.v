(** Model of the convexity test of the progressive compressor,
    /repo/src/PPMC/mymeshCompTests.cpp:65-110 (isConvex) and mymeshUtils.cpp:56-68 (computeNormal).
    Coordinates are exact rationals.  The code divides the normal by its length; the length is a
    square root, so the model keeps the normal undivided, with its squared length, and compares
    squares instead, which gives the same answers. *)
From Coq Require Import QArith List Bool Arith.
From Verif Require Import Arr AabModel SegDistModel PpmcModel.
Import ListNotations.
Open Scope Q_scope.
Notation qvec := AabModel.vec.
Definition qsub : qvec -> qvec -> qvec := SegDistModel.vsub.

(** CGAL::cross_product. *)
Definition cross (a b : qvec) : qvec :=
  v3 (a AY * b AZ - a AZ * b AY) (a AZ * b AX - a AX * b AZ) (a AX * b AY - a AY * b AX).
Definition origin : qvec := fun _ => 0.
Definition point (poly : list qvec) (i : nat) : qvec := nth i poly origin.
(** mymeshUtils.cpp:58-65: the sum n and its squared length, before the division. *)
Definition normal_sum (poly : list qvec) : qvec :=
  fold_left (fun n i => SegDistModel.vadd n (cross (point poly i) (point poly (Nat.modulo (i + 1) (length poly))))) (seq 0 (length poly)) origin.
(** mymeshCompTests.cpp:71-75: the projection of point [i].  n is the normal divided by its length,
    so n * (d * n) is [nn] * (d * [nn]) divided by the squared length; for a zero normal both are
    zero. *)
Definition project (nn : qvec) (sq : Q) (poly : list qvec) (i : nat) : qvec :=
  let d := vdot (qsub (point poly i) (point poly 0)) nn in fun a => point poly i a - nn a * (d / sq).
(** mymeshCompTests.cpp:98-99: cp is [cp] divided by the length; |cp| > 0.000001 by squares. *)
Definition tolerance : Q := 1 # 1000000.
Definition side (sq cp : Q) : nat := if Qltb (tolerance * tolerance * sq) (cp * cp) then (if Qltb 0 cp then 1 else 2) else 0.
(** mymeshCompTests.cpp:82. *)
Definition comp : list nat := [0; 1; 2; 1; 1; 3; 2; 3; 2]%nat.
(** mymeshCompTests.cpp:92-107: the loop over j for edge [i], whose end is ([i]+1) mod s; the test
    j == i+1 is without the mod. *)
Fixpoint same_side (nn : qvec) (sq : Q) (proj : nat -> qvec) (s i : nat) (js : list nat) (global : nat) : bool :=
  match js with
  | [] => true
  | j :: r =>
    if Nat.eqb j i || Nat.eqb j (i + 1) then same_side nn sq proj s i r global else
    let ev := qsub (proj (Nat.modulo (i + 1) s)) (proj i) in
    let dv := qsub (proj j) (proj i) in
    let g := nth (global * 3 + side sq (vdot (cross ev nn) dv)) comp 0%nat in
    if Nat.eqb g 3 then false else same_side nn sq proj s i r g
  end.
(** mymeshCompTests.cpp:65-110. *)
Definition isConvex (poly : list qvec) : bool :=
  let nn := normal_sum poly in let sq := vdot nn nn in let s := length poly in
  forallb (fun i => same_side nn sq (project nn sq poly) s i (seq 0 s) 0) (seq 0 s).

(** mymeshCompTests.cpp:195-209: the test applied to the vertices around [v]; the circulator starts
    at some half-edge towards [v], here the one with the smallest source below [n]. *)
Definition ringConvex (n lim : nat) (pos : nat -> qvec) (m : mesh) (v : nat) : bool :=
  match find (fun a => match m a v with Some _ => true | None => false end) (seq 0 n) with
  | None => false
  | Some a => match ring lim m v a with Some r => isConvex (map pos r) | None => false end
  end.
