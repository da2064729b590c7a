(** Model of axis-aligned boxes and distance ranges: /repo/src/geometry/aab.h:24-193.
    Floats are exact rationals.  An array of three floats is a function of the axis, so that each
    [for(i<3)] loop is one definition per axis. *)
From Coq Require Import QArith List Bool.
Import ListNotations.
Open Scope Q_scope.

(** aab.h:24-193: the index of the loops over min[3] and max[3]; an array of three floats (aab.h:54-55); its literal. *)
Inductive axis := AX | AY | AZ.
Definition vec := axis -> Q.
Definition v3 (x y z : Q) : vec := fun a => match a with AX => x | AY => y | AZ => z end.

(** aab.h:54-71, the fields min[3], max[3] and the six-argument constructor. *)
Record aab := Aab { bmin : vec; bmax : vec }.

(** The comparisons of C++ on floats. *)
Definition Qltb (x y : Q) : bool := negb (Qle_bool y x).
Definition all3 (f : axis -> bool) : bool := f AX && f AY && f AZ.
Definition any3 (f : axis -> bool) : bool := f AX || f AY || f AZ.
Definition sum3 (f : axis -> Q) : Q := f AX + f AY + f AZ.

(** aab.h:73-92 update(x, y, z) on a box that is not the default-constructed one. *)
Definition upd_min (m x : Q) : Q := if Qltb x m then x else m.
Definition upd_max (m x : Q) : Q := if Qltb m x then x else m.
Definition update_point (b : aab) (p : vec) : aab :=
  Aab (fun a => upd_min (bmin b a) (p a)) (fun a => upd_max (bmax b a) (p a)).
(** aab.h:94-103 update with a box. *)
Definition update_box (b c : aab) : aab :=
  Aab (fun a => upd_min (bmin b a) (bmin c a)) (fun a => upd_max (bmax b a) (bmax c a)).

(** aab.h:56-61: the default constructor sets min to DBL_MAX and max to -DBL_MAX; with finite data
    of smaller magnitude the first update replaces all six.  [None] is that initial box. *)
Definition acc_point (b : option aab) (p : vec) : option aab :=
  match b with None => Some (Aab p p) | Some b => Some (update_point b p) end.
Definition acc_box (b : option aab) (c : aab) : option aab :=
  match b with None => Some c | Some b => Some (update_box b c) end.

(** aab.h:106-110 intersect. *)
Definition intersect (b object : aab) : bool :=
  negb (any3 (fun a => Qle_bool (bmax b a) (bmin object a) || Qle_bool (bmax object a) (bmin b a))).

(** aab.h:111-121 contains on a box. *)
Definition contains (b object : aab) : bool :=
  all3 (fun a => negb (Qltb (bmin object a) (bmin b a)) && negb (Qltb (bmax b a) (bmax object a))).
(** aab.h:123-133 contains on a point. *)
Definition contains_point (b : aab) (p : vec) : bool :=
  all3 (fun a => negb (Qltb (p a) (bmin b a)) && negb (Qltb (bmax b a) (p a))).

(** aab.h:149-158 diagonal_length (squared) and volume. *)
Definition diagonal_length (b : aab) : Q := sum3 (fun a => (bmax b a - bmin b a) * (bmax b a - bmin b a)).
Definition volume (b : aab) : Q := (bmax b AX - bmin b AX) * (bmax b AY - bmin b AY) * (bmax b AZ - bmin b AZ).

(** aab.h:24-50 range. *)
Record range := Range { mindist : Q; maxdist : Q }.
Definition range_gt (r d : range) : bool := Qltb (maxdist d) (mindist r).
Definition range_lt (r d : range) : bool := Qltb (maxdist r) (mindist d).
Definition range_eq (r d : range) : bool := negb (Qltb (maxdist d) (mindist r) || Qltb (maxdist r) (mindist d)).
(** aab.h:43-46 update. *)
Definition range_update (d r : range) : range :=
  Range (if Qltb (mindist r) (mindist d) then mindist r else mindist d)
        (if Qltb (maxdist r) (maxdist d) then maxdist r else maxdist d).

(** aab.h:176-193 distance. *)
Definition distance (b c : aab) : range :=
  Range (sum3 (fun a => let tmp1 := bmin b a - bmax c a in let tmp2 := bmax b a - bmin c a in
                        if Qltb tmp2 0 then tmp2 * tmp2 else if Qltb 0 tmp1 then tmp1 * tmp1 else 0))
        (sum3 (fun a => let tmp1 := bmin b a - bmax c a in let tmp2 := bmax b a - bmin c a in
                        (tmp1 + tmp2) * (tmp1 + tmp2) / 4)).
