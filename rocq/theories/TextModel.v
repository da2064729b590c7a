(** Model of the text the programs write: numbers as the streams of /repo print them, WKT
    (/repo/src/spatial/himesh.cpp:442-472, /repo/src/spatial/spatial_common.cpp:67-97) and its
    program /repo/src/test/towkt.cpp.  Coordinates are exact rationals; a float is one of them
    (NaN, the infinities and the sign of -0 are left out). *)
From Coq Require Import String Ascii List ZArith QArith Qabs Qround Qpower Bool.
Import ListNotations.
Open Scope Z_scope.

(** The strings of himesh.cpp:442-472 and spatial_common.cpp:67-97. *)
Definition text := list ascii.
(** A literal of the source. *)
Definition lit (s : string) : text := list_ascii_of_string s.

(** * Numbers: operator<<(float) with the format of a fresh stream, that is printf's %g with the
    precision of the stream: 6 by default (himesh.cpp:443, towkt.cpp:20 and the OFF output through
    mymeshIO.cpp:330-342, spatial_common.cpp:44-49), 10 after line spatial_common.cpp:69. *)
Definition ten (x : Z) : Q := Qpower 10 x.
(** The conversion of glibc: nearest, ties to even. *)
Definition round_even (q : Q) : Z :=
  let f := Qfloor q in
  match Qcompare (q - inject_Z f) (1 # 2) with
  | Lt => f
  | Gt => f + 1
  | Eq => if Z.even f then f else f + 1
  end.
(** The decimal exponent X of a positive number, 10^X <= v < 10^(X+1), by trying. *)
Fixpoint lead (fuel : nat) (v : Q) (x : Z) : Z :=
  match fuel with
  | O => x
  | S k => if Qle_bool (ten x) v then x else lead k v (x - 1)
  end.
Definition exponent (v : Q) : Z :=
  lead (Z.to_nat (Z.log2 (Qnum v) + Z.log2 (Zpos (Qden v)) + 4)) v (Z.log2 (Qnum v) + 1).
(** The digits kept, as a number of p digits, and the exponent of the first; rounding up to a power
    of ten moves the exponent. *)
Definition significand (p : nat) (v : Q) : Z * Z :=
  let x := exponent v in
  let m := round_even (v * ten (Z.of_nat p - 1 - x)) in
  if m =? 10 ^ Z.of_nat p then (10 ^ (Z.of_nat p - 1), x + 1) else (m, x).
(** The last n decimal digits, first one first. *)
Fixpoint digits (n : nat) (m : Z) : list Z :=
  match n with O => [] | S k => digits k (m / 10) ++ [m mod 10] end.
Definition digit (d : Z) : ascii := ascii_of_nat (48 + Z.to_nat d).
(** %g removes trailing zeros, and a point that nothing follows. *)
Fixpoint drop0 (l : list Z) : list Z :=
  match l with [] => [] | d :: r => if d =? 0 then drop0 r else l end.
Definition strip (l : list Z) : list Z := rev (drop0 (rev l)).
Definition fraction (l : list Z) : text :=
  match strip l with [] => [] | s => lit "." ++ map digit s end.
(** %g: scientific when X < -4 or X >= precision; exponents have two digits (those of float do). *)
Definition general_pos (p : nat) (v : Q) : text :=
  let (m, x) := significand p v in
  let ds := digits p m in
  if (x <? -4) || (Z.of_nat p <=? x)
  then map digit (firstn 1 ds) ++ fraction (skipn 1 ds) ++ lit "e"
       ++ lit (if x <? 0 then "-" else "+") ++ map digit (digits 2 (Z.abs x))
  else if x <? 0
  then lit "0" ++ fraction (repeat 0 (Z.to_nat (- x - 1)) ++ ds)
  else map digit (firstn (Z.to_nat (x + 1)) ds) ++ fraction (skipn (Z.to_nat (x + 1)) ds).
Definition general (p : nat) (v : Q) : text :=
  match Qcompare v 0 with
  | Eq => lit "0"
  | Lt => lit "-" ++ general_pos p (- v)
  | Gt => general_pos p v
  end.

(** * WKT *)
Definition point := (Q * Q * Q)%type.
(** himesh.cpp:464, 467: p[0]<<" "<<p[1]<<" "<<p[2]. *)
Definition put_point (p : nat) (v : point) : text :=
  let '(x, y, z) := v in general p x ++ lit " " ++ general p y ++ lit " " ++ general p z.
(** himesh.cpp:456-466: the loop around a face; a comma before every point but the first. *)
Fixpoint put_ring (p : nat) (first : bool) (ps : list point) : text :=
  match ps with
  | [] => []
  | v :: r => (if first then [] else lit ",") ++ put_point p v ++ put_ring p false r
  end.
(** himesh.cpp:446-469: the loop over the faces, each a list of the points around it.  A face has
    at least one point; firstpoint would otherwise be left as it is made, here (0,0,0). *)
Fixpoint put_faces (p : nat) (lfirst : bool) (fs : list (list point)) : text :=
  match fs with
  | [] => []
  | f :: r => (if lfirst then [] else lit ",") ++ lit "((" ++ put_ring p true f
              ++ lit "," ++ put_point p (hd (0, 0, 0)%Q f) ++ lit "))" ++ put_faces p false r
  end.
(** himesh.cpp:442-472 to_wkt, precision 6. *)
Definition to_wkt (fs : list (list point)) : text :=
  lit "POLYHEDRALSURFACE Z (" ++ put_faces 6 true fs ++ lit ")".
Definition newline : ascii := ascii_of_nat 10.
(** spatial_common.cpp:67-97 polyhedron_to_wkt, precision 10 and a newline. *)
Definition polyhedron_to_wkt (fs : list (list point)) : text :=
  lit "POLYHEDRALSURFACE Z (" ++ put_faces 10 true fs ++ lit ")" ++ [newline].
(** operator<<(int) for a number that is not negative. *)
Fixpoint put_nat (fuel : nat) (n : Z) : text :=
  match fuel with
  | O => []
  | S k => (if n <? 10 then [] else put_nat k (n / 10)) ++ [digit (n mod 10)]
  end.
Definition put_int (n : Z) : text := put_nat (Z.to_nat (Z.log2 n) + 1) n.
(** towkt.cpp:19-21: one line for each object of the tile; an object is its faces at level 100. *)
Fixpoint towkt (i : Z) (objects : list (list (list point))) : text :=
  match objects with
  | [] => []
  | o :: r => put_int i ++ lit "|" ++ to_wkt o ++ [newline] ++ towkt (i + 1) r
  end.

(** What is left of a number that is written to a stream with precision p and read again (the copies
    through a stringstream, e.g. /repo/src/test/adjust_polyhedron.cpp:16-18).  The rounding of the
    reader to float is left out. *)
Definition shown (p : nat) (v : Q) : Q :=
  match Qcompare v 0 with
  | Eq => 0
  | Lt => - (let (m, x) := significand p (- v) in inject_Z m * ten (x - (Z.of_nat p - 1)))
  | Gt => let (m, x) := significand p v in inject_Z m * ten (x - (Z.of_nat p - 1))
  end%Q.
