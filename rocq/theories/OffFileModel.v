(** Model of meshes in OFF files: written by operator<< (/repo/src/PPMC/mymeshIO.cpp:333-344,
    /repo/src/spatial/spatial_common.cpp:44-49) and read by operator>> (/repo/src/PPMC/mymesh.cpp:51-53), with
    coordinates that are decimal numbers. *)
From Coq Require Import List Ascii String Arith ZArith QArith Bool.
From Verif Require Import Arr TextModel TextSpec SpModel BufferModel ProgModel OffReadModel.
Import ListNotations.
Close Scope Z_scope. Close Scope Q_scope.
Open Scope list_scope.
Open Scope nat_scope.

(** mymeshIO.cpp:340, spatial_common.cpp:47: what CGAL's operator<< puts out.  Numbers have the six digits of
    a fresh stream; the third number of the head is any. *)
Definition put (n : nat) : text := put_int (Z.of_nat n).
Definition point_line (p : Q * Q * Q) : text :=
  let '(x, y, z) := p in general 6 x ++ lit " " ++ general 6 y ++ lit " " ++ general 6 z ++ [newline].
Definition face_line (f : list nat) : text := put (List.length f) ++ lit " " ++ flat_map (fun v => lit " " ++ put v) f ++ [newline].
Definition write_off (edges : nat) (pts : list (Q * Q * Q)) (faces : list (list nat)) : text :=
  lit "OFF" ++ [newline] ++ put (List.length pts) ++ lit " " ++ put (List.length faces) ++ lit " " ++ put edges ++ [newline; newline]
  ++ flat_map point_line pts ++ flat_map face_line faces.

(** mymesh.cpp:53, operator>> of a floating-point number: the characters a number may have are taken, then
    their value.  The rounding to the type is left out; so are infinities and hexadecimal numbers. *)
Definition real_char (c : ascii) : bool :=
  (match digit c with Some _ => true | None => false end || (c =? ".")%char || (c =? "e")%char || (c =? "E")%char || (c =? "+")%char || (c =? "-")%char)%bool.
Fixpoint take_real (s : text) : text * text :=
  match s with
  | c :: r => if real_char c then let (a, b) := take_real r in (c :: a, b) else ([], s)
  | [] => ([], [])
  end.
Definition next_real (s : text) : option (Q * text) :=
  let (t, r) := take_real (skip_space s) in do v <- read_number t; Some (v, r).
(** mymesh.cpp:53: the points, then the whole file, as OffReadModel has them for whole numbers. *)
Fixpoint next_real_points (k : nat) (s : text) : option (list (Q * Q * Q) * text) :=
  match k with
  | O => Some ([], s)
  | S k => do (x, s) <- next_real s; do (y, s) <- next_real s; do (z, s) <- next_real s; do (ps, s) <- next_real_points k s; Some ((x, y, z) :: ps, s)
  end.
Definition read_real_mesh (s : text) : option (list (Q * Q * Q) * list (list nat)) :=
  match s with
  | a :: b :: c :: s =>
    if ((a =? "O")%char && (b =? "F")%char && (c =? "F")%char)%bool then
      do (nv, s) <- next s; do (nf, s) <- next s; do (_, s) <- next s;
      do (ps, s) <- next_real_points nv s; do fs <- next_facets nf s; Some (ps, fs)
    else None
  | _ => None
  end.
