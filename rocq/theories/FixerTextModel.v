(** Model of the text the fixer writes and reads (/repo/src/test/fixer.cpp:130-187), character by character;
    FixerModel has the numbers only. *)
From Coq Require Import List Ascii String Arith ZArith QArith Bool.
From Verif Require Import Arr TextModel TextSpec SpModel BufferModel ProgModel OffReadModel OffFileModel FixerModel.
Import ListNotations.
Close Scope Z_scope. Close Scope Q_scope.
Open Scope list_scope.
Open Scope nat_scope.

(** fixer.cpp:135, 152: a point (the same line as CGAL's). *)
Definition fixer_point (p : Q * Q * Q) : text :=
  let '(x, y, z) := p in general 6 x ++ lit " " ++ general 6 y ++ lit " " ++ general 6 z ++ [newline].
(** fixer.cpp:138-142, 155-159: a face. *)
Definition fixer_face (f : list nat) : text := put (List.length f) ++ [tab] ++ flat_map (fun v => put v ++ lit " ") f ++ [newline].
(** fixer.cpp:130-143 print and 145-161 dumpto put out the same text.  The indices are not negative. *)
Definition fixer_text (p : poly (Q * Q * Q)) : text :=
  lit "OFF" ++ [newline] ++ put (List.length (points p)) ++ lit " " ++ put (List.length (faces p)) ++ lit " 0" ++ [newline; newline]
  ++ flat_map fixer_point (points p) ++ flat_map fixer_face (faces p).

(** fixer.cpp:171, 173 getline: what follows the next end of line. *)
Fixpoint drop_line (s : text) : text := match s with c :: r => if (c =? newline)%char then r else drop_line r | [] => [] end.
(** fixer.cpp:181-184: four numbers per face, the first of which is not used.  Numbers that cannot be read leave the
    variables as they are, which is taken as failure here. *)
Fixpoint text_faces (k : nat) (s : text) (p : poly (Q * Q * Q)) : option (poly (Q * Q * Q)) :=
  match k with
  | O => Some p
  | S k => do (_, s) <- next s; do (a, s) <- next s; do (b, s) <- next s; do (c, s) <- next s; text_faces k s (add_face p [a; b; c])
  end.
(** fixer.cpp:166-187 load. *)
Definition load_text (s : text) : option (poly (Q * Q * Q)) :=
  let s := drop_line s in
  do (n, s) <- next s; do (f, s) <- next s; do (_, s) <- next s;
  let s := drop_line s in
  do (ps, s) <- next_real_points n s; text_faces f s (Poly ps [] []).
