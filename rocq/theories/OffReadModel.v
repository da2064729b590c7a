(** Model of reading a mesh number by number, as operator>> does (/repo/src/PPMC/mymesh.cpp:51-53,
    /repo/src/spatial/spatial_common.cpp:100-108): it stops after the last facet. *)
From Coq Require Import List Ascii Arith.
From Verif Require Import Arr TextModel SpModel BufferModel ProgModel.
Import ListNotations.
Close Scope Z_scope.
Open Scope nat_scope.

(** mymesh.cpp:53, what operator>> skips before a number: blanks, tabs and ends of lines (spatial_common.cpp:105
    makes these of bars). *)
Definition tab : ascii := ascii_of_nat 9.
Definition space (c : ascii) : bool := ((c =? " ")%char || (c =? newline)%char || (c =? tab)%char)%bool.
Fixpoint skip_space (s : text) : text := match s with c :: r => if space c then skip_space r else s | [] => [] end.
(** mymesh.cpp:53: a number is taken up to the first character that is no digit.  Only unsigned decimals. *)
Fixpoint take_digits (n : nat) (s : text) : nat * text :=
  match s with c :: r => match digit c with Some d => take_digits (10 * n + d) r | None => (n, s) end | [] => (n, []) end.
Definition next (s : text) : option (nat * text) :=
  match skip_space s with c :: r => do d <- digit c; Some (take_digits d r) | [] => None end.
(** mymesh.cpp:53: [k] numbers one after the other. *)
Fixpoint next_n (k : nat) (s : text) : option (list nat * text) :=
  match k with O => Some ([], s) | S k => do (n, s) <- next s; do (l, s) <- next_n k s; Some (n :: l, s) end.
(** mymesh.cpp:53: the points. *)
Fixpoint next_points (k : nat) (s : text) : option (list (nat * nat * nat) * text) :=
  match k with
  | O => Some ([], s)
  | S k => do (x, s) <- next s; do (y, s) <- next s; do (z, s) <- next s; do (ps, s) <- next_points k s; Some ((x, y, z) :: ps, s)
  end.
(** mymesh.cpp:53: the facets.  What CGAL skips behind the corners of a facet (colours) is not modelled. *)
Fixpoint next_facets (k : nat) (s : text) : option (list (list nat)) :=
  match k with
  | O => Some []
  | S k => do (n, s) <- next s; do (f, s) <- next_n n s; do fs <- next_facets k s; Some (f :: fs)
  end.
(** mymesh.cpp:53: OFF, the three counts, the points, the facets. *)
Definition read_mesh (s : text) : option (list (nat * nat * nat) * list (list nat)) :=
  match s with
  | a :: b :: c :: s =>
    if ((a =? "O")%char && (b =? "F")%char && (c =? "F")%char)%bool then
      do (nv, s) <- next s; do (nf, s) <- next s; do (_, s) <- next s;
      do (ps, s) <- next_points nv s; do fs <- next_facets nf s; Some (ps, fs)
    else None
  | _ => None
  end.
