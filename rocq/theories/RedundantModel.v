(** Model of the comparison of faces and of remove_redundant, /repo/src/test/fixer.cpp (not
    called: 421 is a comment). *)
From Coq Require Import List Bool Arith.
From Verif Require Import FixerModel.
Import ListNotations.

(** fixer.cpp:74-88 Face::equal and operator==. *)
Fixpoint same_from (a b : list nat) : bool :=
  match a, b with
  | x :: a, y :: b => if x =? y then same_from a b else false
  | _, _ => true
  end.
Definition face_equal (a b : list nat) : bool := if length a =? length b then same_from a b else false.

(** fixer.cpp:294: the tuple of the first three vertices; [None]: fewer, read past the end. *)
Definition key (f : list nat) : option (nat * nat * nat) :=
  match f with a :: b :: c :: _ => Some (a, b, c) | _ => None end.
Definition key_eqb (a b : nat * nat * nat) : bool :=
  let '(x, y, z) := a in let '(u, v, w) := b in (x =? u) && (y =? v) && (z =? w).
(** fixer.cpp:291, 296-301: face_map, with the key last put in first. *)
Definition lookup (k : nat * nat * nat) (l : list ((nat * nat * nat) * list nat)) : option (list nat) :=
  option_map snd (find (fun e => key_eqb k (fst e)) l).
(** fixer.cpp:292-303: the loop over the faces; what is printed are the pairs of faces, in order. *)
Fixpoint redundant (fs : list (list nat)) (face_map : list ((nat * nat * nat) * list nat)) : option (list (list nat * list nat)) :=
  match fs with
  | [] => Some []
  | f :: fs =>
      match key f with
      | None => None
      | Some tp =>
          match lookup tp face_map with
          | Some g => option_map (cons (g, f)) (redundant fs face_map)
          | None => redundant fs ((tp, f) :: face_map)
          end
      end
  end.
(** fixer.cpp:290-304 remove_redundant: the polyhedron afterwards and what is printed. *)
Definition remove_redundant {P} (p : poly P) : option (poly P * list (list nat * list nat)) :=
  option_map (pair p) (redundant (faces p) []).
