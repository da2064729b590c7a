(** Model of the buffer the compressor writes to: its size (/repo/src/spatial/spatial_common.cpp:100-113,
    /repo/src/PPMC/mymesh.cpp:45) and the text it is made for, read as CGAL reads it. *)
From Coq Require Import List ZArith Ascii String.
From Verif Require Import Arr.
Import ListNotations.
Close Scope Z_scope.
Open Scope nat_scope.

(** spatial_common.cpp:100-113 get_mesh with mymesh.cpp:45: one byte for each character of the line;
    replacing bars by line ends does not change their number. *)
Definition buffer_size (line : string) : nat := String.length line.

(** What stands between numbers in a line: bars, as line ends (spatial_common.cpp:104-106), and blanks. *)
Definition blank (c : ascii) : bool := (Ascii.eqb c "|" || Ascii.eqb c " ")%char%bool.
(** The value of a decimal digit. *)
Definition digit (c : ascii) : option nat := let n := nat_of_ascii c in if (Nat.leb 48 n && Nat.leb n 57)%bool then Some (n - 48) else None.
(** mymesh.cpp:52-54, operator>> of CGAL reading numbers; only unsigned decimals are modelled.
    [cur] is the number read so far, if there is one. *)
Fixpoint numbers (cur : option nat) (s : string) : option (list nat) :=
  match s with
  | EmptyString => Some (match cur with Some n => [n] | None => [] end)
  | String c r =>
    if blank c then do l <- numbers None r; Some (match cur with Some n => n :: l | None => l end)
    else do d <- digit c; numbers (Some (match cur with Some n => 10 * n + d | None => d end)) r
  end.
(** mymesh.cpp:54: [n] points of three coordinates. *)
Fixpoint read_points (n : nat) (l : list nat) : option (list (nat * nat * nat) * list nat) :=
  match n with
  | O => Some ([], l)
  | S n => match l with x :: y :: z :: r => do (ps, r') <- read_points n r; Some ((x, y, z) :: ps, r') | _ => None end
  end.
(** mymesh.cpp:54: [n] facets, each a number of corners and the corners. *)
Fixpoint read_facets (n : nat) (l : list nat) : option (list (list nat)) :=
  match n with
  | O => Some []
  | S n => match l with
           | k :: r => if Nat.leb k (List.length r) then do fs <- read_facets n (skipn k r); Some (firstn k r :: fs) else None
           | [] => None
           end
  end.
(** mymesh.cpp:54, the whole line: OFF, the three counts, the points, the facets. *)
Definition read_off (line : string) : option (list (nat * nat * nat) * list (list nat)) :=
  match line with
  | String a (String b (String c rest)) =>
    if String.eqb (String a (String b (String c EmptyString))) "OFF" then
      do l <- numbers None rest;
      match l with
      | nv :: nf :: _ :: r => do (ps, r') <- read_points nv r; do fs <- read_facets nf r'; Some (ps, fs)
      | _ => None
      end
    else None
  | _ => None
  end.
