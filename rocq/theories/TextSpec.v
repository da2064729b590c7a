(** What a reader of the text sees: numbers, and the WKT form of surfaces.  Written from the formats,
    independently of the code that prints them. *)
From Coq Require Import String Ascii List ZArith QArith Qabs Qpower Bool.
From Verif Require Import Arr.
Import ListNotations.
Open Scope char_scope.
Open Scope list_scope.
Open Scope Z_scope.

(** * Numbers (C, strtod): digits, perhaps a point and digits, perhaps an exponent. *)
Definition is_digit (c : ascii) : bool := (48 <=? nat_of_ascii c)%nat && (nat_of_ascii c <=? 57)%nat.
Definition digit_value (c : ascii) : Z := Z.of_nat (nat_of_ascii c) - 48.
Fixpoint take_digits (t : list ascii) : list Z * list ascii :=
  match t with
  | [] => ([], [])
  | c :: r => if is_digit c then let (a, b) := take_digits r in (digit_value c :: a, b) else ([], t)
  end.
Definition number (l : list Z) : Z := fold_left (fun a d => 10 * a + d) l 0.
Definition is_char (c : ascii) (t : list ascii) : bool := match t with [] => false | d :: _ => Ascii.eqb c d end.
Definition read_unsigned (t : list ascii) : option Q :=
  let (ip, r) := take_digits t in
  let (fp, r') := if is_char "." r then take_digits (tl r) else ([], r) in
  match ip, r' with
  | [], _ => None
  | _, [] => Some (inject_Z (number (ip ++ fp)) * 10 ^ (- Z.of_nat (length fp)))%Q
  | _, _ =>
    let (ep, rest) := take_digits (tl (tl r')) in
    if is_char "e" r' && (is_char "+" (tl r') || is_char "-" (tl r')) && negb (length ep =? 0)%nat && (length rest =? 0)%nat
    then Some (inject_Z (number (ip ++ fp)) * 10 ^ ((if is_char "-" (tl r') then - number ep else number ep) - Z.of_nat (length fp)))%Q
    else None
  end.
Definition read_number (t : list ascii) : option Q :=
  if is_char "-" t then (do v <- read_unsigned (tl t); Some (- v)%Q) else read_unsigned t.

(** A number with at most p significant digits. *)
Definition few_digits (p : nat) (w : Q) : Prop :=
  exists m e, Z.abs m < 10 ^ Z.of_nat p /\ (w == inject_Z m * 10 ^ e)%Q.
(** The best one for v. *)
Definition nearest (p : nat) (v w : Q) : Prop :=
  few_digits p w /\ forall u, few_digits p u -> (Qabs (w - v) <= Qabs (u - v))%Q.
(** Exponents of two digits, which all floats have. *)
Definition ordinary (v : Q) : Prop := (v == 0 \/ 10 ^ (-99) <= Qabs v < 10 ^ 99)%Q.

(** * WKT: POLYHEDRALSURFACE Z (((x y z,...)),((...)),...) *)
Fixpoint until (c : ascii) (t : list ascii) : list ascii * list ascii :=
  match t with
  | [] => ([], [])
  | d :: r => if Ascii.eqb c d then ([], t) else let (a, b) := until c r in (d :: a, b)
  end.
Fixpoint split_on (c : ascii) (t : list ascii) : list (list ascii) :=
  match t with
  | [] => [[]]
  | d :: r => if Ascii.eqb c d then [] :: split_on c r
              else match split_on c r with [] => [[d]] | w :: ws => (d :: w) :: ws end
  end.
Definition read_point (t : list ascii) : option (Q * Q * Q) :=
  match split_on " " t with
  | [a; b; c] => do x <- read_number a; do y <- read_number b; do z <- read_number c; Some (x, y, z)
  | _ => None
  end.
Fixpoint all {A B} (f : A -> option B) (l : list A) : option (list B) :=
  match l with [] => Some [] | a :: r => do b <- f a; do bs <- all f r; Some (b :: bs) end.
Definition read_ring (t : list ascii) : option (list (Q * Q * Q)) := all read_point (split_on "," t).
(** What follows a given beginning. *)
Fixpoint after (s t : list ascii) : option (list ascii) :=
  match s, t with
  | [], _ => Some t
  | c :: s', d :: t' => if Ascii.eqb c d then after s' t' else None
  | _, [] => None
  end.
Fixpoint read_faces (fuel : nat) (t : list ascii) : option (list (list (Q * Q * Q))) :=
  match fuel with
  | O => None
  | S k =>
    do r <- after ["("; "("]%char t;
    let (ring, rest) := until ")" r in
    do rest' <- after [")"; ")"]%char rest;
    do ps <- read_ring ring;
    match rest' with
    | [] => Some [ps]
    | _ => do rest'' <- after [","]%char rest'; do fs <- read_faces k rest''; Some (ps :: fs)
    end
  end.
Definition read_wkt (t : list ascii) : option (list (list (Q * Q * Q))) :=
  do r <- after (list_ascii_of_string "POLYHEDRALSURFACE Z (") t;
  if is_char ")" (rev r) then
    match removelast r with [] => Some [] | b => read_faces (length b) b end
  else None.
(** Lines of the form  number|surface. *)
Definition read_line (t : list ascii) : option (Z * list (list (Q * Q * Q))) :=
  let (n, r) := until "|" t in
  let (ds, rest) := take_digits n in
  if negb (length ds =? 0)%nat && (length rest =? 0)%nat
  then do s <- read_wkt (tl r); Some (number ds, s)
  else None.
(** Every line ends with a newline. *)
Definition read_lines (t : list ascii) : option (list (Z * list (list (Q * Q * Q)))) :=
  let ls := split_on (ascii_of_nat 10) t in
  if (length (last ls []) =? 0)%nat then all read_line (removelast ls) else None.

(** * Surfaces as rings *)
Notation point := (Q * Q * Q)%type.
Definition ordinary_point (v : point) : Prop := let '(x, y, z) := v in ordinary x /\ ordinary y /\ ordinary z.
(** Each coordinate is the best one with p digits. *)
Definition nearest_point (p : nat) (v w : point) : Prop :=
  let '(x, y, z) := v in let '(x', y', z') := w in nearest p x x' /\ nearest p y y' /\ nearest p z z'.
(** A face of a surface: its points in order. *)
Definition face_ok (f : list point) : Prop := f <> [] /\ Forall ordinary_point f.
(** The closed ring WKT wants: the points of the face, then the first one again. *)
Definition ring_of (p : nat) (f ring : list point) : Prop := Forall2 (nearest_point p) (f ++ firstn 1 f) ring.
(** A line of the output describes the object. *)
Definition row_of (o : list (list point)) (io : Z * list (list point)) : Prop := Forall2 (ring_of 6) o (snd io).
