(** Model of the converter from HDF5 to OFF, /repo/src/test/H5ToOFF.cpp.  Characters are their codes;
    the values of a dataset are exact rationals (every double is one). *)
From Coq Require Import QArith ZArith List Bool Qround.
From Verif Require Import Arr.
Import ListNotations.
Open Scope Z_scope.

(** H5ToOFF.cpp:91-112 process_file: what becomes of a path.  The buffer outpath has 256 places; line 101
    writes strlen+1 of them, lines 102-105 the places len-2 to len+1.  Writing beyond the buffer has no
    defined result ([Overrun]).  Reading the file (109) and writing it (110) are apart, below. *)
Inductive conversion := NotHdf5 | Overrun | WriteTo (outpath : list Z).
Definition chr_dot := 46. Definition chr_h := 104. Definition chr_5 := 53. Definition chr_O := 79. Definition chr_F := 70.
Definition outpath_size : nat := 256.
(** H5ToOFF.cpp:94-98. *)
Definition is_h5 (path : list Z) : bool :=
  let len := length path in
  negb (Nat.leb len 3 || negb (nth (len - 1) path 0 =? chr_5)
        || negb (nth (len - 2) path 0 =? chr_h) || negb (nth (len - 3) path 0 =? chr_dot)).
Definition put_at (l : list Z) (i : nat) (c : Z) : list Z := firstn i l ++ c :: skipn (S i) l.
(** The string in a buffer: the characters before the first zero. *)
Fixpoint c_string (l : list Z) : list Z := match l with [] => [] | c :: r => if c =? 0 then [] else c :: c_string r end.
(** [rest] is what the buffer holds beyond the copied string. *)
Definition process_file (rest : list Z) (path : list Z) : conversion :=
  let len := length path in
  if negb (is_h5 path) then NotHdf5
  else if Nat.ltb outpath_size (len + 2) then Overrun
  else
    let b := path ++ 0 :: rest in
    let b := put_at b (len - 2) chr_O in
    let b := put_at b (len - 1) chr_F in
    let b := put_at b len chr_F in
    let b := put_at b (len + 1) 0 in
    WriteTo (c_string b).

(** A two-dimensional dataset as it lies in memory, H5ToOFF.cpp:59-70 and 73-86: [d_rows] rows of [d_cols]
    values one after the other; row i starts at i * dims[1].  Line 63 (77) writes the first pointer of an
    array of dims[0] pointers, so there must be a row. *)
Record dataset (A : Type) := Dataset { d_rows : nat; d_cols : nat; d_values : list A }.
Arguments Dataset {A}. Arguments d_rows {A}. Arguments d_cols {A}. Arguments d_values {A}.
Definition at_row {A} (d : dataset A) (i j : nat) : option A := nth_error (d_values d) (i * d_cols d + j).

(** printf of "%.1f", H5ToOFF.cpp:34: the value written is the number of tenths nearest to the value, the
    even one when two are equally near. *)
Definition tenths (x : Q) : Z :=
  let y := (x * inject_Z 10)%Q in
  let lo := Qfloor y in
  let r := (y - inject_Z lo)%Q in
  match Qcompare r (1 # 2) with
  | Lt => lo
  | Gt => lo + 1
  | Eq => if Z.even lo then lo else lo + 1
  end.
Definition written (x : Q) : Q := (inject_Z (tenths x) / inject_Z 10)%Q.

(** H5ToOFF.cpp:28-41 dump_to_off: a vertex line and a face line take the first three values of a row; a
    value outside the memory of the dataset has no defined result. *)
Definition row3 {A} (d : dataset A) (i : nat) : option (A * A * A) :=
  do x <- at_row d i 0; do y <- at_row d i 1; do z <- at_row d i 2; Some (x, y, z).
Fixpoint rows_from {A} (d : dataset A) (i n : nat) : option (list (A * A * A)) :=
  match n with
  | O => Some []
  | S n => do r <- row3 d i; do t <- rows_from d (S i) n; Some (r :: t)
  end.
Definition written3 (p : Q * Q * Q) : Q * Q * Q := let '(x, y, z) := p in (written x, written y, written z).
(** H5ToOFF.cpp:44-89 and 28-41 together: the numbers of the OFF file. *)
Definition convert (vs : dataset Q) (fs : dataset Z) : option (list (Q * Q * Q) * list (Z * Z * Z)) :=
  if Nat.eqb (d_rows vs) 0 || Nat.eqb (d_rows fs) 0 then None
  else do v <- rows_from vs 0 (d_rows vs); do f <- rows_from fs 0 (d_rows fs); Some (map written3 v, f).
