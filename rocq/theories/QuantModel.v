(** Model of the position quantisation: /repo/src/PPMC/mymesh.cpp:203-262.
    Floats are exact rationals; i_curQuantizationId is always 0, so the factor 1 << 0 is dropped.
    Each coordinate is treated alike, so one coordinate is modelled. *)
From Coq Require Import QArith Qabs Qround List ZArith Lqa.
Import ListNotations.
Open Scope Q_scope.

(** The conversion of a float to int: truncation towards zero. *)
Definition Qtrunc (x : Q) : Z := Z.quot (Qnum x) (Zpos (Qden x)).

(** mymesh.cpp:203-213 determineQuantStep; [None] when the box has no extent, because every later
    use divides by this zero step and converts the result to int. *)
Definition maxRange (ranges : list Q) : Q :=
  fold_left (fun m r => if Qle_bool r m then m else r) ranges 0.
Definition determineQuantStep (quantBits : Z) (ranges : list Q) : option Q :=
  let m := maxRange ranges in
  if Qeq_bool m 0 then None else Some (m / inject_Z (2 ^ quantBits)).

(** mymesh.cpp:246-251 getQuantizedPos, one coordinate. *)
Definition getQuantizedPos (bbMin step p : Q) : Z := Qtrunc ((p - bbMin) / step).

(** mymesh.cpp:257-262 getPos, one coordinate. *)
Definition getPos (bbMin step : Q) (p : Z) : Q := (inject_Z p + (1 # 2)) * step + bbMin.

(** mymesh.cpp:217-238 quantizeVertexPositions, one coordinate: the grid position and the
    coordinate stored in its place. *)
Definition quantizeCoord (quantBits : Z) (bbMin step p : Q) : Z * Q :=
  let maxCoord := (2 ^ quantBits)%Z in
  let q := getQuantizedPos bbMin step p in
  let q' := if (q =? maxCoord)%Z then (maxCoord - 1)%Z else q in
  (q', getPos bbMin step q').
