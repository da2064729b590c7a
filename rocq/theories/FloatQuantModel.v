(** Model of the position quantisation in the machine's floating point numbers:
    /repo/src/PPMC/mymesh.cpp:203-262.  Floats are those of IEEE 754 as specified by the standard
    library ([spec_float], rounding to nearest, ties to even): 24 bits for float, 53 for double.
    One coordinate; i_curQuantizationId is always 0. *)
From Coq Require Import ZArith Floats.SpecFloat List.
Import ListNotations.
Open Scope Z_scope.

(** float and double operations *)
Definition conv (prec emax : Z) (x : spec_float) : spec_float :=
  match x with
  | S754_finite s m e => binary_normalize prec emax (if s then Zneg m else Zpos m) e s
  | _ => x
  end.
Definition f32 := conv 24 128.
Definition of_int (prec emax z : Z) : spec_float := binary_normalize prec emax z 0 false.
Definition half : spec_float := S754_finite false 4503599627370496 (-53).

(** the conversion of a float to int: towards zero; [None] if it has no value (undefined in C++) *)
Definition to_int (x : spec_float) : option Z :=
  match x with
  | S754_zero _ => Some 0
  | S754_finite s m e =>
    let z := if 0 <=? e then Zpos m * 2 ^ e else Zpos m / 2 ^ (- e) in
    if z <? 2 ^ 31 then Some (if s then - z else z) else None
  | _ => None
  end.

(** mymesh.cpp:203-213 determineQuantStep, for the largest range already found: the float divided
    by an int. *)
Definition quantStepF (quantBits : Z) (maxRange : spec_float) : spec_float :=
  SFdiv 24 128 maxRange (of_int 24 128 (2 ^ quantBits)).

(** mymesh.cpp:246-251 getQuantizedPos: all in float. *)
Definition getQuantizedPosF (bbMin step p : spec_float) : option Z :=
  to_int (SFdiv 24 128 (SFsub 24 128 p bbMin) (SFmul 24 128 step (of_int 24 128 1))).

(** mymesh.cpp:257-262 getPos: 0.5 is a double, hence all is, until the point is made. *)
Definition getPosF (bbMin step : spec_float) (p : Z) : spec_float :=
  f32 (SFadd 53 1024 (SFmul 53 1024 (SFmul 53 1024 (SFadd 53 1024 (of_int 53 1024 p) half) (conv 53 1024 step)) (of_int 53 1024 1)) (conv 53 1024 bbMin)).

(** mymesh.cpp:217-238 quantizeVertexPositions, one coordinate. *)
Definition quantizeCoordF (quantBits : Z) (bbMin step p : spec_float) : option (Z * spec_float) :=
  match getQuantizedPosF bbMin step p with
  | Some q => let q' := if q =? 2 ^ quantBits then 2 ^ quantBits - 1 else q in Some (q', getPosF bbMin step q')
  | None => None
  end.

(** The same two functions (mymesh.cpp:246-262) over rationals with every operation rounded by an
    arbitrary function: [r24] for float, [r53] for double.  The factor 1 << 0 is dropped. *)
From Coq Require Import QArith.
From Verif Require Import QuantModel.
Definition getQuantizedPosR (r24 : Q -> Q) (bbMin step p : Q) : Z := Qtrunc (r24 (r24 (p - bbMin) / step)%Q).
Definition getPosR (r24 r53 : Q -> Q) (bbMin step : Q) (p : Z) : Q :=
  r24 (r53 (r53 (r53 (inject_Z p + (1 # 2)) * step) + bbMin))%Q.
