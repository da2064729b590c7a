(** A whole compressed object: base mesh, then the rounds, in one buffer. *)
From Coq Require Import List ZArith.
From Verif Require Import Arr RangeCoderModel CodecModel BitsModel.
Import ListNotations.
Open Scope Z_scope.

(** /repo/src/PPMC/mymeshIO.cpp:30-46 writeCompressedData.  [mem] is the zero-filled buffer made
    at mymesh.cpp:45-49; the range coder continues at dataOffset, so the rest of [mem] is
    overwritten and only the part before dataOffset is kept.  [rounds] is ordered as written,
    from the coarsest (i_curDecimationId) down. *)
Definition writeCompressedData (bpv : Z -> Z) (junk : nat -> Z) (mem : list Z) (m : base) (rounds : list round)
  : option (list Z) :=
  do h <- writeBaseMesh bpv mem m; write_rounds junk h rounds.

(** mymeshIO.cpp:52-56 readCompressedData, then [k] rounds read on demand
    (mymeshDecomp.cpp:29-51).  Returns the base mesh, the rounds and the unread bytes. *)
Definition readObject (bpv : Z -> Z) (junk : nat -> Z) (nf : rbase -> list round -> nat)
  (ne : rbase -> list round -> list (option vec) -> nat) (mem : list Z) (k : nat)
  : option (rbase * list round * list Z) :=
  do (r, off) <- readBaseMesh bpv mem;
  do (rs, rest) <- read_rounds junk (nf r) (ne r) [] (skipn (Z.to_nat off) mem) k;
  Some (r, rs, rest).
