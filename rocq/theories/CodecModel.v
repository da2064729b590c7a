(** Model of the record codec: /repo/src/PPMC/mymeshComp.cpp (encodeInsertedEdges,
    encodeRemovedVertices), /repo/src/PPMC/mymeshDecomp.cpp (the matching decoders) and the order
    of the records, /repo/src/PPMC/mymeshIO.cpp:30-46.
    Buffers are byte lists; the size counters geometrySize/connectivitySize and the measuring
    coder rangeCoderMes (mymeshComp.cpp:517-524, 541, 564) are left out, they do not reach the
    output.  The number of symbols of a record is decided in the decoder by the mesh traversal;
    here it is an argument.  [junk] is the content of freshly allocated memory. *)
From Coq Require Import List ZArith.
From Verif Require Import Arr RangeCoderModel QsModel.
Import ListNotations.
Open Scope Z_scope.

(** mymeshComp.cpp:454-456, 539-543, 554-557: encode one symbol and update the model. *)
Definition enc_sym (e : enc) (m : qsmodel) (sh sym : Z) : option (enc * qsmodel) :=
  do (sy, lt) <- qsgetfreq m sym;
  do e' <- encode_shift e sy lt sh;
  do m' <- qsupdate m sym;
  Some (e', m').

(** mymeshDecomp.cpp:103-107, 193-198, 321-325: decode one symbol and update the model. *)
Definition dec_sym (d : dec) (m : qsmodel) (sh : Z) : option (Z * dec * qsmodel) :=
  do (lt0, d1) <- decode_culshift d sh;
  do sym <- qsgetsym m lt0;
  do (sy, lt) <- qsgetfreq m sym;
  let d2 := decode_update d1 sy lt (2 ^ sh) in
  do m' <- qsupdate m sym;
  Some (sym, d2, m').

(** mymeshComp.cpp:448-457. *)
Fixpoint enc_syms (e : enc) (m : qsmodel) (sh : Z) (syms : list Z) : option (enc * qsmodel) :=
  match syms with
  | [] => Some (e, m)
  | s :: r => do (e', m') <- enc_sym e m sh s; enc_syms e' m' sh r
  end.

(** mymeshDecomp.cpp:160-207, the sequence of decoding steps of one record. *)
Fixpoint dec_syms (d : dec) (m : qsmodel) (sh : Z) (count : nat) : option (list Z * dec * qsmodel) :=
  match count with
  | O => Some ([], d, m)
  | S c => do (s, d', m') <- dec_sym d m sh;
           do (r, d'', m'') <- dec_syms d' m' sh c; Some (s :: r, d'', m'')
  end.

(** mymeshComp.cpp:435-464 encodeInsertedEdges; [buffer] is p_data up to dataOffset. *)
Definition encodeInsertedEdges (junk : nat -> Z) (buffer symbols : list Z) : option (list Z) :=
  let e := start_encoding 0 0 buffer in
  do m <- initqsmodel junk 2 10 512 None true;
  do (e', _) <- enc_syms e m 10 symbols;
  done_encoding e'.

(** mymeshDecomp.cpp:142-154, 160-223: read one record of [count] inserted-edge symbols. *)
Definition decodeInsertedEdges (junk : nat -> Z) (inp : list Z) (count : nat) : option (list Z * list Z) :=
  do m <- initqsmodel junk 2 10 512 None false;
  do (_, d) <- start_decoding inp;
  do (syms, d', _) <- dec_syms d m 10 count;
  do rest <- done_decoding d';
  Some (syms, rest).

(** mymeshComp.cpp, mymeshDecomp.cpp: VectorInt (mymesh.h), three integers. *)
Definition vec : Type := Z * Z * Z.

(** mymeshComp.cpp:487-504, one iteration. *)
Definition scan_one (mm : Z * Z) (v : vec) : Z * Z :=
  let '(mn, mx) := mm in let '(x, y, z) := v in
  let mn := if x <? mn then x else mn in
  let mn := if y <? mn then y else mn in
  let mn := if z <? mn then z else mn in
  let mx := if mx <? x then x else mx in
  let mx := if mx <? y then y else mx in
  let mx := if mx <? z then z else mx in
  (mn, mx).

(** mymeshComp.cpp:484-504; reading geomSym[0] of an empty deque is undefined. *)
Definition scan (geom : list vec) : option (Z * Z) :=
  match geom with
  | [] => None
  | (x, _, _) :: _ => Some (fold_left scan_one geom (x, x))
  end.

(** mymeshComp.cpp:531-561; [geom] is what is left of geomSym from index k. *)
Fixpoint enc_records (e : enc) (mA mC : qsmodel) (mn : Z) (conn : list Z) (geom : list vec)
  : option enc :=
  match conn with
  | [] => Some e
  | s :: conn' =>
    do (e1, mC') <- enc_sym e mC 10 s;
    if s =? 0 then enc_records e1 mA mC' mn conn' geom
    else match geom with
         | [] => None
         | (x, y, z) :: geom' =>
           do (e2, mA1) <- enc_sym e1 mA 18 (x - mn);
           do (e3, mA2) <- enc_sym e2 mA1 18 (y - mn);
           do (e4, mA3) <- enc_sym e3 mA2 18 (z - mn);
           enc_records e4 mA3 mC' mn conn' geom'
         end
  end.

(** mymeshComp.cpp:470-575 encodeRemovedVertices.  The asserts at 511 and 514 are compiled out;
    [mod 65536] is the conversion of the minimum to int16_t and back to uint16_t (512-513). *)
Definition encodeRemovedVertices (junk : nat -> Z) (buffer conn : list Z) (geom : list vec)
  : option (list Z) :=
  let e := start_encoding 0 0 buffer in
  do (mn, mx) <- scan geom;
  let range := Z.max (mx - mn + 1) 2 in
  do e1 <- encode_short e (mn mod 65536);
  do e2 <- encode_short e1 range;
  do mA <- initqsmodel junk range 18 131072 None true;
  do mC <- initqsmodel junk 2 10 512 None true;
  do e3 <- enc_records e2 mA mC mn conn geom;
  done_encoding e3.

(** mymeshDecomp.cpp:69-71: reinterpret a uint16_t as int16_t. *)
Definition as_int16 (u : Z) : Z := if u <? 32768 then u else u - 65536.

(** mymeshDecomp.cpp:88-126 and 313-335: one symbol per visited face, with a residual if it is 1. *)
Fixpoint dec_records (d : dec) (mA mC : qsmodel) (mn : Z) (count : nat) : option (list (option vec) * dec) :=
  match count with
  | O => Some ([], d)
  | S c =>
    do (s, d1, mC') <- dec_sym d mC 10;
    if s =? 1 then
      do (x, d2, mA1) <- dec_sym d1 mA 18;
      do (y, d3, mA2) <- dec_sym d2 mA1 18;
      do (z, d4, mA3) <- dec_sym d3 mA2 18;
      do (r, d5) <- dec_records d4 mA3 mC' mn c;
      Some (Some (mn + x, mn + y, mn + z) :: r, d5)
    else
      do (r, d5) <- dec_records d1 mA mC' mn c;
      Some (None :: r, d5)
  end.

(** mymeshDecomp.cpp:47, 57-80, 88-129: read one removed-vertex record for [count] faces. *)
Definition decodeRemovedVertices (junk : nat -> Z) (inp : list Z) (count : nat)
  : option (list (option vec) * list Z) :=
  do (_, d) <- start_decoding inp;
  do (u, d1) <- decode_short d;
  let mn := as_int16 u in
  do (range, d2) <- decode_short d1;
  do mA <- initqsmodel junk range 18 131072 None false;
  do mC <- initqsmodel junk 2 10 512 None false;
  do (recs, d3) <- dec_records d2 mA mC mn count;
  do rest <- done_decoding d3;
  Some (recs, rest).

(** mymeshComp.cpp:318-330, 358-362: what RemovedVertexCodingStep queues for the visited faces
    ([None]: unsplittable, [Some r]: a vertex was removed and its residual is r). *)
Definition face_symbols (faces : list (option vec)) : list Z :=
  map (fun f => match f with Some _ => 1 | None => 0 end) faces.
Definition residual_symbols (faces : list (option vec)) : list vec :=
  flat_map (fun f => match f with Some r => [r] | None => [] end) faces.

(** One round of decimation: visited faces and inserted-edge flags. *)
Definition round : Type := list (option vec) * list Z.

(** mymeshIO.cpp:40-45: the rounds are written from the last (coarsest) to the first;
    the argument is already in that order. *)
Fixpoint write_rounds (junk : nat -> Z) (buffer : list Z) (rounds : list round) : option (list Z) :=
  match rounds with
  | [] => Some buffer
  | (faces, edges) :: r =>
    do b1 <- encodeRemovedVertices junk buffer (face_symbols faces) (residual_symbols faces);
    do b2 <- encodeInsertedEdges junk b1 edges;
    write_rounds junk b2 r
  end.

(** mymeshDecomp.cpp:29-51, 128-136, 222-234 driven by mymesh.cpp:112-164: read [k] rounds.
    [nf] and [ne] are the numbers of symbols the traversal asks for; the mesh they depend on is
    determined by the rounds decoded so far. *)
Fixpoint read_rounds (junk : nat -> Z) (nf : list round -> nat) (ne : list round -> list (option vec) -> nat)
  (sofar : list round) (inp : list Z) (k : nat) : option (list round * list Z) :=
  match k with
  | O => Some (sofar, inp)
  | S k' =>
    do (faces, r1) <- decodeRemovedVertices junk inp (nf sofar);
    do (edges, r2) <- decodeInsertedEdges junk r1 (ne sofar faces);
    read_rounds junk nf ne (sofar ++ [(faces, edges)]) r2 k'
  end.
