(** Model of the bit field I/O and of the base mesh header:
    /repo/src/PPMC/mymeshIO.cpp:59-331 (writeBits, readBits, writeFloat, readFloat, writeBaseMesh,
    readBaseMesh), /repo/src/PPMC/configuration.h (NB_BITS_FACE_DEGREE_BASE_MESH).
    The buffer p_data is a list of bytes; [None] is undefined behaviour: an access outside the
    buffer or a shift by a count outside 0..31.  The asserts are compiled out (NDEBUG). *)
From Coq Require Import List ZArith.
From Verif Require Import Arr RangeCoderModel.
Import ListNotations.
Open Scope Z_scope.

(** GCC builtin __builtin_bswap32, used at mymeshIO.cpp:67, 91, 96. *)
Definition bswap32 (x : Z) : Z :=
  Z.lor (Z.shiftl (Z.land x 255) 24)
 (Z.lor (Z.shiftl (Z.land (Z.shiftr x 8) 255) 16)
 (Z.lor (Z.shiftl (Z.land (Z.shiftr x 16) 255) 8)
        (Z.land (Z.shiftr x 24) 255))).

(** A little endian load of a uint32_t, mymeshIO.cpp:70, 93, 111, 121. *)
Definition load32 (mem : list Z) (p : Z) : option Z :=
  do b0 <- aget mem p; do b1 <- aget mem (p + 1); do b2 <- aget mem (p + 2); do b3 <- aget mem (p + 3);
  Some (Z.lor b0 (Z.lor (Z.shiftl b1 8) (Z.lor (Z.shiftl b2 16) (Z.shiftl b3 24)))).

(** A little endian store of a uint32_t, mymeshIO.cpp:70, 111. *)
Definition store32 (mem : list Z) (p w : Z) : option (list Z) :=
  do m0 <- aset mem p (Z.land w 255);
  do m1 <- aset m0 (p + 1) (Z.land (Z.shiftr w 8) 255);
  do m2 <- aset m1 (p + 2) (Z.land (Z.shiftr w 16) 255);
  aset m2 (p + 3) (Z.land (Z.shiftr w 24) 255).

(** p_data, i_bitOffset and dataOffset. *)
Record bst := Bst { b_mem : list Z; b_bit : Z; b_off : Z }.

(** mymeshIO.cpp:60-75 writeBits; every caller passes p_dest = p_data + dataOffset - 1. *)
Definition writeBits (st : bst) (data nb : Z) : option bst :=
  let sh := 32 - nb - b_bit st in
  if ((sh <? 0) || (32 <=? sh))%bool then None else
  let dataToAdd := bswap32 (w32 (Z.shiftl (w32 data) sh)) in
  do w <- load32 (b_mem st) (b_off st - 1);
  do mem <- store32 (b_mem st) (b_off st - 1) (Z.lor w dataToAdd);
  Some (Bst mem ((b_bit st + nb) mod 8) (b_off st + (b_bit st + nb) / 8)).

(** mymeshIO.cpp:87-89, the loop building the mask ([k] iterations, [i] counting up). *)
Fixpoint mask_loop (k : nat) (i mask : Z) : Z :=
  match k with O => mask | S k' => mask_loop k' (i + 1) (Z.lor mask (Z.shiftl 1 i)) end.

(** mymeshIO.cpp:81-105 readBits. *)
Definition readBits (st : bst) (nb : Z) : option (Z * bst) :=
  let sh := 32 - nb - b_bit st in
  if ((sh <? 0) || (32 <=? sh))%bool then None else
  let mask := bswap32 (mask_loop (Z.to_nat (32 - b_bit st)) 0 0) in
  do w <- load32 (b_mem st) (b_off st - 1);
  let data := Z.shiftr (bswap32 (Z.land w mask)) sh in
  Some (data, Bst (b_mem st) ((b_bit st + nb) mod 8) (b_off st + (b_bit st + nb) / 8)).

(** A sequence of fields (width, value), as the header code issues them. *)
Fixpoint writeFields (st : bst) (fs : list (Z * Z)) : option bst :=
  match fs with
  | [] => Some st
  | (nb, v) :: r => do st' <- writeBits st v nb; writeFields st' r
  end.
Fixpoint readFields (st : bst) (ws : list Z) : option (list Z * bst) :=
  match ws with
  | [] => Some ([], st)
  | nb :: r => do (v, st') <- readBits st nb; do (vs, st'') <- readFields st' r; Some (v :: vs, st'')
  end.

(** mymeshIO.cpp:109-124 writeFloat, readFloat; a float is its 32-bit pattern. *)
Definition writeFloat (mem : list Z) (off f : Z) : option (list Z * Z) :=
  do m <- store32 mem off f; Some (m, off + 4).
Definition readFloat (mem : list Z) (off : Z) : option (Z * Z) :=
  do w <- load32 mem off; Some (w, off + 4).

(** mymeshIO.cpp:195, 213, 299: PointInt. *)
Definition point : Type := Z * Z * Z.

(** What writeBaseMesh takes from the object: bounding box corner and step as float patterns,
    i_quantBits, i_nbDecimations, i_nbQuantizations = i_curQuantizationId, i_levelNotConvexId,
    the quantised vertex positions in iteration order, the two departure vertices
    (vh_departureConquest) and the faces as vertex numbers in iteration order. *)
Record base := Base {
  m_box : Z * Z * Z; m_step : Z; m_quant : Z; m_rounds : Z; m_nquant : Z; m_notconvex : Z;
  m_pos : list point; m_dep : nat * nat; m_faces : list (list nat) }.

(** What readBaseMesh obtains: the same parameters, positions in file order (before getPos), and
    the arrays f handed to the mesh builder (degree, then vertex numbers). *)
Record rbase := RBase {
  r_box : Z * Z * Z; r_step : Z; r_quant : Z; r_rounds : Z; r_nquant : Z; r_notconvex : Z;
  r_pos : list point; r_faces : list (list Z) }.

(** configuration.h: NB_BITS_FACE_DEGREE_BASE_MESH. *)
Definition FACE_BITS : Z := 3.

(** mymeshIO.cpp:196-201, 216-220: the three coordinates of a vertex. *)
Definition write3 (st : bst) (nb : Z) (p : point) : option bst :=
  let '(x, y, z) := p in
  do s1 <- writeBits st x nb; do s2 <- writeBits s1 y nb; writeBits s2 z nb.
(** mymeshIO.cpp:207-223: the vertices other than the departure ones; [i] is the position in the
    iteration, [id] the next identifier; ids are returned as a table (vertex number, id). *)
Fixpoint write_others (st : bst) (nb : Z) (ps : list point) (i : nat) (dep : nat * nat) (id : Z)
  : option (bst * list (nat * Z)) :=
  match ps with
  | [] => Some (st, [])
  | p :: r =>
    if (Nat.eqb i (fst dep) || Nat.eqb i (snd dep))%bool then write_others st nb r (S i) dep id
    else do st' <- write3 st nb p;
         do (st'', t) <- write_others st' nb r (S i) dep (id + 1);
         Some (st'', (i, id) :: t)
  end.

(** mymeshIO.cpp:202, 222, 239: setId and getId; [None] for a vertex that has no id. *)
Fixpoint find_id (t : list (nat * Z)) (v : nat) : option Z :=
  match t with [] => None | (i, id) :: r => if Nat.eqb i v then Some id else find_id r v end.

(** mymeshIO.cpp:235-241: the vertex ids of one face. *)
Fixpoint write_ids (st : bst) (t : list (nat * Z)) (nb : Z) (vs : list nat) : option bst :=
  match vs with
  | [] => Some st
  | v :: r => do id <- find_id t v; do st' <- writeBits st id nb; write_ids st' t nb r
  end.
(** mymeshIO.cpp:227-244. *)
Fixpoint write_faces (st : bst) (t : list (nat * Z)) (nb : Z) (fs : list (list nat)) : option bst :=
  match fs with
  | [] => Some st
  | f :: r =>
    do st1 <- writeBits st (Z.of_nat (length f) - 3) FACE_BITS;
    do st2 <- write_ids st1 t nb f;
    write_faces st2 t nb r
  end.

(** mymeshIO.cpp:147-248 writeBaseMesh on a buffer whose offset is 0.  [bpv] is the floating point
    expression ceil(log(n)/log(2)) of line 160.  The statistics counters are left out.
    The result is the buffer up to dataOffset, which is what the range coder continues behind. *)
Definition writeBaseMesh (bpv : Z -> Z) (mem : list Z) (m : base) : option (list Z) :=
  let '(bx, by_, bz) := m_box m in
  do (m1, o1) <- writeFloat mem 0 bx;
  do (m2, o2) <- writeFloat m1 o1 by_;
  do (m3, o3) <- writeFloat m2 o2 bz;
  do (m4, o4) <- writeFloat m3 o3 (m_step m);
  let nv := Z.of_nat (length (m_pos m)) in
  let nf := Z.of_nat (length (m_faces m)) in
  let nbv := bpv nv in
  let st := Bst m4 0 (o4 + 1) in
  do s1 <- writeBits st (m_quant m - 1) 4;
  do s2 <- writeBits s1 (m_rounds m) 6;
  do s3 <- writeBits s2 (m_nquant m) 6;
  do s4 <- writeBits s3 (m_rounds m - m_notconvex m) 6;
  do s5 <- writeBits s4 nv 16;
  do s6 <- writeBits s5 nf 16;
  let w := m_quant m - m_nquant m in
  do p0 <- nth_error (m_pos m) (fst (m_dep m));
  do p1 <- nth_error (m_pos m) (snd (m_dep m));
  do s7 <- write3 s6 w p0;
  do s8 <- write3 s7 w p1;
  do (s9, t) <- write_others s8 w (m_pos m) 0 (m_dep m) 2;
  let t := t ++ [(snd (m_dep m), 1); (fst (m_dep m), 0)] in
  do s10 <- write_faces s9 t nbv (m_faces m);
  let off := if b_bit s10 =? 0 then b_off s10 - 1 else b_off s10 in
  Some (firstn (Z.to_nat off) (b_mem s10)).

(** mymeshIO.cpp:295-298: the three coordinates of a vertex. *)
Definition read3 (st : bst) (nb : Z) : option (point * bst) :=
  do (x, s1) <- readBits st nb; do (y, s2) <- readBits s1 nb; do (z, s3) <- readBits s2 nb;
  Some ((x, y, z), s3).
(** mymeshIO.cpp:293-302. *)
Fixpoint read_points (st : bst) (nb : Z) (k : nat) : option (list point * bst) :=
  match k with
  | O => Some ([], st)
  | S k' => do (p, s1) <- read3 st nb; do (r, s2) <- read_points s1 nb k'; Some (p :: r, s2)
  end.
(** mymeshIO.cpp:312-313. *)
Fixpoint read_ids (st : bst) (nb : Z) (k : nat) : option (list Z * bst) :=
  match k with
  | O => Some ([], st)
  | S k' => do (v, s1) <- readBits st nb; do (r, s2) <- read_ids s1 nb k'; Some (v :: r, s2)
  end.
(** mymeshIO.cpp:305-316; the degree read in 3 bits is at most 7 + 3, so the array of
    2^3 + 3 cells is never overrun. *)
Fixpoint read_faces (st : bst) (nb : Z) (k : nat) : option (list (list Z) * bst) :=
  match k with
  | O => Some ([], st)
  | S k' =>
    do (c, s1) <- readBits st FACE_BITS;
    let deg := c + 3 in
    do (ids, s2) <- read_ids s1 nb (Z.to_nat deg);
    do (r, s3) <- read_faces s2 nb k';
    Some ((deg :: ids) :: r, s3)
  end.

(** mymeshIO.cpp:252-331 readBaseMesh on a buffer read from offset 0; returns what was read and
    the final dataOffset.  The mesh builder is not modelled; bbMax (278-282) is derived data. *)
Definition readBaseMesh (bpv : Z -> Z) (mem : list Z) : option (rbase * Z) :=
  do (bx, o1) <- readFloat mem 0;
  do (by_, o2) <- readFloat mem o1;
  do (bz, o3) <- readFloat mem o2;
  do (step, o4) <- readFloat mem o3;
  let st := Bst mem 0 (o4 + 1) in
  do (q, s1) <- readBits st 4;
  let quant := q + 1 in
  do (rounds, s2) <- readBits s1 6;
  do (nquant, s3) <- readBits s2 6;
  do (notconvex, s4) <- readBits s3 6;
  do (nv, s5) <- readBits s4 16;
  do (nf, s6) <- readBits s5 16;
  let nbv := bpv nv in
  do (pos, s7) <- read_points s6 (quant - nquant) (Z.to_nat nv);
  do (faces, s8) <- read_faces s7 nbv (Z.to_nat nf);
  let off := if b_bit s8 =? 0 then b_off s8 - 1 else b_off s8 in
  Some (RBase (bx, by_, bz) step quant rounds nquant notconvex pos faces, off).
