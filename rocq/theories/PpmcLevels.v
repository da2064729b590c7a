(** Model of a whole compression, all rounds until nothing can be removed, and of the decompression
    from the bytes: /repo/src/PPMC/mymesh.cpp:20-165, mymeshComp.cpp:29-64 and 133-167,
    mymeshDecomp.cpp:29-235, mymeshIO.cpp:30-56 and 252-331, mymeshBaseBuilder.h:26-59. *)
From Coq Require Import List ZArith Bool Arith.
From Verif Require Import Arr RangeCoderModel QsModel CodecModel BitsModel PpmcModel PpmcCheck.
Import ListNotations.
Close Scope Z_scope.
Open Scope nat_scope.

Section Compress.
  Variables (P : Type) (qz : P -> vec) (bary : list P -> P) (lim : nat).

  (** mymesh.cpp:112-164 batchOperation and completeOperation in compression mode with
      mymeshComp.cpp:29-64 and 133-167: rounds are made until one removes nothing.  [gate k m] is
      the first gate (58-64, the half-edge in the middle of the storage), [convex k] the convexity
      test; k counts the rounds down and bounds them, [None] if there are more.  The result is
      what the compressor held: the meshes, coarsest first, and the rounds in the order they are
      written (mymeshIO.cpp:40-45), so that round i leads from mesh i to mesh i+1. *)
  Fixpoint compressAll (convex : nat -> mesh -> nat -> bool) (gate : nat -> mesh -> dart) (d0 d1 : nat)
    (pos : nat -> P) (m : mesh) (fuel k : nat) : option (list mesh * list round) :=
    match k with
    | O => None
    | S k' =>
      do (x, r) <- compressRound P qz bary lim (convex k) d0 d1 pos m (gate k m) fuel;
      match r with
      | None => Some ([x], [])
      | Some r => do (ms, rs) <- compressAll convex gate d0 d1 pos x fuel k'; Some (ms ++ [m], rs ++ [r])
      end
    end.
End Compress.

(** mymeshDecomp.cpp:103-107, 121-125 and 313-335: the symbol of one facet, and its residual. *)
Definition read_face (mn : Z) (st : dec * qsmodel * qsmodel) : option (option vec * (dec * qsmodel * qsmodel)) :=
  let '(d, mA, mC) := st in
  do (s, d1, mC') <- dec_sym d mC 10;
  if (s =? 1)%Z then
    do (x, d2, mA1) <- dec_sym d1 mA 18;
    do (y, d3, mA2) <- dec_sym d2 mA1 18;
    do (z, d4, mA3) <- dec_sym d3 mA2 18;
    Some (Some (mn + x, mn + y, mn + z)%Z, (d4, mA3, mC'))
  else Some (None, (d1, mA, mC')).

(** mymeshDecomp.cpp:193-198: the symbol of one edge. *)
Definition read_edge (st : dec * qsmodel) : option (Z * (dec * qsmodel)) :=
  do (s, d', m') <- dec_sym (fst st) (snd st) 10; Some (s, (d', m')).

Section Stream.
  Variables (lim : nat) (T : Type).

  (** mymeshDecomp.cpp:88-126 undecimationStep as in PpmcModel, the symbols read from the coder as
      they are asked for ([rd]). *)
  Fixpoint undecimationB (rd : T -> option (option vec * T)) (m : mesh) (fl : dart -> fflag vec) (q : list dart) (st : T) (fuel : nat)
    : option ((dart -> fflag vec) * T) :=
    match fuel with
    | O => None
    | S n =>
      match q with
      | [] => Some (fl, st)
      | h :: q' =>
        if isConquered (fl h) then undecimationB rd m fl q' st n else
        do (s, st') <- rd st;
        do lp <- loop lim m h;
        let q'' := q' ++ gates (fun d => isConquered (fl d)) lp in
        let fl' := set_loop fl lp (match s with Some r => Splittable r | None => Unsplittable end) in
        undecimationB rd m fl' q'' st' n
      end
    end.

  (** mymeshDecomp.cpp:160-207 InsertedEdgeDecodingStep as in PpmcModel, likewise. *)
  Fixpoint InsertedEdgeDecodingB (rd : T -> option (Z * T)) (m : mesh) (fl : dart -> fflag vec) (added : dart -> bool)
    (q : list dart) (proc : dart -> bool) (st : T) (fuel : nat) : option ((dart -> bool) * T) :=
    match fuel with
    | O => None
    | S n =>
      match q with
      | [] => Some (added, st)
      | h :: q' =>
        if proc h then InsertedEdgeDecodingB rd m fl added q' proc st n else
        let proc' := set_dart (set_dart proc h true) (opp h) true in
        do h1 <- nxt m h;
        do sp <- around m h h1 lim;
        let q'' := q' ++ filter (fun d => negb (proc' d)) sp in
        if isSplittable (fl h) || isSplittable (fl (opp h)) then
          do (s, st') <- rd st;
          InsertedEdgeDecodingB rd m fl (if (s =? 0)%Z then added else set_dart added h true) q'' proc' st' n
        else InsertedEdgeDecodingB rd m fl added q'' proc' st n
      end
    end.
End Stream.

Section Decompress.
  Variables (P : Type) (qz : P -> vec) (gp : vec -> P) (bary : list P -> P) (lim : nat).

  (** mymeshDecomp.cpp:29-235, one round read from the bytes; the result holds the bytes left.
      [names] are the handles of the new vertices, [hs] the half-edges in storage order. *)
  Definition decodeRound (junk : nat -> Z) (d0 d1 : nat) (m : mesh) (pos : nat -> P) (inp : list Z) (names : list nat) (hs : list dart) (fuel : nat)
    : option (mesh * (nat -> P) * list Z) :=
    do (_, c0) <- start_decoding inp;
    do q <- pushHehInit m d0 d1;
    do (u, c1) <- decode_short c0;
    do (range, c2) <- decode_short c1;
    do mA <- initqsmodel junk range 18 131072 None false;
    do mC <- initqsmodel junk 2 10 512 None false;
    do (fl, st) <- undecimationB lim _ (read_face (as_int16 u)) m (fun _ => Unknown) q (c2, mA, mC) fuel;
    do inp' <- done_decoding (fst (fst st));
    do q' <- pushHehInit m d0 d1;
    do mE <- initqsmodel junk 2 10 512 None false;
    do (_, e0) <- start_decoding inp';
    do (added, st') <- InsertedEdgeDecodingB lim _ read_edge m fl (fun _ => false) q' (fun _ => false) (e0, mE) fuel;
    do rest <- done_decoding (fst st');
    do q2 <- pushHehInit m d0 d1;
    do (m1, pos1) <- insertRemovedVertices P qz gp bary lim m fl pos names q2 (fun _ => false) fuel;
    do m2 <- removeInsertedEdges m1 added hs;
    Some (m2, pos1, rest).

  (** mymesh.cpp:112-164 in decompression mode: [k] rounds.  [stor m] is the order in which the
      half-edges of m are stored, [nss] the handles of the vertices made in each round. *)
  Fixpoint decodeRounds (junk : nat -> Z) (stor : mesh -> list dart) (d0 d1 : nat) (m : mesh) (pos : nat -> P) (inp : list Z) (nss : list (list nat)) (fuel k : nat) {struct k}
    : option (mesh * (nat -> P) * list Z) :=
    match k with
    | O => Some (m, pos, inp)
    | S k' =>
      match nss with
      | [] => None
      | ns :: nss' => do (m', pos', rest) <- decodeRound junk d0 d1 m pos inp ns (stor m) fuel;
                      decodeRounds junk stor d0 d1 m' pos' rest nss' fuel k'
      end
    end.
End Decompress.

(** mymesh.cpp:70-90 (decompression constructor), mymeshIO.cpp:52-56 and 252-331,
    mymeshBaseBuilder.h:32-54: the base mesh is built from the header, vertex i is the i-th read,
    the first two are the departure vertices; then [k] rounds.  [qz], [gp] are getQuantizedPos and
    getPos for a box corner and a step. *)
Definition base_faces (r : rbase) : list (list nat) := map (fun f => map Z.to_nat (tl f)) (r_faces r).
Definition decodeObject (P : Type) (qz : Z * Z * Z -> Z -> P -> vec) (gp : Z * Z * Z -> Z -> vec -> P) (bary : list P -> P) (lim : nat)
  (bpv : Z -> Z) (junk : nat -> Z) (stor : mesh -> list dart) (mem : list Z) (nss : list (list nat)) (fuel k : nat)
  : option (mesh * (nat -> P) * list Z) :=
  do (r, off) <- readBaseMesh bpv mem;
  decodeRounds P (qz (r_box r) (r_step r)) (gp (r_box r) (r_step r)) bary lim junk stor 0 1
    (of_faces (base_faces r)) (fun i => gp (r_box r) (r_step r) (nth i (r_pos r) (0, 0, 0)%Z)) (skipn (Z.to_nat off) mem) nss fuel k.
