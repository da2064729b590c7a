(** Model of one compression round and of the decompression round that undoes it:
    /repo/src/PPMC/mymeshComp.cpp:35-429, mymeshCompTests.cpp:27-59 and 190-213,
    mymeshDecomp.cpp:57-335, mymeshUtils.cpp:109-124 and 274-288, flags of mymesh.h:95-342.

    The mesh is the CGAL Polyhedron_3 half-edge structure.  CGAL is not part of /repo; its
    operations are modelled by their documented effect.  A half-edge is the pair (source vertex,
    target vertex) and [m u v = Some w] says that the half-edge from u to v exists and that the
    next one around its facet goes from v to w.  So two half-edges with the same ends cannot be
    represented: [split_facet] answers [None] where it would make one (theorems show that this
    never happens).  A facet is the cycle of its half-edges; what the code stores per facet is
    stored here for each of these half-edges.  Every half-edge has a facet (no border), which the
    code asserts everywhere (mymeshComp.cpp:91, 124, 185, 224, 270; mymesh.cpp:84-90).

    Loops of the code that go around a facet or a vertex stop on coming back to the start; here
    they also stop with [None] after [lim] steps.  [None] is in all cases: the code would not
    finish, or would follow a handle that does not exist.  The conquest queues are bounded alike
    by the fuel argument of the fixpoints. *)
From Coq Require Import List ZArith Bool Arith.
From Verif Require Import Arr CodecModel.
Import ListNotations.
Close Scope Z_scope.
Open Scope nat_scope.

(** CGAL Halfedge_handle, next() and opposite(). *)
Definition dart : Type := nat * nat.
Definition mesh : Type := nat -> nat -> option nat.
Definition opp (d : dart) : dart := (snd d, fst d).
Definition deq (a b : dart) : bool := (fst a =? fst b) && (snd a =? snd b).
Definition nxt (m : mesh) (d : dart) : option dart :=
  match m (fst d) (snd d) with Some w => Some (snd d, w) | None => None end.

(** The do-while around a facet, e.g. mymeshComp.cpp:119-131: the half-edges from [d] on until
    the next one is [h]. *)
Fixpoint walk (m : mesh) (h d : dart) (fuel : nat) : option (list dart) :=
  match fuel with
  | O => None
  | S n => do d' <- nxt m d; if deq d' h then Some [d] else do r <- walk m h d' n; Some (d :: r)
  end.
Definition loop (lim : nat) (m : mesh) (h : dart) : option (list dart) := walk m h h lim.

(** The circulator around a vertex, e.g. mymeshCompTests.cpp:202-208: hit runs over the
    half-edges towards [v], ++hit is next()->opposite(); the list holds their sources.  The code
    starts at vertex_begin(), here the start is the source [a] of a half-edge at hand. *)
Fixpoint turn (m : mesh) (v a x : nat) (fuel : nat) : option (list nat) :=
  match fuel with
  | O => None
  | S n => do y <- m x v; if y =? a then Some [x] else do r <- turn m v a y n; Some (x :: r)
  end.
Definition ring (lim : nat) (m : mesh) (v a : nat) : option (list nat) := turn m v a a lim.

(** CGAL facet_degree(). *)
Definition facet_degree (lim : nat) (m : mesh) (h : dart) : option nat :=
  do lp <- loop lim m h; Some (length lp).

(** Assignment of one next pointer. *)
Definition set_next (m : mesh) (u v : nat) (x : option nat) : mesh :=
  fun p q => if (p =? u) && (q =? v) then x else m p q.

(** CGAL split_facet(h, g): a new diagonal from the target of h to the target of g; after it
    h->next() is the diagonal. *)
Definition split_facet (m : mesh) (h g : dart) : option mesh :=
  let u := snd h in let x := snd g in
  do y <- m (fst h) u;
  do z <- m (fst g) x;
  match m u x, m x u with
  | None, None =>
    if u =? x then None else
    Some (set_next (set_next (set_next (set_next m (fst h) u (Some x)) (fst g) x (Some u)) u x (Some z)) x u (Some y))
  | _, _ => None
  end.

(** Removal of the edge between a and b, the two facets beside it becoming one. *)
Definition del_edge (m : mesh) (a b : nat) : mesh :=
  fun p q =>
    if ((p =? a) && (q =? b)) || ((p =? b) && (q =? a)) then None else
    match m p q with
    | None => None
    | Some w => if (q =? a) && (w =? b) then m b a
                else if (q =? b) && (w =? a) then m a b
                else Some w
    end.

(** CGAL join_facet(h). *)
Definition join_facet (m : mesh) (h : dart) : option mesh :=
  do _ <- m (fst h) (snd h); Some (del_edge m (fst h) (snd h)).

(** CGAL erase_center_vertex(g): removes the target of g with all its edges, merging the facets
    around it; returns what was g->prev(). *)
Definition erase_center_vertex (lim : nat) (m : mesh) (g : dart) : option (mesh * dart) :=
  let v := snd g in
  do lp <- loop lim m g;
  do r <- ring lim m v (fst g);
  Some (fold_left (fun m u => del_edge m v u) r m, last lp g).

(** CGAL create_center_vertex(h): a new vertex [v] joined to every vertex of the facet of h. *)
Definition create_center_vertex (lim : nat) (m : mesh) (h : dart) (v : nat) : option mesh :=
  do lp <- loop lim m h;
  Some (fun p q =>
    if existsb (deq (p, q)) lp then Some v
    else if q =? v then match find (fun d => snd d =? p) lp with Some d => Some (fst d) | None => None end
    else if p =? v then match find (fun d => fst d =? q) lp with Some d => Some (snd d) | None => None end
    else m p q).

(** mymesh.h:98, MyFace::Flag.  The payload is what the splittable facet carries: for the
    compressor the removed vertex (whose point is setRemovedVertexPos), for the decompressor the
    residual (setResidual). *)
Inductive fflag (A : Type) := Unknown | Unsplittable | Splittable (a : A).
Arguments Unknown {A}. Arguments Unsplittable {A}. Arguments Splittable {A} a.
(** mymesh.h:115-128. *)
Definition isConquered {A} (f : fflag A) : bool := match f with Unknown => false | _ => true end.
Definition isSplittable {A} (f : fflag A) : bool := match f with Splittable _ => true | _ => false end.
Definition isUnsplittable {A} (f : fflag A) : bool := match f with Unsplittable => true | _ => false end.

(** Writing a field of the facet made of the half-edges [lp]. *)
Definition set_loop {A} (f : dart -> A) (lp : list dart) (x : A) : dart -> A :=
  fun d => if existsb (deq d) lp then x else f d.
(** Writing a flag of one half-edge. *)
Definition set_dart {A} (f : dart -> A) (e : dart) (x : A) : dart -> A :=
  fun d => if deq d e then x else f d.
(** Writing the flag of one vertex. *)
Definition set_vertex (f : nat -> bool) (u : nat) : nat -> bool := fun v => if v =? u then true else f v.

(** mymeshCompTests.cpp:27-59 willViolateManifold, the tests for one [i]; [r] are the neighbours
    of [v] in circulator order, polygon[i] the half-edge from v to r[i]. *)
Definition violates_at (lim : nat) (m : mesh) (v : nat) (r : list nat) (i : nat) : option bool :=
  let k := length r in
  let u := nth i r 0 in
  do nb <- ring lim m u v;
  do f1 <- facet_degree lim m (v, u);
  do f2 <- facet_degree lim m (u, v);
  let iprev := if i =? 0 then k - 1 else i - 1 in
  let inext := if i =? k - 1 then 0 else i + 1 in
  Some (existsb (fun vh => existsb (fun j =>
    (vh =? nth j r 0) && (((j =? iprev) && negb (f1 =? 3)) || ((j =? inext) && negb (f2 =? 3)))) (seq 0 k)) nb).
Fixpoint violates (lim : nat) (m : mesh) (v : nat) (r : list nat) (is : list nat) : option bool :=
  match is with
  | [] => Some false
  | i :: is' => do b <- violates_at lim m v r i; if b then Some true else violates lim m v r is'
  end.
Definition willViolateManifold (lim : nat) (m : mesh) (v : nat) (r : list nat) : option bool :=
  violates lim m v r (seq 0 (length r)).

(** Compressor state: mesh, MyVertex flags, facet flags, MyHalfedge Added flags, gateQueue,
    i_nbRemovedVertices. *)
Record est := EST {
  e_m : mesh; e_v : nat -> bool; e_f : dart -> fflag nat; e_a : dart -> bool; e_q : list dart; e_n : nat }.

(** The outer half-edges of a facet whose own facet is not done, in order: mymeshComp.cpp:119-131,
    220-232, 266-275, 336-345; mymeshDecomp.cpp:110-119, 261-270. *)
Definition gates (done : dart -> bool) (lp : list dart) : list dart :=
  filter (fun d => negb (done d)) (map opp lp).

(** mymeshUtils.cpp:274-288 pushHehInit: the half-edge between the departure vertices, found by
    turning around the first one (the sources of the half-edges towards it). *)
Definition pushHehInit (m : mesh) (d0 d1 : nat) : option (list dart) :=
  do _ <- m d0 d1; Some [(d0, d1)].

Section Compress.
  (** isConvex (mymeshCompTests.cpp:65-110) is any test; d0 and d1 are vh_departureConquest. *)
  Variables (lim : nat) (convex : mesh -> nat -> bool) (d0 d1 : nat).

  (** mymeshCompTests.cpp:190-213 isRemovable, for the target of [hh]. *)
  Definition isRemovable (m : mesh) (conq : nat -> bool) (hh : dart) : option bool :=
    let v := snd hh in
    if (v =? d0) || (v =? d1) || conq v then Some false else
    do r <- ring lim m v (fst hh);
    if (length r <=? 2) || (8 <? length r) then Some false else
    do b <- willViolateManifold lim m v r;
    Some (negb b && convex m v).

  (** mymeshComp.cpp:101-112: the first half-edge with a removable target. *)
  Fixpoint candidate (m : mesh) (conq : nat -> bool) (l : list dart) : option (option dart) :=
    match l with
    | [] => Some None
    | hh :: l' => do b <- isRemovable m conq hh; if b then Some (Some hh) else candidate m conq l'
    end.

  (** mymeshComp.cpp:182-205: cut the corners around the vertex [v]; [h] is the current half-edge
      away from v. *)
  Fixpoint cut_corners (m : mesh) (conq : nat -> bool) (added : dart -> bool) (v : nat) (h hend : dart) (fuel : nat)
    : option (mesh * (nat -> bool) * (dart -> bool)) :=
    match fuel with
    | O => None
    | S n =>
      do lp <- loop lim m h;
      do (m1, a1) <-
        (if 3 <? length lp then
           let hSplit := nth (length lp - 2) lp h in
           do m1 <- split_facet m h hSplit;
           let hCorner := (snd h, snd hSplit) in
           Some (m1, set_dart (set_dart added hCorner true) (opp hCorner) true)
         else Some (m, added));
      let c1 := set_vertex conq (snd h) in
      do h' <- nxt m1 (opp h);
      if deq h' hend then Some (m1, c1, a1) else cut_corners m1 c1 a1 v h' hend n
    end.

  (** mymeshComp.cpp:174-238 vertexCut.  The flags of half-edges that split_facet creates are
      those of MyHalfedge() and MyFace copies of the cut facet, which is Unknown (186-187). *)
  Definition vertexCut (s : est) (startH : dart) : option est :=
    let v := snd startH in
    do (m1, c1, a1) <- cut_corners (e_m s) (e_v s) (e_a s) v (opp startH) (opp startH) lim;
    do (m2, hNewFace) <- erase_center_vertex lim m1 startH;
    do lp <- loop lim m2 hNewFace;
    let f2 := set_loop (e_f s) lp (Splittable v) in
    Some (EST m2 c1 f2 a1 (e_q s ++ gates (fun d => isConquered (f2 d)) lp) (S (e_n s))).

  (** mymeshComp.cpp:115-134: a null patch. *)
  Definition nullPatch (s : est) (lp : list dart) : est :=
    let f2 := set_loop (e_f s) lp Unsplittable in
    EST (e_m s) (fold_left (fun c d => set_vertex c (snd d)) lp (e_v s)) f2 (e_a s)
        (e_q s ++ gates (fun d => isConquered (f2 d)) lp) (e_n s).

  (** mymeshComp.cpp:81-143 decimationStep for the gate [h] just popped. *)
  Definition decimationStep (s : est) (h : dart) : option est :=
    if isConquered (e_f s h) then Some s else
    do lp <- loop lim (e_m s) h;
    do c <- candidate (e_m s) (e_v s) (tl lp);
    match c with
    | None => Some (nullPatch s lp)
    | Some hh => vertexCut s hh
    end.

  (** mymeshComp.cpp:85-88 with mymesh.cpp:112-164: steps until the queue is empty. *)
  Fixpoint decimate (s : est) (fuel : nat) : option est :=
    match fuel with
    | O => None
    | S n =>
      match e_q s with
      | [] => Some s
      | h :: q => do s' <- decimationStep (EST (e_m s) (e_v s) (e_f s) (e_a s) q (e_n s)) h; decimate s' n
      end
    end.

  (** mymeshComp.cpp:35-64 beginDecimationConquest; the first gate, the middle half-edge in
      storage order, is an argument. *)
  Definition beginDecimation (m : mesh) (h0 : dart) : est :=
    EST m (fun _ => false) (fun _ => Unknown) (fun _ => false) [h0] 0.
End Compress.

(** Positions: P is Point; qz and gp are getQuantizedPos and getPos (mymesh.cpp:246-262), bary the
    barycenter of a list of points in the order of the facet from the gate (mymeshUtils.cpp:109-124). *)
Definition vsub (a b : vec) : vec := let '(x, y, z) := a in let '(x', y', z') := b in (x - x', y - y', z - z')%Z.
Definition vadd (a b : vec) : vec := let '(x, y, z) := a in let '(x', y', z') := b in (x + x', y + y', z + z')%Z.

Section Code.
  Variables (P : Type) (qz : P -> vec) (gp : vec -> P) (bary : list P -> P) (lim : nat).

  (** mymeshComp.cpp:245-280 determineResiduals; [proc] are the processed facets, the result gives
      the residual field of each facet. *)
  Fixpoint determineResiduals (m : mesh) (fl : dart -> fflag nat) (pos : nat -> P)
    (q : list dart) (proc : dart -> bool) (res : dart -> vec) (fuel : nat) : option (dart -> vec) :=
    match fuel with
    | O => None
    | S n =>
      match q with
      | [] => Some res
      | h :: q' =>
        if proc h then determineResiduals m fl pos q' proc res n else
        do lp <- loop lim m h;
        let proc' := set_loop proc lp true in
        let res' := match fl h with
                    | Splittable v => set_loop res lp (vsub (qz (pos v)) (qz (bary (map (fun d => pos (snd d)) lp))))
                    | _ => res end in
        determineResiduals m fl pos (q' ++ gates proc' lp) proc' res' n
      end
    end.

  (** mymeshComp.cpp:305-348 RemovedVertexCodingStep and 358-362 determineGeometrySym: what is
      queued in connectFaceSym and geometrySym, as in CodecModel. *)
  Fixpoint RemovedVertexCoding (m : mesh) (fl : dart -> fflag nat) (res : dart -> vec)
    (q : list dart) (proc : dart -> bool) (fuel : nat) : option (list (option vec)) :=
    match fuel with
    | O => None
    | S n =>
      match q with
      | [] => Some []
      | h :: q' =>
        if proc h then RemovedVertexCoding m fl res q' proc n else
        do lp <- loop lim m h;
        let proc' := set_loop proc lp true in
        do r <- RemovedVertexCoding m fl res (q' ++ gates proc' lp) proc' n;
        Some ((if isSplittable (fl h) then Some (res h) else None) :: r)
      end
    end.

  (** mymeshComp.cpp:397-404, mymeshDecomp.cpp:175-182: the other half-edges around the target of
      [h]; [hIt] is the current one, away from it.  No half-edge is New when this runs. *)
  Fixpoint around (m : mesh) (h hIt : dart) (fuel : nat) : option (list dart) :=
    match fuel with
    | O => None
    | S n => if deq (opp hIt) h then Some [] else
             do h' <- nxt m (opp hIt); do r <- around m h h' n; Some (hIt :: r)
    end.

  (** mymeshComp.cpp:382-424 InsertedEdgeCodingStep; the result is connectEdgeSym. *)
  Fixpoint InsertedEdgeCoding (m : mesh) (fl : dart -> fflag nat) (added : dart -> bool)
    (q : list dart) (proc : dart -> bool) (fuel : nat) : option (list Z) :=
    match fuel with
    | O => None
    | S n =>
      match q with
      | [] => Some []
      | h :: q' =>
        if proc h then InsertedEdgeCoding m fl added q' proc n else
        let proc' := set_dart (set_dart proc h true) (opp h) true in
        do h1 <- nxt m h;
        do sp <- around m h h1 lim;
        do r <- InsertedEdgeCoding m fl added (q' ++ filter (fun d => negb (proc' d)) sp) proc' n;
        if isUnsplittable (fl h) && isUnsplittable (fl (opp h)) then Some r
        else Some ((if added h then 1%Z else 0%Z) :: r)
      end
    end.

  (** One whole round, mymeshComp.cpp:35-429: the coarser mesh, its symbols and the number of
      removed vertices.  With none removed no symbols are produced (145-158). *)
  Definition compressRound (convex : mesh -> nat -> bool) (d0 d1 : nat) (pos : nat -> P) (m : mesh) (h0 : dart) (fuel : nat)
    : option (mesh * option round) :=
    do s <- decimate lim convex d0 d1 (beginDecimation m h0) fuel;
    if e_n s =? 0 then Some (e_m s, None) else
    do q <- pushHehInit (e_m s) d0 d1;
    do res <- determineResiduals (e_m s) (e_f s) pos q (fun _ => false) (fun _ => (0, 0, 0)%Z) fuel;
    do faces <- RemovedVertexCoding (e_m s) (e_f s) res q (fun _ => false) fuel;
    do edges <- InsertedEdgeCoding (e_m s) (e_f s) (e_a s) q (fun _ => false) fuel;
    Some (e_m s, Some (faces, edges)).

  (** mymeshDecomp.cpp:88-126 undecimationStep; the symbols come from the record.  Note that a
      facet is marked only after its gates were pushed. *)
  Fixpoint undecimation (m : mesh) (fl : dart -> fflag vec) (q : list dart) (syms : list (option vec)) (fuel : nat)
    : option ((dart -> fflag vec) * list (option vec)) :=
    match fuel with
    | O => None
    | S n =>
      match q with
      | [] => Some (fl, syms)
      | h :: q' =>
        if isConquered (fl h) then undecimation m fl q' syms n else
        match syms with
        | [] => None
        | s :: syms' =>
          do lp <- loop lim m h;
          let q'' := q' ++ gates (fun d => isConquered (fl d)) lp in
          let fl' := set_loop fl lp (match s with Some r => Splittable r | None => Unsplittable end) in
          undecimation m fl' q'' syms' n
        end
      end
    end.

  (** mymeshDecomp.cpp:160-207 InsertedEdgeDecodingStep: the half-edges flagged Added. *)
  Fixpoint InsertedEdgeDecoding (m : mesh) (fl : dart -> fflag vec) (added : dart -> bool)
    (q : list dart) (proc : dart -> bool) (syms : list Z) (fuel : nat) : option ((dart -> bool) * list Z) :=
    match fuel with
    | O => None
    | S n =>
      match q with
      | [] => Some (added, syms)
      | h :: q' =>
        if proc h then InsertedEdgeDecoding m fl added q' proc syms n else
        let proc' := set_dart (set_dart proc h true) (opp h) true in
        do h1 <- nxt m h;
        do sp <- around m h h1 lim;
        let q'' := q' ++ filter (fun d => negb (proc' d)) sp in
        if isSplittable (fl h) || isSplittable (fl (opp h)) then
          match syms with
          | [] => None
          | s :: syms' => InsertedEdgeDecoding m fl (if (s =? 0)%Z then added else set_dart added h true) q'' proc' syms' n
          end
        else InsertedEdgeDecoding m fl added q'' proc' syms n
      end
    end.

  (** mymeshDecomp.cpp:241-291 insertRemovedVertices.  [names] are the handles of the vertices
      that create_center_vertex makes, in order.  The new facets are copies of the split one, so
      they are processed. *)
  Fixpoint insertRemovedVertices (m : mesh) (fl : dart -> fflag vec) (pos : nat -> P) (names : list nat)
    (q : list dart) (proc : dart -> bool) (fuel : nat) : option (mesh * (nat -> P)) :=
    match fuel with
    | O => None
    | S n =>
      match q with
      | [] => Some (m, pos)
      | h :: q' =>
        if proc h then insertRemovedVertices m fl pos names q' proc n else
        do lp <- loop lim m h;
        let proc' := set_loop proc lp true in
        let q'' := q' ++ gates proc' lp in
        match fl h with
        | Splittable r =>
          match names with
          | [] => None
          | v :: names' =>
            let p := gp (vadd (qz (bary (map (fun d => pos (snd d)) lp))) r) in
            do m' <- create_center_vertex lim m h v;
            insertRemovedVertices m' fl (fun u => if u =? v then p else pos u) names' q''
              (fun d => proc' d || (fst d =? v) || (snd d =? v)) n
          end
        | _ => insertRemovedVertices m fl pos names q'' proc' n
        end
      end
    end.

  (** mymeshDecomp.cpp:297-307 removeInsertedEdges; [hs] are the half-edges in storage order.
      (join_facet frees the half-edge the iterator stands on before ++hit; the model takes the
      order as if the iterator went on to the next half-edge.) *)
  Definition removeInsertedEdges (m : mesh) (added : dart -> bool) (hs : list dart) : option mesh :=
    fold_left (fun m h => do m' <- m; join_facet m' h) (filter added hs) (Some m).

  (** One whole round, mymeshDecomp.cpp:57-235; also returns the symbols that were not asked for. *)
  Definition decompressRound (d0 d1 : nat) (m : mesh) (pos : nat -> P) (r : round) (names : list nat) (hs : list dart) (fuel : nat)
    : option (mesh * (nat -> P) * round) :=
    do q <- pushHehInit m d0 d1;
    do (fl, left1) <- undecimation m (fun _ => Unknown) q (fst r) fuel;
    do (added, left2) <- InsertedEdgeDecoding m fl (fun _ => false) q (fun _ => false) (snd r) fuel;
    do (m1, pos1) <- insertRemovedVertices m fl pos names q (fun _ => false) fuel;
    do m2 <- removeInsertedEdges m1 added hs;
    Some (m2, pos1, (left1, left2)).
End Code.
