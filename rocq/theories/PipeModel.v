(** Model of the way of an object from the compressor into the joins: what a worker of the compressor
    does with an object (/repo/src/test/compress.cpp:43-63 and 81-86), a decoder and its levels
    (/repo/src/PPMC/mymesh.cpp:70-98, /repo/src/spatial/himesh.cpp:329-336 and 425-430), an object of a
    tile decoded to a level (/repo/src/storage/tile.cpp:163-187 and 199-207) and the edges and facets
    of the level as they are put into the voxels (/repo/src/spatial/himesh.cpp:226-283). *)
From Coq Require Import List ZArith Bool Arith.
From Verif Require Import Arr CodecModel BitsModel ObjectModel PpmcModel PpmcLevels LodModel TileModel CompressModel.
From Verif Require AabModel VoxelModel.
Import ListNotations.
Close Scope Z_scope.
Open Scope nat_scope.

(** mymesh.cpp:92-94: batches until enough rounds are decoded; [None] is running out of fuel. *)
Fixpoint first_convex (test : Z -> Z -> bool) (fuel : nat) (s : lod) (level : Z) : option lod :=
  if (l_cur s <? level)%Z then
    match fuel with O => None | S f => first_convex test f (batchOperation test s) level end
  else Some s.
(** mymesh.cpp:90-97: the state of a decoder just constructed.  The block is only entered for headers
    that announce a first convex level below the number of rounds. *)
Definition construct (test : Z -> Z -> bool) (fuel : nat) (r : rbase) : option lod :=
  if (r_notconvex r <? r_rounds r)%Z
  then do s <- first_convex test fuel fresh (r_notconvex r); Some (batchOperation test s)
  else Some fresh.

Section Pipe.
  Variables (P : Type) (qz : Z * Z * Z -> Z -> P -> vec) (gp : Z * Z * Z -> Z -> vec -> P) (bary : list P -> P) (lim : nat) (bpv : Z -> Z) (fuel : nat).

  (** What a decoder finds in memory and what CGAL decides for it: uninitialised memory, the order in
      which half-edges are stored, the handles of the vertices made in each round. *)
  Record machine := Machine { c_junk : nat -> Z; c_stor : mesh -> list dart; c_nss : list (list nat) }.

  (** himesh.cpp:425-430 (constructor) followed by himesh.cpp:329-336 advance_to for each request; the
      rounds are decoded at once instead of request by request.  The result is the mesh, the
      positions of its vertices and the bytes behind the cursor dataOffset. *)
  Definition advance_levels (c : machine) (data : list Z) (reqs : list Z) : option (mesh * (nat -> P) * list Z) :=
    do (r, _) <- readBaseMesh bpv data;
    let test := stop (r_nquant r + r_rounds r) in
    do s0 <- construct test fuel r;
    do s <- advance_all test fuel s0 reqs;
    decodeObject P qz gp bary lim bpv (c_junk c) (c_stor c) data (c_nss c) fuel (Z.to_nat (l_cur s)).

  (** What get_mesh makes of a line (compress.cpp:81): a mesh with the positions of its vertices
      after quantisation (mymesh.cpp:70-74), its departure vertices, what the convexity tests and the
      choice of the first gate of each round do, the base mesh as writeBaseMesh finds it at the end,
      uninitialised memory and the size of the buffer; then the decoder of line 82 and the voxels of
      line 84 (as floats; generate_voxels itself is in VoxelModel). *)
  Record source := Source {
    s_mesh : mesh; s_pos : nat -> P; s_d0 : nat; s_d1 : nat; s_convex : nat -> mesh -> nat -> bool; s_gate : nat -> mesh -> dart;
    s_rounds : nat; s_base : base; s_junk : nat -> Z; s_size : nat; s_machine : machine; s_voxels : list vmeta }.

  (** compress.cpp:81, the compression of one object: all levels, the rounds and the bytes. *)
  Definition levels_of (s : source) : option (list mesh * list round) :=
    compressAll P (qz (m_box (s_base s)) (m_step (s_base s))) bary lim (s_convex s) (s_gate s) (s_d0 s) (s_d1 s) (s_pos s) (s_mesh s) fuel (s_rounds s).
  Definition bytes_of (s : source) : option (list Z) :=
    do (_, rs) <- levels_of s; writeCompressedData bpv (s_junk s) (repeat 0%Z (s_size s)) (s_base s) rs.
  (** compress.cpp:81-86 and 47-48: what is kept for an object is the data of the second mesh, the
      decoder, up to where its cursor stands after level 100. *)
  Definition kept (s : source) : option (list Z * list vmeta) :=
    do bytes <- bytes_of s;
    do (_, more) <- advance_levels (s_machine s) bytes [100%Z];
    Some (firstn (length bytes - length more) bytes, s_voxels s).
  (** compress.cpp:47-56, the bytes written for it. *)
  Definition record_of (s : source) : list Z := match kept s with Some o => record_bytes o | None => [] end.

  (** tile.cpp:163-187 and 199-207 with himesh.h:171-175: an object of a tile is decoded to each of
      the levels asked for, one after the other. *)
  Definition decode_object (c : machine) (dt : list Z) (w : wrapper) (reqs : list Z) : option (mesh * (nat -> P) * list Z) :=
    do data <- retrieve dt w; advance_levels c data reqs.
End Pipe.

Arguments Source {P}. Arguments s_mesh {P}. Arguments s_pos {P}. Arguments s_d0 {P}. Arguments s_d1 {P}. Arguments s_convex {P}. Arguments s_gate {P}.
Arguments s_rounds {P}. Arguments s_base {P}. Arguments s_junk {P}. Arguments s_size {P}. Arguments s_machine {P}. Arguments s_voxels {P}.

Section Shown.
  Variables (P : Type) (value : P -> AabModel.vec).

  (** himesh.cpp:232-238: the ends of an edge, the one its half-edge points to first. *)
  Definition edge_ends (pos : nat -> P) (d : dart) : AabModel.vec * AabModel.vec := (value (pos (snd d)), value (pos (fst d))).
  (** himesh.cpp:262-265: the ends of the half-edge of the facet and of the next two. *)
  Definition facet_corners (m : mesh) (pos : nat -> P) (d : dart) : option (AabModel.vec * AabModel.vec * AabModel.vec) :=
    do e <- nxt m d; do f <- nxt m e; Some (value (pos (snd d)), value (pos (snd e)), value (pos (snd f))).
  Fixpoint all_some {A B} (f : A -> option B) (l : list A) : option (list B) :=
    match l with [] => Some [] | a :: r => do b <- f a; do bs <- all_some f r; Some (b :: bs) end.
  (** himesh.cpp:232, 261 and 197: [vs], [es], [fs] are what vertices_begin() .. vertices_end() and the
      same for edges and facets run over; an edge is given by the half-edge the iterator stands on,
      a facet by its halfedge().  The result is the mesh as VoxelModel takes it. *)
  Definition shown (lod : Z) (m : mesh) (pos : nat -> P) (vs : list nat) (es fs : list dart) : option VoxelModel.mesh :=
    do facets <- all_some (facet_corners m pos) fs;
    Some (VoxelModel.Mesh lod (map (fun v => value (pos v)) vs) (map (edge_ends pos) es) facets).
End Shown.
