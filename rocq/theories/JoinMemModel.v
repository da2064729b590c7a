(** Model of the memory a join of two tiles takes and gives back: the search tree (/repo/src/index/octree.cpp:9-102,
    /repo/src/storage/tile.cpp:189-195), the buffers of each round (/repo/src/join/SpatialJoin.cpp:125-167, 172-234, 237-296,
    299-414, 422-520, 529-655, 674-800) and the arrays of SegDist_single (/repo/src/geometry/SegDist.cpp:81-120).  The memory of
    the tiles is in TileMemModel, that of the graphics card and of the containers is left out. *)
From Coq Require Import QArith List Bool ZArith Arith.
From Verif Require Import Arr AabModel OctreeModel TileMemModel.
Import ListNotations.
Open Scope Z_scope.

(** index.h:36-47: the nodes of OctreeModel with the blocks they are in. *)
Inductive mnode :=
| MLeaf (blk : nat) (b : aab) (size : Z) (canBeSplit : bool) (objs : list wobj)
| MInner (blk : nat) (b : aab) (size : Z) (canBeSplit : bool) (children : list mnode).
(** The block and the box of a node. *)
Definition m_blk (t : mnode) : nat := match t with MLeaf k _ _ _ _ => k | MInner k _ _ _ _ => k end.
Definition m_box (t : mnode) : aab := match t with MLeaf _ b _ _ _ => b | MInner _ b _ _ _ => b end.

(** octree.cpp:54-61: the new children of a leaf that is divided. *)
Fixpoint new_kids (bs : list aab) (h : heap) : list mnode * heap :=
  match bs with
  | [] => ([], h)
  | b :: r => let (k, h) := new Single h in let (ks, h) := new_kids r h in (MLeaf k b 0 true [] :: ks, h)
  end.
(** octree.cpp:18-25, the destructor, then the block of the node. *)
Fixpoint delete_tree (t : mnode) (h : heap) : heap :=
  match t with
  | MLeaf k _ _ _ _ => happen (Delete Single k) h
  | MInner k _ _ _ kids => happen (Delete Single k) (fold_left (fun h c => delete_tree c h) kids h)
  end.
(** octree.cpp:67-72 and 94-98, as OctreeModel.add_kids. *)
Fixpoint m_add_kids (add : mnode -> wobj -> heap -> option (mnode * heap)) (kids : list mnode) (o : wobj) (h : heap) : option (list mnode * Z * heap) :=
  match kids with
  | [] => Some ([], 0, h)
  | k :: r =>
    let h := happen (Use (m_blk k)) h in
    if intersect (m_box k) (o_box o)
    then do (k', h) <- add k o h; do (r', n, h) <- m_add_kids add r o h; Some (k' :: r', n + o_size o, h)
    else do (r', n, h) <- m_add_kids add r o h; Some (k :: r', n, h)
  end.
(** octree.cpp:64-75, as OctreeModel.add_all. *)
Fixpoint m_add_all (add : mnode -> wobj -> heap -> option (mnode * heap)) (kids : list mnode) (objs : list wobj) (h : heap) : option (list mnode * Z * heap) :=
  match objs with
  | [] => Some (kids, 0, h)
  | o :: r => do (k1, n1, h) <- m_add_kids add kids o h; do (k2, n2, h) <- m_add_all add k1 r h; Some (k2, n1 + n2, h)
  end.
(** octree.cpp:31-102 addObject, as OctreeModel.addObject, with the children made (54-61) and, when the division does not
    help, deleted again (79-86). *)
Fixpoint m_add (fuel : nat) (tile_size : Z) (t : mnode) (o : wobj) (h : heap) : option (mnode * heap) :=
  match fuel with
  | O => None
  | S f =>
    let h := happen (Use (m_blk t)) h in
    match t with
    | MLeaf k b sz can objs =>
      let sz' := u32 (sz + o_size o) in
      let objs' := objs ++ [o] in
      if sz' =? o_size o then Some (MLeaf k b sz' can objs', h)
      else if ((tile_size <? sz') && can)%bool then
        let (kids, h) := new_kids (octants b) h in
        do (kids, total, h) <- m_add_all (m_add f tile_size) kids objs' h;
        if u32 (2 * (sz' - 1)) <=? u32 total
        then Some (MLeaf k b sz' false objs', fold_left (fun h c => delete_tree c h) kids h)
        else Some (MInner k b sz' can kids, h)
      else if 3 * tile_size <? 2 * sz' then Some (MLeaf k b sz' true objs', h)
      else Some (MLeaf k b sz' can objs', h)
    | MInner k b sz can kids =>
      let sz' := u32 (sz + o_size o) in
      if sz' =? o_size o then Some (MInner k b sz' can kids, h)
      else do (kids', _, h) <- m_add_kids (m_add f tile_size) kids o h; Some (MInner k b sz' can kids', h)
    end
  end.
(** Adding one object after the other. *)
Fixpoint m_adds (fuel : nat) (tile_size : Z) (t : mnode) (objs : list wobj) (h : heap) : option (mnode * heap) :=
  match objs with
  | [] => Some (t, h)
  | o :: r => do (t, h) <- m_add fuel tile_size t o h; m_adds fuel tile_size t r h
  end.
(** tile.cpp:189-195 Tile::build_octree, [b] the box of the tile. *)
Definition m_build (fuel : nat) (leaf_size : Z) (b : aab) (objs : list wobj) (h : heap) : option (mnode * heap) :=
  let (k, h) := new Single h in m_adds fuel leaf_size (MLeaf k b 0 true []) objs h.
(** octree.cpp:132-204: a query looks at nodes of the tree; here at all of them. *)
Fixpoint use_tree (t : mnode) (h : heap) : heap :=
  match t with
  | MLeaf k _ _ _ _ => happen (Use k) h
  | MInner k _ _ _ kids => fold_left (fun h c => use_tree c h) kids (happen (Use k) h)
  end.

(** SpatialJoin.cpp:828-834: the three joins. *)
Inductive query := Intersecting | Nearest | Within.
(** One round of a join that is not left by break: whether any segments were found (SpatialJoin.cpp:465-468, 584-587), use_aabb
    (309), and the number of pairs computed on the processor (geometry_computer.cpp:12-23); the last is 0 with a device. *)
Record round := Round { r_filled : bool; r_aabb : bool; r_pairs : nat }.
(** SegDist.cpp:81-120: four arrays, made with new[] and released with delete.  The threads of geometry_computer.cpp:107-147
    work on arrays of their own, here one pair follows the other. *)
Definition segdist_mem (h : heap) : heap :=
  let (a, h) := new Array h in let (b, h) := new Array h in let (aa, h) := new Array h in let (bb, h) := new Array h in
  let h := happen (Use bb) (happen (Use aa) (happen (Use b) (happen (Use a) h))) in
  happen (Delete Single bb) (happen (Delete Single aa) (happen (Delete Single b) (happen (Delete Single a) h))).
(** SpatialJoin.cpp:299-414 calculate_distance, then the update of the candidates and the release of the distances
    (474-511, 597-648). *)
Definition distance_round (r : round) (h : heap) : heap :=
  if r_filled r then
    let (distances, h) := new Array h in
    let h := if r_aabb r then h else
      let (data, h) := new Array h in let (offset_size, h) := new Array h in
      let h := Nat.iter (r_pairs r) segdist_mem (happen (Use offset_size) (happen (Use data) h)) in
      happen (Delete Single offset_size) (happen (Delete Single data) (happen (Use distances) h)) in
    happen (Delete Single distances) (happen (Use distances) h)
  else h.
(** SpatialJoin.cpp:732-789. *)
Definition intersect_round (h : heap) : heap :=
  let (data, h) := new Array h in let h := happen (Use data) h in
  let (offset_size, h) := new Array h in let (status, h) := new Array h in
  let h := happen (Use status) (happen (Use offset_size) (happen (Use data) h)) in
  happen (Delete Array status) (happen (Delete Array offset_size) (happen (Delete Array data) h)).
Definition do_round (q : query) (r : round) (h : heap) : heap :=
  match q with Intersecting => intersect_round h | _ => distance_round r h end.
(** SpatialJoin.cpp:127 and 164: mbb_intersect deletes its tree; 175-234 mbb_nn and 240-296 mbb_within do not. *)
Definition after_filter (q : query) (t : mnode) (h : heap) : heap :=
  match q with Intersecting => delete_tree t h | _ => h end.
(** SpatialJoin.cpp:422-520, 529-655, 674-800: the filter and the rounds.  [b] is the box of the second tile, [objs] its objects. *)
Definition join_mem (q : query) (fuel : nat) (b : aab) (objs : list wobj) (rounds : list round) : option heap :=
  do (t, h) <- m_build fuel 400 b objs (Heap [] 0);
  Some (fold_left (fun h r => do_round q r h) rounds (after_filter q t (use_tree t h))).
