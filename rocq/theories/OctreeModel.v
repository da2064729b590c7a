(** Model of the octree: /repo/src/index/octree.cpp:9-218, /repo/src/index/index.h:36-58,
    /repo/src/geometry/aab.h:196-208 (weighted_aab). *)
From Coq Require Import QArith List Bool ZArith.
From Verif Require Import Arr AabModel.
Import ListNotations.
Open Scope Z_scope.

(** aab.h:196-208 weighted_aab; [o_ptr] is the address, which the queries compare with. *)
Record wobj := Wobj { o_ptr : nat; o_id : Z; o_box : aab; o_size : Z }.

(** index.h:36-47 OctreeNode.  tile_size is the same in all nodes and passed separately, level is
    never read.  An inner node's objectList is never read and not kept. *)
Inductive onode :=
| Leaf (b : aab) (size : Z) (canBeSplit : bool) (objs : list wobj)
| Inner (b : aab) (size : Z) (canBeSplit : bool) (children : list onode).

(** index.h:37: node_voxel.box of a node. *)
Definition node_box (t : onode) : aab := match t with Leaf b _ _ _ => b | Inner b _ _ _ => b end.

(** octree.cpp:9-16, the constructor. *)
Definition new_node (b : aab) : onode := Leaf b 0 true [].

(** octree.cpp:47-50, the centre, and 54-61, the eight children: bit 0 of the child number selects
    the half in x, bit 1 in y, bit 2 in z. *)
Definition mid (b : aab) (a : axis) : Q := ((bmin b a + bmax b a) / 2)%Q.
Definition octant (b : aab) (h : axis -> bool) : aab :=
  Aab (fun a => if h a then mid b a else bmin b a) (fun a => if h a then bmax b a else mid b a).
Definition pick (x y z : bool) (a : axis) : bool := match a with AX => x | AY => y | AZ => z end.
Definition octants (b : aab) : list aab :=
  map (octant b) [pick false false false; pick true false false; pick false true false; pick true true false;
                  pick false false true; pick true false true; pick false true true; pick true true true].

(** index.h:36-47: size is an unsigned int. *)
Definition u32 (x : Z) : Z := x mod 2 ^ 32.

(** octree.cpp:27-29 intersects. *)
Definition intersects (t : onode) (o : wobj) : bool := intersect (node_box t) (o_box o).

(** octree.cpp:67-72 and 94-98: offer an object to the children, [add] being addObject.  Returns the
    children and the weight handed out (totalChildrenSize). *)
Fixpoint add_kids (add : onode -> wobj -> option onode) (kids : list onode) (o : wobj) : option (list onode * Z) :=
  match kids with
  | [] => Some ([], 0)
  | k :: r =>
    if intersects k o
    then do k' <- add k o; do (r', n) <- add_kids add r o; Some (k' :: r', n + o_size o)
    else do (r', n) <- add_kids add r o; Some (k :: r', n)
  end.
(** octree.cpp:64-75: the objects of a leaf that is split, in order. *)
Fixpoint add_all (add : onode -> wobj -> option onode) (kids : list onode) (objs : list wobj) : option (list onode * Z) :=
  match objs with
  | [] => Some (kids, 0)
  | o :: r => do (k1, n1) <- add_kids add kids o; do (k2, n2) <- add_all add k1 r; Some (k2, n1 + n2)
  end.

(** octree.cpp:31-102 addObject.  [fuel] bounds the depth of the recursion, [None] is running out
    of it.  size is a 32-bit unsigned, tile_size a long; totalChildrenSize is an int compared with
    an unsigned.  The assert that an object reaches some child is compiled out. *)
Fixpoint addObject (fuel : nat) (tile_size : Z) (t : onode) (o : wobj) : option onode :=
  match fuel with
  | O => None
  | S f =>
    match t with
    | Leaf b sz can objs =>
      let sz' := u32 (sz + o_size o) in
      let objs' := objs ++ [o] in
      if sz' =? o_size o then Some (Leaf b sz' can objs')
      else if ((tile_size <? sz') && can)%bool then
        do (kids, total) <- add_all (addObject f tile_size) (map new_node (octants b)) objs';
        if u32 (2 * (sz' - 1)) <=? u32 total
        then Some (Leaf b sz' false objs')
        else Some (Inner b sz' can kids)
      else if 3 * tile_size <? 2 * sz' then Some (Leaf b sz' true objs')
      else Some (Leaf b sz' can objs')
    | Inner b sz can kids =>
      let sz' := u32 (sz + o_size o) in
      if sz' =? o_size o then Some (Inner b sz' can kids)
      else do (kids', _) <- add_kids (addObject f tile_size) kids o; Some (Inner b sz' can kids')
    end
  end.

(** octree.cpp:104-114 genTiles. *)
Fixpoint genTiles (t : onode) : list aab :=
  match t with
  | Leaf b _ _ objs => match objs with [] => [] | _ => [b] end
  | Inner _ _ _ kids => flat_map genTiles kids
  end.

(** octree.cpp:187-204 query_intersect: the ids reported, in order. *)
Fixpoint query_intersect (t : onode) (q : wobj) : list Z :=
  if intersect (node_box t) (o_box q) then
    match t with
    | Leaf _ _ _ objs =>
      map o_id (filter (fun o => negb (Nat.eqb (o_ptr o) (o_ptr q)) && intersect (o_box o) (o_box q))%bool objs)
    | Inner _ _ _ kids => flat_map (fun k => query_intersect k q) kids
    end
  else [].

(** octree.cpp:165-185 query_within. *)
Fixpoint query_within (t : onode) (q : wobj) (max_dist : Q) : list (Z * range) :=
  if Qle_bool (mindist (distance (node_box t) (o_box q))) max_dist then
    match t with
    | Leaf _ _ _ objs =>
      map (fun o => (o_id o, distance (o_box o) (o_box q)))
        (filter (fun o => negb (Nat.eqb (o_ptr o) (o_ptr q)) &&
                          Qle_bool (mindist (distance (o_box o) (o_box q))) max_dist)%bool objs)
    | Inner _ _ _ kids => flat_map (fun k => query_within k q max_dist) kids
    end
  else [].

(** octree.cpp:116-130 update_distance_list.  The loop increments i in its header and again in its
    body, also after erasing, so every second element is looked at.  Returns the list and [keep]. *)
Fixpoint update_distance_list (d : range) (l : list (Z * range)) : list (Z * range) * bool :=
  match l with
  | [] => ([], true)
  | x :: r =>
    let rest := match r with
                | [] => ([], true)
                | y :: r' => let (l', k) := update_distance_list d r' in (y :: l', k)
                end in
    if range_lt (snd x) d then (x :: fst rest, false)
    else if range_gt (snd x) d then (fst rest, snd rest)
    else (x :: fst rest, snd rest)
  end.

(** min_maxdist; [None] is the DBL_MAX it starts from. *)
Definition le_bound (x : Q) (m : option Q) : bool := match m with None => true | Some y => Qle_bool x y end.
Definition nn_state : Type := list (Z * range) * option Q.
(** octree.cpp:139-156, one object of a leaf. *)
Definition nn_object (q : wobj) (s : nn_state) (o : wobj) : nn_state :=
  let (cand, mm) := s in
  if Nat.eqb (o_ptr o) (o_ptr q) then s else
  let d := distance (o_box o) (o_box q) in
  if le_bound (mindist d) mm then
    let (cand', keep) := update_distance_list d cand in
    if keep then (cand' ++ [(o_id o, d)],
                  match mm with None => Some (maxdist d) | Some y => if Qltb (maxdist d) y then Some (maxdist d) else mm end)
    else (cand', mm)
  else s.
(** octree.cpp:132-163 query_nn. *)
Fixpoint query_nn (t : onode) (q : wobj) (s : nn_state) : nn_state :=
  if le_bound (mindist (distance (node_box t) (o_box q))) (snd s) then
    match t with
    | Leaf _ _ _ objs => fold_left (nn_object q) objs s
    | Inner _ _ _ kids => fold_left (fun s k => query_nn k q s) kids s
    end
  else s.

(** octree.cpp:206-218 build_octree; [None] also for no objects at all, where the root box would be
    inverted. *)
Fixpoint insert_all (fuel : nat) (tile_size : Z) (t : onode) (objs : list wobj) : option onode :=
  match objs with [] => Some t | o :: r => do t' <- addObject fuel tile_size t o; insert_all fuel tile_size t' r end.
Definition build_octree (fuel : nat) (leaf_size : Z) (objs : list wobj) : option onode :=
  do b <- fold_left (fun acc o => acc_box acc (o_box o)) objs None;
  insert_all fuel leaf_size (new_node b) objs.
