(** Model of the joins: /repo/src/join/SpatialJoin.cpp:21-799, /repo/src/join/SpatialJoin.h:45-112,
    /repo/src/storage/tile.cpp:189-195.  Distances are squared distances throughout, as in the code
    (the limit is compared with them as it is). *)
From Coq Require Import QArith List Bool ZArith.
From Verif Require Import Arr AabModel OctreeModel.
Import ListNotations.
Open Scope Q_scope.

(** himesh.h:49-71 Voxel: its address and box; the data of each level is outside this model. *)
Record voxel := Voxel { v_ptr : nat; v_box : aab }.
(** himesh.h:142-152 HiMesh_Wrapper: its weighted box (with id and address) and its voxels. *)
Record wrapper := Wrapper { w_obj : wobj; w_voxels : list voxel }.
(** SpatialJoin.h:89-104 voxel_pair; the default range is 0 to 0 (aab.h:26-27). *)
Record vpair := VPair { vp_v1 : voxel; vp_v2 : voxel; vp_dist : range; vp_intersect : bool }.
(** SpatialJoin.h:106-110 candidate_info. *)
Record cinfo := CInfo { c_wrapper : wrapper; c_distance : range; c_pairs : list vpair }.
(** SpatialJoin.h:112 candidate_entry. *)
Definition centry : Type := wrapper * list cinfo.
(** tile.h:20-23 Tile: its box and objects; the id of an object is its position. *)
Record tile := Tile { t_box : aab; t_objs : list wrapper }.

(** SpatialJoin.cpp:21-35 update_voxel_pair_list: the list and the return value. *)
Fixpoint update_voxel_pair_list (ps : list vpair) (d : range) : list vpair * bool :=
  match ps with
  | [] => ([], true)
  | vp :: r =>
    if range_gt d (vp_dist vp) then (vp :: r, false)
    else if range_lt d (vp_dist vp) then update_voxel_pair_list r d
    else let (r', b) := update_voxel_pair_list r d in (vp :: r', b)
  end.

(** SpatialJoin.cpp:37-67 update_candidate_list. *)
Fixpoint update_candidate_list (cl : list cinfo) (d : range) : list cinfo * bool :=
  match cl with
  | [] => ([], true)
  | c :: r =>
    if range_gt d (c_distance c) then (c :: r, false)
    else if range_lt d (c_distance c) then update_candidate_list r d
    else
      let (ps, ok) := update_voxel_pair_list (c_pairs c) d in
      let c' := CInfo (c_wrapper c) (c_distance c) ps in
      if ok then
        match ps with
        | [] => update_candidate_list r d
        | _ => let (r', b) := update_candidate_list r d in (c' :: r', b)
        end
      else (c' :: r, false)
  end.

(** SpatialJoin.cpp:69-94 update_candidate_list_intersect.  The second list are the entries erased,
    which is how an answer becomes known. *)
Definition entry_hit (e : centry) : bool := existsb (fun c => existsb vp_intersect (c_pairs c)) (snd e).
Definition update_candidate_list_intersect (cs : list centry) : list centry * list centry :=
  (filter (fun e => negb (entry_hit e)) cs, filter entry_hit cs).

(** SpatialJoin.cpp:96-104 get_pair_num counts the members of this list. *)
Definition all_pairs (cs : list centry) : list vpair := flat_map (fun e => flat_map c_pairs (snd e)) cs.
Definition get_pair_num (cs : list centry) : nat := length (all_pairs cs).

(** std::sort by id (136, 188, 248): insertion sort.  Entries of the same id are copies of each
    other, so their order does not matter. *)
Fixpoint insert_by {A} (key : A -> Z) (x : A) (l : list A) : list A :=
  match l with [] => [x] | y :: r => if (key x <=? key y)%Z then x :: l else y :: insert_by key x r end.
Definition sort_by {A} (key : A -> Z) (l : list A) : list A := fold_right (insert_by key) [] l.
(** The skipping of duplicates by [former] (137-142, 189-195, 249-254). *)
Fixpoint skip_dups {A} (key : A -> Z) (former : Z) (l : list A) : list A :=
  match l with
  | [] => []
  | x :: r => if (key x =? former)%Z then skip_dups key former r else x :: skip_dups key (key x) r
  end.

(** tile.cpp:189-195 Tile::build_octree. *)
Definition tile_octree (fuel : nat) (leaf_size : Z) (t : tile) : option onode :=
  insert_all fuel leaf_size (new_node (t_box t)) (map w_obj (t_objs t)).
(** tile.h:66-69 get_mesh_wrapper. *)
Definition get_wrapper (t : tile) (id : Z) : option wrapper :=
  if (0 <=? id)%Z then nth_error (t_objs t) (Z.to_nat id) else None.

(** SpatialJoin.cpp:146-153: the overlapping voxel pairs of two objects. *)
Definition overlap_pairs (w1 w2 : wrapper) : list vpair :=
  flat_map (fun v1 => flat_map (fun v2 =>
    if intersect (v_box v1) (v_box v2) then [VPair v1 v2 (Range 0 0) false] else []) (w_voxels w2)) (w_voxels w1).
Fixpoint map_opt {A B} (f : A -> option B) (l : list A) : option (list B) :=
  match l with [] => Some [] | x :: r => do y <- f x; do s <- map_opt f r; Some (y :: s) end.
(** SpatialJoin.cpp:129-163, one object of the first tile; the inner [None] is [continue]. *)
Definition intersect_entry (tree : onode) (t2 : tile) (w1 : wrapper) : option (option centry) :=
  match sort_by (fun i => i) (query_intersect tree (w_obj w1)) with
  | [] => Some None
  | ids =>
    do l <- map_opt (fun id => do w2 <- get_wrapper t2 id; Some (CInfo w2 (Range 0 0) (overlap_pairs w1 w2)))
                    (skip_dups (fun i => i) (-1) ids);
    Some (Some (w1, filter (fun c => negb (Nat.eqb (length (c_pairs c)) 0)) l))
  end.
Definition somes {A} (l : list (option A)) : list A := flat_map (fun x => match x with Some y => [y] | None => [] end) l.
(** SpatialJoin.cpp:125-168 mbb_intersect. *)
Definition mbb_intersect (fuel : nat) (t1 t2 : tile) : option (list centry) :=
  do tree <- tile_octree fuel 400 t2;
  do l <- map_opt (intersect_entry tree t2) (t_objs t1);
  Some (somes l).

(** SpatialJoin.cpp:259-281: the voxel pairs of two objects in the within join.  The flag is
    [determined]. *)
Fixpoint within_row (max_dist : Q) (v1 : voxel) (v2s : list voxel) (acc : list vpair) : list vpair * bool :=
  match v2s with
  | [] => (acc, false)
  | v2 :: r =>
    let d := distance (v_box v1) (v_box v2) in
    if Qltb max_dist (mindist d) then within_row max_dist v1 r acc
    else if Qle_bool (maxdist d) max_dist then (acc, true)
    else within_row max_dist v1 r (acc ++ [VPair v1 v2 d false])
  end.
Fixpoint within_pairs (max_dist : Q) (v1s v2s : list voxel) (acc : list vpair) : list vpair * bool :=
  match v1s with
  | [] => (acc, false)
  | v1 :: r =>
    let (acc', det) := within_row max_dist v1 v2s acc in
    if det then ([], true) else within_pairs max_dist r v2s acc'
  end.
(** SpatialJoin.cpp:241-294, one object of the first tile.  The second list holds the objects found
    to be [determined]; the code has "todo report here" in that place and drops them. *)
Definition within_entry (tree : onode) (t2 : tile) (max_dist : Q) (w1 : wrapper) : option (list cinfo * list wrapper) :=
  do l <- map_opt (fun x => do w2 <- get_wrapper t2 (fst x);
                            Some (w2, within_pairs max_dist (w_voxels w1) (w_voxels w2) []))
                  (skip_dups fst (-1) (sort_by fst (query_within tree (w_obj w1) max_dist)));
  Some (flat_map (fun x : wrapper * (list vpair * bool) =>
                    match fst (snd x) with [] => [] | ps => [CInfo (fst x) (Range 0 0) ps] end) l,
        map fst (filter (fun x : wrapper * (list vpair * bool) => snd (snd x)) l)).
(** SpatialJoin.cpp:237-297 mbb_within: the candidates, and the determined pairs that are dropped. *)
Definition mbb_within (fuel : nat) (t1 t2 : tile) (max_dist : Q) : option (list centry * list (wrapper * wrapper)) :=
  do tree <- tile_octree fuel 400 t2;
  do l <- map_opt (fun w1 => do e <- within_entry tree t2 max_dist w1; Some (w1, e)) (t_objs t1);
  Some (flat_map (fun x : wrapper * (list cinfo * list wrapper) => match fst (snd x) with [] => [] | cl => [(fst x, cl)] end) l,
        flat_map (fun x : wrapper * (list cinfo * list wrapper) => map (pair (fst x)) (snd (snd x))) l).

(** SpatialJoin.cpp:206-215: the voxel pairs of two objects in the nearest-neighbour join, together
    with the effect on the earlier candidates. *)
Definition nn_voxel_pair (s : list vpair * list cinfo) (v1 v2 : voxel) : list vpair * list cinfo :=
  let d := distance (v_box v1) (v_box v2) in
  let (ps, cl) := s in
  let (ps', ok1) := update_voxel_pair_list ps d in
  if ok1 then
    let (cl', ok2) := update_candidate_list cl d in
    if ok2 then (ps' ++ [VPair v1 v2 d false], cl') else (ps', cl')
  else (ps', cl).
Definition nn_voxels (w1 w2 : wrapper) (cl : list cinfo) : list vpair * list cinfo :=
  fold_left (fun s v1 => fold_left (fun s v2 => nn_voxel_pair s v1 v2) (w_voxels w2) s) (w_voxels w1) ([], cl).
(** SpatialJoin.cpp:203-225, one candidate object. *)
Definition nn_candidate (w1 : wrapper) (cl : list cinfo) (x : wrapper * range) : list cinfo :=
  let (cl1, ok) := update_candidate_list cl (snd x) in
  if ok then
    let (ps, cl2) := nn_voxels w1 (fst x) cl1 in
    match ps with
    | [] => cl2
    | p0 :: _ => cl2 ++ [CInfo (fst x) (fold_left (fun d p => range_update d (vp_dist p)) ps (vp_dist p0)) ps]
    end
  else cl1.
(** SpatialJoin.cpp:176-233, one object of the first tile. *)
Definition nn_entry (tree : onode) (t2 : tile) (w1 : wrapper) : option (list cinfo) :=
  do l <- map_opt (fun x => do w2 <- get_wrapper t2 (fst x); Some (w2, snd x))
                  (skip_dups fst (-1) (sort_by fst (fst (query_nn tree (w_obj w1) ([], None)))));
  Some (fold_left (nn_candidate w1) l []).
(** SpatialJoin.cpp:172-235 mbb_nn. *)
Definition mbb_nn (fuel : nat) (t1 t2 : tile) : option (list centry) :=
  do tree <- tile_octree fuel 400 t2;
  do l <- map_opt (fun w1 => do cl <- nn_entry tree t2 w1; Some (w1, cl)) (t_objs t1);
  Some (filter (fun e => negb (Nat.eqb (length (snd e)) 0)) l).

(** One round of refinement.  [filled vp] says that both voxels have data at this level, [highest]
    that the level is the last of the schedule (SpatialJoin.h:45-51). *)
(** SpatialJoin.cpp:486-495 and 606-614: the new range of a pair with computed distance [x]. *)
Definition refine_range (highest : bool) (d : range) (x : Q) : range :=
  if highest then Range x x else Range (mindist d) (if Qltb x (maxdist d) then x else maxdist d).

(** SpatialJoin.cpp:602-621: the pairs of an entry, with the running index into [distances] and
    min_candidate ([None] is the initial range, up to DBL_MAX). *)
Definition nn_round_pair (highest : bool) (filled : vpair -> bool) (dists : nat -> Q) (idx : nat) (mc : option range) (vp : vpair) :
  vpair * nat * option range :=
  if filled vp then
    let d := refine_range highest (vp_dist vp) (dists idx) in
    (VPair (vp_v1 vp) (vp_v2 vp) d (vp_intersect vp), S idx,
     match mc with
     | None => Some d
     | Some m => if Qltb (maxdist d) (maxdist m) then Some d else mc
     end)
  else (vp, S idx, mc).
Fixpoint nn_round_pairs highest filled dists (idx : nat) (mc : option range) (ps : list vpair) : list vpair * nat * option range :=
  match ps with
  | [] => ([], idx, mc)
  | vp :: r =>
    let '(vp', idx', mc') := nn_round_pair highest filled dists idx mc vp in
    let '(r', idx'', mc'') := nn_round_pairs highest filled dists idx' mc' r in
    (vp' :: r', idx'', mc'')
  end.
Fixpoint nn_round_infos highest filled dists (idx : nat) (mc : option range) (cl : list cinfo) : list cinfo * nat * option range :=
  match cl with
  | [] => ([], idx, mc)
  | c :: r =>
    let '(ps', idx', mc') := nn_round_pairs highest filled dists idx mc (c_pairs c) in
    let '(r', idx'', mc'') := nn_round_infos highest filled dists idx' mc' r in
    (CInfo (c_wrapper c) (c_distance c) ps' :: r', idx'', mc'')
  end.
(** SpatialJoin.cpp:598-626.  With the initial min_candidate, update_candidate_list changes nothing:
    no range lies above DBL_MAX. *)
Fixpoint nn_round_entries highest filled dists (idx : nat) (cs : list centry) : list centry :=
  match cs with
  | [] => []
  | e :: r =>
    let '(cl', idx', mc) := nn_round_infos highest filled dists idx None (snd e) in
    (fst e, match mc with None => cl' | Some d => fst (update_candidate_list cl' d) end)
      :: nn_round_entries highest filled dists idx' r
  end.
(** SpatialJoin.cpp:536-542 and 638-644: entries with at most one candidate are settled and
    erased; the second list are those. *)
Definition drop_settled (cs : list centry) : list centry * list centry :=
  (filter (fun e => negb (Nat.leb (length (snd e)) 1)) cs, filter (fun e => Nat.leb (length (snd e)) 1) cs).
(** SpatialJoin.cpp:546-650, one level: [compute] is the distance computed for a pair; the distances
    are stored in the order of the pairs (387-398).  A round in which no pair has data is skipped. *)
Definition nn_round (highest : bool) (filled : vpair -> bool) (compute : vpair -> Q) (s : list centry * list centry) : list centry * list centry :=
  let (cs, settled) := s in
  if negb (existsb filled (all_pairs cs)) then s else
  let dists i := match nth_error (all_pairs cs) i with Some vp => compute vp | None => 0 end in
  let (cs', out) := drop_settled (nn_round_entries highest filled dists 0 cs) in
  (cs', settled ++ out).
(** SpatialJoin.cpp:529-656 nearest_neighbor after the filter. *)
Record round := Round { r_highest : bool; r_filled : vpair -> bool; r_compute : vpair -> Q; r_test : vpair -> bool }.
Definition nn_refine (rounds : list round) (cs : list centry) : list centry * list centry :=
  fold_left (fun s r => nn_round (r_highest r) (r_filled r) (r_compute r) s) rounds (drop_settled cs).

(** SpatialJoin.cpp:483-502, the pairs of one candidate in the within join.  [det] is [determined],
    which belongs to the entry. *)
Fixpoint within_round_pairs (max_dist : Q) highest (filled : vpair -> bool) (dists : nat -> Q) (idx : nat) (det : bool) (ps : list vpair) :
  list vpair * nat * bool :=
  match ps with
  | [] => ([], idx, det)
  | vp :: r =>
    let '(vp', det') :=
      if (negb det && filled vp)%bool then
        let d := refine_range highest (vp_dist vp) (dists idx) in
        if Qltb (maxdist d) max_dist then (VPair (vp_v1 vp) (vp_v2 vp) d true, true)
        else (VPair (vp_v1 vp) (vp_v2 vp) d (vp_intersect vp), det)
      else (vp, det) in
    let '(r', idx', det'') := within_round_pairs max_dist highest filled dists (S idx) det' r in
    (vp' :: r', idx', det'')
  end.
(** SpatialJoin.cpp:481-504: once [determined], the pairs of the further candidates of the entry are
    passed over without advancing the index. *)
Fixpoint within_round_infos max_dist highest filled dists (idx : nat) (det : bool) (cl : list cinfo) : list cinfo * nat :=
  match cl with
  | [] => ([], idx)
  | c :: r =>
    if det then let (r', idx') := within_round_infos max_dist highest filled dists idx det r in (c :: r', idx')
    else
      let '(ps', idx', det') := within_round_pairs max_dist highest filled dists idx det (c_pairs c) in
      let (r', idx'') := within_round_infos max_dist highest filled dists idx' det' r in
      (CInfo (c_wrapper c) (c_distance c) ps' :: r', idx'')
  end.
Fixpoint within_round_entries max_dist highest filled dists (idx : nat) (cs : list centry) : list centry :=
  match cs with
  | [] => []
  | e :: r =>
    let (cl', idx') := within_round_infos max_dist highest filled dists idx false (snd e) in
    (fst e, cl') :: within_round_entries max_dist highest filled dists idx' r
  end.
(** SpatialJoin.cpp:432-514, one level. *)
Definition within_round (max_dist : Q) (highest : bool) (filled : vpair -> bool) (compute : vpair -> Q) (s : list centry * list centry) :
  list centry * list centry :=
  let (cs, found) := s in
  if negb (existsb filled (all_pairs cs)) then s else
  let dists i := match nth_error (all_pairs cs) i with Some vp => compute vp | None => 0 end in
  let (cs', out) := update_candidate_list_intersect (within_round_entries max_dist highest filled dists 0 cs) in
  (cs', found ++ out).

(** SpatialJoin.cpp:771-781: intersect_status is stored in the order of the pairs and read back by a
    running index. *)
Fixpoint mark_pairs (status : nat -> bool) (idx : nat) (ps : list vpair) : list vpair * nat :=
  match ps with
  | [] => ([], idx)
  | vp :: r =>
    let (r', idx') := mark_pairs status (S idx) r in
    (VPair (vp_v1 vp) (vp_v2 vp) (vp_dist vp) (vp_intersect vp || status idx) :: r', idx')
  end.
Fixpoint mark_infos (status : nat -> bool) (idx : nat) (cl : list cinfo) : list cinfo * nat :=
  match cl with
  | [] => ([], idx)
  | c :: r =>
    let (ps', idx') := mark_pairs status idx (c_pairs c) in
    let (r', idx'') := mark_infos status idx' r in
    (CInfo (c_wrapper c) (c_distance c) ps' :: r', idx'')
  end.
Fixpoint mark_entries (status : nat -> bool) (idx : nat) (cs : list centry) : list centry :=
  match cs with
  | [] => []
  | e :: r => let (cl', idx') := mark_infos status idx (snd e) in (fst e, cl') :: mark_entries status idx' r
  end.
(** SpatialJoin.cpp:686-792, one level, [test] being the triangle test of a voxel pair. *)
Definition intersect_round (test : vpair -> bool) (s : list centry * list centry) : list centry * list centry :=
  let (cs, found) := s in
  if Nat.eqb (get_pair_num cs) 0 then s else
  let status i := match nth_error (all_pairs cs) i with Some vp => test vp | None => false end in
  let (cs', out) := update_candidate_list_intersect (mark_entries status 0 cs) in
  (cs', found ++ out).
(** SpatialJoin.cpp:674-799 intersect: the objects reported. *)
Definition intersect_join (fuel : nat) (tests : list (vpair -> bool)) (t1 t2 : tile) : option (list wrapper) :=
  do cs <- mbb_intersect fuel t1 t2;
  Some (map fst (snd (fold_left (fun s test => intersect_round test s) tests (cs, [])))).
