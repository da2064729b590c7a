(** Model of the distances of a distance join on the processor, from the voxels of the objects:
    /repo/src/join/SpatialJoin.cpp:299-418 calculate_distance (without --aabb) with
    /repo/src/geometry/geometry_computer.cpp:14-23, 109-146. *)
From Coq Require Import ZArith QArith List Bool.
From Verif Require Import Arr AabModel JoinModel BatchModel SegDistModel EndModel.
From Verif Require VoxelModel.
Import ListNotations.
Open Scope Z_scope.

(** SpatialJoin.cpp:351-372: voxel_map and segment_num (uint). *)
Definition spacked (h : heap) (lod : Z) (ps : list (nat * nat)) : vmap * Z := layout (2 ^ 32) (lsize h lod) ps.
(** SpatialJoin.cpp:377-384: the buffer, filled in order of addresses. *)
Definition sbuffer (h : heap) (lod : Z) (ps : list (nat * nat)) : Z -> option (option Q) :=
  fill 6 (lsize h lod) (ldata h lod) (sort_by (fun b => Z.of_nat (fst b)) (fst (spacked h lod ps))).
(** geometry_computer.cpp:17-18: the floats behind the pointer data+offset*6 (32 bit product); [junk] is
    what new[] left in the buffer. *)
Definition sfloats (junk : Z -> Q) (buf : Z -> option (option Q)) (os : Z * Z) : list Q :=
  map (fun k => cell junk buf ((fst os * 6) mod u32max + Z.of_nat k)) (seq 0 (Z.to_nat (6 * snd os))).
(** geometry_computer.cpp:14-23 SegDist_unit, pair [y] of the batch; [None] is DBL_MAX, which becomes
    an infinite float. *)
Definition cpu_distance (junk : Z -> Q) (h : heap) (lod : Z) (ps : list (nat * nat)) (y : Z) : dist_t :=
  match aget ps y with
  | None => None
  | Some p =>
    let q := quad (fst (spacked h lod ps)) p in let buf := sbuffer h lod ps in
    SegDist_single (sfloats junk buf (fst q)) (sfloats junk buf (snd q)) (Z.to_nat (snd (fst q))) (Z.to_nat (snd (snd q)))
  end.
(** SpatialJoin.cpp:300-305 and geometry_computer.cpp:109-146: distances after the threads have worked in
    the order [tr]; the cells start at 0. *)
Definition cpu_distances (junk : Z -> Q) (h : heap) (threads : Z) (tr : list Z) (lod : Z) (cs : list centry) : list dist_t :=
  let ps := ptrs cs in let p := Z.of_nat (length ps) in
  map (fun i => match store (cpu_distance junk h lod ps) (concat (fst (distance_runs p threads)) ++ tr) (Z.of_nat i) with Some d => d | None => Some 0%Q end)
      (seq 0 (length ps)).

(** SpatialJoin.cpp:486: both voxels have edges at the level. *)
Definition has_edges (h : heap) (lod : Z) (vp : vpair) : bool := (0 <? lsize h lod (v_ptr (vp_v1 vp))) && (0 <? lsize h lod (v_ptr (vp_v2 vp))).
(** A distance as a number; [far] stands for an infinite one. *)
Definition number (far : Q) (o : option dist_t) : Q := match o with Some (Some d) => d | _ => far end.
(** SpatialJoin.cpp:477-507: the distances of one level are entered and the entries decided erased. *)
Definition within_enter (max_dist : Q) (highest : bool) (filled : vpair -> bool) (dists : nat -> Q) (s : list centry * list centry) : list centry * list centry :=
  let (cs', out) := update_candidate_list_intersect (within_round_entries max_dist highest filled dists 0 (fst s)) in (cs', snd s ++ out).
(** SpatialJoin.cpp:432-514: all levels; [dist] computes the distances of a level, [top] is highest_lod. *)
Fixpoint within_levels (max_dist far : Q) (h : heap) (dist : Z -> list centry -> list dist_t) (top : Z) (lods : list Z) (s : list centry * list centry) : list centry * list centry :=
  match lods with
  | [] => s
  | lod :: r => if Nat.eqb (get_pair_num (fst s)) 0 then s
      else if negb (existsb (has_edges h lod) (all_pairs (fst s))) then within_levels max_dist far h dist top r s
      else within_levels max_dist far h dist top r
             (within_enter max_dist (lod =? top) (has_edges h lod) (fun i => number far (nth_error (dist lod (fst s)) i)) s)
  end.
(** SpatialJoin.cpp:422-521 within: the objects erased from the candidates as being within the limit;
    highest_lod is the last level of the schedule (SpatialJoin.h:45-51). *)
Definition within_all (fuel : nat) (max_dist far : Q) (h : heap) (dist : Z -> list centry -> list dist_t) (lods : list Z) (t1 t2 : tile) : option (list wrapper) :=
  do (cs, det) <- mbb_within fuel t1 t2 max_dist;
  Some (map fst (snd (within_levels max_dist far h dist (last lods 0) lods (cs, [])))).
