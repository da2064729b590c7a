(** Model of a whole nearest-neighbour join on the processor, from the voxels of the objects:
    /repo/src/join/SpatialJoin.cpp:529-656 nearest_neighbor (without --aabb). *)
From Coq Require Import ZArith QArith List Bool.
From Verif Require Import Arr AabModel JoinModel SegDistModel EndModel EndDistModel.
Import ListNotations.
Open Scope Z_scope.

(** SpatialJoin.cpp:598-644: the distances of one level are entered, farther candidates removed and the
    entries with at most one candidate left erased; the second list are those erased. *)
Definition nn_enter (highest : bool) (filled : vpair -> bool) (dists : nat -> Q) (s : list centry * list centry) : list centry * list centry :=
  let (cs', out) := drop_settled (nn_round_entries highest filled dists 0 (fst s)) in (cs', snd s ++ out).
(** SpatialJoin.cpp:546-650: all levels; [dist] computes the distances of a level, [top] is highest_lod. *)
Fixpoint nn_levels (far : Q) (h : heap) (dist : Z -> list centry -> list dist_t) (top : Z) (lods : list Z) (s : list centry * list centry) : list centry * list centry :=
  match lods with
  | [] => s
  | lod :: r => if Nat.eqb (get_pair_num (fst s)) 0 then s
      else if negb (existsb (has_edges h lod) (all_pairs (fst s))) then nn_levels far h dist top r s
      else nn_levels far h dist top r
             (nn_enter (lod =? top) (has_edges h lod) (fun i => number far (nth_error (dist lod (fst s)) i)) s)
  end.
(** SpatialJoin.cpp:529-656: the entries left at the end, with several candidates each, and those erased;
    highest_lod is the last level of the schedule (SpatialJoin.h:45-51). *)
Definition nn_all (fuel : nat) (far : Q) (h : heap) (dist : Z -> list centry -> list dist_t) (lods : list Z) (t1 t2 : tile) : option (list centry * list centry) :=
  do cs <- mbb_nn fuel t1 t2;
  Some (nn_levels far h dist (last lods 0) lods (drop_settled cs)).
