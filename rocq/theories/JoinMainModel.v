(** Model of the life of tiles in a join: made by /repo/src/test/joiner.cpp:100-113, used and deleted by
    the workers of /repo/src/join/SpatialJoin.cpp:816-842, awaited by join (844-862).  The workers are
    those of [BatchModel.jstep]. *)
From Coq Require Import List Bool Arith.
From Verif Require Import BatchModel.
Import ListNotations.

(** A tile is the number of the allocation that made it: different allocations have different
    addresses as long as none is freed, and none is freed before join. *)
Definition tile_pair : Type := nat * nat.
(** joiner.cpp:101-113: [repeated] pairs, the second tile being the first one unless --tile2 is given;
    [next] is the number of the next allocation.  Opening the files is left out (TileModel). *)
Fixpoint make_tile_pairs (tile2 : bool) (repeated next : nat) : list tile_pair :=
  match repeated with
  | O => []
  | S r =>
    let tile1 := next in
    if tile2 then (tile1, S next) :: make_tile_pairs tile2 r (S (S next))
    else (tile1, tile1) :: make_tile_pairs tile2 r (S next)
  end.

(** What happens to a tile. *)
Inductive tevent := Use (t : nat) | Delete (t : nat).
(** SpatialJoin.cpp:835-838: after the join of a pair. *)
Definition delete_pair (p : tile_pair) : list tevent :=
  (if Nat.eqb (snd p) (fst p) then [] else [Delete (snd p)]) ++ [Delete (fst p)].
(** A worker that joins a pair (827-834) may use either tile at any time until it deletes them, which
    is the step that ends the join; its two deletions are one step.  [run pairs n s tr]: [n] workers
    reach state [s], and [tr] has happened to the tiles. *)
Inductive run (pairs : list tile_pair) (n : nat) : jstate tile_pair -> list tevent -> Prop :=
| run_init : run pairs n (jinit pairs n) []
| run_use s tr p t : run pairs n s tr -> In (Joining p) (j_workers s) -> (t = fst p \/ t = snd p) -> run pairs n s (tr ++ [Use t])
| run_quiet s tr s' : run pairs n s tr -> jstep s s' -> j_joined s' = j_joined s -> run pairs n s' tr
| run_join s tr s' p : run pairs n s tr -> jstep s s' -> j_joined s' = j_joined s ++ [p] -> run pairs n s' (tr ++ delete_pair p).

(** SpatialJoin.cpp:855-861: the caller goes on when it has seen the queue empty and all workers have
    ended. *)
Definition join_returns (s : jstate tile_pair) : Prop := j_queue s = [] /\ Forall (fun w => w = Stopped) (j_workers s).
