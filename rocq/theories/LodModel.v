(** Model of the level of detail control of a decoder:
    /repo/src/PPMC/mymesh.cpp:112-164 (batchOperation, completeOperation),
    /repo/src/PPMC/mymeshDecomp.cpp:29-51, 136, 222-235 (what starts and ends a round),
    /repo/src/spatial/himesh.cpp:329-336 (advance_to), 425-430 (a decoder starts at level 0).
    Only the control state is kept; what the rounds themselves read is CodecModel.read_rounds. *)
From Coq Require Import ZArith Bool List.
Import ListNotations.
Open Scope Z_scope.

(** mymesh.h, enum Operation, decompression part. *)
Inductive operation := Idle | UndecimationConquest | InsertedEdgeDecoding.

(** operation, i_curOperationId (= i_curDecimationId while decoding), b_jobCompleted,
    i_decompPercentage. *)
Record lod := Lod { l_op : operation; l_cur : Z; l_done : bool; l_pct : Z }.

(** mymesh.cpp:34-38 with himesh.cpp:426. *)
Definition fresh : lod := Lod Idle 0 false 0.

(** mymeshDecomp.cpp:32, the test [(float)cur / n * 100 >= pct] in exact arithmetic.  [n] is
    i_nbQuantizations + i_nbDecimations.  For [n = 0] the quotient is NaN when [cur = 0] (every
    comparison false) and +infinity afterwards. *)
Definition stop (n cur pct : Z) : bool :=
  if n =? 0 then negb (cur =? 0) else pct * n <=? 100 * cur.

(** mymesh.cpp:112-152 with the effects of one batch: an idle decoder either finishes or starts a
    round; the undecimation batch ends by starting the edge decoding; the edge decoding batch ends
    the round.  [test] is the stop test, [stop n] or its floating point evaluation. *)
Definition batchOperation (test : Z -> Z -> bool) (s : lod) : lod :=
  if l_done s then s else
  match l_op s with
  | Idle => if test (l_cur s) (l_pct s) then Lod Idle (l_cur s) true (l_pct s)
            else Lod UndecimationConquest (l_cur s) false (l_pct s)
  | UndecimationConquest => Lod InsertedEdgeDecoding (l_cur s) false (l_pct s)
  | InsertedEdgeDecoding => Lod Idle (l_cur s + 1) false (l_pct s)
  end.

(** mymesh.cpp:158-164; [None] is running out of fuel. *)
Fixpoint completeOperation (test : Z -> Z -> bool) (fuel : nat) (s : lod) : option lod :=
  if l_done s then Some s else
  match fuel with
  | O => None
  | S f => completeOperation test f (batchOperation test s)
  end.

(** himesh.cpp:329-336.  The comparison is between unsigned values; [level] is not negative here. *)
Definition advance_to (test : Z -> Z -> bool) (fuel : nat) (s : lod) (level : Z) : option lod :=
  if l_pct s >=? level then Some s
  else completeOperation test fuel (Lod (l_op s) (l_cur s) false level).

(** himesh.cpp:329-336, called for one level after the other (tile.cpp:198-206). *)
Fixpoint advance_all (test : Z -> Z -> bool) (fuel : nat) (s : lod) (reqs : list Z) : option lod :=
  match reqs with
  | [] => Some s
  | r :: rs => match advance_to test fuel s r with Some s' => advance_all test fuel s' rs | None => None end
  end.
