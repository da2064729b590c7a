(** Model of the times a join measures and reports: the clock readings of
    /repo/src/join/SpatialJoin.cpp:299-401 (calculate_distance), 421-519 (within), 529-656
    (nearest_neighbor), 674-799 (intersect), and merge and report of SpatialJoin.h:58-86.  Times are
    exact rationals in milliseconds; the clock (gettimeofday) never goes back.  The code between two
    readings only counts by how long it takes, any time. *)
From Coq Require Import QArith List Bool.
From Verif Require Import JoinerModel.
Import ListNotations.
Open Scope Q_scope.

(** The variables that hold a reading: [start] and [very_start] of a join, [start] of
    calculate_distance. *)
Inductive var := Start | VeryStart | Inner.
(** The times of a query_context (SpatialJoin.h:24-29). *)
Inductive field := Index | Decode | Packing | Computation | Updatelist | Overall.
(** What a join does as far as times are concerned: pass time, read the clock into a variable
    (util.h:31-35 get_cur_time; also logt, which ends by doing so, util.h:62-76), and add the time since
    a reading to a field (util.h:36-48 get_time_elapsed). *)
Inductive op := Run (d : Q) | Mark (v : var) | Add (f : field) (v : var).
Record tstate := TState { s_now : Q; s_start : Q; s_very : Q; s_inner : Q; s_times : list Q }.
Definition reading (s : tstate) (v : var) : Q := match v with Start => s_start s | VeryStart => s_very s | Inner => s_inner s end.
Definition add_field (f : field) (x : Q) (l : list Q) : list Q :=
  match l with
  | [a; b; c; d; e; g] =>
    match f with
    | Index => [a + x; b; c; d; e; g] | Decode => [a; b + x; c; d; e; g] | Packing => [a; b; c + x; d; e; g]
    | Computation => [a; b; c; d + x; e; g] | Updatelist => [a; b; c; d; e + x; g] | Overall => [a; b; c; d; e; x]
    end
  | _ => l
  end.
Definition exec (s : tstate) (o : op) : tstate :=
  match o with
  | Run d => TState (s_now s + d) (s_start s) (s_very s) (s_inner s) (s_times s)
  | Mark Start => TState (s_now s) (s_now s) (s_very s) (s_inner s) (s_times s)
  | Mark VeryStart => TState (s_now s) (s_start s) (s_now s) (s_inner s) (s_times s)
  | Mark Inner => TState (s_now s) (s_start s) (s_very s) (s_now s) (s_times s)
  | Add f v => TState (s_now s) (s_start s) (s_very s) (s_inner s) (add_field f (s_now s - reading s v) (s_times s))
  end.

(** How long the parts of one level take: decoding, preparing, packing, computing, updating the lists,
    the rest, and writing the four messages; [l_data]: there is something to compute. *)
Record level := Level { l_data : bool; l_dec : Q; l_pre : Q; l_pack : Q; l_comp : Q; l_upd : Q; l_rest : Q; l_log1 : Q; l_log2 : Q; l_log3 : Q; l_log4 : Q }.
(** A join: between the first two readings, the filter, messages, the levels, the end. *)
Record times_of_join := JoinTimes { j_gap : Q; j_filter : Q; j_log : Q; j_levels : list level; j_end : Q }.

(** SpatialJoin.cpp:432-513 and 546-650 with calculate_distance (307, 320-321 or 400-401). *)
Definition distance_level (l : level) : list op :=
  [Run (l_dec l); Add Decode Start; Run (l_log1 l); Mark Start] ++
  if l_data l then
    [Run (l_pre l); Mark Inner; Run (l_pack l); Add Packing Inner; Run (l_log2 l); Mark Inner; Run (l_comp l);
     Add Computation Start; Run (l_log3 l); Mark Start; Run (l_upd l); Add Updatelist Start; Run (l_log4 l); Mark Start; Run (l_rest l)]
  else [].
(** SpatialJoin.cpp:683-792. *)
Definition intersect_level (l : level) : list op :=
  [Run (l_dec l); Add Decode Start; Run (l_log1 l); Mark Start; Run (l_pre l); Run (l_pack l); Add Packing Start; Run (l_log2 l); Mark Start;
   Run (l_comp l); Add Computation Start; Run (l_log3 l); Mark Start; Run (l_upd l); Add Updatelist Start; Run (l_log4 l); Mark Start; Run (l_rest l)].
(** SpatialJoin.cpp:423-429, 515; 530-543, 651; 675-681, 793. *)
Definition whole_join (lev : level -> list op) (j : times_of_join) : list op :=
  [Mark Start; Run (j_gap j); Mark VeryStart; Run (j_filter j); Add Index Start; Run (j_log j); Mark Start]
  ++ flat_map lev (j_levels j) ++ [Run (j_end j); Add Overall VeryStart].
(** The times of a join that begins at [now], from those of the context it was given (all 0). *)
Definition join_times (lev : level -> list op) (now : Q) (j : times_of_join) : list Q :=
  s_times (fold_left exec (whole_join lev j) (TState now 0 0 0 [0; 0; 0; 0; 0; 0])).
(** SpatialJoin.h:58-66 and SpatialJoin.cpp:516-518, 652-654, 795-797: the contexts of all joins merged. *)
Definition merged (lev : level -> list op) (js : list (Q * times_of_join)) : list Q :=
  fold_left (fun g x => add_times g (join_times lev (fst x) (snd x))) js [0; 0; 0; 0; 0; 0].
(** SpatialJoin.h:68-76 report(t): total and shares. *)
Definition report (t : Q) (l : list Q) : list Q :=
  match l with
  | [i; d; p; c; u; o] => [t; t * i / o; t * d / o; t * p / o; t * c / o; t * u / o; t * (o - d - c - i) / o]
  | _ => []
  end.
(** SpatialJoin.h:80-83: the line "analysis". *)
Definition analysis (t : Q) (repeated : Q) (l : list Q) : list Q :=
  match l with
  | [i; d; p; c; u; o] => [(t * i / o) / repeated; (t * d / o) / repeated; (t * (c + p + u) / o) / repeated]
  | _ => []
  end.
