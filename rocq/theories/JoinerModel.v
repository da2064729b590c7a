(** Model of the list of levels made by /repo/src/test/joiner.cpp:85-97, of the query context
    (/repo/src/join/SpatialJoin.h:20-86) and of the largest nearest distance it reports
    (/repo/src/join/SpatialJoin.cpp:598-626).  Times and distances are exact rationals. *)
From Coq Require Import ZArith QArith List Bool.
From Verif Require Import AabModel JoinModel.
Import ListNotations.
Open Scope Z_scope.

(** joiner.cpp:85-97: the range of int. *)
Definition int_max : Z := 2147483647.
Definition int_min : Z := -2147483648.
Definition is_int (z : Z) : Prop := int_min <= z <= int_max.

(** What becomes of building the list: [Overflow] a signed overflow, [BadIndex] an access before the
    first element, [Running] the loop has not ended after as many steps as allowed. *)
Inductive lods := Lods (l : list Z) | Overflow | BadIndex | Running.

(** joiner.cpp:90-92: the loop over l; the list is built in reverse. *)
Fixpoint lod_loop (fuel : nat) (l top gap : Z) (acc : list Z) : lods :=
  if top <? l then Lods (rev acc) else
  match fuel with
  | O => Running
  | S k => if (int_max <? l + gap) || (l + gap <? int_min) then Overflow else lod_loop k (l + gap) top gap (l :: acc)
  end.
(** joiner.cpp:90-95. *)
Definition make_lods (fuel : nat) (base top gap : Z) : lods :=
  match lod_loop fuel base top gap [] with
  | Lods [] => BadIndex
  | Lods l => Lods (if last l 0 <? top then l ++ [top] else l)
  | o => o
  end.
(** SpatialJoin.h:45-51 highest_lod. *)
Definition highest_lod (l : list Z) : Z := match l with [] => 0 | _ => last l 0 end.

Open Scope Q_scope.
(** SpatialJoin.h:23-43: the six times and the largest nearest distance; a distance of [None] stands
    for an infinite float (DBL_MAX stored in a float, SpatialJoin.cpp:600). *)
Record context := Context { x_times : list Q; x_nearest : option Q }.
Fixpoint add_times (a b : list Q) : list Q := match a, b with x :: a', y :: b' => x + y :: add_times a' b' | _, _ => [] end.
Definition fmax (a b : option Q) : option Q :=
  match a, b with Some x, Some y => if Qltb x y then Some y else Some x | _, _ => None end.
(** SpatialJoin.h:58-66 merge. *)
Definition merge (g x : context) : context := Context (add_times (x_times g) (x_times x)) (fmax (x_nearest g) (x_nearest x)).

(** SpatialJoin.cpp:598-626: what each entry adds to max_nearest_distance in one round. *)
Fixpoint round_nearest highest filled dists (idx : nat) (r : option Q) (cs : list centry) : option Q :=
  match cs with
  | [] => r
  | e :: es =>
    let '(_, idx', mc) := nn_round_infos highest filled dists idx None (snd e) in
    round_nearest highest filled dists idx' (fmax r (option_map maxdist mc)) es
  end.
Definition nn_round_nearest highest filled (compute : vpair -> Q) (cs : list centry) (r : option Q) : option Q :=
  if negb (existsb filled (all_pairs cs)) then r else
  round_nearest highest filled (fun i => match nth_error (all_pairs cs) i with Some vp => compute vp | None => 0 end) 0 r cs.
(** SpatialJoin.cpp:529-656: the table and the distance reported. *)
Definition nn_refine_nearest (rounds : list round) (cs : list centry) : (list centry * list centry) * option Q :=
  fold_left (fun s r => (nn_round (r_highest r) (r_filled r) (r_compute r) (fst s),
    nn_round_nearest (r_highest r) (r_filled r) (r_compute r) (fst (fst s)) (snd s))) rounds (drop_settled cs, Some 0).
