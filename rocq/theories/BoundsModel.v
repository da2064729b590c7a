(** The rectangle at an R-tree iterator, and the loop that reads both rectangle and data
    (src/index/RTree.h, src/index/Test.cpp). *)
From Coq Require Import ZArith List.
From Verif Require Import RTreeModel.
Import ListNotations.

(** RTree.h:167-178 GetBounds. *)
Definition GetBounds {D} (s : @stack D) : option Rect :=
  match s with
  | (br, _, index) :: _ => match nth_error br index with Some (r, _) => Some r | None => None end
  | [] => None
  end.
(** Test.cpp:71-83: GetFirst is called before; GetAt, GetBounds and GetNext until the iterator is null. *)
Fixpoint iterate_bounds {D} (fuel1 fuel : nat) (s : @stack D) : option (list (Rect * D)) :=
  match fuel1 with
  | O => None
  | S fuel1 =>
      match s with
      | [] => Some []
      | _ =>
          match current s, GetBounds s, FindNextData fuel s with
          | Some d, Some r, Some s => match iterate_bounds fuel1 fuel s with Some l => Some ((r, d) :: l) | None => None end
          | _, _, _ => None
          end
      end
  end.
