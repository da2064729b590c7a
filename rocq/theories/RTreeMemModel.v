(** R-tree nodes as memory (src/index/RTree.h): which operations allocate and free nodes, and the
    copies of a tree in a heap. *)
From Coq Require Import List Bool Arith ZArith QArith.
From Verif Require Import RTreeModel.
Import ListNotations.
Open Scope nat_scope.

Section Count.
Context {D : Type}.
Variables M m : nat.
Variable vol : Rect -> Q.
Variable sub : Q -> Q -> Q.
Variable deqb : D -> D -> bool.
Local Notation item := (item D).
Local Notation branch := (branch D).

(** RTree.h:1039-1058 AddBranch with the number of calls of AllocNode: one in SplitNode (1158-1159). *)
Definition AddBranchM (b : branch) (level : nat) (l : list branch) : option (item * option item * nat) :=
  if (length l <? M)%nat then Some (Node level (l ++ [b]), None, 0)
  else match SplitNode M m vol sub l b with
       | Some (A, B) => Some (Node level A, Some (Node level B), 1)
       | None => None
       end.
(** RTree.h:916-966 InsertRectRec with the number of calls of AllocNode. *)
Fixpoint InsertRectRecM (fuel : nat) (b : branch) (n : item) (a_level : nat) : option (item * option item * nat) :=
  match fuel, n with
  | S fuel, Node level br =>
      if (a_level <? level)%nat then
        let index := PickBranch vol sub (fst b) br in
        match nth_error br index with
        | None => None
        | Some (r, child) =>
            match InsertRectRecM fuel b child a_level with
            | None => None
            | Some (child, None, k) => Some (Node level (upd_nth index (combine_rect (fst b) r, child) br), None, k)
            | Some (child, Some other, k) =>
                match NodeCover child, NodeCover other with
                | Some r1, Some r2 =>
                    match AddBranchM (r2, other) level (upd_nth index (r1, child) br) with
                    | Some (n, o, k') => Some (n, o, k + k')
                    | None => None
                    end
                | _, _ => None
                end
            end
        end
      else if (level =? a_level)%nat then AddBranchM b level br
      else Some (n, None, 0)
  | _, _ => None
  end.
(** RTree.h:977-1016 InsertRect: one more AllocNode for a new root (993). *)
Definition InsertRectM (b : branch) (root : item) (a_level : nat) : option (item * nat) :=
  match InsertRectRecM (S (level_of root)) b root a_level with
  | None => None
  | Some (root, None, k) => Some (root, k)
  | Some (root, Some other, k) =>
      match NodeCover root, NodeCover other with
      | Some r1, Some r2 =>
          if (1 <? M)%nat then Some (Node (S (level_of root)) [(r1, root); (r2, other)], S k) else None
      | _, _ => None
      end
  end.
(** RTree.h:1468-1473. *)
Fixpoint insert_allM (l : list branch) (level : nat) (root : item) : option (item * nat) :=
  match l with
  | [] => Some (root, 0)
  | b :: l => match InsertRectM b root level with
              | Some (root, k) => match insert_allM l level root with Some (root, k') => Some (root, k + k') | None => None end
              | None => None
              end
  end.
(** RTree.h:1463-1480: every eliminated node is freed with its list node (1478-1479).  The counters:
    nodes allocated, nodes freed, list nodes freed. *)
Fixpoint reinsertM (l : list item) (root : item) : option (item * nat * nat * nat) :=
  match l with
  | [] => Some (root, 0, 0, 0)
  | Node level br :: l =>
      match insert_allM br level root with
      | Some (root, k) => match reinsertM l root with Some (root, a, f, lf) => Some (root, k + a, S f, S lf) | None => None end
      | None => None
      end
  | Data _ :: _ => None
  end.
(** What one operation did: nodes allocated and freed, list nodes allocated and freed. *)
Record counts := { n_alloc : nat; n_free : nat; l_alloc : nat; l_free : nat }.
(** RTree.h:496-516 Insert. *)
Definition InsertM (r : Rect) (d : D) (root : item) : option (item * counts) :=
  match InsertRectM (r, Data d) root 0 with
  | Some (root, k) => Some (root, {| n_alloc := k; n_free := 0; l_alloc := 0; l_free := 0 |})
  | None => None
  end.
(** RTree.h:1452-1498 RemoveRect: ReInsert (1571-1580) makes one list node for each eliminated node, a
    root with one child is freed (1491). *)
Definition RemoveM (q : Rect) (id : D) (root : item) : option (item * counts) :=
  match RemoveRectRec m deqb q id root with
  | None => None
  | Some None => Some (root, {| n_alloc := 0; n_free := 0; l_alloc := 0; l_free := 0 |})
  | Some (Some (root, gone)) =>
      match reinsertM gone root with
      | None => None
      | Some (Node (S level) [(_, child)], a, f, lf) => Some (child, {| n_alloc := a; n_free := S f; l_alloc := length gone; l_free := lf |})
      | Some (root, a, f, lf) => Some (root, {| n_alloc := a; n_free := f; l_alloc := length gone; l_free := lf |})
      end
  end.
End Count.

(** RTree.h:840-855 RemoveAllRec: the number of calls of FreeNode. *)
Fixpoint RemoveAllRecM {D} (n : item D) : nat :=
  match n with
  | Data _ => 0
  | Node level br =>
      S (if (0 <? level)%nat then (fix loop (l : list (branch D)) := match l with [] => 0 | (_, it) :: l => RemoveAllRecM it + loop l end) br else 0)
  end.

(** ** A heap of nodes *)
Section Heap.
Context {D : Type}.
(** RTree.h:287-296 Branch: a pointer to a child or the data. *)
Inductive slot := Child (a : nat) | Dat (d : D).
Definition cell := (nat * list (Rect * slot))%type.
(** Memory: what lies at an address, and an address from which on nothing has been handed out. *)
Record heap := { mem : nat -> option cell; next : nat }.
Definition set (h : heap) (a : nat) (c : option cell) : heap :=
  {| mem := fun x => if x =? a then c else mem h x; next := next h |}.
(** RTree.h:855-862 AllocNode; InitNode (892-897) puts -1 in m_level, which is always set before it is
    read (here 0). *)
Definition AllocNode (h : heap) : heap * nat :=
  ({| mem := fun x => if x =? next h then Some (0, []) else mem h x; next := S (next h) |}, next h).
(** RTree.h:865-870 FreeNode; undefined on what is not allocated. *)
Definition FreeNode (a : nat) (h : heap) : option heap :=
  match mem h a with Some _ => Some (set h a None) | None => None end.
(** RTree.h:840-855 RemoveAllRec. *)
Fixpoint RemoveAllRec (fuel : nat) (a : nat) (h : heap) : option heap :=
  match fuel with
  | O => None
  | S fuel =>
      match mem h a with
      | None => None
      | Some (level, br) =>
          match (if 0 <? level then
                   (fix loop (l : list (Rect * slot)) (h : heap) : option heap :=
                      match l with
                      | [] => Some h
                      | (_, Child c) :: l => match RemoveAllRec fuel c h with Some h => loop l h | None => None end
                      | (_, Dat _) :: _ => None
                      end) br h
                 else Some h) with
          | Some h => FreeNode a h
          | None => None
          end
      end
  end.
(** RTree.h:697-739 CopyRec: the branches are written one after the other, each child allocated and
    copied in turn. *)
Fixpoint CopyRecH (fuel : nat) (cur other : nat) (h : heap) : option heap :=
  match fuel with
  | O => None
  | S fuel =>
      match mem h cur, mem h other with
      | Some _, Some (level, br) =>
          match (fix loop (l : list (Rect * slot)) (done : list (Rect * slot)) (h : heap) : option (list (Rect * slot) * heap) :=
                   match l with
                   | [] => Some (done, h)
                   | (r, Child c) :: l =>
                       if 0 <? level then
                         let '(h, a) := AllocNode h in
                         match CopyRecH fuel a c h with Some h => loop l (done ++ [(r, Child a)]) h | None => None end
                       else None
                   | (r, Dat d) :: l => if 0 <? level then None else loop l (done ++ [(r, Dat d)]) h
                   end) br [] h with
          | Some (br, h) => Some (set h cur (Some (level, br)))
          | None => None
          end
      | _, _ => None
      end
  end.
(** RTree.h:459-478 the constructor makes an empty root, 481-485 the copy constructor copies into it. *)
Definition CopyTree (fuel : nat) (other : nat) (h : heap) : option (heap * nat) :=
  let '(h, a) := AllocNode h in
  match CopyRecH fuel a other h with Some h => Some (h, a) | None => None end.
(** RTree.h:488-492 the destructor, 832-837 Reset. *)
Definition Destroy (fuel : nat) (root : nat) (h : heap) : option heap := RemoveAllRec fuel root h.
(** RTree.h:61-378 declares no assignment: the compiler's copies the member m_root (375) of the source
    over that of the target and does nothing else. *)
Definition Assign (target source : nat) (h : heap) : nat * heap := (source, h).
End Heap.
Arguments slot : clear implicits. Arguments cell : clear implicits. Arguments heap : clear implicits.
