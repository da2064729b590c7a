(** Model of the R-tree: /repo/src/index/RTree.h.
    Coordinates are integers standing for any totally ordered type: the code only compares them and
    takes minima and maxima, except in CalcRectVolume, which is a parameter [vol] with rational
    values.  Subtractions of volumes go through the parameter [sub] (exact, or with rounding).
    A node holds the list of its branches, so m_count is the length of the list.  Reading a branch
    that was never written, or any access outside an array, is [None]. *)
From Coq Require Import QArith ZArith List Bool Arith.
From Verif Require Import AabModel.
Import ListNotations.

(** RTree.h:287-291 Rect: one (m_min, m_max) pair for each dimension. *)
Definition Rect := list (Z * Z).

(** RTree.h:1120-1136 CombineRect. *)
Fixpoint combine_rect (a b : Rect) : Rect :=
  match a, b with
  | (amin, amax) :: a, (bmin, bmax) :: b => (Z.min amin bmin, Z.max amax bmax) :: combine_rect a b
  | _, _ => []
  end.
(** RTree.h:1553-1567 Overlap. *)
Fixpoint overlap (a b : Rect) : bool :=
  match a, b with
  | (amin, amax) :: a, (bmin, bmax) :: b =>
      if (bmax <? amin)%Z || (amax <? bmin)%Z then false else overlap a b
  | _, _ => true
  end.

Section RTree.
Context {D : Type}.
(** TMAXNODES and TMINNODES, RTree.h:61 and 72-76. *)
Variables M m : nat.
Variable vol : Rect -> Q.
Variable sub : Q -> Q -> Q.
(** The comparison m_data == a_id, RTree.h:1535. *)
Variable deqb : D -> D -> bool.

(** RTree.h:296-312 Branch and Node: what a branch carries is either data or a child. *)
Inductive item := Data (d : D) | Node (level : nat) (br : list (Rect * item)).
Notation branch := (Rect * item)%type.

(** RTree.h:1020-1032 NodeCover. *)
Definition cover_list (l : list branch) : option Rect :=
  match l with
  | [] => None
  | b :: l => Some (fold_left (fun r b => combine_rect r (fst b)) l (fst b))
  end.
Definition NodeCover (n : item) : option Rect :=
  match n with Data _ => None | Node _ br => cover_list br end.

(** RTree.h:1082-1116 PickBranch: the loop from [index] on; [best] is the best index with its
    increase and area. *)
Fixpoint pick_loop (r : Rect) (l : list branch) (index : nat) (best : option (nat * Q * Q)) : nat :=
  match l with
  | [] => match best with Some (i, _, _) => i | None => O end
  | b :: l =>
      let area := vol (fst b) in
      let increase := sub (vol (combine_rect r (fst b))) area in
      let best :=
        match best with
        | None => Some (index, increase, area)
        | Some (i, bestIncr, bestArea) =>
            if Qltb increase bestIncr then Some (index, increase, area)
            else if Qeq_bool increase bestIncr && Qltb area bestArea then Some (index, increase, area)
            else best
        end in
      pick_loop r l (S index) best
  end.
Definition PickBranch (r : Rect) (l : list branch) : nat := pick_loop r l 0 None.

(** RTree.h:322-337 PartitionVars; group 0 is [false], group 1 is [true], NOT_TAKEN is [None]. *)
Record pvars := { p_part : list (option bool); p_count : bool -> nat; p_cover : bool -> Rect; p_area : bool -> Q }.
Definition upd_group {A} (f : bool -> A) (g : bool) (x : A) : bool -> A := fun h => if eqb h g then x else f h.
Fixpoint upd_nth {A} (i : nat) (x : A) (l : list A) : list A :=
  match l, i with
  | [], _ => []
  | _ :: l, O => x :: l
  | y :: l, S i => y :: upd_nth i x l
  end.
Definition rect_at (buf : list branch) (i : nat) : Rect := match nth_error buf i with Some b => fst b | None => [] end.

(** RTree.h:1423-1445 Classify. *)
Definition Classify (buf : list branch) (index : nat) (group : bool) (pv : pvars) : pvars :=
  let cover := if (p_count pv group =? 0)%nat then rect_at buf index else combine_rect (rect_at buf index) (p_cover pv group) in
  {| p_part := upd_nth index (Some group) (p_part pv);
     p_cover := upd_group (p_cover pv) group cover;
     p_area := upd_group (p_area pv) group (vol cover);
     p_count := upd_group (p_count pv) group (S (p_count pv group)) |}.

(** RTree.h:1373-1386 InitParVars. *)
Definition InitParVars (total : nat) : pvars :=
  {| p_part := repeat None total; p_count := fun _ => O; p_cover := fun _ => []; p_area := fun _ => 0 |}.

(** RTree.h:1401-1414: the pairs indexA < indexB in the order of the two loops. *)
Definition pairs (total : nat) : list (nat * nat) :=
  flat_map (fun a => map (fun b => (a, b)) (seq (S a) (total - S a))) (seq 0 (total - 1)).
Definition seed_step (buf : list branch) (st : Q * nat * nat) (ab : nat * nat) : Q * nat * nat :=
  let '(worst, seed0, seed1) := st in
  let '(a, b) := ab in
  let waste := sub (sub (vol (combine_rect (rect_at buf a) (rect_at buf b))) (vol (rect_at buf a))) (vol (rect_at buf b)) in
  if Qltb worst waste then (waste, a, b) else st.
(** RTree.h:1389-1419 PickSeeds. *)
Definition PickSeeds (buf : list branch) (coverSplitArea : Q) (pv : pvars) : pvars :=
  let '(_, seed0, seed1) := fold_left (seed_step buf) (pairs (length buf)) (sub (- coverSplitArea) 1, O, O) in
  Classify buf seed1 true (Classify buf seed0 false pv).

(** RTree.h:1286-1319: one pass over the entries not taken; the state is biggestDiff, chosen and
    betterGroup. *)
Definition scan_step (buf : list branch) (pv : pvars) (st : Q * nat * bool) (index : nat) : Q * nat * bool :=
  match nth_error (p_part pv) index with
  | Some None =>
      let '(biggestDiff, chosen, betterGroup) := st in
      let growth g := sub (vol (combine_rect (rect_at buf index) (p_cover pv g))) (p_area pv g) in
      let diff := sub (growth true) (growth false) in
      let '(group, diff) := if Qle_bool 0 diff then (false, diff) else (true, - diff) in
      if Qltb biggestDiff diff then (diff, index, group)
      else if Qeq_bool diff biggestDiff && (p_count pv group <? p_count pv betterGroup)%nat then (biggestDiff, index, group)
      else st
  | _ => st
  end.
(** RTree.h:1282-1321: the while loop; chosen and betterGroup survive an iteration. *)
Fixpoint choose_loop (fuel : nat) (buf : list branch) (minFill : nat) (pv : pvars) (chosen : nat) (betterGroup : bool) : pvars :=
  match fuel with
  | O => pv
  | S fuel =>
      let total := length buf in
      if (p_count pv false + p_count pv true <? total)%nat &&
         (p_count pv false <? total - minFill)%nat && (p_count pv true <? total - minFill)%nat then
        let '(_, chosen, betterGroup) := fold_left (scan_step buf pv) (seq 0 total) (-1, chosen, betterGroup) in
        choose_loop fuel buf minFill (Classify buf chosen betterGroup pv) chosen betterGroup
      else pv
  end.
(** RTree.h:1323-1341: put the rest into the other group. *)
Definition put_rest (buf : list branch) (minFill : nat) (pv : pvars) : pvars :=
  let total := length buf in
  if (p_count pv false + p_count pv true <? total)%nat then
    let group := (total - minFill <=? p_count pv false)%nat in
    fold_left (fun pv index => match nth_error (p_part pv) index with Some None => Classify buf index group pv | _ => pv end)
      (seq 0 total) pv
  else pv.
(** RTree.h:1272-1347 ChoosePartition.  Every iteration classifies one entry, so [length buf]
    iterations are enough. *)
Definition ChoosePartition (buf : list branch) (coverSplitArea : Q) (minFill : nat) : pvars :=
  let pv := PickSeeds buf coverSplitArea (InitParVars (length buf)) in
  put_rest buf minFill (choose_loop (length buf) buf minFill pv O false).

(** RTree.h:1351-1368 LoadNodes, with AddBranch (1039-1046) for nodes that are not full; a full node
    (SplitNode with a null pointer) or an entry not taken (targetNodes[-1]) is undefined. *)
Fixpoint LoadNodes (part : list (option bool)) (buf : list branch) (A B : list branch) : option (list branch * list branch) :=
  match part, buf with
  | [], [] => Some (A, B)
  | Some g :: part, b :: buf =>
      if g then if (length B <? M)%nat then LoadNodes part buf A (B ++ [b]) else None
      else if (length A <? M)%nat then LoadNodes part buf (A ++ [b]) B else None
  | _, _ => None
  end.

(** RTree.h:1142-1166 SplitNode with GetBranches (1235-1258). *)
Definition SplitNode (l : list branch) (b : branch) : option (list branch * list branch) :=
  let buf := l ++ [b] in
  match cover_list buf with
  | None => None
  | Some c => LoadNodes (p_part (ChoosePartition buf (vol c) m)) buf [] []
  end.
(** RTree.h:1039-1058 AddBranch. *)
Definition AddBranch (b : branch) (level : nat) (l : list branch) : option (item * option item) :=
  if (length l <? M)%nat then Some (Node level (l ++ [b]), None)
  else match SplitNode l b with
       | Some (A, B) => Some (Node level A, Some (Node level B))
       | None => None
       end.

(** RTree.h:916-966 InsertRectRec. *)
Fixpoint InsertRectRec (fuel : nat) (b : branch) (n : item) (a_level : nat) : option (item * option item) :=
  match fuel, n with
  | S fuel, Node level br =>
      if (a_level <? level)%nat then
        let index := PickBranch (fst b) br in
        match nth_error br index with
        | None => None
        | Some (r, child) =>
            match InsertRectRec fuel b child a_level with
            | None => None
            | Some (child, None) => Some (Node level (upd_nth index (combine_rect (fst b) r, child) br), None)
            | Some (child, Some other) =>
                match NodeCover child, NodeCover other with
                | Some r1, Some r2 => AddBranch (r2, other) level (upd_nth index (r1, child) br)
                | _, _ => None
                end
            end
        end
      else if (level =? a_level)%nat then AddBranch b level br
      else Some (n, None)
  | _, _ => None
  end.
Definition level_of (n : item) : nat := match n with Data _ => O | Node level _ => level end.
(** RTree.h:977-1016 InsertRect; returns the new root. *)
Definition InsertRect (b : branch) (root : item) (a_level : nat) : option item :=
  match InsertRectRec (S (level_of root)) b root a_level with
  | None => None
  | Some (root, None) => Some root
  | Some (root, Some other) =>
      match NodeCover root, NodeCover other with
      | Some r1, Some r2 =>
          if (1 <? M)%nat then Some (Node (S (level_of root)) [(r1, root); (r2, other)]) else None
      | _, _ => None
      end
  end.
(** RTree.h:459-478: the empty tree; 496-516 Insert. *)
Definition empty : item := Node 0 [].
Definition Insert (r : Rect) (d : D) (root : item) : option item := InsertRect (r, Data d) root 0.

(** RTree.h:1585-1632 Search.  The callback sees the identifiers so far and the new one; the outcome
    is the list of identifiers it was given and whether to go on. *)
Fixpoint search_rec (cb : list D -> D -> bool) (q : Rect) (n : item) (found : list D) : option (list D * bool) :=
  match n with
  | Data _ => None
  | Node level br =>
      (fix loop (l : list branch) (found : list D) : option (list D * bool) :=
         match l with
         | [] => Some (found, true)
         | (r, it) :: l =>
             if overlap q r then
               if (0 <? level)%nat then
                 match search_rec cb q it found with
                 | None => None
                 | Some (found, true) => loop l found
                 | Some (found, false) => Some (found, false)
                 end
               else match it with
                    | Node _ _ => None
                    | Data d => if cb found d then loop l (found ++ [d]) else Some (found ++ [d], false)
                    end
             else loop l found
         end) br found
  end.
(** RTree.h:542-568: the outer Search returns the number found. *)
Definition Search (cb : list D -> D -> bool) (q : Rect) (root : item) : option (list D) :=
  match search_rec cb q root [] with Some (found, _) => Some found | None => None end.

(** RTree.h:580-594 CountRec. *)
Fixpoint CountRec (n : item) (count : nat) : option nat :=
  match n with
  | Data _ => None
  | Node level br =>
      if (0 <? level)%nat then
        (fix loop (l : list branch) (count : nat) : option nat :=
           match l with
           | [] => Some count
           | (_, it) :: l => match CountRec it count with None => None | Some count => loop l count end
           end) br count
      else Some (count + length br)%nat
  end.
Definition Count (root : item) : option nat := CountRec root 0.

(** RTree.h:1064-1074 DisconnectBranch. *)
Definition DisconnectBranch (l : list branch) (index : nat) : list branch :=
  match rev l with
  | [] => []
  | b :: _ => removelast (upd_nth index b l)
  end.

(** RTree.h:1506-1549 RemoveRectRec: [Some None] means not found; otherwise the new node and the
    nodes pushed on the reinsertion list, newest first. *)
Fixpoint RemoveRectRec (q : Rect) (id : D) (n : item) : option (option (item * list item)) :=
  match n with
  | Data _ => None
  | Node level br =>
      (fix loop (l : list branch) (index : nat) : option (option (item * list item)) :=
         match l with
         | [] => Some None
         | (r, it) :: l =>
             if (0 <? level)%nat then
               if overlap q r then
                 match RemoveRectRec q id it with
                 | None => None
                 | Some None => loop l (S index)
                 | Some (Some (Data _, _)) => None
                 | Some (Some (Node clevel cbr, gone)) =>
                     if (m <=? length cbr)%nat then
                       match cover_list cbr with
                       | None => None
                       | Some c => Some (Some (Node level (upd_nth index (c, Node clevel cbr) br), gone))
                       end
                     else Some (Some (Node level (DisconnectBranch br index), Node clevel cbr :: gone))
                 end
               else loop l (S index)
             else match it with
                  | Node _ _ => None
                  | Data d => if deqb d id then Some (Some (Node level (DisconnectBranch br index), [])) else loop l (S index)
                  end
         end) br O
  end.

(** RTree.h:1468-1473: the branches of one eliminated node are inserted at its level. *)
Fixpoint insert_all (l : list branch) (level : nat) (root : item) : option item :=
  match l with
  | [] => Some root
  | b :: l => match InsertRect b root level with Some root => insert_all l level root | None => None end
  end.
(** RTree.h:1463-1480: all eliminated nodes. *)
Fixpoint reinsert (l : list item) (root : item) : option item :=
  match l with
  | [] => Some root
  | Node level br :: l => match insert_all br level root with Some root => reinsert l root | None => None end
  | Data _ :: _ => None
  end.
(** RTree.h:1452-1498 RemoveRect, 520-538 Remove. *)
Definition Remove (q : Rect) (id : D) (root : item) : option item :=
  match RemoveRectRec q id root with
  | None => None
  | Some None => Some root
  | Some (Some (root, gone)) =>
      match reinsert gone root with
      | None => None
      | Some (Node (S level) [(_, child)]) => Some child
      | Some root => Some root
      end
  end.

(** RTree.h:123-250 Iterator, Push 230-236: the stack, its top first; pushing more than 32 elements is outside the
    array. *)
Definition stack := list (list branch * nat * nat).  (* branches, level, branch index *)
Definition push (n : item) (index : nat) (s : stack) : option stack :=
  match n with
  | Data _ => None
  | Node level br => if (length s <? 32)%nat then Some ((br, level, index) :: s) else None
  end.
(** RTree.h:186-227 FindNextData. *)
Fixpoint FindNextData (fuel : nat) (s : stack) : option stack :=
  match fuel with
  | O => None
  | S fuel =>
      match s with
      | [] => Some []
      | (br, level, index) :: s =>
          if (level =? 0)%nat then
            if (index + 1 <? length br)%nat then push (Node level br) (index + 1) s
            else FindNextData fuel s
          else
            match (if (index + 1 <? length br)%nat then push (Node level br) (index + 1) s else Some s) with
            | None => None
            | Some s =>
                match nth_error br index with
                | Some (_, Node nlevel nbr) =>
                    match push (Node nlevel nbr) 0 s with
                    | None => None
                    | Some s => if (nlevel =? 0)%nat then Some s else FindNextData fuel s
                    end
                | _ => None
                end
            end
      end
  end.
(** RTree.h:253-273 GetFirst. *)
Fixpoint GetFirst (fuel : nat) (n : item) (s : stack) : option stack :=
  match fuel, n with
  | S fuel, Node level br =>
      if (0 <? level)%nat then
        match (if (1 <? length br)%nat then push n 1 s else Some s), br with
        | Some s, (_, child) :: _ => GetFirst fuel child s
        | _, _ => None
        end
      else match br with [] => Some s | _ => push n 0 s end
  | _, _ => None
  end.
(** RTree.h:148-153: the data at the iterator. *)
Definition current (s : stack) : option D :=
  match s with
  | (br, _, index) :: _ => match nth_error br index with Some (_, Data d) => Some d | _ => None end
  | [] => None
  end.
(** The usual loop: GetFirst, then read and GetNext until the iterator is null. *)
Fixpoint iterate (fuel1 fuel : nat) (s : stack) : option (list D) :=
  match fuel1 with
  | O => None
  | S fuel1 =>
      match s with
      | [] => Some []
      | _ =>
          match current s, FindNextData fuel s with
          | Some d, Some s => match iterate fuel1 fuel s with Some l => Some (d :: l) | None => None end
          | _, _ => None
          end
      end
  end.

(** The stream of Save and Load: RTree.h:382-455 RTFileStream, one typed value for each Write. *)
Inductive token := TInt (z : Z) | TElem (z : Z) | TData (d : D).
(** RTree.h:785-816 SaveRec. *)
Definition save_rect (r : Rect) : list token := map (fun p => TElem (fst p)) r ++ map (fun p => TElem (snd p)) r.
Fixpoint SaveRec (n : item) : option (list token) :=
  match n with
  | Data _ => None
  | Node level br =>
      match (fix loop (l : list branch) : option (list token) :=
               match l with
               | [] => Some []
               | (r, it) :: l =>
                   match (if (0 <? level)%nat then SaveRec it else match it with Data d => Some [TData d] | Node _ _ => None end), loop l with
                   | Some s, Some t => Some (save_rect r ++ s ++ t)
                   | _, _ => None
                   end
               end) br with
      | None => None
      | Some t => Some (TInt (Z.of_nat level) :: TInt (Z.of_nat (length br)) :: t)
      end
  end.
(** RTree.h:760-781 Save; the header holds the file id, the two sizes, NUMDIMS and the capacities. *)
Definition header (datasize elemsize dims : Z) : list token :=
  map TInt [1163023442; datasize; dims; elemsize; Z.of_nat M; Z.of_nat m]%Z.
Definition Save (datasize elemsize : Z) (dims : nat) (root : item) : option (list token) :=
  match SaveRec root with Some t => Some (header datasize elemsize (Z.of_nat dims) ++ t) | None => None end.

(** ReadArray of NUMDIMS elements. *)
Fixpoint read_elems (k : nat) (s : list token) : option (list Z * list token) :=
  match k, s with
  | O, _ => Some ([], s)
  | S k, TElem z :: s => match read_elems k s with Some (l, s) => Some (z :: l, s) | None => None end
  | _, _ => None
  end.
Definition read_rect (dims : nat) (s : list token) : option (Rect * list token) :=
  match read_elems dims s with
  | Some (mins, s) => match read_elems dims s with Some (maxs, s) => Some (List.combine mins maxs, s) | None => None end
  | None => None
  end.
(** [k] rounds of a loop reading one branch each. *)
Fixpoint read_many (k : nat) (rd : list token -> option (branch * list token)) (s : list token) : option (list branch * list token) :=
  match k with
  | O => Some ([], s)
  | S k => match rd s with
           | Some (b, s) => match read_many k rd s with Some (l, s) => Some (b :: l, s) | None => None end
           | None => None
           end
  end.
(** RTree.h:661-693 LoadRec.  A short or ill-typed stream, or more branches than the node's array
    holds, is undefined.  Every call reads two values, so the length of the stream bounds the depth. *)
Fixpoint LoadRec (fuel : nat) (dims : nat) (s : list token) : option (item * list token) :=
  match fuel, s with
  | S fuel, TInt level :: TInt count :: s =>
      if (Z.of_nat M <? count)%Z then None
      else
        match read_many (Z.to_nat count)
          (fun s =>
             match read_rect dims s with
             | None => None
             | Some (r, s) =>
                 if (0 <? level)%Z then
                   match LoadRec fuel dims s with Some (c, s) => Some ((r, c), s) | None => None end
                 else match s with TData d :: s => Some ((r, Data d), s) | _ => None end
             end) s with
        | Some (l, s) => Some (Node (Z.to_nat level) l, s)
        | None => None
        end
  | _, _ => None
  end.
(** RTree.h:597-613, 617-657 Load: the old contents are dropped; the flag is the result. *)
Definition Load (datasize elemsize : Z) (dims : nat) (s : list token) : option (item * bool) :=
  match s with
  | TInt a :: TInt b :: TInt c :: TInt d :: TInt e :: TInt f :: s =>
      if (a =? 1163023442)%Z && (b =? datasize)%Z && (c =? Z.of_nat dims)%Z && (d =? elemsize)%Z &&
         (e =? Z.of_nat M)%Z && (f =? Z.of_nat m)%Z then
        match LoadRec (S (length s)) dims s with Some (n, _) => Some (n, true) | None => None end
      else Some (empty, false)
  | _ => None
  end.

(** RTree.h:697-739 CopyRec, used by the copy constructor 482-485. *)
Fixpoint CopyRec (n : item) : option item :=
  match n with
  | Data _ => None
  | Node level br =>
      match (fix loop (l : list branch) : option (list branch) :=
               match l with
               | [] => Some []
               | (r, it) :: l =>
                   match (if (0 <? level)%nat then CopyRec it else match it with Data d => Some (Data d) | Node _ _ => None end), loop l with
                   | Some c, Some l => Some ((r, c) :: l)
                   | _, _ => None
                   end
               end) br with
      | Some br => Some (Node level br)
      | None => None
      end
  end.
End RTree.
Arguments item : clear implicits.
Notation branch D := (Rect * item D)%type.
Arguments token : clear implicits.
