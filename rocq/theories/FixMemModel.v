(** Model of the memory the fixer takes and gives back, /repo/src/test/fixer.cpp: 118-127 (the destructor), 166-185 (load),
    189-273 (depart), 329-395 (fill_holes) and 412-436 (main).  What the containers of the standard library take by themselves
    is left out.  Which points and faces belong together is given here (it is modelled in FixerModel). *)
From Coq Require Import List Arith Bool.
From Verif Require Import TileMemModel CompressMemModel.
Import ListNotations.
Close Scope Z_scope.
Open Scope nat_scope.

(** fixer.cpp:95-101 Polyhedron: its block, those of its points and of its faces. *)
Record piece := Piece { q_blk : nat; q_points : list nat; q_faces : list nat }.
(** fixer.cpp:118-127, the destructor, then the block. *)
Definition delete_piece (q : piece) (h : heap) : heap :=
  let h := fold_left (fun h b => happen (Delete Single b) h) (q_points q) h in
  let h := fold_left (fun h b => happen (Delete Single b) h) (q_faces q) h in
  happen (Delete Single (q_blk q)) h.
(** fixer.cpp:413-414 and 166-185: a polyhedron is made and loaded. *)
Definition load_piece (np nf : nat) (h : heap) : piece * heap :=
  let (b, h) := new Single h in let (ps, h) := new_blocks np h in let (fs, h) := new_blocks nf h in
  (Piece b ps fs, fold_left (fun h f => happen (Use f) h) fs h).
(** fixer.cpp:238-241: a polyhedron for each component. *)
Fixpoint new_pieces (n : nat) (h : heap) : list piece * heap :=
  match n with O => ([], h) | S n => let (b, h) := new Single h in let (qs, h) := new_pieces n h in (Piece b [] [] :: qs, h) end.
(** fixer.cpp:249-254: the points [c] (indices into [src]) of a component are copied; an index outside is a block that does
    not exist. *)
Fixpoint copy_points (src : list nat) (c : list nat) (h : heap) : list nat * heap :=
  match c with
  | [] => ([], h)
  | i :: r => let h := happen (Use (nth i src (fresh h))) h in let (b, h) := new Single h in
              let (bs, h) := copy_points src r h in (b :: bs, h)
  end.
(** fixer.cpp:248-257. *)
Fixpoint copy_all (src : list nat) (comps : list (list nat)) (qs : list piece) (h : heap) : list piece * heap :=
  match comps, qs with
  | c :: cs, q :: qs => let (bs, h) := copy_points src c h in let (qs, h) := copy_all src cs qs h in
                        (Piece (q_blk q) (q_points q ++ bs) (q_faces q) :: qs, h)
  | _, _ => (qs, h)
  end.
(** fixer.cpp:267 with 276-288: the face [f] is added to piece [i]. *)
Fixpoint add_to (i : nat) (f : nat) (qs : list piece) : list piece :=
  match qs, i with
  | [], _ => []
  | q :: r, O => Piece (q_blk q) (q_points q) (q_faces q ++ [f]) :: r
  | q :: r, S i => q :: add_to i f r
  end.
(** fixer.cpp:260-268: each face [f] of the source is copied; [i] is the component of its first vertex. *)
Fixpoint copy_faces (src : list nat) (parts : list nat) (qs : list piece) (h : heap) : list piece * heap :=
  match src, parts with
  | f :: fs, i :: is => let (nf, h) := new Single h in copy_faces fs is (add_to i nf qs) (happen (Use nf) (happen (Use f) h))
  | _, _ => (qs, h)
  end.
(** fixer.cpp:189-273 depart. *)
Definition depart_mem (p : piece) (comps : list (list nat)) (parts : list nat) (h : heap) : list piece * heap :=
  let h := fold_left (fun h f => happen (Use f) h) (q_faces p) h in
  let (qs, h) := new_pieces (length comps) h in
  let (qs, h) := copy_all (q_points p) comps qs h in
  copy_faces (q_faces p) parts qs h.
(** fixer.cpp:369-393, one walk along the boundary: a face is made, and kept when the walk closes. *)
Definition walk (valid : bool) (q : piece) (h : heap) : piece * heap :=
  let (f, h) := new Single h in let h := happen (Use f) h in
  if valid then (Piece (q_blk q) (q_points q) (q_faces q ++ [f]), happen (Use f) h) else (q, happen (Delete Single f) h).
Fixpoint walks (l : list bool) (q : piece) (h : heap) : piece * heap :=
  match l with [] => (q, h) | v :: r => let (q, h) := walk v q h in walks r q h end.
(** fixer.cpp:406-425: what else is done to a piece reads its points and faces. *)
Definition read_piece (q : piece) (h : heap) : heap :=
  fold_left (fun h f => happen (Use f) h) (q_faces q) (fold_left (fun h b => happen (Use b) h) (q_points q) h).
(** fixer.cpp:418-429: the pieces in turn; [holes i] are the walks in piece i, whether they close. *)
Fixpoint each (i : nat) (holes : nat -> list bool) (qs : list piece) (h : heap) : heap :=
  match qs with
  | [] => h
  | q :: r =>
    let (q, h) := if 100 <? length (q_points q) then let (q, h) := walks (holes i) q (read_piece q h) in (q, read_piece q h) else (q, h) in
    each (S i) holes r (delete_piece q h)
  end.
(** fixer.cpp:412-436 main: [np] points; [comps] the points of the components, [parts] the component of each face. *)
Definition fixer (np : nat) (comps : list (list nat)) (parts : list nat) (holes : nat -> list bool) : list event :=
  let (p, h) := load_piece np (length parts) (Heap [] 0) in
  let (qs, h) := depart_mem p comps parts h in
  rev (trace (delete_piece p (each 0 holes qs h))).
