(** Model of the sort partition: /repo/src/index/stree.cpp:19-154, SPNode in /repo/src/index/index.h:61-89
    and weighted_aab in /repo/src/geometry/aab.h:197-208.  The type [B] of boxes comes with the box
    of a default-constructed aab and the update of one box by another; numbers of nodes and objects
    are below 2^31, so that the int counters do not overflow. *)
From Coq Require Import ZArith List Bool QArith.
From Verif Require Import Arr AabModel TileModel.
Import ListNotations.
Open Scope Z_scope.

(** aab.h:197-201: box and weight of an object. *)
Record sobj (B : Type) := Sobj { s_box : B; s_size : Z }.
Arguments Sobj {B}. Arguments s_box {B}. Arguments s_size {B}.

(** index.h:61-64.  The parent pointer is written and never read.  [n_objs] is not part of the program:
    the objects handed to add_object, which the program forgets. *)
Inductive spnode (B : Type) := SP (box : B) (size : Z) (kids : list (spnode B)) (objs : list (sobj B)).
Arguments SP {B}.
Definition n_box {B} (n : spnode B) : B := let '(SP b _ _ _) := n in b.
Definition n_size {B} (n : spnode B) : Z := let '(SP _ s _ _) := n in s.
Definition n_kids {B} (n : spnode B) : list (spnode B) := let '(SP _ _ k _) := n in k.
Definition n_objs {B} (n : spnode B) : list (sobj B) := let '(SP _ _ _ o) := n in o.

(** The size of a node is a 32-bit unsigned. *)
Definition uint (x : Z) : Z := x mod 4294967296.

Section Node.
Context {B : Type} (b0 : B) (upd : B -> B -> B).

(** index.h:66-68 with the initial values of weighted_aab: the size starts at 1 (aab.h:201). *)
Definition new_node : spnode B := SP b0 1 [] [].
(** index.h:75-80. *)
Definition add_child (n child : spnode B) : spnode B :=
  SP (upd (n_box n) (n_box child)) (uint (n_size n + n_size child)) (n_kids n ++ [child]) (n_objs n).
(** index.h:81-84. *)
Definition add_object (n : spnode B) (o : sobj B) : spnode B :=
  SP (upd (n_box n) (s_box o)) (uint (n_size n + s_size o)) (n_kids n) (n_objs n ++ [o]).

(** stree.cpp:116-124, 127-134, 137-144: the slices a loop with this step takes from a vector. *)
Fixpoint cut {A} (fuel : nat) (step : nat) (l : list A) : list (list A) :=
  match fuel, l with
  | S f, _ :: _ => firstn step l :: cut f step (skipn step l)
  | _, _ => []
  end.
(** stree.cpp:115, 126, 136: the step for this many parts. *)
Definition step_of (part len : nat) : nat := ((len + part - 1) / part)%nat.
Definition slices {A} (part : nat) (l : list A) : list (list A) := cut (length l) (step_of part (length l)) l.

(** stree.cpp:108-110; [cbrt] stands for (int)std::pow(., 1.0/3).  A product that does not fit an int
    is not modelled. *)
Definition part_x (cbrt : Z -> Z) (num_tiles : Z) : Z := Z.max (cbrt num_tiles) 1.
Definition part_z (cbrt : Z -> Z) (num_tiles : Z) : Z := Z.max (Z.quot (Z.quot num_tiles (part_x cbrt num_tiles)) (part_x cbrt num_tiles)) 1.

(** stree.cpp:103-154; [srt a] stands for std::sort by the lower end of the boxes on axis a, whose order
    of equal elements is not specified. *)
Variable srt : axis -> list (sobj B) -> list (sobj B).
Definition leaf_node (l : list (sobj B)) : spnode B := fold_left add_object l new_node.
Definition y_node (pz : nat) (l : list (sobj B)) : spnode B := fold_left add_child (map leaf_node (slices pz (srt AZ l))) new_node.
Definition x_node (py pz : nat) (l : list (sobj B)) : spnode B := fold_left add_child (map (y_node pz) (slices py (srt AY l))) new_node.
Definition build_parts (px py pz : nat) (voxels : list (sobj B)) : spnode B :=
  fold_left add_child (map (x_node py pz) (slices px (srt AX voxels))) new_node.
Definition build_sort_partition (cbrt : Z -> Z) (voxels : list (sobj B)) (num_tiles : Z) : spnode B :=
  build_parts (Z.to_nat (part_x cbrt num_tiles)) (Z.to_nat (part_x cbrt num_tiles)) (Z.to_nat (part_z cbrt num_tiles)) voxels.

(** stree.cpp:19-27: the leaves in order, and their boxes. *)
Fixpoint leaf_nodes (n : spnode B) : list (spnode B) :=
  match n with SP _ _ k _ => match k with [] => [n] | _ => flat_map leaf_nodes k end end.
Definition genTiles (n : spnode B) : list B := map n_box (leaf_nodes n).

(** Files as in TileModel: a long has 8 bytes, an int 4; [enc] gives the 24 bytes of the six floats. *)
Variable enc : B -> list Z.
Variable dec : list Z -> B.

(** stree.cpp:83-85. *)
Definition leaf_bytes (n : spnode B) : list Z := enc (n_box n) ++ le 4 (n_size n).
(** stree.cpp:80-88 *)
Fixpoint all_some {A} (l : list (option A)) : option (list A) := match l with [] => Some [] | x :: r => do a <- x; do b <- all_some r; Some (a :: b) end.
Definition leaf_at (n : spnode B) (x y z : nat) : option (spnode B) :=
  do cx <- nth_error (n_kids n) x; do cy <- nth_error (n_kids cx) y; nth_error (n_kids cy) z.
Definition triples (px py pz : nat) : list (nat * nat * nat) :=
  flat_map (fun x => flat_map (fun y => map (fun z => (x, y, z)) (seq 0 pz)) (seq 0 py)) (seq 0 px).
(** stree.cpp:57-91 persist.  [None]: a child is read beyond the end of a vector; [Some None]: false is
    returned and no file written. *)
Definition persist_tree (n : spnode B) : option (option (list Z)) :=
  match n_kids n with
  | [] => Some None
  | cx :: _ => match n_kids cx with
    | [] => Some None
    | cy :: _ => match n_kids cy with
      | [] => Some None
      | _ =>
        let px := length (n_kids n) in let py := length (n_kids cx) in let pz := length (n_kids cy) in
        do ls <- all_some (map (fun '(x, y, z) => leaf_at n x y z) (triples px py pz));
        Some (Some (le 8 (Z.of_nat px) ++ le 8 (Z.of_nat py) ++ le 8 (Z.of_nat pz) ++ flat_map leaf_bytes ls))
      end
    end
  end.

(** istream::read of n bytes; a file that is too short is not modelled ([None]). *)
Definition take_bytes (n : nat) (s : list Z) : option (list Z * list Z) :=
  if (n <=? length s)%nat then Some (firstn n s, skipn n s) else None.
(** stree.cpp:44-47 *)
Definition load_leaf (s : list Z) : option (spnode B * list Z) :=
  do (b, s) <- take_bytes 24 s; do (w, s) <- take_bytes 4 s; Some (SP (dec b) (le_val w) [] [], s).
(** stree.cpp:39-53: a loop that adds n children, each read by [rd]. *)
Fixpoint load_kids (rd : list Z -> option (spnode B * list Z)) (n : nat) (cur : spnode B) (s : list Z) : option (spnode B * list Z) :=
  match n with O => Some (cur, s) | S m => do (c, s) <- rd s; load_kids rd m (add_child cur c) s end.
(** stree.cpp:29-56 load into the node [n]. *)
Definition load_tree (n : spnode B) (s : list Z) : option (spnode B) :=
  do (px, s) <- take_bytes 8 s; do (py, s) <- take_bytes 8 s; do (pz, s) <- take_bytes 8 s;
  do (r, _) <- load_kids (load_kids (load_kids load_leaf (Z.to_nat (le_val pz)) new_node) (Z.to_nat (le_val py)) new_node) (Z.to_nat (le_val px)) n s;
  Some r.
End Node.

(** The boxes of aab.h as exact rationals; [None] is the default box, whose update of another changes
    nothing (aab.h:56-61, 94-103). *)
Definition upd_opt (a b : option aab) : option aab := match b with None => a | Some c => acc_box a c end.

(** The boxes of aab.h as the six 32-bit patterns of their floats.  [fval] orders the patterns of floats that
    are not NaN as their values are (both zeros are 0). *)
Record fbox := FBox { f_min : Z * Z * Z; f_max : Z * Z * Z }.
Definition fval (p : Z) : Z := if p <? 2147483648 then p else 2147483648 - p.
(** aab.h:94-103 *)
Definition lower (p q : Z) : Z := if fval q <? fval p then q else p.
Definition higher (p q : Z) : Z := if fval p <? fval q then q else p.
Definition upd_f (a b : fbox) : fbox :=
  let '(FBox (x, y, z) (u, v, w)) := a in let '(FBox (x', y', z') (u', v', w')) := b in
  FBox (lower x x', lower y y', lower z z') (higher u u', higher v v', higher w w').
(** aab.h:56-61: DBL_MAX stored in a float is infinity. *)
Definition fbox0 : fbox := FBox (2139095040, 2139095040, 2139095040) (4286578688, 4286578688, 4286578688).
(** The 24 bytes of min and max. *)
Definition enc_f (b : fbox) : list Z :=
  let '(FBox (x, y, z) (u, v, w)) := b in le 4 x ++ le 4 y ++ le 4 z ++ le 4 u ++ le 4 v ++ le 4 w.
Definition dec_f (s : list Z) : fbox :=
  let f k := le_val (firstn 4 (skipn k s)) in FBox (f 0%nat, f 4%nat, f 8%nat) (f 12%nat, f 16%nat, f 20%nat).
