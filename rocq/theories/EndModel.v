(** Model of an intersection join from the voxels of the objects to its answer, both on the processor
    and on a device: /repo/src/join/SpatialJoin.cpp:674-799 with the batches of
    /repo/src/geometry/geometry_computer.cpp:92-99, 160-209 and /repo/src/geometry/TriInt.cu:286-350.
    The parts are the models of the filter (JoinModel), the packing and division among threads
    (BatchModel), the triangle test (TriIntModel) and the filled voxels (VoxelModel). *)
From Coq Require Import ZArith QArith List Bool.
From Verif Require Import Arr AabModel JoinModel BatchModel TriIntModel.
From Verif Require VoxelModel.
Import ListNotations.
Open Scope Z_scope.

(** Memory: the voxel at each address, after the decoding and filling of SpatialJoin.cpp:702-709 for
    all levels.  (The code fills a level when it comes to it; filling touches no other level, C41.) *)
Definition heap : Type := nat -> VoxelModel.voxel.
(** himesh.h:60 size[lod]; operator[] of an absent key gives zero. *)
Definition lsize (h : heap) (lod : Z) (v : nat) : Z := match VoxelModel.v_size (h v) lod with Some n => n | None => 0 end.
(** himesh.h:59 data[lod]: a float of the voxel, [None] outside its buffer or not written. *)
Definition ldata (h : heap) (lod : Z) (v : nat) (k : Z) : option Q :=
  match VoxelModel.v_data (h v) lod with Some l => match aget l k with Some o => o | None => None end | None => None end.

(** SpatialJoin.cpp:698-727, 753-764: the addresses of the voxel pairs in order. *)
Definition ptrs (cs : list centry) : list (nat * nat) := map (fun vp => (v_ptr (vp_v1 vp), v_ptr (vp_v2 vp))) (all_pairs cs).
(** SpatialJoin.cpp:694-727: voxel_map and triangle_num (size_t). *)
Definition packed (h : heap) (lod : Z) (ps : list (nat * nat)) : vmap * Z := layout (2 ^ 64) (lsize h lod) ps.
(** SpatialJoin.cpp:736-743: the buffer, filled in order of addresses. *)
Definition buffer (h : heap) (lod : Z) (ps : list (nat * nat)) : Z -> option (option Q) :=
  fill 9 (lsize h lod) (ldata h lod) (sort_by (fun b => Z.of_nat (fst b)) (fst (packed h lod ps))).
(** A float read from the buffer; [junk] is what new[] left there. *)
Definition cell (junk : Z -> Q) (buf : Z -> option (option Q)) (a : Z) : Q :=
  match buf a with Some (Some q) => q | _ => junk a end.
(** geometry_computer.cpp:163-166: the floats behind the pointer data+offset*9 (32 bit product). *)
Definition floats (junk : Z -> Q) (buf : Z -> option (option Q)) (os : Z * Z) : list Q :=
  map (fun k => cell junk buf ((fst os * 9) mod u32max + Z.of_nat k)) (seq 0 (Z.to_nat (9 * snd os))).
(** geometry_computer.cpp:159-168 TriInt_unit, pair [y] of the batch. *)
Definition cpu_value (junk : Z -> Q) (h : heap) (lod : Z) (ps : list (nat * nat)) (y : Z) : bool :=
  match aget ps y with
  | None => false
  | Some p =>
    let q := quad (fst (packed h lod ps)) p in let buf := buffer h lod ps in
    TriInt_single (floats junk buf (fst q)) (floats junk buf (snd q)) (Z.to_nat (snd (fst q))) (Z.to_nat (snd (snd q)))
  end.
(** SpatialJoin.cpp:746-749 and geometry_computer.cpp:171-195: intersect_status after the threads have
    worked in the order [tr]. *)
Definition cpu_statuses (junk : Z -> Q) (h : heap) (threads : Z) (tr : list Z) (lod : Z) (cs : list centry) : list bool :=
  let ps := ptrs cs in let p := Z.of_nat (length ps) in
  map (fun i => match store (cpu_value junk h lod ps) (concat (fst (intersect_runs p threads)) ++ tr) (Z.of_nat i) with Some b => b | None => false end)
      (seq 0 (length ps)).
(** SpatialJoin.cpp:745-764: offset_size, as the device reads it. *)
Definition os_list (h : heap) (lod : Z) (ps : list (nat * nat)) : list nat :=
  flat_map (fun q : (Z * Z) * (Z * Z) => let '((o1, s1), (o2, s2)) := q in map Z.to_nat [o1; s1; o2; s2]) (offset_size (fst (packed h lod ps)) ps).
(** TriInt.cu:317-324: the copy of the buffer on the device, data_size*9 floats. *)
Definition device_data (junk : Z -> Q) (h : heap) (lod : Z) (ps : list (nat * nat)) : list Q :=
  map (fun a => cell junk (buffer h lod ps) (Z.of_nat a)) (seq 0 (Z.to_nat (9 * snd (packed h lod ps)))).
(** TriInt.cu:311-350 TriInt_batch_gpu: the threads of the grid run in the order [order]; the array of
    results is not set before (line 298 sets the cell of each thread), [old] is what it held. *)
Definition gpu_statuses (junk : Z -> Q) (h : heap) (order : list nat) (old : list bool) (lod : Z) (cs : list centry) : list bool :=
  let ps := ptrs cs in
  tri_batch (device_data junk h lod ps) (os_list h lod ps) (length ps) order old.

(** SpatialJoin.cpp:775-788: the results of one level are entered and the entries decided erased. *)
Definition enter (st : list bool) (s : list centry * list centry) : list centry * list centry :=
  let (cs', out) := update_candidate_list_intersect (mark_entries (fun i => nth i st false) 0 (fst s)) in (cs', snd s ++ out).
(** SpatialJoin.cpp:686-791: all levels; [statuses] computes the results of a level. *)
Fixpoint levels (statuses : Z -> list centry -> list bool) (lods : list Z) (s : list centry * list centry) : list centry * list centry :=
  match lods with
  | [] => s
  | lod :: r => if Nat.eqb (get_pair_num (fst s)) 0 then s else levels statuses r (enter (statuses lod (fst s)) s)
  end.
(** SpatialJoin.cpp:674-799 intersect: the objects reported. *)
Definition intersect_all (fuel : nat) (statuses : Z -> list centry -> list bool) (lods : list Z) (t1 t2 : tile) : option (list wrapper) :=
  do cs <- mbb_intersect fuel t1 t2;
  Some (map fst (snd (levels statuses lods (cs, [])))).
