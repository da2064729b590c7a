(** Model of the memory the data generator takes and gives back, /repo/src/test/data_generator.cpp:36-145 and 165-382.
    [line] of CompressMemModel says what the memory depends on for one polyhedron.  Left out: what CGAL and the containers of
    the standard library take by themselves.  The threads are taken one after the other and before generate_vessel; the blocks
    of one thread are not seen by another, those they share are made before and only read. *)
From Coq Require Import List Arith ZArith Bool.
From Verif Require Import TileMemModel CompressMemModel.
Import ListNotations.
Close Scope Z_scope.
Open Scope nat_scope.

(** data_generator.cpp:46-50 poly_to_mesh: get_mesh copies the text into an array (spatial_common.cpp:107) and compresses;
    the mesh and its p_data. *)
Definition poly_to_mesh (rounds : nat) (h : heap) : nat * nat * heap :=
  let (text, h) := new Array h in let h := happen (Use text) h in
  let (mesh, h) := new Single h in let (data, h) := new Array h in
  let h := happen (Use text) (happen (Use data) h) in
  (mesh, data, Nat.iter rounds (encode_round data) h).
(** mymesh.cpp:103-107, the destructor of MyMesh. *)
Definition delete_mymesh (mesh data : nat) (h : heap) : heap := happen (Delete Single mesh) (happen (Delete Array data) h).
(** data_generator.cpp:36-44 poly_to_himesh. *)
Definition poly_to_himesh (l : line) (h : heap) : nat * nat * heap :=
  let '(mesh, data, h) := poly_to_mesh (l_rounds l) h in
  let (himesh, h) := new Single h in let (codes, h) := new Array h in
  let h := read_base (l_faces l) codes (happen (Use codes) (happen (Use data) h)) in
  (himesh, codes, delete_mymesh mesh data (happen (Use codes) h)).
(** himesh.h:100-106, mymesh.cpp:103-107, the destructors of HiMesh. *)
Definition delete_himesh (himesh codes : nat) (skeleton : option nat) (h : heap) : heap :=
  let h := match skeleton with Some s => happen (Delete Single s) h | None => h end in
  happen (Delete Single himesh) (happen (Delete Array codes) h).
(** data_generator.cpp:78-82 and 112-115: the voxels of a prototype. *)
Definition prototype (l : line) (h : heap) : list nat * heap :=
  let '(m, d, h) := poly_to_himesh l h in let '(s, vs, h) := make_voxels l h in (vs, delete_himesh m d s h).
Fixpoint prototypes (ls : list line) (h : heap) : list (list nat) * heap :=
  match ls with [] => ([], h) | l :: r => let (vs, h) := prototype l h in let (vss, h) := prototypes r h in (vs :: vss, h) end.
(** data_generator.cpp:52-145 load_prototype: nucleis_voxels and vessel_taken; vessel_voxels are local and not deleted. *)
Definition load_prototype (vessel : line) (nuclei : list line) (h : heap) : list (list nat) * nat * heap :=
  let (vvs, h) := prototype vessel h in let (nvs, h) := prototypes nuclei h in
  let (vt, h) := new Array h in
  (nvs, vt, fold_left (fun h v => happen (Use vt) (happen (Use v) h)) vvs h).

(** data_generator.cpp:165-199 organize_data, into [out]; the polyhedron takes [rounds] rounds, [vs] are its voxels. *)
Definition organize (rounds : nat) (vs : list nat) (out : nat) (h : heap) : heap :=
  let '(mesh, data, h) := poly_to_mesh rounds h in
  let h := happen (Use out) (happen (Use data) h) in
  let h := fold_left (fun h v => happen (Use out) (happen (Use v) h)) vs h in
  delete_mymesh mesh data h.
(** data_generator.cpp:218-244, one nucleus: the rounds and the prototype of it and of the second one. *)
Record nucleus := Nucleus { n_rounds : nat; n_proto : nat; n_rounds2 : nat; n_proto2 : nat }.
Definition one_nucleus (nvs : list (list nat)) (vt taken d d2 : nat) (n : nucleus) (h : heap) : heap :=
  let h := happen (Use taken) (happen (Use vt) (happen (Use taken) h)) in
  let h := organize (n_rounds n) (nth (n_proto n) nvs []) d h in
  organize (n_rounds2 n) (nth (n_proto2 n) nvs []) d2 h.
(** data_generator.cpp:206-246 generate_nuclei. *)
Definition nuclei_job (nvs : list (list nat)) (vt d d2 : nat) (job : list nucleus) (h : heap) : heap :=
  let (taken, h) := new Array h in fold_left (fun h n => one_nucleus nvs vt taken d d2 n h) job h.
(** data_generator.cpp:255-280 generate_unit, the jobs of one thread; 277-278 delete the arrays with delete. *)
Definition unit_thread (nvs : list (list nat)) (vt os os2 : nat) (jobs : list (list nucleus)) (h : heap) : heap :=
  let (d, h) := new Array h in let (d2, h) := new Array h in
  let h := fold_left (fun h job => let h := nuclei_job nvs vt d d2 job h in
    happen (Use d2) (happen (Use os2) (happen (Use d) (happen (Use os) h)))) jobs h in
  happen (Delete Single d2) (happen (Delete Single d) h).
(** data_generator.cpp:282-301 generate_vessel; [shifted] are the rounds of the shifted vessels. *)
Definition vessel_file (vessel : line) (shifted : list nat) (h : heap) : heap :=
  let (d, h) := new Array h in
  let '(m, c, h) := poly_to_himesh vessel h in let '(s, vs, h) := make_voxels vessel h in
  let h := fold_left (fun h r => organize r vs d h) shifted h in
  let (vos, h) := new Single h in
  let h := happen (Delete Single vos) (happen (Use vos) (happen (Use d) h)) in
  let h := fold_left (fun h v => happen (Delete Single v) h) vs h in
  delete_himesh m c s h.
(** All that the memory depends on: the vessel as load_prototype and as generate_vessel see it (voxel sizes 100 and
    voxel_size), the nuclei, the jobs of each thread, and the rounds of the shifted vessels. *)
Record setting := Setting { g_vessel : line; g_nuclei : list line; g_threads : list (list (list nucleus)); g_vessel2 : line; g_shifted : list nat }.
(** data_generator.cpp:343-381, main from the opening of the files. *)
Definition generator (g : setting) : list event :=
  let (os, h) := new Single (Heap [] 0) in let (os2, h) := new Single h in
  let '(nvs, vt, h) := load_prototype (g_vessel g) (g_nuclei g) h in
  let h := fold_left (fun h jobs => unit_thread nvs vt os os2 jobs h) (g_threads g) h in
  let h := vessel_file (g_vessel2 g) (g_shifted g) h in
  let h := happen (Use os2) (happen (Use os) h) in
  rev (trace (happen (Delete Single os) h)).
