(** Model of a tile on disk: /repo/src/storage/tile.cpp:24-232, the record written by the compressor
    (/repo/src/test/compress.cpp:43-63) and the wrapper of an object (/repo/src/spatial/himesh.h:142-155).
    A file is its list of bytes (numbers 0 to 255); an open file is the bytes still to be read.  A float
    is its four bytes; [fl] gives the value of such a pattern where comparisons need it. *)
From Coq Require Import QArith ZArith List Bool.
From Verif Require Import Arr AabModel.
Import ListNotations.
Open Scope Z_scope.

(** An unsigned number of n bytes in memory, lowest byte first (x86-64, size_t has 8 bytes). *)
Fixpoint le (n : nat) (z : Z) : list Z := match n with O => [] | S m => z mod 256 :: le m (z / 256) end.
Fixpoint le_val (b : list Z) : Z := match b with [] => 0 | x :: r => x + 256 * le_val r end.
Definition word : Z := 2 ^ 64.

(** fread of as many bytes as the destination has: at the end of the file the bytes that are there
    replace the beginning of the destination.  The flag says whether the request was met. *)
Definition fread (old s : list Z) : list Z * bool * list Z :=
  let got := firstn (length old) s in
  (got ++ skipn (length got) old, (length got =? length old)%nat, skipn (length old) s).
Definition fread_size (old : Z) (s : list Z) : Z * bool * list Z :=
  let '(b, ok, r) := fread (le 8 old) s in (le_val b, ok, r).

(** himesh.h:49-57: box.min, box.max and core of a voxel, three floats each. *)
Record vmeta := VMeta { vm_min : list Z; vm_max : list Z; vm_core : list Z }.
(** aab.h:56-61: DBL_MAX stored in a float is infinity.  [junk] is the uninitialised core. *)
Definition fresh_voxel (junk : list Z) : vmeta :=
  VMeta [0; 0; 128; 127; 0; 0; 128; 127; 0; 0; 128; 127] [0; 0; 128; 255; 0; 0; 128; 255; 0; 0; 128; 255] junk.
(** himesh.h:142-155: what opening a tile sets in the wrapper.  The box is computed below. *)
Record wrapper := Wrapper { w_offset : Z; w_data_size : Z; w_id : Z; w_voxels : list vmeta }.

(** tile.cpp:147-152 and 115-120: [n] voxels, no result of fread is looked at.  The counter is an int
    compared with a size_t; counts of 2^31 and more are not modelled. *)
Fixpoint read_voxels (junk : list Z) (n : nat) (s : list Z) : list vmeta * list Z :=
  match n with
  | O => ([], s)
  | S m =>
    let v := fresh_voxel junk in
    let '(a, _, s) := fread (vm_min v) s in
    let '(b, _, s) := fread (vm_max v) s in
    let '(c, _, s) := fread (vm_core v) s in
    let (vs, s) := read_voxels junk m s in
    (VMeta a b c :: vs, s)
  end.

(** tile.cpp:131-161 parse_raw.  [offset] is a long; it is stored in a size_t.  fseek beyond the end of
    the file succeeds and later reads find nothing; sizes of 2^63 and more are not modelled.
    [fuel] bounds the number of turns of the loop; [None] if it does not suffice. *)
Fixpoint parse_loop (junk : list Z) (fuel : nat) (dsize offset index : Z) (s : list Z) : option (list wrapper) :=
  match fuel with
  | O => None
  | S f =>
    let '(dsize, ok, s) := fread_size dsize s in
    if ok then
      let s := skipn (Z.to_nat dsize) s in
      let offset := (offset + 8) mod word in
      let data_size := dsize in
      let '(dsize, _, s) := fread_size dsize s in
      let (vs, s) := read_voxels junk (Z.to_nat dsize) s in
      let offset' := (offset + data_size + 8 + 36 * dsize) mod word in
      do r <- parse_loop junk f dsize offset' (index + 1) s;
      Some (Wrapper offset data_size index vs :: r)
    else Some []
  end.
Definition parse_raw (junk : list Z) (dt : list Z) : option (list wrapper) := parse_loop junk (S (length dt)) 0 0 0 dt.

(** tile.cpp:77-93 persist, the bytes written in the order they are written. *)
Definition voxel_bytes (v : vmeta) : list Z := vm_min v ++ vm_max v ++ vm_core v.
Definition wrapper_bytes (w : wrapper) : list Z :=
  le 8 (w_offset w) ++ le 8 (w_data_size w) ++ le 8 (Z.of_nat (length (w_voxels w))) ++ flat_map voxel_bytes (w_voxels w).
Definition persist (objects : list wrapper) : list Z := flat_map wrapper_bytes objects.

(** tile.cpp:96-128 load; [capacity] is what the int parameter becomes when it is compared with the
    size_t index, see [load]. *)
Fixpoint load_loop (junk : list Z) (fuel : nat) (capacity dsize index : Z) (s : list Z) : option (list wrapper) :=
  match fuel with
  | O => None
  | S f =>
    if index <? capacity then
      let '(dsize, ok, s) := fread_size dsize s in
      if ok then
        let offset := dsize in
        let '(data_size, _, s) := fread_size 0 s in
        let '(dsize, _, s) := fread_size dsize s in
        let (vs, s) := read_voxels junk (Z.to_nat dsize) s in
        do r <- load_loop junk f capacity dsize (index + 1) s;
        Some (Wrapper offset data_size index vs :: r)
      else Some []
    else Some []
  end.
(** tile.cpp:96 with the conversions size_t -> int (line 41) and int -> size_t (line 107). *)
Definition int_of (capacity : Z) : Z := let r := capacity mod 2 ^ 32 in if r <? 2 ^ 31 then r else r - 2 ^ 32.
Definition load (junk : list Z) (capacity : Z) (mt : list Z) : option (list wrapper) :=
  load_loop junk (S (length mt)) (int_of capacity mod word) 0 0 mt.

(** tile.cpp:24-45, the constructor: [mt] is the metadata file if there is one.  Result: the objects and
    the metadata file afterwards.  A missing data file ends the process and is not modelled. *)
Definition open_tile (junk : list Z) (capacity : Z) (dt : list Z) (mt : option (list Z)) : option (list wrapper * list Z) :=
  match mt with
  | None => do objects <- parse_raw junk dt; Some (objects, persist objects)
  | Some m => do objects <- load junk capacity m; Some (objects, m)
  end.

(** tile.cpp:121, 124, 153, 156 with aab.h:94-103: the box of an object and of the tile. *)
Definition axis_no (a : axis) : nat := match a with AX => 0 | AY => 1 | AZ => 2 end.
Definition floats (fl : list Z -> Q) (b : list Z) : vec := fun a => fl (firstn 4 (skipn (4 * axis_no a) b)).
Definition vbox (fl : list Z -> Q) (v : vmeta) : aab := Aab (floats fl (vm_min v)) (floats fl (vm_max v)).
Definition object_box (fl : list Z -> Q) (w : wrapper) : option aab := fold_left (fun b v => acc_box b (vbox fl v)) (w_voxels w) None.
(** Updating with the default box changes nothing: infinity is not below and -infinity not above. *)
Definition tile_box (fl : list Z -> Q) (objects : list wrapper) : option aab :=
  fold_left (fun b w => match object_box fl w with Some c => acc_box b c | None => b end) objects None.

(** compress.cpp:43-63 flush_mesh_buffer, one object: its compressed data and its voxels. *)
Definition record_bytes (o : list Z * list vmeta) : list Z :=
  le 8 (Z.of_nat (length (fst o))) ++ fst o ++ le 8 (Z.of_nat (length (snd o))) ++ flat_map voxel_bytes (snd o).
Definition flush (buffer : list (list Z * list vmeta)) : list Z := flat_map record_bytes buffer.

(** tile.cpp:164-178 retrieve_mesh: the bytes handed to the decoder.  A short read is only noticed by
    an assertion; the rest of the new array is then uninitialised, [None]. *)
Definition retrieve (dt : list Z) (w : wrapper) : option (list Z) :=
  let got := firstn (Z.to_nat (w_data_size w)) (skipn (Z.to_nat (w_offset w)) dt) in
  if (length got =? Z.to_nat (w_data_size w))%nat then Some got else None.

(** tile.cpp:58-73 disable_innerpart: objects with several voxels get a single one with the object's
    box.  Values, not bytes: the core is the middle of the box. *)
Record vvalue := VValue { vv_box : aab; vv_core : vec }.
Definition disable_innerpart (o : option aab * list vvalue) : option (list vvalue) :=
  let (box, vs) := o in
  if (1 <? length vs)%nat
  then do b <- box; Some [VValue b (fun a => (bmax b a - bmin b a) / 2 + bmin b a)%Q]
  else Some vs.

(** tile.cpp:209-232 add_raw: the only effect on the tile is line 230; the wrapper and the mesh are
    dropped.  [objects] is returned to make that visible. *)
Definition add_raw (fl : list Z -> Q) (junk : list Z) (data : list Z) (t : option aab * list wrapper) : option aab * list wrapper :=
  let '(n, _, s) := fread_size 0 data in
  let s := skipn (Z.to_nat n) s in
  let '(k, _, s) := fread_size n s in
  let (vs, _) := read_voxels junk (Z.to_nat k) s in
  (match object_box fl (Wrapper 0 0 (-1) vs) with Some c => acc_box (fst t) c | None => fst t end, snd t).
