(** Model of the small programs and of what they use: reading of a mesh as text
    (/repo/src/spatial/spatial_common.cpp:99-131, /repo/src/PPMC/mymesh.cpp:42-53), lists of files
    (/repo/src/util/util.h:107-141), the decompressor (/repo/src/test/decompress.cpp) and the partitioner
    (/repo/src/test/partitioner.cpp). *)
From Coq Require Import String Ascii List ZArith Bool Arith.
From Verif Require Import Arr TextModel SpModel CodecModel BitsModel ObjectModel PpmcModel PpmcLevels LodModel PipeModel.
From Verif Require AabModel.
Import ListNotations.
Close Scope Z_scope.
Open Scope nat_scope.

(** * Text of a mesh *)
Definition nul : ascii := ascii_of_nat 0.
(** boost::replace_all(input_line, "|", "\n"), spatial_common.cpp:104 and spatial.h:48-57. *)
Definition replace_bar (s : text) : text := map (fun c => if (c =? "|"%char)%char then newline else c) s.
(** A string made from a char pointer (mymesh.cpp:52, is.str(data)): the characters up to the first
    zero.  [None] if there is none in the memory given. *)
Fixpoint c_string (mem : text) : option text :=
  match mem with [] => None | c :: r => if (c =? nul)%char then Some [] else do s <- c_string r; Some (c :: s) end.
(** How get_mesh may go: no mesh for an empty line; the text that is parsed; or a read past the end of
    the array of line 106. *)
Inductive gotten := NoMesh | Parses (s : text) | ReadsPast.
(** spatial_common.cpp:99-113 with mymesh.cpp:42-53.  The array has as many characters as the line. *)
Definition get_mesh (line : text) (bars : bool) : gotten :=
  match line with
  | [] => NoMesh
  | _ => match c_string (if bars then replace_bar line else line) with Some s => Parses s | None => ReadsPast end
  end.
(** What is parsed when the read past the end is not noticed and [beyond] lies behind the array. *)
Definition get_mesh_in_memory (line beyond : text) (bars : bool) : option text :=
  c_string ((if bars then replace_bar line else line) ++ beyond).

(** * Lists of files *)
(** What a path may lead to: a regular file, a folder with its entries in the order readdir gives them,
    something else (a pipe, a device), a link that leads nowhere. *)
Inductive node := Regular | Folder (entries : list (text * node)) | Special | Broken.
(** util.h:113-117 is_file.  For a broken link stat fails, nobody looks, and st_mode is whatever the
    stack holds: [luck] says whether it looks like a regular file. *)
Definition is_file (luck : text -> bool) (path : text) (n : node) : bool :=
  match n with Regular => true | Broken => luck path | _ => false end.
(** util.h:119-141.  opendir fails for all but folders.  Links to folders are folders here; a link to a
    folder above (the program would go round until the path is too long) is not modelled. *)
Definition is_dots (name : text) : bool := match name with ["."%char] | ["."%char; "."%char] => true | _ => false end.
Fixpoint list_files (luck : text -> bool) (path : text) (n : node) : list text :=
  if is_file luck path n then [path] else
  match n with
  | Folder es => flat_map (fun e => if is_dots (fst e) then [] else list_files luck (path ++ lit "/" ++ fst e) (snd e)) es
  | _ => []
  end.

(** * The decompressor *)
Section Decompress.
  Variables (P : Type) (qz : Z * Z * Z -> Z -> P -> vec) (gp : Z * Z * Z -> Z -> vec -> P) (bary : list P -> P) (lim : nat) (bpv : Z -> Z) (fuel : nat).

  (** mymesh.cpp:76-98 for a MyMesh with percentage [lod], as PipeModel.construct. *)
  Definition construct_at (test : Z -> Z -> bool) (lod : Z) (r : rbase) : option LodModel.lod :=
    if (r_notconvex r <? r_rounds r)%Z
    then do s <- first_convex test fuel (Lod Idle 0 false lod) (r_notconvex r); Some (batchOperation test s)
    else Some (Lod Idle 0 false lod).
  (** spatial_common.cpp:149-155 decompress_mesh: a decoder for the percentage [lod], run to its end.
      The mesh is what writeMeshOff writes; the third part is what lies behind dataOffset. *)
  Definition decompress_mesh (c : machine) (data : list Z) (lod : Z) : option (mesh * (nat -> P) * list Z) :=
    do (r, _) <- readBaseMesh bpv data;
    let test := stop (r_nquant r + r_rounds r) in
    do s0 <- construct_at test lod r;
    do s <- completeOperation test fuel s0;
    decodeObject P qz gp bary lim bpv (c_junk c) (c_stor c) data (c_nss c) fuel (Z.to_nat (l_cur s)).

  (** decompress.cpp:37-50, the loop from [i] on: one file per level, and the object kept for level
      100, given by its data.  [cs] are the machines of the decoders, [himesh] the pointer so far. *)
  Fixpoint write_levels (cs : nat -> machine) (data : list Z) (i : nat) (count : nat) (himesh : option (list Z)) : option (list (Z * (mesh * (nat -> P))) * option (list Z)) :=
    match count with
    | O => Some ([], himesh)
    | S k =>
      let lod := (10 * Z.of_nat i)%Z in
      do (d, more) <- decompress_mesh (cs i) data lod;
      do (fs, h) <- write_levels cs data (S i) k (if (lod =? 100)%Z then Some (firstn (length data - length more) data) else himesh);
      Some ((lod, d) :: fs, h)
    end.
  (** How the program ends: with its files and the object of line 55 decoded to level 100; or by using
      the pointer himesh that was never set. *)
  Inductive ended := Ends (written : list (Z * (mesh * (nat -> P)))) (last : mesh * (nat -> P)) | Uninitialised (written : list (Z * (mesh * (nat -> P)))).
  (** decompress.cpp:18-56 for the object with compressed data [data]; [arg] is atoi(argv[1]) if there
      is an argument, not negative.  The statistics with zlib after line 56 are left out. *)
  Definition decompress_main (cs : nat -> machine) (data : list Z) (arg : option nat) : option ended :=
    do (fs, h) <- match arg with None => write_levels cs data 0 11 None | Some a => write_levels cs data a 1 None end;
    match h with
    | None => Some (Uninitialised fs)
    | Some kept => do (d, _) <- advance_levels P qz gp bary lim bpv fuel (cs 11) kept [100%Z]; Some (Ends fs d)
    end.
End Decompress.
Arguments Ends {P}. Arguments Uninitialised {P}.

(** * The partitioner *)
Section Partition.
  Variables (B : Type) (b0 : B) (upd : B -> B -> B) (enc : B -> list Z) (dec : list Z -> B) (srt : AabModel.axis -> list (sobj B) -> list (sobj B)) (cbrt : Z -> Z).
  (** partitioner.cpp:37-66: [part] is the file tmp.part if there is one, [voxels] what get_voxels
      finds in the folder.  Result: the tiles written and tmp.part afterwards.  [None]: a tree that
      cannot be saved or a file that cannot be loaded. *)
  Definition partitioner (part : option (list Z)) (voxels : list (sobj B)) (num_tiles : Z) : option (list B * option (list Z)) :=
    match part with
    | None =>
      let sp := build_sort_partition b0 upd srt cbrt voxels num_tiles in
      do saved <- persist_tree enc sp; Some (genTiles sp, saved)
    | Some bytes => do sp <- load_tree b0 upd dec (new_node b0) bytes; Some (genTiles sp, Some bytes)
    end.
End Partition.
