(** Model of opening a tile by its path and of threads that fetch objects of one tile:
    /repo/src/storage/tile.cpp:24-47 (constructor), 164-188 (retrieve_mesh), with the message buffers
    of /repo/src/util/util.h:61-91.  What is read and written as metadata is in TileModel. *)
From Coq Require Import String Ascii List ZArith Bool Arith.
From Verif Require Import Arr TileModel TextModel.
Import ListNotations.
Open Scope Z_scope.

(** tile.cpp:36, boost::replace_all(meta_path, ".dt", ".mt"): from left to right, what was put in is
    not looked at again. *)
Fixpoint meta_path (s : text) : text :=
  match s with
  | [] => []
  | c :: r =>
    match r with
    | d :: t :: r' => if (c =? "."%char)%char && (d =? "d"%char)%char && (t =? "t"%char)%char
                      then c :: "m"%char :: t :: meta_path r' else c :: meta_path r
    | _ => c :: meta_path r
    end
  end.

(** util.h:66-68 and 84-86: vsprintf into an array of 200 characters, of which one is the zero at the
    end.  Longer messages are written over the stack. *)
Definition fits_log (message : text) : bool := (length message <? 200)%nat.
(** tile.cpp:27, 46: the messages; objects.size() is printed with %ld. *)
Definition no_such_file (path : text) : text := path ++ lit " does not exist".
Definition loaded (n : nat) (path : text) : text := lit "loaded " ++ put_int (Z.of_nat n) ++ lit " polyhedra in tile " ++ path.

(** What is on disk: files by their path, and the folders in which files can be made. *)
Record disk := Disk { files : text -> option (list Z); folders : list text }.
(** The folder of a path: all up to its last slash, nothing (the current folder) if there is none. *)
Definition slash (c : ascii) : bool := (c =? "/"%char)%char.
Fixpoint folder (s : text) : text :=
  match s with [] => [] | c :: r => if existsb slash s then c :: folder r else [] end.
Definition text_eqb (a b : text) : bool := if list_eq_dec ascii_dec a b then true else false.
Definition can_make (d : disk) (path : text) : bool := existsb (text_eqb (folder path)) (folders d).
Definition put_file (d : disk) (path : text) (bytes : list Z) : disk :=
  Disk (fun p => if text_eqb p path then Some bytes else files d p) (folders d).

(** How a constructor may end: with the objects and the disk afterwards; by exit(-1); or in undefined
    behaviour, by writing to a file that could not be made (tile.cpp:79-80, the assertion is compiled
    out) or past the end of a message buffer. *)
Inductive opened := Opened (objects : list wrapper) (d : disk) | Exits | NullFile | LongMessage.

(** tile.cpp:24-47.  Line 31, a file that exists but cannot be opened, is left out.  [None]: the loops
    of TileModel run out of fuel, which they do not (PropTile). *)
Definition open_path (junk : list Z) (capacity : Z) (d : disk) (path : text) : option opened :=
  match files d path with
  | None => Some (if fits_log (no_such_file path) then Exits else LongMessage)
  | Some dt =>
    let meta := meta_path path in
    let mt := files d meta in
    do (objects, bytes) <- open_tile junk capacity dt mt;
    match mt with
    | None => if can_make d meta
              then Some (if fits_log (loaded (length objects) path) then Opened objects (put_file d meta bytes) else LongMessage)
              else Some NullFile
    | Some _ => Some (if fits_log (loaded (length objects) path) then Opened objects d else LongMessage)
    end
  end.

(** tile.cpp:164-188, one thread.  The steps between which other threads may run: the test of line
    169, fseek, fread (each of the two calls locks the FILE by itself), the test of line 182, the
    assignment of line 184.  Both mutexes are commented out in the source. *)
Inductive rpc := Enter | Seek | Read | Again | Build.
(** [r_data] is mesh_data, [None] is NULL; [r_todo] are the objects still to be fetched, the first of
    them being worked at. *)
Record reader := Reader { r_pc : rpc; r_data : option (list Z); r_todo : list nat }.
(** The position in the data file and for each object the data its mesh was built from; a mesh is never
    removed again.  [Some None] is a mesh built from a null pointer. *)
Record shared := Shared { f_pos : nat; f_mesh : list (option (option (list Z))) }.

Section Readers.
  Variables (dt : list Z) (objects : list wrapper) (junk : Z).

  (** tile.cpp:165-186: objects[id], and the test whether its mesh is NULL. *)
  Definition own (i : nat) : wrapper := nth i objects (Wrapper 0 0 0 []).
  Definition meshless (g : shared) (i : nat) : bool := match nth_error (f_mesh g) i with Some None => true | _ => false end.

  (** One step of a thread that is at object [i], the rest of its work being [r]. *)
  Definition reader_step (g : shared) (t : reader) : option (shared * reader) :=
    match r_todo t with
    | [] => None
    | i :: r =>
      match r_pc t with
      | Enter => Some (g, Reader (if meshless g i then Seek else Again) None (i :: r))
      | Seek => Some (Shared (Z.to_nat (w_offset (own i))) (f_mesh g), Reader Read (r_data t) (i :: r))
      | Read => let '(bytes, _, _) := fread (repeat junk (Z.to_nat (w_data_size (own i)))) (skipn (f_pos g) dt) in
                Some (Shared (f_pos g + Nat.min (Z.to_nat (w_data_size (own i))) (length (skipn (f_pos g) dt))) (f_mesh g), Reader Again (Some bytes) (i :: r))
      | Again => if meshless g i then Some (g, Reader Build (r_data t) (i :: r)) else Some (g, Reader Enter None r)
      | Build => Some (Shared (f_pos g) (upd (f_mesh g) i (Some (r_data t))), Reader Enter None r)
      end
    end.

  (** Any number of threads at the same tile; a step is a step of one of them. *)
  Inductive share_step : shared * list reader -> shared * list reader -> Prop :=
  | share_one g ts k t g' t' : nth_error ts k = Some t -> reader_step g t = Some (g', t') -> share_step (g, ts) (g', upd ts k t').
  (** A run with all its states. *)
  Inductive share_run : shared * list reader -> list (shared * list reader) -> shared * list reader -> Prop :=
  | run_none s : share_run s [s] s
  | run_more s s' l e : share_step s s' -> share_run s' l e -> share_run s (s :: l) e.
  (** All meshes missing, every thread before its first object. *)
  Definition share_init (pos : nat) (works : list (list nat)) : shared * list reader :=
    (Shared pos (repeat None (length objects)), map (Reader Enter None) works).
End Readers.
