(** Model of how the partitioner measures its input: /repo/src/util/util.h:142-158 (file_size) and the reading loop of
    /repo/src/partition/partition.cpp:86-145 with its percentage.  The type long is unbounded here. *)
From Coq Require Import List ZArith Ascii Bool.
Import ListNotations.
Open Scope Z_scope.

(** What is behind a path: nothing (stat fails), a file of some size that cannot be opened, a file with its bytes. *)
Inductive file := Missing | Locked (size : Z) | Readable (bytes : list ascii).
Definition newline : ascii := "010"%char.
(** util.h:142-146 file_size: st_size, or -1. *)
Definition file_size (f : file) : Z := match f with Missing => -1 | Locked n => n | Readable t => Z.of_nat (length t) end.
(** util.h:148-157 file_size of a list. *)
Definition file_sizes (files : list file) : Z :=
  fold_left (fun size f => let ls := file_size f in if 0 <? ls then size + ls else size) files 0.
(** partition.cpp:109-111: what getline gives one after the other; [cur] are the bytes of the line so far, the last first.
    At the end of the file a line is given only when it has a byte. *)
Fixpoint getlines (cur : list ascii) (t : list ascii) : list (list ascii) :=
  match t with
  | [] => match cur with [] => [] | _ => [rev cur] end
  | c :: r => if Ascii.eqb c newline then rev cur :: getlines [] r else getlines (c :: cur) r
  end.
(** partition.cpp:108-111: the lines of a file; a stream that could not be opened gives none. *)
Definition lines_of (f : file) : list (list ascii) := match f with Readable t => getlines [] t | _ => [] end.
(** partition.cpp:111-140: [i] is the number of the line, [taken i] the answer of get_rand_sample; processed_filesize (113) and,
    for the lines taken, the two numbers divided in line 134. *)
Fixpoint percentages (total : Z) (taken : nat -> bool) (i : nat) (lines : list (list ascii)) (processed : Z) : list (Z * Z) * Z :=
  match lines with
  | [] => ([], processed)
  | l :: r =>
    let processed := processed + Z.of_nat (length l) + 1 in
    let (ds, last) := percentages total taken (S i) r processed in
    (if taken i then (processed * 100, total) :: ds else ds, last)
  end.
(** partition.cpp:86-145: the divisions and processed_filesize at the end. *)
Definition measure (taken : nat -> bool) (files : list file) : list (Z * Z) * Z :=
  percentages (file_sizes files) taken 0 (flat_map lines_of files) 0.
