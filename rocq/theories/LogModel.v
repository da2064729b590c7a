(** Model of what the programs tell about themselves: the time stamps of log (/repo/src/util/util.h:49-59),
    the progress of the readers (/repo/src/test/compress.cpp:135-163, /repo/src/partition/partition.cpp:86-139),
    random samples (/repo/src/util/util.h:98-105) and the names of output files
    (/repo/src/test/data_generator.cpp:339-342, /repo/src/partition/partition.cpp:147-154,
    /repo/src/spatial/spatial_common.cpp:51-65). *)
From Coq Require Import String Ascii List ZArith QArith Bool.
From Verif Require Import TextModel.
Import ListNotations.
Open Scope Z_scope.

(** util.h:49-59 time_string of a local time; strftime writes two digits for each of hour, minute and
    second, the microseconds are cut to milliseconds and written with at least four digits. *)
Definition time_string (hour minute second usec : Z) : text :=
  map digit (digits 2 hour) ++ lit ":" ++ map digit (digits 2 minute) ++ lit ":" ++ map digit (digits 2 second)
  ++ lit "." ++ map digit (digits 4 (usec / 1000)).

(** compress.cpp:138-162: the reports made for lines of these lengths, each the number of objects and the
    percentage.  [total] is the size of the file (128).  Distribution of the lines is in CompressModel;
    maximum_lines is not reached.  No number overflows. *)
Fixpoint compress_reports (total : Z) (lines : list Z) (processed num_objects next_report : Z) : list (Z * Z) :=
  match lines with
  | [] => []
  | l :: r =>
      let processed := processed + l + 1 in
      let num_objects := num_objects + 1 in
      if processed * 100 / total =? next_report
      then (num_objects, next_report) :: compress_reports total r processed num_objects (next_report + 1)
      else compress_reports total r processed num_objects next_report
  end.
(** partition.cpp:104-139: the same with the outcome of get_rand_sample for each line (115); a line not
    taken makes no report (116). *)
Fixpoint partition_reports (total : Z) (lines : list (Z * bool)) (processed read_lines processed_lines next_report : Z) : list (Z * Z * Z) :=
  match lines with
  | [] => []
  | (l, taken) :: r =>
      let read_lines := read_lines + 1 in
      let processed := processed + l + 1 in
      if negb taken then partition_reports total r processed read_lines processed_lines next_report
      else
        let processed_lines := processed_lines + 1 in
        if processed * 100 / total =? next_report
        then (read_lines, processed_lines, next_report) :: partition_reports total r processed read_lines processed_lines (next_report + 2)
        else partition_reports total r processed read_lines processed_lines next_report
  end.

(** RAND_MAX of glibc. *)
Definition RAND_MAX : Z := 2 ^ 31 - 1.
(** util.h:98-100, [r] the value of rand(). *)
Definition get_rand_sample (r rate : Z) : bool := r mod 100 <? rate.
(** util.h:102-105; the quotient is not rounded here. *)
Definition get_rand_sample_float (r : Z) (possibility : Q) : bool :=
  negb (Qle_bool possibility (r # Z.to_pos RAND_MAX)).

(** %d of an int. *)
Definition put_d (n : Z) : text := if n <? 0 then lit "-" ++ put_int (- n) else put_int n.
(** The options of data_generator.cpp:311-322 that its output names show. *)
Record options := { num_vessel : Z; num_nuclei : Z; shrink : Q; voxel_size : Z; shifted_range : Z }.
(** data_generator.cpp:339-342: the names of the three files; [(int)shrink] cuts the fraction. *)
Definition output_name (kind : string) (output_path : text) (o : options) : text :=
  output_path ++ lit "_" ++ lit kind ++ lit "_nv" ++ put_d (num_vessel o) ++ lit "_nu" ++ put_d (num_nuclei o)
  ++ lit "_s" ++ put_d (Z.quot (Qnum (shrink o)) (Zpos (Qden (shrink o)))) ++ lit "_vs" ++ put_d (voxel_size o) ++ lit "_r" ++ put_d (shifted_range o) ++ lit ".dt".
Definition nuclei_output : text -> options -> text := output_name "n".
Definition nuclei_output2 : text -> options -> text := output_name "n2".
Definition vessel_output : text -> options -> text := output_name "v".
(** data_generator.cpp:335-338, spatial_common.cpp:52, 62: arrays of 256 characters, of which one is the
    zero at the end. *)
Definition fits_name (name : text) : bool := (length name <? 256)%nat.
(** partition.cpp:147-154 persist_tile: the name of the file of tile i. *)
Definition tile_name (prefix : text) (i : Z) : text := prefix ++ put_int i ++ lit ".off".
(** spatial_common.cpp:51-55 write_box with an id. *)
Definition box_name (prefix : text) (id : Z) : text := prefix ++ lit "." ++ put_d id ++ lit ".off".
