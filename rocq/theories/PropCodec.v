(** Properties C05 to C09: adaptive streams, records, and the progressive stream. *)
From Coq Require Import List ZArith.
From Verif Require Import Arr RangeCoderModel QsModel CodecModel CodecProofs.
Import ListNotations.
Open Scope Z_scope.

(** C05.  A list of symbols coded with an adaptive model is read back, the cursor ends where the
    writer stopped, and the two models agree now and after any common later history.  [junk] and
    [junk'] are the unrelated contents of fresh memory on both sides. *)
Theorem adaptive_stream_round_trip : forall junk n lg rescale syms buffer,
  1 <= n <= 2 ^ lg -> 7 <= lg <= 23 -> Forall (fun s => 0 <= s < n) syms ->
  4 * Z.of_nat (length syms) + 8 < 2 ^ 32 ->
  exists m e m' seg,
    initqsmodel junk n lg rescale None true = Some m /\
    enc_syms (start_encoding 0 0 buffer) m lg syms = Some (e, m') /\
    done_encoding e = Some (buffer ++ seg) /\
    forall junk' rest, exists md d d' md',
      initqsmodel junk' n lg rescale None false = Some md /\
      start_decoding (seg ++ rest) = Some (0, d) /\
      dec_syms d md lg (length syms) = Some (syms, d', md') /\
      done_decoding d' = Some rest /\
      forall later, Forall (fun s => 0 <= s < n) later ->
      exists m1 m2, qsupdates m' later = Some m1 /\ qsupdates md' later = Some m2 /\
        forall s, 0 <= s < n -> qsgetfreq m1 s = qsgetfreq m2 s.
Proof. exact stream_statement. Qed.
Print Assumptions adaptive_stream_round_trip.

Example adaptive_stream_nonvacuous :
  1 <= 5 <= 2 ^ 8 /\ 7 <= 8 <= 23 /\ Forall (fun s => 0 <= s < 5) [4; 4; 4; 0; 3; 4; 4; 1; 4; 4; 4; 4] /\
  4 * Z.of_nat (length [4; 4; 4; 0; 3; 4; 4; 1; 4; 4; 4; 4]) + 8 < 2 ^ 32.
Proof.
  split; [split; discriminate|]. split; [split; discriminate|].
  split; [repeat constructor; discriminate|reflexivity].
Qed.

(** C06.  The removed-vertex record of a round: split flags and residuals.  The bounds on the
    residuals are those of the format: signed 16 bits, spread below 65535 (the documented window
    of +-2^14 lies inside). *)
Theorem removed_vertex_record_round_trip : forall junk buffer faces, codable_faces faces ->
  exists seg,
    encodeRemovedVertices junk buffer (face_symbols faces) (residual_symbols faces) = Some (buffer ++ seg) /\
    forall junk' rest, decodeRemovedVertices junk' (seg ++ rest) (length faces) = Some (faces, rest).
Proof. exact removed_statement. Qed.
Print Assumptions removed_vertex_record_round_trip.

Definition sample_faces : list (option vec) :=
  [Some (-3, 5, 0); None; None; Some (7, -8, 2); Some (0, 0, 0); None].
Example sample_faces_codable : codable_faces sample_faces.
Proof.
  split; [discriminate|]. split; [|split; [|reflexivity]].
  - cbn. intros c H. repeat (destruct H as [<-|H]; [split; [discriminate|reflexivity]|]). contradiction.
  - cbn. intros c c' H H'.
    repeat (destruct H as [<-|H]; [repeat (destruct H' as [<-|H']; [reflexivity|]); contradiction|]). contradiction.
Qed.
Example removed_vertex_nonvacuous :
  match encodeRemovedVertices (fun _ => 9) [1; 2] (face_symbols sample_faces) (residual_symbols sample_faces) with
  | Some b => decodeRemovedVertices (fun _ => 5) (skipn 2 b ++ [4]) 6 = Some (sample_faces, [4])
  | None => False
  end.
Proof. vm_compute. reflexivity. Qed.

(** Outside that window the record is silently corrupted: the assertion guarding it
    (mymeshComp.cpp:511) is compiled out. *)
Theorem removed_vertex_outside_window_refuted :
  exists faces seg faces',
    encodeRemovedVertices (fun _ => 0) [] (face_symbols faces) (residual_symbols faces) = Some seg /\
    decodeRemovedVertices (fun _ => 0) seg (length faces) = Some (faces', []) /\ faces' <> faces.
Proof.
  exists [Some (40000, 40001, 40000)],
    (match encodeRemovedVertices (fun _ => 0) [] [1] [(40000, 40001, 40000)] with Some s => s | None => [] end),
    [Some (-25536, -25535, -25536)].
  split; [vm_compute; reflexivity|]. split; [vm_compute; reflexivity|discriminate].
Qed.
Print Assumptions removed_vertex_outside_window_refuted.

(** C07.  The inserted-edge flags of a round. *)
Theorem inserted_edge_record_round_trip : forall junk buffer flags,
  Forall (fun s => s = 0 \/ s = 1) flags -> 4 * Z.of_nat (length flags) + 8 < 2 ^ 32 ->
  exists seg,
    encodeInsertedEdges junk buffer flags = Some (buffer ++ seg) /\
    forall junk' rest, decodeInsertedEdges junk' (seg ++ rest) (length flags) = Some (flags, rest).
Proof. exact edges_statement. Qed.
Print Assumptions inserted_edge_record_round_trip.

Definition sample_flags : list Z := [0; 0; 1; 0; 1; 1; 0; 0; 0; 0; 0; 0; 1].
Example inserted_edge_nonvacuous :
  Forall (fun s => s = 0 \/ s = 1) sample_flags /\ 4 * Z.of_nat (length sample_flags) + 8 < 2 ^ 32 /\
  match encodeInsertedEdges (fun _ => 9) [1; 2] sample_flags with
  | Some b => decodeInsertedEdges (fun _ => 5) (skipn 2 b ++ [4]) 13 = Some (sample_flags, [4])
  | None => False
  end.
Proof.
  split; [repeat (constructor; [first [left; reflexivity|right; reflexivity]|]); constructor|]. split; [reflexivity|]. vm_compute. reflexivity.
Qed.

(** C08 (records; the header is C11).  All rounds of an object, written in any buffer, are read
    back one by one, whatever the traversal functions [nf] and [ne] as long as they ask for as
    many symbols as were written; the cursor ends exactly behind the last record. *)
Theorem progressive_stream_round_trip : forall junk rounds buffer, Forall codable_round rounds ->
  exists body, write_rounds junk buffer rounds = Some (buffer ++ body) /\
    forall junk' nf ne rest, asks nf ne [] rounds ->
      read_rounds junk' nf ne [] (body ++ rest) (length rounds) = Some (rounds, rest).
Proof. exact rounds_statement. Qed.
Print Assumptions progressive_stream_round_trip.

(** C09.  The bytes of the first rounds do not depend on the rounds written later, and from those
    bytes alone, followed by anything, the reader gets exactly those rounds. *)
Theorem progressive_prefix_stable : forall junk early late buffer, Forall codable_round (early ++ late) ->
  exists first, write_rounds junk buffer early = Some (buffer ++ first) /\
  exists second, write_rounds junk buffer (early ++ late) = Some (buffer ++ first ++ second) /\
    forall junk' nf ne anything, asks nf ne [] early ->
      read_rounds junk' nf ne [] (first ++ anything) (length early) = Some (early, anything).
Proof. exact prefix_statement. Qed.
Print Assumptions progressive_prefix_stable.

Definition sample_rounds : list round := [(sample_faces, sample_flags); ([None; Some (1, 1, 1)], [1; 0])].
Example sample_rounds_codable : Forall codable_round sample_rounds.
Proof.
  constructor; [split; [exact sample_faces_codable|split; [repeat constructor; discriminate|reflexivity]]|].
  constructor; [|constructor]. split; [|split; [repeat constructor; discriminate|reflexivity]].
  split; [discriminate|]. split; [|split; [|reflexivity]].
  - cbn. intros c H. repeat (destruct H as [<-|H]; [split; [discriminate|reflexivity]|]). contradiction.
  - cbn. intros c c' H H'.
    repeat (destruct H as [<-|H]; [repeat (destruct H' as [<-|H']; [reflexivity|]); contradiction|]). contradiction.
Qed.
Example progressive_nonvacuous :
  Forall codable_round sample_rounds /\
  asks (fun s => match s with [] => 6%nat | _ => 2%nat end) (fun s _ => match s with [] => 13%nat | _ => 2%nat end)
       [] sample_rounds /\
  match write_rounds (fun _ => 9) [] sample_rounds with
  | Some b => read_rounds (fun _ => 5) (fun s => match s with [] => 6%nat | _ => 2%nat end)
                (fun s _ => match s with [] => 13%nat | _ => 2%nat end) [] (b ++ [4]) 2 = Some (sample_rounds, [4])
  | None => False
  end.
Proof.
  split; [exact sample_rounds_codable|split; [repeat split; reflexivity|vm_compute; reflexivity]].
Qed.

(** C09, for arbitrary bytes: appending anything to a readable stream changes nothing, and the
    coarse levels met on the way to a finer one are those read when stopping early. *)
Theorem reading_ignores_what_follows : forall junk nf ne inp x k rounds rest,
  read_rounds junk nf ne [] inp k = Some (rounds, rest) ->
  read_rounds junk nf ne [] (inp ++ x) k = Some (rounds, rest ++ x).
Proof. exact any_prefix_statement. Qed.
Print Assumptions reading_ignores_what_follows.
Theorem coarse_levels_are_prefixes : forall junk nf ne inp k k' rounds rest,
  read_rounds junk nf ne [] inp (k + k') = Some (rounds, rest) ->
  exists coarse mid, read_rounds junk nf ne [] inp k = Some (coarse, mid) /\ firstn k rounds = coarse.
Proof. exact refine_statement. Qed.
Print Assumptions coarse_levels_are_prefixes.

(** Bytes no writer produced: a corrupted record. *)
Example reading_arbitrary_bytes_nonvacuous :
  read_rounds (fun _ => 0) (fun _ => 2%nat) (fun _ _ => 3%nat) []
    [0; 0; 1; 0; 2; 200; 17; 3; 9; 0; 128; 0; 77; 5; 6] 1
  = Some ([([Some (2, 1, 1); Some (1, 1, 1)], [1; 0; 0])], [6]).
Proof. vm_compute. reflexivity. Qed.
