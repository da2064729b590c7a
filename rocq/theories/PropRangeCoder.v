(** Properties C01, C02: the range coder. *)
From Coq Require Import List ZArith.
From Verif Require Import RangeCoderModel RangeCoderSpec RangeCoderSpecProofs RangeCoderLen.
Import ListNotations.
Open Scope Z_scope.

(** C01.  Any message of codable items, written behind any buffer content and read at the
    place where it was written, comes back; so does the lead byte.  The bound on the number
    of items is what keeps the 32-bit counter of outstanding bytes from wrapping; a lead byte
    of 255 is taken for EOF by the reader. *)
Theorem range_coder_round_trip : forall c msg buffer,
  0 <= c < 255 -> Forall codable msg -> 4 * Z.of_nat (length msg) + 8 < 2 ^ 32 ->
  exists seg,
    write_message c buffer msg = Some (buffer ++ seg) /\
    Forall (fun b => 0 <= b < 256) seg /\
    forall rest, read_message (seg ++ rest) (map fst msg) = Some (c, map snd msg, rest).
Proof. exact message_round_trip. Qed.
Print Assumptions range_coder_round_trip.

Definition sample_msg : list (method * Z) :=
  [(ByShift 10 [1; 1022; 1], 2); (ByFreq 7 [3; 0; 4], 0); (RawByte, 255); (RawShort, 65535);
   (ByShift 23 [8388607; 1], 1); (ByFreq 7 [3; 0; 4], 2)].
Example range_coder_round_trip_nonvacuous :
  0 <= 0 < 255 /\ Forall codable sample_msg /\ 4 * Z.of_nat (length sample_msg) + 8 < 2 ^ 32 /\
  match write_message 0 [9; 9] sample_msg with
  | Some b => read_message (skipn 2 b ++ [1; 2]) (map fst sample_msg)
              = Some (0, map snd sample_msg, [1; 2])
  | None => False
  end.
Proof.
  split; [split; [discriminate|reflexivity]|]. split.
  - repeat constructor; try discriminate; try reflexivity.
  - split; [reflexivity|vm_compute; reflexivity].
Qed.

(** C02.  Messages written one after the other into one buffer leave what was there before
    untouched and are read back one after the other by a single advancing cursor, whatever
    follows them. *)
Theorem range_coder_segments_self_delimiting : forall msgs : list (Z * list (method * Z)),
  Forall (fun m => 0 <= fst m < 255 /\ Forall codable (snd m) /\
                   4 * Z.of_nat (length (snd m)) + 8 < 2 ^ 32) msgs ->
  forall buffer,
  exists body,
    fold_left (fun b m => match b with None => None | Some b => write_message (fst m) b (snd m) end)
      msgs (Some buffer) = Some (buffer ++ body) /\
    forall rest,
    fold_left (fun st m => match st with None => None | Some (acc, inp) =>
                  match read_message inp (map fst (snd m)) with
                  | None => None | Some (c, vs, inp') => Some (acc ++ [(c, vs)], inp') end end)
      msgs (Some ([], body ++ rest))
    = Some (map (fun m => (fst m, map snd (snd m))) msgs, rest).
Proof. exact message_sequence. Qed.
Print Assumptions range_coder_segments_self_delimiting.

Example range_coder_segments_nonvacuous :
  Forall (fun m : Z * list (method * Z) => 0 <= fst m < 255 /\ Forall codable (snd m) /\
                   4 * Z.of_nat (length (snd m)) + 8 < 2 ^ 32)
         [(0, sample_msg); (7, []); (0, [(RawByte, 3)])].
Proof. repeat constructor; try discriminate; try reflexivity. Qed.

(** C02, for arbitrary and possibly corrupt input: a successful read does not depend on the
    bytes behind the cursor's final position. *)
Theorem range_coder_read_is_local : forall x inp ms c vs rest,
  read_message inp ms = Some (c, vs, rest) -> read_message (inp ++ x) ms = Some (c, vs, rest ++ x).
Proof. exact read_tail. Qed.
Print Assumptions range_coder_read_is_local.

Example range_coder_read_is_local_nonvacuous :
  exists vs rest, read_message [1; 200; 3; 4; 5; 6; 7; 8] [RawByte; RawByte] = Some (1, vs, rest).
Proof. vm_compute. eauto. Qed.

(** The lead byte 255 really is rejected: the reader mistakes it for end of file. *)
Theorem range_coder_lead_byte_255_refuted :
  exists seg, write_message 255 [] [(RawByte, 5)] = Some seg /\ read_message seg [RawByte] = None.
Proof.
  exists (match write_message 255 [] [(RawByte, 5)] with Some s => s | None => [] end).
  split; vm_compute; reflexivity.
Qed.
Print Assumptions range_coder_lead_byte_255_refuted.

(** C80.  A message ends with its own length in bytes, three bytes big-endian (modulo 2^24); it takes
    at least 5 bytes and at most 4 per item and 9 more. *)
Theorem range_coder_trailer : forall c msg seg, 0 <= c < 256 -> Forall codable msg -> 4 * Z.of_nat (length msg) + 8 < 2 ^ 32 ->
  write_message c [] msg = Some seg ->
  exists body x y z, seg = body ++ [x; y; z] /\ (x * 256 + y) * 256 + z = Z.of_nat (length seg) mod 2 ^ 24 /\
    (5 <= length seg <= 4 * length msg + 9)%nat.
Proof. exact trailer. Qed.
Print Assumptions range_coder_trailer.
Example range_coder_trailer_nonvacuous : exists seg, write_message 0 [] sample_msg = Some seg /\ skipn (length seg - 3) seg = [0; 0; 10].
Proof. eexists. split; vm_compute; reflexivity. Qed.
