(** C08, C10, C11, C12: bit fields, base mesh header, whole objects. *)
From Coq Require Import List ZArith Lia Bool.
From Verif Require Import Arr RangeCoderModel RangeCoderProofs CodecModel CodecProofs BitsModel BitsProofs BaseProofs ObjectModel ObjectProofs PropCodec.
Import ListNotations.
Open Scope Z_scope.

(** C10.  Fields of 1 to 25 bits, each value fitting its width, written from any bit position of a
    buffer that is zero from there on: the cursor advances by the widths, no other bit changes,
    and reading the same widths from any buffer agreeing on those bits gives the values back. *)
Theorem bit_fields_round_trip : forall fs st, st_ok st -> Forall field_ok fs ->
  pos st + total_bits fs + 32 <= 8 * Z.of_nat (length (b_mem st)) ->
  (forall q, pos st <= q -> bit (b_mem st) q = false) ->
  exists st', writeFields st fs = Some st' /\ pos st' = pos st + total_bits fs /\ length (b_mem st') = length (b_mem st) /\
    (forall q, 0 <= q -> q < pos st \/ pos st' <= q -> bit (b_mem st') q = bit (b_mem st) q) /\
    forall mem, Forall is_byte mem -> (forall q, pos st <= q < pos st' -> bit mem q = bit (b_mem st') q) ->
      pos st' + 32 <= 8 * Z.of_nat (length mem) ->
      exists st'', readFields (Bst mem (b_bit st) (b_off st)) (map fst fs) = Some (map snd fs, st'') /\
        pos st'' = pos st' /\ b_mem st'' = mem.
Proof. exact fields_statement. Qed.
Print Assumptions bit_fields_round_trip.

Definition sample_fields : list (Z * Z) := [(4, 11); (1, 1); (25, 33554431); (16, 4660); (3, 0); (7, 127)].
Definition sample_start : bst := Bst ([171; 192] ++ repeat 0 12) 3 2.
Example bit_fields_nonvacuous :
  st_ok sample_start /\ Forall field_ok sample_fields /\
  pos sample_start + total_bits sample_fields + 32 <= 8 * Z.of_nat (length (b_mem sample_start)) /\
  (forall q, pos sample_start <= q -> bit (b_mem sample_start) q = false) /\
  match writeFields sample_start sample_fields with
  | Some s => readFields (Bst (b_mem s) 3 2) (map fst sample_fields) = Some (map snd sample_fields, s) /\ b_mem s <> b_mem sample_start
  | None => False
  end.
Proof.
  split; [repeat split; try (cbn; lia); repeat constructor; cbn; lia|].
  split; [repeat constructor; cbn; lia|]. split; [vm_compute; discriminate|]. split.
  - intros q Hq. change (pos sample_start) with 11 in Hq. unfold bit, sample_start. cbn [b_mem].
    destruct (Z.lt_ge_cases q 16).
    + assert (C : q = 11 \/ q = 12 \/ q = 13 \/ q = 14 \/ q = 15) by lia. repeat (destruct C as [->|C]; [reflexivity|]). subst q. reflexivity.
    + assert (2 <= q / 8) by (apply Z.div_le_lower_bound; lia).
      rewrite app_nth2 by (cbn; lia). rewrite nth_repeat. apply Z.bits_0.
  - vm_compute. split; [reflexivity|discriminate].
Qed.

(** C10, the limit: a field that ends more than 32 bits behind its byte (25 < width) is undefined
    behaviour at some alignments, and a value wider than its field damages its neighbour. *)
Theorem wide_bit_field_refuted : exists st nb v, st_ok st /\ 1 <= nb <= 32 /\ 0 <= v < 2 ^ nb /\ writeBits st v nb = None.
Proof.
  exists (Bst (repeat 0 8) 7 1), 26, 1. split; [|split; [lia|split; [split; [lia|reflexivity]|reflexivity]]].
  split; [cbn; lia|]. split; [cbn; lia|]. repeat constructor; lia.
Qed.
Print Assumptions wide_bit_field_refuted.

(** C11.  Every base mesh within the format is read back as the same object up to a renumbering
    of its vertices that puts the two departure vertices first; the cursor ends where the
    writer's did.  [bpv] is any computation of the bits per vertex id that is wide enough. *)
Theorem base_mesh_round_trip : forall bpv m K, writable bpv m ->
  128 + bits_of_header (bpv (Z.of_nat (length (m_pos m)))) (m_quant m - m_nquant m) (Z.of_nat (length (m_pos m))) (m_faces m) + 32
    <= 8 * Z.of_nat K ->
  exists h, writeBaseMesh bpv (repeat 0 K) m = Some h /\ Forall is_byte h /\
    forall tail, Forall is_byte tail -> (3 <= length tail)%nat ->
      exists r, readBaseMesh bpv (h ++ tail) = Some (r, Z.of_nat (length h)) /\ same_object m r.
Proof. exact header_round_trip. Qed.
Print Assumptions base_mesh_round_trip.

(** An octahedron quantised to 12 bits, one face merged, departure edge (4, 1). *)
Definition sample_base : base :=
  Base (1065353216, 3212836864, 0) 981467136 12 2 0 1
    [(0, 2048, 2048); (4095, 2048, 2048); (2048, 0, 2048); (2048, 4095, 2048); (2048, 2048, 0); (2048, 2048, 4095)]
    (4%nat, 1%nat)
    [[0; 2; 5]; [2; 1; 5]; [1; 3; 5]; [3; 0; 5]; [2; 0; 4]; [1; 2; 4]; [3; 1; 4; 0]]%nat.
Example sample_base_writable : writable Z.log2_up sample_base.
Proof.
  unfold writable, sample_base. cbn [m_box m_step m_quant m_rounds m_nquant m_notconvex m_pos m_dep m_faces length fst snd].
  split; [repeat constructor; try lia; reflexivity|].
  split; [lia|]. split; [lia|]. split; [lia|]. split; [lia|]. split; [reflexivity|]. split; [reflexivity|].
  split; [lia|]. split; [lia|]. split; [discriminate|].
  split; [change (2 ^ (12 - 0)) with 4096; repeat constructor; lia|].
  split; [repeat constructor; cbn [length]; lia|].
  split; [vm_compute; split; discriminate|vm_compute; discriminate].
Qed.
Example base_mesh_nonvacuous :
  match writeBaseMesh Z.log2_up (repeat 0 80) sample_base with
  | Some h => match readBaseMesh Z.log2_up (h ++ [255; 255; 255]) with
              | Some (r, off) => off = Z.of_nat (length h) /\ nth_error (r_pos r) 0 = Some (2048, 2048, 0) /\
                                 nth_error (r_faces r) 6 = Some [4; 4; 1; 0; 2]
              | None => False
              end
  | None => False
  end.
Proof. vm_compute. repeat split. Qed.

(** C12 is false: no buffer whatsoever is read as a mesh of 65536 vertices or faces, of a face
    with more than 10 corners, or of 64 rounds. *)
Theorem base_mesh_any_size_refuted : forall m,
  65536 <= Z.of_nat (length (m_pos m)) \/ 65536 <= Z.of_nat (length (m_faces m)) \/ 64 <= m_rounds m \/ 16 < m_quant m \/
    Exists (fun f => 10 < length f)%nat (m_faces m) ->
  forall bpv mem r off, Forall is_byte mem -> readBaseMesh bpv mem = Some (r, off) -> ~ same_object m r.
Proof. exact too_big. Qed.
Print Assumptions base_mesh_any_size_refuted.

(** And the writer does not notice: a pyramid over an 11-gon is written without complaint. *)
Definition big_pyramid : base :=
  Base (0, 0, 0) 0 8 0 0 0
    ((128, 128, 255) :: map (fun i => (Z.of_nat i * 23, Z.of_nat (i * i) mod 200, 0)) (seq 0 11))
    (0%nat, 1%nat)
    (seq 1 11 :: map (fun i => [0%nat; S (S i mod 11); S i]%nat) (seq 0 11)).
Theorem large_face_written_refuted : exists m h, Exists (fun f => 10 < length f)%nat (m_faces m) /\
  writeBaseMesh Z.log2_up (repeat 0 100) m = Some h /\
  match readBaseMesh Z.log2_up (h ++ [0; 0; 0]) with
  | Some (r, off) => ~ same_object m r
  | None => True
  end.
Proof.
  exists big_pyramid. destruct (writeBaseMesh Z.log2_up (repeat 0 100) big_pyramid) as [h|] eqn:E; [|vm_compute in E; discriminate].
  exists h. split; [left; cbn; lia|]. split; [reflexivity|].
  destruct (readBaseMesh _ _) as [[r off]|] eqn:E2; [|exact I].
  apply (too_big big_pyramid) with (3 := E2).
  - right. right. right. right. left. cbn. lia.
  - assert (B : forallb (fun b => (0 <=? b) && (b <? 256))%bool (h ++ [0; 0; 0]) = true).
    { vm_compute in E. injection E as <-. reflexivity. }
    rewrite forallb_forall in B. apply Forall_forall. intros x Hx. specialize (B x Hx). apply andb_prop in B. destruct B as [B1 B2].
    apply Z.leb_le in B1. apply Z.ltb_lt in B2. split; auto.
Qed.
Print Assumptions large_face_written_refuted.
Example any_size_nonvacuous : exists mem r off, Forall is_byte mem /\ readBaseMesh Z.log2_up mem = Some (r, off) /\ r_faces r <> [].
Proof.
  destruct (base_mesh_round_trip Z.log2_up sample_base 80 sample_base_writable) as (h & _ & B & D); [vm_compute; discriminate|].
  destruct (D [0; 0; 0]) as (r & E & S); [repeat constructor; cbn; lia|cbn; lia|].
  exists (h ++ [0; 0; 0]), r, (Z.of_nat (length h)). split; [|split; [exact E|]].
  - rewrite Forall_app. split; [exact B|repeat constructor; cbn; lia].
  - destruct S as (_ & _ & _ & _ & _ & _ & _ & ren & _ & _ & _ & _ & F). rewrite F. discriminate.
Qed.

(** C08.  A whole object, base mesh and rounds, written by the compressor in a zero-filled buffer,
    is read back: the base mesh, then the first [k] rounds for any [k], whatever bytes follow;
    after all rounds the cursor is exactly at the end.  The traversals [nf], [ne], which may depend
    on the base mesh read, need only ask for as many symbols as were written. *)
Theorem whole_object_round_trip : forall bpv junk m K rounds,
  writable bpv m ->
  128 + bits_of_header (bpv (Z.of_nat (length (m_pos m)))) (m_quant m - m_nquant m) (Z.of_nat (length (m_pos m))) (m_faces m) + 32
    <= 8 * Z.of_nat K ->
  rounds <> [] -> Forall codable_round rounds ->
  exists h body, writeBaseMesh bpv (repeat 0 K) m = Some h /\
    writeCompressedData bpv junk (repeat 0 K) m rounds = Some (h ++ body) /\
    forall rest, Forall is_byte rest -> exists r, same_object m r /\
      forall junk' nf ne k, asks (nf r) (ne r) [] rounds -> (k <= length rounds)%nat ->
        exists more, readObject bpv junk' nf ne (h ++ body ++ rest) k = Some (r, firstn k rounds, more) /\
          (k = length rounds -> more = rest).
Proof. exact object_round_trip. Qed.
Print Assumptions whole_object_round_trip.
Example whole_object_nonvacuous :
  writable Z.log2_up sample_base /\
  128 + bits_of_header (Z.log2_up 6) (m_quant sample_base - m_nquant sample_base) 6 (m_faces sample_base) + 32 <= 8 * Z.of_nat 80 /\
  sample_rounds <> [] /\ Forall codable_round sample_rounds.
Proof.
  split; [exact sample_base_writable|]. split; [vm_compute; discriminate|]. split; [discriminate|exact sample_rounds_codable].
Qed.
