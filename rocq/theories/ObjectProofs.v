(** Whole objects: header and rounds together; limits of the header. *)
From Coq Require Import List ZArith Lia Bool.
From Verif Require Import Arr RangeCoderModel RangeCoderProofs QsModelProofs CodecModel CodecProofs BitsModel BitsProofs BaseProofs ObjectModel.
Import ListNotations.
Open Scope Z_scope.

Lemma codable_asks_skip (A : Type) (h t : list A) : skipn (length h) (h ++ t) = t.
Proof. rewrite skipn_app, skipn_all, Nat.sub_diag. reflexivity. Qed.

Theorem object_round_trip bpv junk m K rounds :
  writable bpv m ->
  128 + bits_of_header (bpv (Z.of_nat (length (m_pos m)))) (m_quant m - m_nquant m) (Z.of_nat (length (m_pos m))) (m_faces m) + 32 <= 8 * Z.of_nat K ->
  rounds <> [] -> Forall codable_round rounds ->
  exists h body, writeBaseMesh bpv (repeat 0 K) m = Some h /\
    writeCompressedData bpv junk (repeat 0 K) m rounds = Some (h ++ body) /\
    forall rest, Forall is_byte rest -> exists r, same_object m r /\
      forall junk' nf ne k, asks (nf r) (ne r) [] rounds -> (k <= length rounds)%nat ->
        exists more, readObject bpv junk' nf ne (h ++ body ++ rest) k = Some (r, firstn k rounds, more) /\
          (k = length rounds -> more = rest).
Proof.
  intros HW HK Hne Hc. destruct (header_round_trip bpv m K HW HK) as (h & Eh & Bh & Dh).
  destruct (rounds_round_trip junk rounds Hc h) as (body & Eb & Bb & Lb & _).
  exists h, body. split; [auto|]. split; [unfold writeCompressedData; rewrite Eh; exact Eb|].
  intros rest Brest. destruct (Dh (body ++ rest)) as (r & Er & Hs).
  { rewrite Forall_app. auto. }
  { rewrite app_length. destruct rounds; [congruence|]. cbn [length] in Lb. lia. }
  exists r. split; [auto|]. intros junk' nf ne k Ha Hk.
  assert (Hsplit : rounds = firstn k rounds ++ skipn k rounds) by (symmetry; apply firstn_skipn).
  assert (Hc2 := Hc). rewrite Hsplit, Forall_app in Hc2. destruct Hc2 as [Hc1 Hc2].
  destruct (rounds_round_trip junk _ Hc1 h) as (b1 & E1 & _ & _ & D1).
  destruct (rounds_round_trip junk _ Hc2 (h ++ b1)) as (b2 & E2 & _ & _ & _).
  assert (Hbody : body = b1 ++ b2).
  { rewrite Hsplit, write_rounds_app, E1 in Eb. cbn [bind] in Eb. rewrite E2 in Eb. apply (app_inv_head h). rewrite app_assoc. congruence. }
  exists (b2 ++ rest). split.
  - unfold readObject. rewrite Er. cbn [bind]. rewrite Nat2Z.id, codable_asks_skip. rewrite Hbody, <- app_assoc.
    assert (Ha1 : asks (nf r) (ne r) [] (firstn k rounds)) by (rewrite Hsplit in Ha; eapply asks_prefix; eauto).
    specialize (D1 junk' (nf r) (ne r) [] (b2 ++ rest) Ha1).
    rewrite firstn_length_le in D1 by lia. rewrite D1. cbn [bind app]. reflexivity.
  - intros ->. rewrite skipn_all in E2. cbn [write_rounds] in E2. injection E2 as E2. rewrite <- (app_nil_r (h ++ b1)) in E2 at 1.
    apply app_inv_head in E2. subst b2. reflexivity.
Qed.

(** ** What no buffer can hold *)
Lemma readBits_lt st nb v st' : Forall is_byte (b_mem st) -> 0 <= b_bit st < 8 -> 1 <= nb <= 25 ->
  readBits st nb = Some (v, st') -> 0 <= v < 2 ^ nb /\ b_mem st' = b_mem st /\ 0 <= b_bit st' < 8.
Proof.
  intros HB Hb Hnb H.
  assert (Ho : 1 <= b_off st /\ b_off st + 3 <= Z.of_nat (length (b_mem st))).
  { unfold readBits in H. destruct (_ || _)%bool; [discriminate|]. unfold load32 in H.
    assert (X : forall p x, aget (b_mem st) p = Some x -> 0 <= p < Z.of_nat (length (b_mem st))).
    { intros p x Hx. unfold aget in Hx. destruct (Z.ltb_spec p 0); [discriminate|].
      assert (Z.to_nat p < length (b_mem st))%nat by (apply nth_error_Some; congruence). lia. }
    destruct (aget (b_mem st) (b_off st - 1)) eqn:A0; [|discriminate]. apply X in A0. cbn [bind] in H.
    destruct (aget (b_mem st) (b_off st - 1 + 1)); [|discriminate]. cbn [bind] in H.
    destruct (aget (b_mem st) (b_off st - 1 + 2)); [|discriminate]. cbn [bind] in H.
    destruct (aget (b_mem st) (b_off st - 1 + 3)) eqn:A3; [|discriminate]. apply X in A3. lia. }
  destruct (readBits_spec st nb) as (v' & E & Hv & _); [split; [auto|split; [lia|auto]]|auto|lia|].
  rewrite E in H. injection H as <- <-. cbn [b_mem b_bit]. split; [auto|]. split; [auto|]. apply Z.mod_pos_bound. lia.
Qed.

Lemma readBits_any st nb v st' : 0 <= b_bit st < 8 -> readBits st nb = Some (v, st') -> b_mem st' = b_mem st /\ 0 <= b_bit st' < 8.
Proof.
  intros Hb H. unfold readBits in H. destruct (_ || _)%bool; [discriminate|]. destruct (load32 _ _); [|discriminate].
  cbn [bind] in H. injection H as <- <-. cbn [b_mem b_bit]. split; [auto|]. apply Z.mod_pos_bound. lia.
Qed.

Lemma read_points_any nb k : forall st ps st', 0 <= b_bit st < 8 -> read_points st nb k = Some (ps, st') ->
  length ps = k /\ b_mem st' = b_mem st /\ 0 <= b_bit st' < 8.
Proof.
  induction k as [|k IH]; intros st ps st' Hb H; cbn [read_points] in H.
  - injection H as <- <-. auto.
  - unfold read3 in H. destruct (readBits st nb) as [[x s1]|] eqn:E1; [|discriminate]. cbn [bind] in H. apply readBits_any in E1; [|auto]. destruct E1 as [M1 B1].
    destruct (readBits s1 nb) as [[y s2]|] eqn:E2; [|discriminate]. cbn [bind] in H. apply readBits_any in E2; [|auto]. destruct E2 as [M2 B2].
    destruct (readBits s2 nb) as [[z s3]|] eqn:E3; [|discriminate]. cbn [bind] in H. apply readBits_any in E3; [|auto]. destruct E3 as [M3 B3].
    destruct (read_points s3 nb k) as [[r s4]|] eqn:E4; [|discriminate]. cbn [bind] in H. injection H as <- <-.
    apply IH in E4; [|auto]. destruct E4 as (L & M & B). cbn [length]. split; [lia|]. split; [congruence|auto].
Qed.

Lemma read_ids_any nb k : forall st ids st', 0 <= b_bit st < 8 -> read_ids st nb k = Some (ids, st') ->
  length ids = k /\ b_mem st' = b_mem st /\ 0 <= b_bit st' < 8.
Proof.
  induction k as [|k IH]; intros st ids st' Hb H; cbn [read_ids] in H.
  - injection H as <- <-. auto.
  - destruct (readBits st nb) as [[x s1]|] eqn:E1; [|discriminate]. cbn [bind] in H. apply readBits_any in E1; [|auto]. destruct E1 as [M1 B1].
    destruct (read_ids s1 nb k) as [[r s2]|] eqn:E2; [|discriminate]. cbn [bind] in H. injection H as <- <-.
    apply IH in E2; [|auto]. destruct E2 as (L & M & B). cbn [length]. split; [lia|]. split; [congruence|auto].
Qed.

Lemma read_faces_any nb k : forall st fs st', Forall is_byte (b_mem st) -> 0 <= b_bit st < 8 -> read_faces st nb k = Some (fs, st') ->
  length fs = k /\ Forall (fun f => (length f <= 11)%nat) fs.
Proof.
  induction k as [|k IH]; intros st fs st' HB Hb H; cbn [read_faces] in H.
  - injection H as <- <-. auto.
  - destruct (readBits st FACE_BITS) as [[x s1]|] eqn:E1; [|discriminate]. cbn [bind] in H.
    apply readBits_lt in E1; [|auto|auto|unfold FACE_BITS; lia]. destruct E1 as (V & M1 & B1). change (2 ^ FACE_BITS) with 8 in V.
    destruct (read_ids s1 nb _) as [[r s2]|] eqn:E2; [|discriminate]. cbn [bind] in H. apply read_ids_any in E2; [|auto]. destruct E2 as (L & M2 & B2).
    destruct (read_faces s2 nb k) as [[r' s3]|] eqn:E3; [|discriminate]. cbn [bind] in H. injection H as <- <-.
    apply IH in E3; [|congruence|auto]. destruct E3 as (L3 & F3). cbn [length]. split; [lia|]. constructor; [cbn [length]; lia|auto].
Qed.

Lemma header_limits bpv mem r off : Forall is_byte mem -> readBaseMesh bpv mem = Some (r, off) ->
  Z.of_nat (length (r_pos r)) < 65536 /\ Z.of_nat (length (r_faces r)) < 65536 /\ r_rounds r < 64 /\ r_quant r <= 16 /\
  Forall (fun f => (length f <= 11)%nat) (r_faces r).
Proof.
  intros HB H. unfold readBaseMesh, readFloat in H.
  destruct (load32 mem 0); [|discriminate]. cbn [bind] in H. destruct (load32 mem (0 + 4)); [|discriminate]. cbn [bind] in H.
  destruct (load32 mem (0 + 4 + 4)); [|discriminate]. cbn [bind] in H. destruct (load32 mem (0 + 4 + 4 + 4)); [|discriminate]. cbn [bind] in H.
  set (st := Bst mem 0 _) in H.
  destruct (readBits st 4) as [[q s1]|] eqn:E1; [|discriminate]. cbn [bind] in H. apply readBits_lt in E1; [|exact HB|cbn; lia|lia]. destruct E1 as (V1 & M1 & B1). cbn [st b_mem] in M1.
  destruct (readBits s1 6) as [[rounds s2]|] eqn:E2; [|discriminate]. cbn [bind] in H. apply readBits_lt in E2; [|congruence|auto|lia]. destruct E2 as (V2 & M2 & B2).
  destruct (readBits s2 6) as [[nquant s3]|] eqn:E3; [|discriminate]. cbn [bind] in H. apply readBits_lt in E3; [|congruence|auto|lia]. destruct E3 as (V3 & M3 & B3).
  destruct (readBits s3 6) as [[nc s4]|] eqn:E4; [|discriminate]. cbn [bind] in H. apply readBits_lt in E4; [|congruence|auto|lia]. destruct E4 as (V4 & M4 & B4).
  destruct (readBits s4 16) as [[nv s5]|] eqn:E5; [|discriminate]. cbn [bind] in H. apply readBits_lt in E5; [|congruence|auto|lia]. destruct E5 as (V5 & M5 & B5).
  destruct (readBits s5 16) as [[nf s6]|] eqn:E6; [|discriminate]. cbn [bind] in H. apply readBits_lt in E6; [|congruence|auto|lia]. destruct E6 as (V6 & M6 & B6).
  destruct (read_points s6 _ _) as [[ps s7]|] eqn:E7; [|discriminate]. cbn [bind] in H. apply read_points_any in E7; [|auto]. destruct E7 as (L7 & M7 & B7).
  destruct (read_faces s7 _ _) as [[fs s8]|] eqn:E8; [|discriminate]. cbn [bind] in H. apply read_faces_any in E8; [|congruence|auto]. destruct E8 as (L8 & F8).
  injection H as <- _. cbn [r_pos r_faces r_rounds r_quant]. change (2 ^ 16) with 65536 in *. change (2 ^ 6) with 64 in *. change (2 ^ 4) with 16 in *.
  repeat split; try lia; auto.
Qed.

Theorem too_big m : 65536 <= Z.of_nat (length (m_pos m)) \/ 65536 <= Z.of_nat (length (m_faces m)) \/ 64 <= m_rounds m \/ 16 < m_quant m \/
    Exists (fun f => 10 < length f)%nat (m_faces m) ->
  forall bpv mem r off, Forall is_byte mem -> readBaseMesh bpv mem = Some (r, off) -> ~ same_object m r.
Proof.
  intros H bpv mem r off HB E (_ & _ & Q & Rn & _ & _ & L & ren & _ & _ & _ & _ & F).
  destruct (header_limits _ _ _ _ HB E) as (A & B & C & D & G).
  rewrite F in B, G. rewrite map_length in B. rewrite L in A. rewrite Rn in C. rewrite Q in D.
  destruct H as [H|[H|[H|[H|H]]]]; try lia.
  apply Exists_exists in H. destruct H as (f & Hf & Lf). rewrite Forall_forall in G.
  specialize (G _ (in_map (fun f => Z.of_nat (length f) :: map (fun v => Z.of_nat (ren v)) f) _ _ Hf)). cbn [length] in G. rewrite map_length in G. lia.
Qed.

(** ** Field sequences *)
Lemma fields_statement : forall fs st, st_ok st -> Forall field_ok fs -> pos st + total_bits fs + 32 <= 8 * Z.of_nat (length (b_mem st)) ->
  (forall q, pos st <= q -> bit (b_mem st) q = false) ->
  exists st', writeFields st fs = Some st' /\ pos st' = pos st + total_bits fs /\ length (b_mem st') = length (b_mem st) /\
    (forall q, 0 <= q -> q < pos st \/ pos st' <= q -> bit (b_mem st') q = bit (b_mem st) q) /\
    forall mem, Forall is_byte mem -> (forall q, pos st <= q < pos st' -> bit mem q = bit (b_mem st') q) -> pos st' + 32 <= 8 * Z.of_nat (length mem) ->
      exists st'', readFields (Bst mem (b_bit st) (b_off st)) (map fst fs) = Some (map snd fs, st'') /\ pos st'' = pos st' /\ b_mem st'' = mem.
Proof.
  intros fs st Hs Hf Hl Hz. destruct (writeFields_spec fs st Hs Hf Hl Hz) as (st' & E & Hs' & P & L & B & Hh).
  exists st'. repeat (split; [assumption|]). intros mem HB Hm Hlm.
  set (rs := Bst mem (b_bit st) (b_off st)).
  assert (Prs : pos rs = pos st) by reflexivity.
  destruct (readFields_spec fs rs) as (s2 & E2 & H2 & P2 & M2).
  - destruct Hs as (A1 & A2 & _). split; [exact A1|split; [exact A2|exact HB]].
  - exact Hf.
  - rewrite Prs. cbn [rs b_mem]. lia.
  - rewrite Prs. eapply holds_ext; [exact Hf| |exact Hh]. intros q Hq. cbn [rs b_mem]. apply Hm. lia.
  - exists s2. split; [exact E2|]. split; [lia|exact M2].
Qed.
