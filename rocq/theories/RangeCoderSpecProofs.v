(** The message-level theorems, from the trace layer. *)
From Coq Require Import List ZArith Lia Bool.
From Verif Require Import RangeCoderModel RangeCoderProofs RangeCoderTrace RangeCoderSpec.
Import ListNotations.
Open Scope Z_scope.

Definition step_of (mv : method * Z) : cstep :=
  match mv with
  | (ByFreq tot ws, v) => (KFreq tot, nth (Z.to_nat v) ws 0, before (Z.to_nat v) ws)
  | (ByShift sh ws, v) => (KShift sh, nth (Z.to_nat v) ws 0, before (Z.to_nat v) ws)
  | (RawByte, v) => (KShift 8, 1, v)
  | (RawShort, v) => (KShift 16, 1, v)
  end.

Lemma sum_app a b : sum (a ++ b) = sum a + sum b.
Proof. induction a as [|x a IH]; cbn [app sum fold_right] in *; [reflexivity|]. unfold sum in *. lia. Qed.
Lemma sum_nonneg ws : Forall (fun w => 0 <= w) ws -> 0 <= sum ws.
Proof. induction 1; cbn [sum fold_right]; [lia|]. unfold sum in *. lia. Qed.

Lemma before_bounds ws : forall i, Forall (fun w => 0 <= w) ws ->
  0 <= before i ws /\ before i ws + nth i ws 0 <= sum ws.
Proof.
  induction ws as [|w ws IH]; intros i H.
  - unfold before. rewrite firstn_nil. destruct i; cbn; lia.
  - inversion H as [|? ? H1 H2]; subst. destruct i as [|i].
    + unfold before. cbn [firstn sum fold_right nth]. pose proof (sum_nonneg ws H2). unfold sum in *. lia.
    + destruct (IH i H2) as (A & B). unfold before in *. cbn [firstn sum fold_right nth]. unfold sum in *. lia.
Qed.

Lemma find_slice_spec ws : forall i cf, Forall (fun w => 0 <= w) ws -> (i < length ws)%nat ->
  before i ws <= cf < before i ws + nth i ws 0 -> find_slice ws cf = i.
Proof.
  induction ws as [|w ws IH]; intros i cf H Hi Hcf; [cbn in Hi; lia|].
  inversion H as [|? ? H1 H2]; subst. cbn [find_slice]. destruct i as [|i].
  - unfold before in Hcf. cbn [firstn sum fold_right nth] in Hcf.
    destruct (Z.ltb_spec cf w); [reflexivity|lia].
  - cbn [nth] in Hcf. destruct (before_bounds ws i H2) as (A & B).
    assert (E : before (S i) (w :: ws) = w + before i ws) by reflexivity.
    rewrite E in Hcf. destruct (Z.ltb_spec cf w); [lia|]. f_equal. apply IH; auto.
    + cbn in Hi; lia.
    + lia.
Qed.

Lemma step_of_valid mv : codable mv -> valid_step (step_of mv).
Proof.
  destruct mv as [[tot ws|sh ws| |] v]; cbn [codable step_of valid_step].
  - intros (Ht & Hn & Hs & Hv & H1). destruct (before_bounds ws (Z.to_nat v) Hn).
    unfold valid_slice; cbn [valid_kind total]. lia.
  - intros (Ht & Hn & Hs & Hv & H1). destruct (before_bounds ws (Z.to_nat v) Hn).
    unfold valid_slice; cbn [valid_kind total]. lia.
  - unfold valid_slice; cbn [valid_kind total]. lia.
  - unfold valid_slice; cbn [valid_kind total]. lia.
Qed.

Lemma puts_trace l : forall e, puts e l = enc_trace e (map step_of l).
Proof.
  induction l as [|[m v] l IH]; intro e; cbn [puts map enc_trace]; [reflexivity|].
  destruct m; cbn [put step_of enc_step]; unfold encode_byte, encode_short;
  match goal with |- match ?x with _ => _ end = _ => destruct x end; auto.
Qed.

Lemma write_segment c out l : write_message c out l = enc_segment c out (map step_of l).
Proof. unfold write_message, enc_segment. rewrite puts_trace. reflexivity. Qed.

Lemma gets_follows l : forall F rest d,
  Forall codable l -> follows F rest (map step_of l) d ->
  exists d', gets d (map fst l) = Some (map snd l, d') /\ follows F rest [] d'.
Proof.
  induction l as [|[m v] l IH]; intros F rest d Hc HF; cbn [map gets fst snd].
  - exists d. auto.
  - inversion Hc as [|? ? Hc1 Hc2]; subst. cbn [map step_of] in HF.
    assert (G : exists d1, get d m = Some (v, d1) /\ follows F rest (map step_of l) d1).
    { destruct m as [tot ws|sh ws| |]; cbn [codable step_of get] in *.
      - destruct (follows_step _ _ _ _ _ _ _ HF) as (cf & d1 & E & Hcf & HF1).
        cbn [dec_cul total] in *. rewrite E.
        destruct Hc1 as (Ht & Hn & Hs & Hv & H1).
        rewrite (find_slice_spec ws (Z.to_nat v) cf Hn) by lia.
        rewrite Z2Nat.id by lia. eexists; split; [reflexivity|exact HF1].
      - destruct (follows_step _ _ _ _ _ _ _ HF) as (cf & d1 & E & Hcf & HF1).
        cbn [dec_cul total] in *. rewrite E.
        destruct Hc1 as (Ht & Hn & Hs & Hv & H1).
        rewrite (find_slice_spec ws (Z.to_nat v) cf Hn) by lia.
        rewrite Z2Nat.id by lia. eexists; split; [reflexivity|exact HF1].
      - destruct (follows_step _ _ _ _ _ _ _ HF) as (cf & d1 & E & Hcf & HF1).
        cbn [dec_cul total] in *. unfold decode_byte. rewrite E.
        assert (cf = v) as -> by lia. cbn zeta. rewrite (Z.mod_small v) by lia.
        eexists; split; [reflexivity|exact HF1].
      - destruct (follows_step _ _ _ _ _ _ _ HF) as (cf & d1 & E & Hcf & HF1).
        cbn [dec_cul total] in *. unfold decode_short. rewrite E.
        assert (cf = v) as -> by lia. cbn zeta.
        rewrite (Z.mod_small v) by (change (2 ^ 16) with 65536 in *; lia).
        eexists; split; [reflexivity|exact HF1]. }
    destruct G as (d1 & G1 & G2). rewrite G1.
    destruct (IH F rest d1 Hc2 G2) as (d' & E' & HF'). rewrite E'.
    exists d'. auto.
Qed.

Lemma message_round_trip c msg buffer :
  0 <= c < 255 -> Forall codable msg -> 4 * Z.of_nat (length msg) + 8 < 2 ^ 32 ->
  exists seg,
    write_message c buffer msg = Some (buffer ++ seg) /\
    Forall (fun b => 0 <= b < 256) seg /\
    forall rest, read_message (seg ++ rest) (map fst msg) = Some (c, map snd msg, rest).
Proof.
  intros Hc Hm Hn.
  assert (Hv : Forall valid_step (map step_of msg)).
  { apply Forall_forall. intros s Hs. apply in_map_iff in Hs. destruct Hs as (mv & <- & Hin).
    apply step_of_valid. rewrite Forall_forall in Hm. auto. }
  assert (Hf : few_steps (map step_of msg)) by (unfold few_steps; rewrite map_length; exact Hn).
  destruct (follows_start c (map step_of msg) [] ltac:(unfold is_byte; lia) ltac:(lia) Hv Hf)
    as (seg & ES & HB & _ & _).
  exists seg. rewrite write_segment, segment_prepend, ES. split; [reflexivity|]. split; [exact HB|].
  intro rest.
  destruct (follows_start c (map step_of msg) rest ltac:(unfold is_byte; lia) ltac:(lia) Hv Hf)
    as (seg' & ES' & _ & _ & d & ED & HF).
  rewrite ES in ES'. injection ES' as <-.
  unfold read_message. rewrite ED.
  destruct (gets_follows msg _ _ d Hm HF) as (d' & EG & HF').
  rewrite EG. rewrite (follows_done _ _ _ HF'). reflexivity.
Qed.

Lemma message_sequence (msgs : list (Z * list (method * Z))) :
  Forall (fun m => 0 <= fst m < 255 /\ Forall codable (snd m) /\
                   4 * Z.of_nat (length (snd m)) + 8 < 2 ^ 32) msgs ->
  forall buffer,
  exists body,
    fold_left (fun b m => match b with None => None | Some b => write_message (fst m) b (snd m) end)
      msgs (Some buffer) = Some (buffer ++ body) /\
    forall rest,
    fold_left (fun st m => match st with None => None | Some (acc, inp) =>
                  match read_message inp (map fst (snd m)) with
                  | None => None | Some (c, vs, inp') => Some (acc ++ [(c, vs)], inp') end end)
      msgs (Some ([], body ++ rest))
    = Some (map (fun m => (fst m, map snd (snd m))) msgs, rest).
Proof.
  assert (G : Forall (fun m => 0 <= fst m < 255 /\ Forall codable (snd m) /\
                   4 * Z.of_nat (length (snd m)) + 8 < 2 ^ 32) msgs ->
    forall buffer, exists body,
    fold_left (fun b m => match b with None => None | Some b => write_message (fst m) b (snd m) end)
      msgs (Some buffer) = Some (buffer ++ body) /\
    forall rest acc0,
    fold_left (fun st m => match st with None => None | Some (acc, inp) =>
                  match read_message inp (map fst (snd m)) with
                  | None => None | Some (c, vs, inp') => Some (acc ++ [(c, vs)], inp') end end)
      msgs (Some (acc0, body ++ rest))
    = Some (acc0 ++ map (fun m => (fst m, map snd (snd m))) msgs, rest)).
  { induction msgs as [|[c m] msgs IH]; intros H buffer.
    - exists []. cbn [fold_left map]. split; [now rewrite app_nil_r|].
      intros. now rewrite app_nil_r.
    - inversion H as [|? ? (H1 & H2 & H3) H4]; subst. cbn [fst snd] in *.
      destruct (message_round_trip c m buffer H1 H2 H3) as (seg & W & _ & R).
      destruct (IH H4 (buffer ++ seg)) as (body & W' & R').
      exists (seg ++ body). cbn [fold_left fst snd map]. rewrite W, W'.
      split; [now rewrite app_assoc|].
      intros rest acc0. rewrite <- app_assoc, R, R'. rewrite <- app_assoc. reflexivity. }
  intros H buffer. destruct (G H buffer) as (body & W & R). exists body. split; [assumption|].
  intro rest. apply (R rest []).
Qed.

(** Reading only depends on the bytes it consumes, for arbitrary (even corrupt) input. *)
Lemma get_tail x d m v d' : get d m = Some (v, d') -> get (with_tail x d) m = Some (v, with_tail x d').
Proof.
  destruct m as [tot ws|sh ws| |]; cbn [get].
  - destruct (decode_culfreq d tot) as [[cf d1]|] eqn:E; [|discriminate].
    rewrite (cul_tail x d (KFreq tot) cf d1 E : decode_culfreq (with_tail x d) tot = _).
    rewrite update_tail. intro H; injection H as <- <-; reflexivity.
  - destruct (decode_culshift d sh) as [[cf d1]|] eqn:E; [|discriminate].
    rewrite (cul_tail x d (KShift sh) cf d1 E : decode_culshift (with_tail x d) sh = _).
    rewrite update_tail. intro H; injection H as <- <-; reflexivity.
  - unfold decode_byte. destruct (decode_culshift d 8) as [[cf d1]|] eqn:E; [|discriminate].
    rewrite (cul_tail x d (KShift 8) cf d1 E : decode_culshift (with_tail x d) 8 = _).
    rewrite update_tail. intro H; injection H as <- <-; reflexivity.
  - unfold decode_short. destruct (decode_culshift d 16) as [[cf d1]|] eqn:E; [|discriminate].
    rewrite (cul_tail x d (KShift 16) cf d1 E : decode_culshift (with_tail x d) 16 = _).
    rewrite update_tail. intro H; injection H as <- <-; reflexivity.
Qed.
Lemma gets_tail x ms : forall d vs d', gets d ms = Some (vs, d') ->
  gets (with_tail x d) ms = Some (vs, with_tail x d').
Proof.
  induction ms as [|m ms IH]; intros d vs d' H; cbn [gets] in *.
  - injection H as <- <-. reflexivity.
  - destruct (get d m) as [[v d1]|] eqn:E; [|discriminate]. rewrite (get_tail x _ _ _ _ E).
    destruct (gets d1 ms) as [[vs1 d2]|] eqn:E2; [|discriminate]. rewrite (IH _ _ _ E2).
    injection H as <- <-. reflexivity.
Qed.
Lemma read_tail x inp ms c vs rest :
  read_message inp ms = Some (c, vs, rest) -> read_message (inp ++ x) ms = Some (c, vs, rest ++ x).
Proof.
  unfold read_message. destruct (start_decoding inp) as [[c0 d]|] eqn:E; [|discriminate].
  rewrite (start_tail x _ _ _ E).
  destruct (gets d ms) as [[vs0 d']|] eqn:E2; [|discriminate]. rewrite (gets_tail x _ _ _ _ E2).
  destruct (done_decoding d') as [r|] eqn:E3; [|discriminate]. rewrite (done_tail x _ _ E3).
  intro H; injection H as <- <- <-. reflexivity.
Qed.
