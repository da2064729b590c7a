(** Whole coded segments: a list of slices is coded between start_encoding and
    done_encoding.  The interface lemmas [follows_start], [follows_step], [follows_done]
    are all that the codecs built on top need. *)
From Coq Require Import List ZArith Lia Bool.
From Verif Require Import RangeCoderModel RangeCoderProofs.
Import ListNotations.
Open Scope Z_scope.

(** A coded step: which call, width and lower end of the slice. *)
Definition cstep : Type := kind * Z * Z.
Definition valid_step (s : cstep) : Prop := let '(k, sy, lt) := s in valid_slice k sy lt.

Fixpoint enc_trace (e : enc) (ts : list cstep) : option enc :=
  match ts with
  | [] => Some e
  | (k, sy, lt) :: r => match enc_step e k sy lt with None => None | Some e' => enc_trace e' r end
  end.

Definition enc_segment (c : Z) (out : list Z) (ts : list cstep) : option (list Z) :=
  match enc_trace (start_encoding c 0 out) ts with None => None | Some e => done_encoding e end.

Lemma enc_trace_app e a b :
  enc_trace e (a ++ b) = match enc_trace e a with None => None | Some e' => enc_trace e' b end.
Proof.
  revert e; induction a as [|[[k sy] lt] a IH]; intro e; [reflexivity|].
  cbn [app enc_trace]. destruct (enc_step e k sy lt); [apply IH|reflexivity].
Qed.

(** * Output so far is only extended, and never looked at *)

Definition prepend (o : list Z) (e : enc) : enc :=
  Enc (e_low e) (e_range e) (e_help e) (e_buf e) (e_cnt e) (o ++ e_out e).

Lemma iter_prepend o e : enc_norm_iter (prepend o e) = prepend o (enc_norm_iter e).
Proof.
  unfold enc_norm_iter, prepend. cbn [e_low e_range e_help e_buf e_cnt e_out].
  destruct (e_low e <? _); cbn [e_low e_range e_help e_buf e_cnt e_out];
    [now rewrite <- app_assoc|].
  destruct (negb _); cbn [e_low e_range e_help e_buf e_cnt e_out]; [now rewrite <- app_assoc|reflexivity].
Qed.
Lemma norm_loop_prepend o f : forall e,
  enc_normalize_loop f (prepend o e) = option_map (prepend o) (enc_normalize_loop f e).
Proof.
  induction f as [|f IH]; intro e; cbn [enc_normalize_loop];
    change (e_range (prepend o e)) with (e_range e); destruct (e_range e <=? Bottom);
    try reflexivity.
  rewrite iter_prepend. apply IH.
Qed.
Lemma norm_prepend o e : enc_normalize (prepend o e) = option_map (prepend o) (enc_normalize e).
Proof. apply norm_loop_prepend. Qed.
Lemma step_prepend o e k sy lt :
  enc_step (prepend o e) k sy lt = option_map (prepend o) (enc_step e k sy lt).
Proof.
  destruct k as [t|s]; cbn [enc_step].
  - unfold encode_freq. rewrite norm_prepend. destruct (enc_normalize e); [|reflexivity].
    cbn [option_map]. destruct (t =? 0); reflexivity.
  - unfold encode_shift. rewrite norm_prepend. destruct (enc_normalize e); [|reflexivity].
    cbn [option_map]. destruct ((s <? 0) || (32 <=? s)); reflexivity.
Qed.
Lemma trace_prepend o ts : forall e,
  enc_trace (prepend o e) ts = option_map (prepend o) (enc_trace e ts).
Proof.
  induction ts as [|[[k sy] lt] ts IH]; intro e; cbn [enc_trace]; [reflexivity|].
  rewrite step_prepend. destruct (enc_step e k sy lt); cbn [option_map]; [apply IH|reflexivity].
Qed.
Lemma done_prepend o e : done_encoding (prepend o e) = option_map (app o) (done_encoding e).
Proof.
  unfold done_encoding. rewrite norm_prepend. destruct (enc_normalize e); [|reflexivity].
  cbn [option_map prepend e_low e_range e_help e_buf e_cnt e_out].
  now rewrite <- app_assoc.
Qed.
Lemma segment_prepend c o ts : enc_segment c o ts = option_map (app o) (enc_segment c [] ts).
Proof.
  unfold enc_segment.
  replace (start_encoding c 0 o) with (prepend o (start_encoding c 0 []))
    by (unfold prepend, start_encoding; cbn [e_low e_range e_help e_buf e_cnt e_out]; now rewrite app_nil_r).
  rewrite trace_prepend. destruct (enc_trace (start_encoding c 0 []) ts); [|reflexivity].
  cbn [option_map]. apply done_prepend.
Qed.

(** * The encoder never gets stuck *)

(** [help] counts outstanding bytes in 32 bits; each step can add at most 4. *)
Definition few_steps {A} (ts : list A) : Prop := 4 * Z.of_nat (length ts) + 8 < 2 ^ 32.

Lemma enc_step_inv h e k sy lt :
  inv h e -> h + 4 < 2 ^ 32 -> valid_slice k sy lt ->
  exists e', enc_step e k sy lt = Some e' /\ inv (h + 4) e' /\
    (forall F, contain F e' -> contain F e).
Proof.
  intros Hi Hh Hv.
  destruct (enc_step_eq h e k sy lt Hi Hh Hv) as (n & e1 & E & Hi1 & Hn & B & ES).
  destruct (narrow_spec (h + 4) e1 k sy lt Hi1 B Hv) as (Hi2 & G1 & G2 & N & _).
  exists (narrow e1 k sy lt). split; [assumption|]. split; [assumption|].
  intros F HC. apply (contain_normd F n e e1 Hn). eapply contain_narrow; eassumption.
Qed.

Lemma enc_trace_inv ts : forall h e,
  inv h e -> h + 4 * Z.of_nat (length ts) + 4 < 2 ^ 32 -> Forall valid_step ts ->
  exists e', enc_trace e ts = Some e' /\ inv (h + 4 * Z.of_nat (length ts)) e' /\
    (forall F, contain F e' -> contain F e).
Proof.
  induction ts as [|[[k sy] lt] ts IH]; intros h e Hi Hh Hv; cbn [enc_trace].
  - exists e. split; [reflexivity|]. split; [apply (inv_weaken h); [assumption|cbn; lia]|auto].
  - inversion Hv as [|? ? Hv1 Hv2]; subst. cbn [length] in Hh.
    destruct (enc_step_inv h e k sy lt Hi ltac:(lia) Hv1) as (e1 & E1 & Hi1 & C1).
    rewrite E1. destruct (IH (h + 4) e1 Hi1 ltac:(lia) Hv2) as (e' & E' & Hi' & C').
    exists e'. split; [assumption|]. split; [|auto].
    apply (inv_weaken _ _ _ Hi'). cbn [length]. lia.
Qed.

(** * Decoder following a trace *)

Definition follows (F rest : list Z) (ts : list cstep) (d : dec) : Prop :=
  exists h e eF d', inv h e /\ h + 4 * Z.of_nat (length ts) + 4 < 2 ^ 32 /\
    Forall valid_step ts /\ enc_trace e ts = Some eF /\ done_encoding eF = Some F /\
    dec_normalize d = dec_normalize d' /\ track F rest e d'.

Lemma done_bytes h e F : inv h e -> h + 4 < 2 ^ 32 -> done_encoding e = Some F ->
  contain F e /\ Forall is_byte F.
Proof.
  intros Hi Hh HD. destruct (done_spec h e Hi Hh) as (F' & E & C & HF & _).
  rewrite HD in E. injection E as <-. auto.
Qed.

Lemma dec_cul_norm d d' k : dec_normalize d = dec_normalize d' -> dec_cul d k = dec_cul d' k.
Proof.
  intro H. destruct k as [t|s]; cbn [dec_cul]; unfold decode_culfreq, decode_culshift; rewrite H; reflexivity.
Qed.

Lemma follows_step F rest k sy lt ts d :
  follows F rest ((k, sy, lt) :: ts) d ->
  exists cf d1, dec_cul d k = Some (cf, d1) /\ lt <= cf < lt + sy /\
    follows F rest ts (decode_update d1 sy lt (total k)).
Proof.
  intros (h & e & eF & d' & Hi & Hh & Hv & E & HD & HN & HT).
  inversion Hv as [|? ? Hv1 Hv2]; subst. cbn [enc_trace length] in *.
  destruct (enc_step e k sy lt) as [e1|] eqn:E1; [|discriminate].
  destruct (enc_step_inv h e k sy lt Hi ltac:(lia) Hv1) as (e1' & E1' & Hi1 & C1).
  rewrite E1 in E1'. injection E1' as <-.
  destruct (enc_trace_inv ts (h + 4) e1 Hi1 ltac:(lia) Hv2) as (e2 & E2 & Hi2 & C2).
  rewrite E in E2. injection E2 as <-.
  destruct (done_bytes _ _ F Hi2 ltac:(lia) HD) as (CF & HF).
  destruct (dec_step F rest h e d' k sy lt e1 HF Hi ltac:(lia) Hv1 E1 (C2 F CF) HT)
    as (cf & d1 & EC & Hcf & HT1).
  exists cf, d1. split; [rewrite (dec_cul_norm d d' k HN); exact EC|]. split; [assumption|].
  exists (h + 4), e1, eF, (decode_update d1 sy lt (total k)).
  repeat (split; [first [assumption|reflexivity|lia]|]). assumption.
Qed.

Lemma follows_done F rest d : follows F rest [] d -> done_decoding d = Some rest.
Proof.
  intros (h & e & eF & d' & Hi & Hh & Hv & E & HD & HN & HT).
  cbn [enc_trace length] in *. injection E as <-.
  pose proof (done_track F rest h e d' Hi ltac:(lia) HD HT) as H.
  unfold done_decoding in *. rewrite HN. exact H.
Qed.

Lemma dec_normalize_idem d d' : dec_normalize d = Some d' -> dec_normalize d' = Some d'.
Proof.
  unfold dec_normalize.
  assert (G : forall f d, dec_normalize_loop f d = Some d' -> Bottom < d_range d').
  { induction f as [|f IH]; intros x H; cbn [dec_normalize_loop] in H;
      destruct (Z.leb_spec (d_range x) Bottom); try discriminate; try (injection H as <-; lia).
    destruct (dec_norm_iter x); [|discriminate]. eauto. }
  intro H. apply G in H. cbn [dec_normalize_loop].
  destruct (Z.leb_spec (d_range d') Bottom); [lia|reflexivity].
Qed.

Lemma follows_start c ts rest :
  is_byte c -> c <> 255 -> Forall valid_step ts -> few_steps ts ->
  exists seg, enc_segment c [] ts = Some seg /\ Forall is_byte seg /\ (5 <= length seg)%nat /\
  exists d, start_decoding (seg ++ rest) = Some (c, d) /\ follows seg rest ts d.
Proof.
  intros Hc Hc2 Hv Hf. unfold few_steps in Hf.
  pose proof (start_inv c 0 [] Hc (Forall_nil _)) as Hi.
  destruct (enc_trace_inv ts 0 _ Hi ltac:(lia) Hv) as (eF & E & HiF & CF).
  destruct (done_spec _ eF HiF ltac:(lia)) as (F & HD & C & HF & _).
  exists F. unfold enc_segment. rewrite E. split; [assumption|]. split; [assumption|].
  pose proof (contain_prefix F c 0 [] Hc (Forall_nil _) (CF F C)) as HL. cbn [length] in HL.
  split; [lia|].
  destruct (start_track F rest c 0 [] Hc Hc2 (Forall_nil _) HF (CF F C)) as (d & d' & ES & EN & T).
  exists d. cbn [length skipn] in ES. split; [assumption|].
  exists 0, (start_encoding c 0 []), eF, d'.
  split; [assumption|]. split; [lia|]. split; [assumption|]. split; [assumption|].
  split; [assumption|]. split; [|assumption].
  rewrite EN. symmetry. eapply dec_normalize_idem; eassumption.
Qed.

(** * Reading is local: bytes behind the cursor's final position do not matter *)

Definition with_tail (x : list Z) (d : dec) : dec :=
  Dec (d_low d) (d_range d) (d_help d) (d_buf d) (d_in d ++ x).

Lemma norm_iter_tail x d d' : dec_norm_iter d = Some d' -> dec_norm_iter (with_tail x d) = Some (with_tail x d').
Proof.
  unfold dec_norm_iter, with_tail, inbyte. cbn [d_low d_range d_help d_buf d_in].
  destruct (d_in d) as [|b r]; [discriminate|]. cbn [app]. intro H. injection H as <-. reflexivity.
Qed.
Lemma norm_loop_tail x f : forall d d',
  dec_normalize_loop f d = Some d' -> dec_normalize_loop f (with_tail x d) = Some (with_tail x d').
Proof.
  induction f as [|f IH]; intros d d' H; cbn [dec_normalize_loop] in *;
    change (d_range (with_tail x d)) with (d_range d); destruct (d_range d <=? Bottom);
    try discriminate; try (now injection H as <-).
  destruct (dec_norm_iter d) as [d1|] eqn:E; [|discriminate].
  rewrite (norm_iter_tail x _ _ E). auto.
Qed.
Lemma cul_tail x d k v d' : dec_cul d k = Some (v, d') -> dec_cul (with_tail x d) k = Some (v, with_tail x d').
Proof.
  destruct k as [t|s]; cbn [dec_cul]; unfold decode_culfreq, decode_culshift;
  (destruct (dec_normalize d) as [d1|] eqn:E; [|discriminate]);
  unfold dec_normalize in *; rewrite (norm_loop_tail x _ _ _ E).
  - cbn [with_tail d_low d_range d_help d_buf d_in].
    destruct (t =? 0); [discriminate|]. destruct (_ =? 0); [discriminate|].
    intro H; injection H as <- <-. reflexivity.
  - cbn [with_tail d_low d_range d_help d_buf d_in].
    destruct (_ || _); [discriminate|]. destruct (_ =? 0); [discriminate|].
    intro H; injection H as <- <-. reflexivity.
Qed.
Lemma update_tail x d sy lt tot : decode_update (with_tail x d) sy lt tot = with_tail x (decode_update d sy lt tot).
Proof. reflexivity. Qed.
Lemma start_tail x inp c d : start_decoding inp = Some (c, d) -> start_decoding (inp ++ x) = Some (c, with_tail x d).
Proof.
  unfold start_decoding, inbyte. destruct inp as [|a [|b r]]; cbn [app]; try discriminate.
  - destruct (_ =? 255); discriminate.
  - destruct (_ =? 255); [discriminate|]. intro H; injection H as <- <-. reflexivity.
Qed.
Lemma done_tail x d r : done_decoding d = Some r -> done_decoding (with_tail x d) = Some (r ++ x).
Proof.
  unfold done_decoding. destruct (dec_normalize d) as [d1|] eqn:E; [|discriminate].
  unfold dec_normalize in *. rewrite (norm_loop_tail x _ _ _ E). intro H; injection H as <-. reflexivity.
Qed.
