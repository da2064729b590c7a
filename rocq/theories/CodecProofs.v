(** Round trip of the record codec. *)
From Coq Require Import List ZArith Lia.
From Verif Require Import Arr RangeCoderModel RangeCoderProofs RangeCoderTrace QsModel QsModelProofs CodecModel.
Import ListNotations.
Open Scope Z_scope.

Lemma bind_assoc {A B C} (x : option A) (f : A -> option B) (g : B -> option C) :
  bind (bind x f) g = bind x (fun a => bind (f a) g).
Proof. destruct x; reflexivity. Qed.

(** Encoder model [m] and decoder model [md] in step. *)
Definition insync (n lg : Z) (m md : qsmodel) : Prop :=
  qinv n lg m /\ qinv n lg md /\ same n m md /\ q_search md <> None.

Lemma sym_step n lg m s : 1 <= n -> 0 <= lg <= 23 -> qinv n lg m -> 0 <= s < n ->
  exists sy lt m', qinv n lg m' /\ valid_slice (KShift lg) sy lt /\
    (forall e, enc_sym e m lg s = bind (enc_step e (KShift lg) sy lt) (fun e' => Some (e', m'))) /\
    (7 <= lg -> forall md F rest ts d, insync n lg m md -> follows F rest ((KShift lg, sy, lt) :: ts) d ->
       exists d' md', dec_sym d md lg = Some (s, d', md') /\ insync n lg m' md' /\ follows F rest ts d').
Proof.
  intros Hn Hlg I Hs.
  destruct (qsupdate_inv n lg m s Hn I Hs) as (m' & Eu & I' & _).
  pose proof (qsgetfreq_spec n lg m s I Hs) as Ef.
  set (sy := nz (q_cf m) (s + 1) - nz (q_cf m) s) in *. set (lt := nz (q_cf m) s) in *.
  exists sy, lt, m'. split; [auto|].
  assert (Hv : valid_slice (KShift lg) sy lt).
  { split; [cbn; lia|]. pose proof (qi_inc _ _ _ I s Hs). unfold sy, lt.
    pose proof (inc_le _ _ (qi_inc _ _ _ I) 0 s ltac:(lia) ltac:(lia)) as A. rewrite (qi_0 _ _ _ I) in A.
    pose proof (inc_le _ _ (qi_inc _ _ _ I) (s + 1) n ltac:(lia) ltac:(lia)) as B. rewrite (qi_tot _ _ _ I) in B.
    cbn [total]. lia. }
  split; [auto|]. split.
  - intro e. unfold enc_sym. rewrite Ef. cbn [bind]. cbn [enc_step]. destruct (encode_shift e sy lt lg); [|reflexivity].
    cbn [bind]. rewrite Eu. reflexivity.
  - intros H7 md F rest ts d (_ & Id & Sm & Hse) Hf.
    destruct (follows_step F rest (KShift lg) sy lt ts d Hf) as (cf & d1 & Ec & Hcf & Hf').
    cbn [dec_cul total] in *. unfold dec_sym. rewrite Ec. cbn [bind].
    assert (Hcf2 : nz (q_cf md) s <= cf < nz (q_cf md) (s + 1)).
    { rewrite <- !(sm_cf _ _ _ Sm) by lia. unfold sy, lt in Hcf. lia. }
    pose proof (inc_le _ _ (qi_inc _ _ _ Id) 0 s ltac:(lia) ltac:(lia)) as A. rewrite (qi_0 _ _ _ Id) in A.
    pose proof (inc_le _ _ (qi_inc _ _ _ Id) (s + 1) n ltac:(lia) ltac:(lia)) as B. rewrite (qi_tot _ _ _ Id) in B.
    destruct (qsgetsym_spec n lg md cf Hn H7 Id Hse ltac:(lia)) as (s' & Es & Hs' & Hb).
    assert (s' = s) by (apply (slice_unique n (q_cf md) s' s cf); auto; apply Id). subst s'.
    rewrite Es. cbn [bind]. rewrite (qsgetfreq_spec n lg md s Id Hs).
    rewrite <- !(sm_cf _ _ _ Sm) by lia. fold sy lt. cbn [bind].
    destruct (qsupdate_inv n lg md s Hn Id Hs) as (md' & Eud & Id' & Sd). rewrite Eud. cbn [bind].
    eexists. exists md'. split; [reflexivity|]. split; [|exact Hf'].
    split; [auto|]. split; [auto|]. split; [exact (qsupdate_same n lg m md m' md' s Hn I Id Hs Sm Eu Eud)|].
    rewrite Sd. auto.
Qed.

Lemma syms_trace n lg syms : forall m, 1 <= n -> 0 <= lg <= 23 -> qinv n lg m -> Forall (fun s => 0 <= s < n) syms ->
  exists ts m', Forall valid_step ts /\ length ts = length syms /\ qinv n lg m' /\
    (forall e, enc_syms e m lg syms = bind (enc_trace e ts) (fun e' => Some (e', m'))) /\
    (7 <= lg -> forall md F rest more d, insync n lg m md -> follows F rest (ts ++ more) d ->
       exists d' md', dec_syms d md lg (length syms) = Some (syms, d', md') /\ insync n lg m' md' /\ follows F rest more d').
Proof.
  induction syms as [|s r IH]; intros m Hn Hlg I H.
  - exists [], m. cbn [length enc_syms dec_syms enc_trace bind app]. split; [auto|]. split; [auto|]. split; [auto|]. split; [auto|].
    intros _ md F rest more d Hi Hf. exists d, md. auto.
  - inversion H; subst. destruct (sym_step n lg m s Hn Hlg I) as (sy & lt & m1 & I1 & Hv & E & D); auto.
    destruct (IH m1 Hn Hlg I1) as (ts & m' & Hvs & Hl & I' & E' & D'); auto.
    exists ((KShift lg, sy, lt) :: ts), m'. split; [constructor; auto|]. split; [cbn; congruence|]. split; [auto|]. split.
    + intro e. cbn [enc_syms enc_trace]. rewrite E. rewrite bind_assoc. destruct (enc_step e (KShift lg) sy lt); [|reflexivity].
      cbn [bind]. apply E'.
    + intros H7 md F rest more d Hi Hf. cbn [app] in Hf.
      destruct (D H7 md F rest _ d Hi Hf) as (d1 & md1 & Ed & Hi1 & Hf1).
      destruct (D' H7 md1 F rest more d1 Hi1 Hf1) as (d2 & md2 & Ed2 & Hi2 & Hf2).
      exists d2, md2. cbn [length dec_syms]. rewrite Ed. cbn [bind]. rewrite Ed2. cbn [bind]. auto.
Qed.

Lemma init_insync junk junk' n lg rescale m :
  1 <= n <= 2 ^ lg -> initqsmodel junk n lg rescale None true = Some m ->
  exists md, initqsmodel junk' n lg rescale None false = Some md /\ insync n lg m md.
Proof.
  intros Hn E.
  destruct (init_inv junk n lg rescale None true Hn I) as (m1 & E1 & I1 & _ & _). rewrite E in E1. injection E1 as <-.
  destruct (init_inv junk' n lg rescale None false Hn I) as (md & Ed & Id & Sd & _).
  exists md. split; [auto|]. split; [auto|]. split; [auto|]. split.
  - apply (init_same junk junk' n lg rescale None true false); auto. exact I.
  - intro X. apply Sd in X. discriminate.
Qed.

(** A stream of symbols under one adaptive model, written after the buffer and read back. *)
Lemma stream_round_trip junk n lg rescale syms buffer :
  1 <= n <= 2 ^ lg -> 7 <= lg <= 23 -> Forall (fun s => 0 <= s < n) syms -> 4 * Z.of_nat (length syms) + 8 < 2 ^ 32 ->
  exists m e m' seg,
    initqsmodel junk n lg rescale None true = Some m /\
    enc_syms (start_encoding 0 0 buffer) m lg syms = Some (e, m') /\
    done_encoding e = Some (buffer ++ seg) /\ Forall is_byte seg /\ (5 <= length seg)%nat /\
    forall junk' rest, exists md d d' md',
      initqsmodel junk' n lg rescale None false = Some md /\
      start_decoding (seg ++ rest) = Some (0, d) /\
      dec_syms d md lg (length syms) = Some (syms, d', md') /\
      done_decoding d' = Some rest /\ insync n lg m' md'.
Proof.
  intros Hn Hlg Hs Hlen.
  destruct (init_inv junk n lg rescale None true Hn I) as (m & Em & Im & _).
  destruct (syms_trace n lg syms m ltac:(lia) ltac:(lia) Im Hs) as (ts & m' & Hv & Hl & Im' & E & D).
  destruct (follows_start 0 ts [] ltac:(unfold is_byte; lia) ltac:(lia) Hv) as (seg & Eseg & Hb & H5 & _).
  { unfold few_steps. rewrite Hl. auto. }
  pose proof (segment_prepend 0 buffer ts) as Hp. rewrite Eseg in Hp. cbn [option_map] in Hp.
  unfold enc_segment in Hp. destruct (enc_trace (start_encoding 0 0 buffer) ts) as [e|] eqn:Et; [|discriminate].
  exists m, e, m', seg. split; [auto|]. split; [rewrite E, Et; reflexivity|]. split; [auto|]. split; [auto|]. split; [auto|].
  intros junk' rest.
  destruct (init_insync junk junk' n lg rescale m Hn Em) as (md & Ed & Hi).
  destruct (follows_start 0 ts rest ltac:(unfold is_byte; lia) ltac:(lia) Hv) as (seg' & Eseg' & _ & _ & d & Esd & Hf).
  { unfold few_steps. rewrite Hl. auto. }
  rewrite Eseg in Eseg'. injection Eseg' as <-.
  rewrite <- (app_nil_r ts) in Hf.
  destruct (D ltac:(lia) md seg rest [] d Hi Hf) as (d' & md' & Edd & Hi' & Hf').
  exists md, d, d', md'. split; [auto|]. split; [auto|]. split; [auto|]. split; [apply (follows_done _ _ _ Hf')|auto].
Qed.

Lemma edges_round_trip junk buffer syms :
  Forall (fun s => 0 <= s < 2) syms -> 4 * Z.of_nat (length syms) + 8 < 2 ^ 32 ->
  exists seg, encodeInsertedEdges junk buffer syms = Some (buffer ++ seg) /\ Forall is_byte seg /\ (5 <= length seg)%nat /\
    forall junk' rest, decodeInsertedEdges junk' (seg ++ rest) (length syms) = Some (syms, rest).
Proof.
  intros Hs Hl.
  destruct (stream_round_trip junk 2 10 512 syms buffer) as (m & e & m' & seg & E1 & E2 & E3 & Hb & H5 & D); auto; try (split; discriminate).
  exists seg. unfold encodeInsertedEdges. rewrite E1. cbn [bind]. rewrite E2. cbn [bind]. split; [auto|]. split; [auto|]. split; [auto|].
  intros junk' rest. destruct (D junk' rest) as (md & d & d' & md' & D1 & D2 & D3 & D4 & _).
  unfold decodeInsertedEdges. rewrite D1. cbn [bind]. rewrite D2. cbn [bind]. rewrite D3. cbn [bind]. rewrite D4. reflexivity.
Qed.

(** ** Removed vertices *)
Definition coords (faces : list (option vec)) : list Z :=
  flat_map (fun f => match f with Some (x, y, z) => [x; y; z] | None => [] end) faces.

Lemma records_trace n faces mn : forall mA mC, 1 <= n -> qinv n 18 mA -> qinv 2 10 mC ->
  (forall c, In c (coords faces) -> mn <= c < mn + n) ->
  exists ts, Forall valid_step ts /\ (length ts <= 4 * length faces)%nat /\
    (forall e, enc_records e mA mC mn (face_symbols faces) (residual_symbols faces) = enc_trace e ts) /\
    (forall mAd mCd F rest more d, insync n 18 mA mAd -> insync 2 10 mC mCd -> follows F rest (ts ++ more) d ->
       exists d', dec_records d mAd mCd mn (length faces) = Some (faces, d') /\ follows F rest more d').
Proof.
  induction faces as [|f r IH]; intros mA mC Hn IA IC Hc.
  - exists []. cbn [length face_symbols residual_symbols map flat_map enc_records dec_records enc_trace app]. repeat split; auto.
    intros mAd mCd F rest more d _ _ Hf. exists d. auto.
  - destruct f as [[[x y] z]|].
    + cbn [coords flat_map app] in Hc. fold (coords r) in Hc.
      assert (Hx : 0 <= x - mn < n) by (specialize (Hc x ltac:(cbn; auto)); lia).
      assert (Hy : 0 <= y - mn < n) by (specialize (Hc y ltac:(cbn; auto)); lia).
      assert (Hz : 0 <= z - mn < n) by (specialize (Hc z ltac:(cbn; auto)); lia).
      destruct (sym_step 2 10 mC 1 ltac:(lia) ltac:(lia) IC ltac:(lia)) as (sy0 & lt0 & mC1 & IC1 & V0 & E0 & D0).
      destruct (sym_step n 18 mA (x - mn) Hn ltac:(lia) IA Hx) as (sy1 & lt1 & mA1 & IA1 & V1 & E1 & D1).
      destruct (sym_step n 18 mA1 (y - mn) Hn ltac:(lia) IA1 Hy) as (sy2 & lt2 & mA2 & IA2 & V2 & E2 & D2).
      destruct (sym_step n 18 mA2 (z - mn) Hn ltac:(lia) IA2 Hz) as (sy3 & lt3 & mA3 & IA3 & V3 & E3 & D3).
      destruct (IH mA3 mC1 Hn IA3 IC1) as (ts & Hv & Hl & E & D); [intros c Hin; apply Hc; cbn; auto|].
      exists ((KShift 10, sy0, lt0) :: (KShift 18, sy1, lt1) :: (KShift 18, sy2, lt2) :: (KShift 18, sy3, lt3) :: ts).
      split; [repeat (constructor; auto)|]. split; [cbn [length]; lia|]. split.
      * intro e. cbn [face_symbols residual_symbols map flat_map app enc_records enc_trace].
        fold (face_symbols r) (residual_symbols r).
        rewrite E0. destruct (enc_step e (KShift 10) sy0 lt0) as [e1|]; [|reflexivity]. cbn [bind Z.eqb].
        rewrite E1. destruct (enc_step e1 (KShift 18) sy1 lt1) as [e2|]; [|reflexivity]. cbn [bind].
        rewrite E2. destruct (enc_step e2 (KShift 18) sy2 lt2) as [e3|]; [|reflexivity]. cbn [bind].
        rewrite E3. destruct (enc_step e3 (KShift 18) sy3 lt3) as [e4|]; [|reflexivity]. cbn [bind].
        apply E.
      * intros mAd mCd F rest more d HiA HiC Hf. cbn [app] in Hf.
        destruct (D0 ltac:(lia) mCd F rest _ d HiC Hf) as (d1 & mCd1 & X0 & HiC1 & Hf1).
        destruct (D1 ltac:(lia) mAd F rest _ d1 HiA Hf1) as (d2 & mAd1 & X1 & HiA1 & Hf2).
        destruct (D2 ltac:(lia) mAd1 F rest _ d2 HiA1 Hf2) as (d3 & mAd2 & X2 & HiA2 & Hf3).
        destruct (D3 ltac:(lia) mAd2 F rest _ d3 HiA2 Hf3) as (d4 & mAd3 & X3 & HiA3 & Hf4).
        destruct (D mAd3 mCd1 F rest more d4 HiA3 HiC1 Hf4) as (d5 & X & Hf5).
        exists d5. split; [|auto]. cbn [length dec_records]. rewrite X0. cbn [bind Z.eqb Pos.eqb].
        rewrite X1. cbn [bind]. rewrite X2. cbn [bind]. rewrite X3. cbn [bind]. rewrite X. cbn [bind].
        rewrite !Zplus_minus. reflexivity.
    + cbn [coords flat_map app] in Hc. fold (coords r) in Hc.
      destruct (sym_step 2 10 mC 0 ltac:(lia) ltac:(lia) IC ltac:(lia)) as (sy0 & lt0 & mC1 & IC1 & V0 & E0 & D0).
      destruct (IH mA mC1 Hn IA IC1 Hc) as (ts & Hv & Hl & E & D).
      exists ((KShift 10, sy0, lt0) :: ts). split; [constructor; auto|]. split; [cbn [length]; lia|]. split.
      * intro e. cbn [face_symbols residual_symbols map flat_map app enc_records enc_trace].
        fold (face_symbols r) (residual_symbols r).
        rewrite E0. destruct (enc_step e (KShift 10) sy0 lt0) as [e1|]; [|reflexivity]. cbn [bind Z.eqb]. apply E.
      * intros mAd mCd F rest more d HiA HiC Hf. cbn [app] in Hf.
        destruct (D0 ltac:(lia) mCd F rest _ d HiC Hf) as (d1 & mCd1 & X0 & HiC1 & Hf1).
        destruct (D mAd mCd1 F rest more d1 HiA HiC1 Hf1) as (d5 & X & Hf5).
        exists d5. split; [|auto]. cbn [length dec_records]. rewrite X0. cbn [bind Z.eqb]. rewrite X. reflexivity.
Qed.

Definition vcoords (v : vec) : list Z := let '(x, y, z) := v in [x; y; z].

Lemma scan_one_spec mn mx v mn' mx' : mn <= mx -> scan_one (mn, mx) v = (mn', mx') ->
  mn' <= mn /\ mx <= mx' /\ (forall c, In c (vcoords v) -> mn' <= c <= mx') /\
  (mn' = mn \/ In mn' (vcoords v)) /\ (mx' = mx \/ In mx' (vcoords v)).
Proof.
  destruct v as [[x y] z]. unfold scan_one, vcoords. intros Hm H.
  assert (Emin : forall a b, (if a <? b then a else b) = Z.min b a) by (intros a b; destruct (Z.ltb_spec a b); lia).
  assert (Emax : forall a b, (if b <? a then a else b) = Z.max b a) by (intros a b; destruct (Z.ltb_spec b a); lia).
  rewrite !Emin, !Emax in H. injection H as <- <-. cbn [In].
  split; [lia|]. split; [lia|]. split; [intros c [<-|[<-|[<-|[]]]]; lia|]. split; lia.
Qed.

Lemma scan_fold_spec geom : forall mn mx mn' mx', mn <= mx -> fold_left scan_one geom (mn, mx) = (mn', mx') ->
  mn' <= mn /\ mx <= mx' /\ (forall c, In c (flat_map vcoords geom) -> mn' <= c <= mx') /\
  (mn' = mn \/ In mn' (flat_map vcoords geom)) /\ (mx' = mx \/ In mx' (flat_map vcoords geom)).
Proof.
  induction geom as [|v r IH]; intros mn mx mn' mx' Hm H; cbn [fold_left flat_map] in *.
  - injection H as <- <-. repeat split; auto; try lia; try contradiction.
  - destruct (scan_one (mn, mx) v) as [a b] eqn:E. apply scan_one_spec in E; auto. destruct E as (A1 & A2 & A3 & A4 & A5).
    apply IH in H; [|lia]. destruct H as (B1 & B2 & B3 & B4 & B5).
    split; [lia|]. split; [lia|]. split; [|split].
    + intros c Hin. apply in_app_iff in Hin. destruct Hin as [Hin|Hin]; [specialize (A3 c Hin); lia|auto].
    + rewrite in_app_iff. destruct B4 as [->|B4]; [|auto]. destruct A4 as [->|A4]; auto.
    + rewrite in_app_iff. destruct B5 as [->|B5]; [|auto]. destruct A5 as [->|A5]; auto.
Qed.

Lemma coords_residuals faces : coords faces = flat_map vcoords (residual_symbols faces).
Proof.
  induction faces as [|[[[x y] z]|] r IH]; cbn [coords flat_map residual_symbols app vcoords]; [reflexivity| |exact IH].
  do 3 f_equal. exact IH.
Qed.

Lemma scan_spec geom : geom <> [] ->
  exists mn mx, scan geom = Some (mn, mx) /\ In mn (flat_map vcoords geom) /\ In mx (flat_map vcoords geom) /\
    forall c, In c (flat_map vcoords geom) -> mn <= c <= mx.
Proof.
  destruct geom as [|[[x y] z] r]; [congruence|]. intros _. cbn [scan].
  destruct (fold_left scan_one ((x, y, z) :: r) (x, x)) as [mn mx] eqn:E.
  exists mn, mx. split; [f_equal; exact E|].
  apply scan_fold_spec in E; [|lia]. destruct E as (_ & _ & A & B & C).
   split; [destruct B as [->|B]; [cbn; auto|auto]|].
  split; [destruct C as [->|C]; [cbn; auto|auto]|auto].
Qed.

Lemma short_step v : 0 <= v < 65536 -> valid_slice (KShift 16) 1 v.
Proof. intro H. split; [cbn; lia|]. cbn [total]. change (2 ^ 16) with 65536. lia. Qed.

Lemma short_dec F rest v ts d : 0 <= v < 65536 -> follows F rest ((KShift 16, 1, v) :: ts) d ->
  exists d', decode_short d = Some (v, d') /\ follows F rest ts d'.
Proof.
  intros Hv Hf. destruct (follows_step _ _ _ _ _ _ _ Hf) as (cf & d1 & Ec & Hcf & Hf').
  cbn [dec_cul total] in *. assert (cf = v) by lia. subst cf. unfold decode_short. rewrite Ec.
  rewrite Z.mod_small by lia. eauto.
Qed.

(** What the format can carry: at least one removed vertex, all residual coordinates 16-bit signed
    integers and no two of them 65535 or more apart; the number of faces keeps the byte counter of
    the coder from wrapping. *)
Definition codable_faces (faces : list (option vec)) : Prop :=
  coords faces <> [] /\
  (forall c, In c (coords faces) -> -32768 <= c < 32768) /\
  (forall c c', In c (coords faces) -> In c' (coords faces) -> c - c' < 65535) /\
  16 * Z.of_nat (length faces) + 16 < 2 ^ 32.

Lemma removed_round_trip junk buffer faces : codable_faces faces ->
  exists seg, encodeRemovedVertices junk buffer (face_symbols faces) (residual_symbols faces) = Some (buffer ++ seg) /\
    Forall is_byte seg /\ (5 <= length seg)%nat /\
    forall junk' rest, decodeRemovedVertices junk' (seg ++ rest) (length faces) = Some (faces, rest).
Proof.
  intros (Hne & Hrange & Hdiff & Hlen). rewrite coords_residuals in Hne, Hrange, Hdiff.
  assert (Hg : residual_symbols faces <> []) by (intro X; rewrite X in Hne; apply Hne; reflexivity).
  destruct (scan_spec _ Hg) as (mn & mx & Es & Hmn & Hmx & Hb).
  pose proof (Hrange mn Hmn) as Rmn. pose proof (Hdiff mx mn Hmx Hmn) as Dm. pose proof (Hb mn Hmn) as Bm.
  set (range := Z.max (mx - mn + 1) 2).
  assert (Hr : 2 <= range < 65536) by (unfold range; lia).
  assert (Hr18 : 1 <= range <= 2 ^ 18) by (change (2 ^ 18) with 262144; lia).
  destruct (init_inv junk range 18 131072 None true Hr18 I) as (mA & EA & IA & _).
  destruct (init_inv junk 2 10 512 None true ltac:(split; discriminate) I) as (mC & EC & IC & _).
  destruct (records_trace range faces mn mA mC ltac:(lia) IA IC) as (ts & Hv & Hl & E & D).
  { intros c Hc. rewrite coords_residuals in Hc. specialize (Hb c Hc). unfold range. lia. }
  set (u := mn mod 65536). assert (Hu : 0 <= u < 65536) by (apply Z.mod_pos_bound; lia).
  set (full := (KShift 16, 1, u) :: (KShift 16, 1, range) :: ts).
  assert (Hvf : Forall valid_step full).
  { constructor; [apply short_step; auto|]. constructor; [apply short_step; lia|auto]. }
  assert (Hfew : few_steps full) by (unfold few_steps, full; cbn [length]; unfold cstep in *; lia).
  destruct (follows_start 0 full [] ltac:(unfold is_byte; lia) ltac:(lia) Hvf Hfew) as (seg & Eseg & Hby & H5 & _).
  exists seg. split; [|split; [auto|split; [auto|]]].
  - pose proof (segment_prepend 0 buffer full) as Hp. rewrite Eseg in Hp. cbn [option_map] in Hp.
    unfold enc_segment, full in Hp. cbn [enc_trace] in Hp.
    unfold encodeRemovedVertices. rewrite Es. cbn [bind]. fold u range. unfold encode_short.
    cbn [enc_step] in Hp. destruct (encode_shift (start_encoding 0 0 buffer) 1 u 16) as [e1|]; [|discriminate]. cbn [bind].
    destruct (encode_shift e1 1 range 16) as [e2|]; [|discriminate]. cbn [bind].
    rewrite EA. cbn [bind]. rewrite EC. cbn [bind]. rewrite E. destruct (enc_trace e2 ts); [|discriminate]. cbn [bind]. exact Hp.
  - intros junk' rest.
    destruct (follows_start 0 full rest ltac:(unfold is_byte; lia) ltac:(lia) Hvf Hfew) as (seg' & Eseg' & _ & _ & d & Ed & Hf).
    rewrite Eseg in Eseg'. injection Eseg' as <-. unfold full in Hf.
    destruct (short_dec _ _ _ _ _ Hu Hf) as (d1 & E1 & Hf1).
    destruct (short_dec _ _ range _ _ ltac:(lia) Hf1) as (d2 & E2 & Hf2).
    destruct (init_insync junk junk' range 18 131072 mA Hr18 EA) as (mAd & EAd & HiA).
    destruct (init_insync junk junk' 2 10 512 mC ltac:(split; discriminate) EC) as (mCd & ECd & HiC).
    rewrite <- (app_nil_r ts) in Hf2.
    destruct (D mAd mCd seg rest [] d2 HiA HiC Hf2) as (d3 & X & Hf3).
    unfold decodeRemovedVertices. rewrite Ed. cbn [bind]. rewrite E1. cbn [bind]. rewrite E2. cbn [bind].
    rewrite EAd. cbn [bind]. rewrite ECd. cbn [bind].
    assert (Hmn16 : as_int16 u = mn).
    { unfold as_int16, u. destruct (Z.ltb_spec (mn mod 65536) 32768); Z.div_mod_to_equations; lia. }
    rewrite Hmn16, X. cbn [bind]. rewrite (follows_done _ _ _ Hf3). reflexivity.
Qed.

(** ** The whole stream *)
Definition codable_round (r : round) : Prop :=
  codable_faces (fst r) /\ Forall (fun s => 0 <= s < 2) (snd r) /\ 4 * Z.of_nat (length (snd r)) + 8 < 2 ^ 32.

(** The traversal asks for the right number of symbols while reading [rounds] after [sofar]. *)
Fixpoint asks (nf : list round -> nat) (ne : list round -> list (option vec) -> nat) (sofar rounds : list round) : Prop :=
  match rounds with
  | [] => True
  | r :: rs => nf sofar = length (fst r) /\ ne sofar (fst r) = length (snd r) /\ asks nf ne (sofar ++ [r]) rs
  end.

Lemma rounds_round_trip junk rounds : Forall codable_round rounds -> forall buffer,
  exists body, write_rounds junk buffer rounds = Some (buffer ++ body) /\ Forall is_byte body /\
    (10 * length rounds <= length body)%nat /\
    forall junk' nf ne sofar rest, asks nf ne sofar rounds ->
      read_rounds junk' nf ne sofar (body ++ rest) (length rounds) = Some (sofar ++ rounds, rest).
Proof.
  induction rounds as [|[faces edges] r IH]; intros Hc buffer.
  - exists []. cbn [write_rounds length read_rounds app]. rewrite !app_nil_r. repeat split; auto; try lia.
    intros. rewrite app_nil_r. reflexivity.
  - inversion Hc as [|? ? (Hf & He & Hl) Hc']; subst. cbn [fst snd] in *.
    destruct (removed_round_trip junk buffer faces Hf) as (s1 & E1 & B1 & L1 & D1).
    destruct (edges_round_trip junk (buffer ++ s1) edges He Hl) as (s2 & E2 & B2 & L2 & D2).
    destruct (IH Hc' ((buffer ++ s1) ++ s2)) as (s3 & E3 & B3 & L3 & D3).
    exists (s1 ++ s2 ++ s3). split; [|split; [|split]].
    + cbn [write_rounds]. rewrite E1. cbn [bind]. rewrite E2. cbn [bind]. rewrite E3. now rewrite <- !app_assoc.
    + rewrite !Forall_app. auto.
    + rewrite !app_length. cbn [length]. lia.
    + intros junk' nf ne sofar rest (A1 & A2 & A3). cbn [fst snd] in *. cbn [length read_rounds].
      rewrite A1, <- !app_assoc, D1. cbn [bind]. rewrite A2, D2. cbn [bind]. rewrite (D3 _ _ _ _ _ A3).
      now rewrite <- app_assoc.
Qed.

Lemma rounds_prefix junk nf ne k : forall sofar inp k' r rest,
  read_rounds junk nf ne sofar inp (k + k') = Some (r, rest) ->
  exists r1 mid, read_rounds junk nf ne sofar inp k = Some (r1, mid) /\ read_rounds junk nf ne r1 mid k' = Some (r, rest).
Proof.
  induction k as [|k IH]; intros sofar inp k' r rest H; cbn [read_rounds Nat.add] in *.
  - eauto.
  - destruct (decodeRemovedVertices junk inp (nf sofar)) as [[faces r1]|]; [|discriminate]. cbn [bind] in *.
    destruct (decodeInsertedEdges junk r1 (ne sofar faces)) as [[edges r2]|]; [|discriminate]. cbn [bind] in *. eauto.
Qed.

(** ** Reading depends only on the bytes consumed *)
Lemma culshift_tail x d sh v d' : decode_culshift d sh = Some (v, d') -> decode_culshift (with_tail x d) sh = Some (v, with_tail x d').
Proof. exact (cul_tail x d (KShift sh) v d'). Qed.

Lemma dec_sym_tail x d m sh s d' m' : dec_sym d m sh = Some (s, d', m') -> dec_sym (with_tail x d) m sh = Some (s, with_tail x d', m').
Proof.
  unfold dec_sym. destruct (decode_culshift d sh) as [[lt0 d1]|] eqn:E; [|discriminate].
  rewrite (culshift_tail x _ _ _ _ E). cbn [bind]. destruct (qsgetsym m lt0) as [sym|]; [|discriminate]. cbn [bind].
  destruct (qsgetfreq m sym) as [[sy lt]|]; [|discriminate]. cbn [bind].
  destruct (qsupdate m sym) as [mm|]; [|discriminate]. cbn [bind]. intro H. injection H as <- <- <-. now rewrite update_tail.
Qed.

Lemma dec_syms_tail x sh c : forall d m l d' m', dec_syms d m sh c = Some (l, d', m') -> dec_syms (with_tail x d) m sh c = Some (l, with_tail x d', m').
Proof.
  induction c as [|c IH]; intros d m l d' m' H; cbn [dec_syms] in *.
  - injection H as <- <- <-. reflexivity.
  - destruct (dec_sym d m sh) as [[[s d1] m1]|] eqn:E; [|discriminate]. rewrite (dec_sym_tail x _ _ _ _ _ _ E). cbn [bind] in *.
    destruct (dec_syms d1 m1 sh c) as [[[r d2] m2]|] eqn:E2; [|discriminate]. rewrite (IH _ _ _ _ _ E2). cbn [bind] in *.
    injection H as <- <- <-. reflexivity.
Qed.

Lemma edges_tail x junk inp c l rest : decodeInsertedEdges junk inp c = Some (l, rest) -> decodeInsertedEdges junk (inp ++ x) c = Some (l, rest ++ x).
Proof.
  unfold decodeInsertedEdges. destruct (initqsmodel _ _ _ _ _ _) as [m|]; [|discriminate]. cbn [bind].
  destruct (start_decoding inp) as [[c0 d]|] eqn:E; [|discriminate]. rewrite (start_tail x _ _ _ E). cbn [bind].
  destruct (dec_syms d m 10 c) as [[[l' d'] m']|] eqn:E2; [|discriminate]. rewrite (dec_syms_tail x _ _ _ _ _ _ _ E2). cbn [bind].
  destruct (done_decoding d') as [r|] eqn:E3; [|discriminate]. rewrite (done_tail x _ _ E3). cbn [bind].
  intro H. injection H as <- <-. reflexivity.
Qed.

Lemma short_tail x d v d' : decode_short d = Some (v, d') -> decode_short (with_tail x d) = Some (v, with_tail x d').
Proof.
  unfold decode_short. destruct (decode_culshift d 16) as [[t d1]|] eqn:E; [|discriminate]. rewrite (culshift_tail x _ _ _ _ E).
  intro H. injection H as <- <-. now rewrite update_tail.
Qed.

Lemma dec_records_tail x mn c : forall d mA mC l d', dec_records d mA mC mn c = Some (l, d') ->
  dec_records (with_tail x d) mA mC mn c = Some (l, with_tail x d').
Proof.
  induction c as [|c IH]; intros d mA mC l d' H; cbn [dec_records] in *.
  - injection H as <- <-. reflexivity.
  - destruct (dec_sym d mC 10) as [[[s d1] m1]|] eqn:E; [|discriminate]. rewrite (dec_sym_tail x _ _ _ _ _ _ E). cbn [bind] in *.
    destruct (s =? 1).
    + destruct (dec_sym d1 mA 18) as [[[a d2] m2]|] eqn:E2; [|discriminate]. rewrite (dec_sym_tail x _ _ _ _ _ _ E2). cbn [bind] in *.
      destruct (dec_sym d2 m2 18) as [[[b d3] m3]|] eqn:E3; [|discriminate]. rewrite (dec_sym_tail x _ _ _ _ _ _ E3). cbn [bind] in *.
      destruct (dec_sym d3 m3 18) as [[[e d4] m4]|] eqn:E4; [|discriminate]. rewrite (dec_sym_tail x _ _ _ _ _ _ E4). cbn [bind] in *.
      destruct (dec_records d4 m4 m1 mn c) as [[r d5]|] eqn:E5; [|discriminate]. rewrite (IH _ _ _ _ _ E5). cbn [bind] in *.
      injection H as <- <-. reflexivity.
    + destruct (dec_records d1 mA m1 mn c) as [[r d5]|] eqn:E5; [|discriminate]. rewrite (IH _ _ _ _ _ E5). cbn [bind] in *.
      injection H as <- <-. reflexivity.
Qed.

Lemma removed_tail x junk inp c l rest : decodeRemovedVertices junk inp c = Some (l, rest) -> decodeRemovedVertices junk (inp ++ x) c = Some (l, rest ++ x).
Proof.
  unfold decodeRemovedVertices.
  destruct (start_decoding inp) as [[c0 d]|] eqn:E; [|discriminate]. rewrite (start_tail x _ _ _ E). cbn [bind].
  destruct (decode_short d) as [[u d1]|] eqn:E1; [|discriminate]. rewrite (short_tail x _ _ _ E1). cbn [bind].
  destruct (decode_short d1) as [[range d2]|] eqn:E2; [|discriminate]. rewrite (short_tail x _ _ _ E2). cbn [bind].
  destruct (initqsmodel junk range 18 131072 None false) as [mA|]; [|discriminate]. cbn [bind].
  destruct (initqsmodel junk 2 10 512 None false) as [mC|]; [|discriminate]. cbn [bind].
  destruct (dec_records d2 mA mC (as_int16 u) c) as [[l' d']|] eqn:E4; [|discriminate]. rewrite (dec_records_tail x _ _ _ _ _ _ _ E4). cbn [bind].
  destruct (done_decoding d') as [r|] eqn:E3; [|discriminate]. rewrite (done_tail x _ _ E3). cbn [bind].
  intro H. injection H as <- <-. reflexivity.
Qed.

Lemma rounds_tail x junk nf ne k : forall sofar inp r rest, read_rounds junk nf ne sofar inp k = Some (r, rest) ->
  read_rounds junk nf ne sofar (inp ++ x) k = Some (r, rest ++ x).
Proof.
  induction k as [|k IH]; intros sofar inp r rest H; cbn [read_rounds] in *.
  - injection H as <- <-. reflexivity.
  - destruct (decodeRemovedVertices junk inp (nf sofar)) as [[faces r1]|] eqn:E; [|discriminate].
    rewrite (removed_tail x _ _ _ _ _ E). cbn [bind] in *.
    destruct (decodeInsertedEdges junk r1 (ne sofar faces)) as [[edges r2]|] eqn:E2; [|discriminate].
    rewrite (edges_tail x _ _ _ _ _ E2). cbn [bind] in *. auto.
Qed.

(** ** Statements for the property file *)
Lemma updates_sync n lg hist : forall m md, 1 <= n -> insync n lg m md -> Forall (fun s => 0 <= s < n) hist ->
  exists m' md', qsupdates m hist = Some m' /\ qsupdates md hist = Some md' /\ insync n lg m' md'.
Proof.
  induction hist as [|s r IH]; intros m md Hn Hi H; cbn [qsupdates].
  - exists m, md. auto.
  - inversion H; subst. destruct Hi as (I1 & I2 & S & Q).
    destruct (qsupdate_inv n lg m s Hn I1) as (m1 & E1 & I1' & _); auto.
    destruct (qsupdate_inv n lg md s Hn I2) as (m2 & E2 & I2' & S2); auto.
    rewrite E1, E2. cbn [bind]. apply IH; auto. split; [auto|]. split; [auto|].
    split; [exact (qsupdate_same n lg m md m1 m2 s Hn I1 I2 ltac:(auto) S E1 E2)|]. rewrite S2. auto.
Qed.

Lemma stream_statement junk n lg rescale syms buffer :
  1 <= n <= 2 ^ lg -> 7 <= lg <= 23 -> Forall (fun s => 0 <= s < n) syms -> 4 * Z.of_nat (length syms) + 8 < 2 ^ 32 ->
  exists m e m' seg,
    initqsmodel junk n lg rescale None true = Some m /\
    enc_syms (start_encoding 0 0 buffer) m lg syms = Some (e, m') /\
    done_encoding e = Some (buffer ++ seg) /\
    forall junk' rest, exists md d d' md',
      initqsmodel junk' n lg rescale None false = Some md /\
      start_decoding (seg ++ rest) = Some (0, d) /\
      dec_syms d md lg (length syms) = Some (syms, d', md') /\
      done_decoding d' = Some rest /\
      forall later, Forall (fun s => 0 <= s < n) later ->
      exists m1 m2, qsupdates m' later = Some m1 /\ qsupdates md' later = Some m2 /\
        forall s, 0 <= s < n -> qsgetfreq m1 s = qsgetfreq m2 s.
Proof.
  intros Hn Hlg Hs Hl. destruct (stream_round_trip junk n lg rescale syms buffer Hn Hlg Hs Hl) as (m & e & m' & seg & E1 & E2 & E3 & _ & _ & D).
  exists m, e, m', seg. split; [auto|]. split; [auto|]. split; [auto|]. intros junk' rest.
  destruct (D junk' rest) as (md & d & d' & md' & D1 & D2 & D3 & D4 & D5). exists md, d, d', md'.
  split; [auto|]. split; [auto|]. split; [auto|]. split; [auto|]. intros later Hla.
  destruct (updates_sync n lg later m' md' ltac:(lia) D5 Hla) as (m1 & m2 & X1 & X2 & (I1 & I2 & S & _)).
  exists m1, m2. split; [auto|]. split; [auto|]. intros s Hs'.
  rewrite (qsgetfreq_spec n lg m1 s I1 Hs'), (qsgetfreq_spec n lg m2 s I2 Hs').
  rewrite !(sm_cf _ _ _ S) by lia. reflexivity.
Qed.

Lemma removed_statement : forall junk buffer faces, codable_faces faces ->
  exists seg,
    encodeRemovedVertices junk buffer (face_symbols faces) (residual_symbols faces) = Some (buffer ++ seg) /\
    forall junk' rest, decodeRemovedVertices junk' (seg ++ rest) (length faces) = Some (faces, rest).
Proof. intros junk buffer faces H. destruct (removed_round_trip junk buffer faces H) as (seg & E & _ & _ & D). eauto. Qed.

Lemma edges_statement : forall junk buffer flags,
  Forall (fun s => s = 0 \/ s = 1) flags -> 4 * Z.of_nat (length flags) + 8 < 2 ^ 32 ->
  exists seg,
    encodeInsertedEdges junk buffer flags = Some (buffer ++ seg) /\
    forall junk' rest, decodeInsertedEdges junk' (seg ++ rest) (length flags) = Some (flags, rest).
Proof.
  intros junk buffer flags H Hl. destruct (edges_round_trip junk buffer flags) as (seg & E & _ & _ & D); auto.
  - eapply Forall_impl; [|exact H]. cbn. lia.
  - eauto.
Qed.

Lemma asks_prefix nf ne a : forall sofar b, asks nf ne sofar (a ++ b) -> asks nf ne sofar a.
Proof.
  induction a as [|r a IH]; intros sofar b H; cbn [app asks] in *; [exact I|].
  destruct H as (H1 & H2 & H3). split; [auto|]. split; [auto|]. eapply IH; eauto.
Qed.

Lemma rounds_statement : forall junk rounds buffer, Forall codable_round rounds ->
  exists body, write_rounds junk buffer rounds = Some (buffer ++ body) /\
    forall junk' nf ne rest, asks nf ne [] rounds ->
      read_rounds junk' nf ne [] (body ++ rest) (length rounds) = Some (rounds, rest).
Proof.
  intros junk rounds buffer H. destruct (rounds_round_trip junk rounds H buffer) as (body & E & _ & _ & D).
  exists body. split; [auto|]. intros junk' nf ne rest Ha. exact (D junk' nf ne [] rest Ha).
Qed.

(** What the writer emits for the first rounds does not depend on the later ones. *)
Lemma write_rounds_app junk a : forall buffer b, write_rounds junk buffer (a ++ b) = bind (write_rounds junk buffer a) (fun x => write_rounds junk x b).
Proof.
  induction a as [|[f e] a IH]; intros buffer b; cbn [app write_rounds bind]; [reflexivity|].
  destruct (encodeRemovedVertices _ _ _ _); [|reflexivity]. cbn [bind].
  destruct (encodeInsertedEdges _ _ _); [|reflexivity]. cbn [bind]. apply IH.
Qed.

Lemma prefix_statement : forall junk early late buffer, Forall codable_round (early ++ late) ->
  exists first, write_rounds junk buffer early = Some (buffer ++ first) /\
  exists second, write_rounds junk buffer (early ++ late) = Some (buffer ++ first ++ second) /\
    forall junk' nf ne anything, asks nf ne [] early ->
      read_rounds junk' nf ne [] (first ++ anything) (length early) = Some (early, anything).
Proof.
  intros junk early late buffer H. rewrite Forall_app in H. destruct H as [He Hl].
  destruct (rounds_round_trip junk early He buffer) as (b1 & E1 & _ & _ & D1).
  destruct (rounds_round_trip junk late Hl (buffer ++ b1)) as (b2 & E2 & _).
  exists b1. split; [auto|]. exists b2. split.
  - rewrite write_rounds_app, E1. cbn [bind]. rewrite E2. now rewrite <- app_assoc.
  - intros junk' nf ne x Ha. exact (D1 junk' nf ne [] x Ha).
Qed.

Lemma any_prefix_statement : forall junk nf ne inp x k rounds rest,
  read_rounds junk nf ne [] inp k = Some (rounds, rest) ->
  read_rounds junk nf ne [] (inp ++ x) k = Some (rounds, rest ++ x).
Proof. intros. apply rounds_tail. assumption. Qed.

Lemma refine_statement : forall junk nf ne inp k k' rounds rest,
  read_rounds junk nf ne [] inp (k + k') = Some (rounds, rest) ->
  exists coarse mid, read_rounds junk nf ne [] inp k = Some (coarse, mid) /\ firstn k rounds = coarse.
Proof.
  intros junk nf ne inp k k' rounds rest H. destruct (rounds_prefix _ _ _ _ _ _ _ _ _ H) as (r1 & mid & E1 & E2).
  exists r1, mid. split; [auto|].
  assert (L : forall k sofar inp r rest, read_rounds junk nf ne sofar inp k = Some (r, rest) -> exists ext, r = sofar ++ ext /\ length ext = k).
  { clear. induction k as [|k IH]; intros sofar inp r rest H; cbn [read_rounds] in H.
    - injection H as <- <-. exists []. rewrite app_nil_r. auto.
    - destruct (decodeRemovedVertices _ _ _) as [[f r1]|]; [|discriminate]. cbn [bind] in H.
      destruct (decodeInsertedEdges _ _ _) as [[e r2]|]; [|discriminate]. cbn [bind] in H.
      apply IH in H. destruct H as (ext & -> & L). exists ((f, e) :: ext). split; [now rewrite <- app_assoc|cbn; congruence]. }
  destruct (L _ _ _ _ _ E1) as (e1 & -> & L1). destruct (L _ _ _ _ _ E2) as (e2 & -> & L2). cbn [app].
  rewrite firstn_app, L1, Nat.sub_diag, firstn_O, app_nil_r. apply firstn_all2. lia.
Qed.
