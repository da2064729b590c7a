(** Proofs about the range coder model. *)
From Coq Require Import List ZArith Lia Bool.
From Verif Require Import RangeCoderModel.
Import ListNotations.
Open Scope Z_scope.

(** * Byte strings as numbers *)

Definition is_byte (b : Z) : Prop := 0 <= b < 256.
Definition bytesZ (l : list Z) : Z := fold_left (fun a b => a * 256 + b) l 0.
Definition P256 (n : nat) : Z := 256 ^ Z.of_nat n.

Lemma P256_pos n : 0 < P256 n.
Proof. unfold P256. apply Z.pow_pos_nonneg; lia. Qed.
Lemma P256_S n : P256 (S n) = 256 * P256 n.
Proof. unfold P256. rewrite Nat2Z.inj_succ, Z.pow_succ_r; lia. Qed.
Lemma P256_0 : P256 0 = 1.
Proof. reflexivity. Qed.
Lemma P256_add a b : P256 (a + b) = P256 a * P256 b.
Proof. unfold P256. rewrite Nat2Z.inj_add, Z.pow_add_r; lia. Qed.

Lemma fold_bytes l a :
  fold_left (fun a b => a * 256 + b) l a = a * P256 (length l) + bytesZ l.
Proof.
  unfold bytesZ. revert a; induction l as [|x l IH]; intro a.
  - cbn [fold_left length]. rewrite P256_0. lia.
  - cbn [fold_left length]. rewrite IH, (IH (0 * 256 + x)), P256_S. ring.
Qed.
Lemma bytesZ_cons x l : bytesZ (x :: l) = x * P256 (length l) + bytesZ l.
Proof. unfold bytesZ at 1. cbn [fold_left]. rewrite fold_bytes. ring. Qed.
Lemma bytesZ_app a b : bytesZ (a ++ b) = bytesZ a * P256 (length b) + bytesZ b.
Proof. unfold bytesZ at 1. rewrite fold_left_app. rewrite fold_bytes. reflexivity. Qed.
Lemma bytesZ_nil : bytesZ [] = 0.
Proof. reflexivity. Qed.
Lemma bytesZ_bound l : Forall is_byte l -> 0 <= bytesZ l < P256 (length l).
Proof.
  induction l as [|x l IH]; intro H.
  - rewrite bytesZ_nil. cbn [length]. rewrite P256_0. lia.
  - inversion H as [|? ? Hx Hl]; subst. specialize (IH Hl).
    rewrite bytesZ_cons. cbn [length]. rewrite P256_S. unfold is_byte in Hx. nia.
Qed.
Lemma bytesZ_repeat0 n : bytesZ (repeat 0 n) = 0.
Proof. induction n; cbn [repeat]; [reflexivity|]. rewrite bytesZ_cons, IHn. lia. Qed.
Lemma bytesZ_repeat255 n : bytesZ (repeat 255 n) = P256 n - 1.
Proof.
  induction n; cbn [repeat]; [reflexivity|].
  rewrite bytesZ_cons, IHn, P256_S, repeat_length. lia.
Qed.

Lemma bytesZ_firstn n l :
  (n <= length l)%nat -> Forall is_byte l ->
  bytesZ (firstn n l) * P256 (length l - n) <= bytesZ l
  < (bytesZ (firstn n l) + 1) * P256 (length l - n).
Proof.
  intros Hn Hl.
  assert (E : bytesZ l = bytesZ (firstn n l) * P256 (length l - n) + bytesZ (skipn n l)).
  { rewrite <- (firstn_skipn n l) at 1. rewrite bytesZ_app, skipn_length. reflexivity. }
  assert (Hs : Forall is_byte (skipn n l)).
  { rewrite <- (firstn_skipn n l) in Hl. apply Forall_app in Hl. apply Hl. }
  apply bytesZ_bound in Hs. rewrite skipn_length in Hs. lia.
Qed.

(** * Encoder: ghost code value and invariant *)

Definition prefix (e : enc) : list Z :=
  e_out e ++ e_buf e :: repeat 255 (Z.to_nat (e_help e)).
Definition ghost (e : enc) : Z := bytesZ (prefix e) * Top + e_low e.
Definition nb (e : enc) : nat := length (prefix e).

Record inv (h : Z) (e : enc) : Prop := {
  i_low : 0 <= e_low e;
  i_range : 1 <= e_range e <= Top;
  i_sum : e_low e + e_range e <= 2 ^ 32;
  i_buf : is_byte (e_buf e);
  i_carry : e_buf e = 255 -> e_low e + e_range e <= Top;
  i_help : 0 <= e_help e <= h;
  i_out : Forall is_byte (e_out e) }.

Lemma inv_weaken h h' e : inv h e -> h <= h' -> inv h' e.
Proof. intros [] ?. constructor; auto; lia. Qed.

Lemma low_shift low : 0 <= low < 2 ^ 32 ->
  Z.land (w32 (Z.shiftl low 8)) (Top - 1) = (low mod 2 ^ 23) * 256.
Proof.
  intro H. unfold w32, Top.
  replace (2 ^ 31 - 1) with (Z.ones 31) by reflexivity.
  rewrite Z.land_ones by lia. rewrite Z.shiftl_mul_pow2 by lia.
  change (2 ^ 32) with 4294967296 in *. change (2 ^ 31) with 2147483648.
  change (2 ^ 23) with 8388608. change (2 ^ 8) with 256.
  Z.div_mod_to_equations. lia.
Qed.

Lemma land_top low : 0 <= low < 2 ^ 32 -> Z.land low Top = 0 <-> low < Top.
Proof.
  intro H. unfold Top. split.
  - intro E. destruct (Z.lt_ge_cases low (2 ^ 31)) as [|G]; [assumption|exfalso].
    assert (T : Z.testbit (Z.land low (2 ^ 31)) 31 = true).
    { rewrite Z.land_spec, Z.pow2_bits_true by lia. rewrite andb_true_r.
      rewrite Z.testbit_true by lia.
      assert (low / 2 ^ 31 = 1) as ->; [|reflexivity].
      symmetry. apply (Z.div_unique low (2 ^ 31) 1 (low - 2 ^ 31)); lia. }
    rewrite E, Z.bits_0 in T. discriminate.
  - intro L. apply Z.bits_inj'. intros n Hn. rewrite Z.bits_0, Z.land_spec.
    destruct (Z.eq_dec n 31) as [->|Ne].
    + replace (Z.testbit low 31) with false; [reflexivity|]. symmetry.
      apply Z.testbit_false; [lia|]. rewrite Z.div_small by lia. reflexivity.
    + rewrite Z.pow2_bits_false by lia. apply andb_false_r.
Qed.

Lemma repeat_bytes b n : is_byte b -> Forall is_byte (repeat b n).
Proof. intro H. apply Forall_forall. intros x Hx. apply repeat_spec in Hx. subst; auto. Qed.

Lemma iter_spec h e : inv h e -> h + 1 < 2 ^ 32 -> e_range e <= Bottom ->
  let e' := enc_norm_iter e in
  inv (h + 1) e' /\ ghost e' = 256 * ghost e /\ e_range e' = 256 * e_range e /\
  nb e' = S (nb e) /\ (exists more, e_out e' = e_out e ++ more) /\
  e_low e' + e_range e' <= 2 ^ 32.
Proof.
  intros [Hl Hr Hs Hb Hc Hh Ho] Hbound HB. cbn zeta.
  unfold Bottom in HB.
  assert (Hlow : 0 <= e_low e < 2 ^ 32) by lia.
  pose proof (Z.mod_pos_bound (e_low e) (2 ^ 23) ltac:(lia)) as Hmod.
  pose proof (Z.div_mod (e_low e) (2 ^ 23) ltac:(lia)) as Hdm.
  assert (Hw : w32 (Z.shiftl (e_range e) 8) = 256 * e_range e).
  { unfold w32. rewrite Z.shiftl_mul_pow2 by lia. change (2^8) with 256.
    rewrite Z.mod_small by lia. lia. }
  unfold enc_norm_iter.
  rewrite low_shift by lia. rewrite Hw.
  rewrite Z.shiftr_div_pow2 by (unfold SHIFT_BITS; lia).
  change (Z.shiftl 255 SHIFT_BITS) with 2139095040.
  change (2 ^ SHIFT_BITS) with (2 ^ 23).
  assert (Htop : Top = 256 * 2 ^ 23) by reflexivity.
  set (q := e_low e / 2 ^ 23) in *. set (m := e_low e mod 2 ^ 23) in *.
  assert (Hq : 0 <= q < 512) by (change (2^23) with 8388608 in *; change (2^32) with 4294967296 in *; lia).
  destruct (Z.ltb_spec (e_low e) 2139095040) as [L|L].
  - assert (Hq2 : q < 255) by (change (2^23) with 8388608 in *; lia).
    rewrite (Z.mod_small q 256) by lia.
    split; [|split; [|split; [|split]]].
    + constructor; cbn [e_low e_range e_help e_buf e_out]; try lia.
      * unfold is_byte; lia.
      * apply Forall_app; split; [assumption|]. constructor; [assumption|].
        apply repeat_bytes; unfold is_byte; lia.
    + unfold ghost, prefix. cbn [e_low e_range e_help e_buf e_out].
      cbn [Z.to_nat repeat]. rewrite (bytesZ_app _ [q]). rewrite bytesZ_cons. cbn [length].
      rewrite bytesZ_nil, P256_S, P256_0. rewrite Hdm. rewrite Htop. ring.
    + cbn [e_range]. reflexivity.
    + unfold nb, prefix. cbn [e_low e_range e_help e_buf e_out].
      cbn [Z.to_nat repeat]. rewrite app_length. cbn [length]. lia.
    + split; [eexists; reflexivity|]. cbn [e_low e_range]. lia.
  - destruct (Z.eqb_spec (Z.land (e_low e) Top) 0) as [T|T]; cbn [negb].
    + apply land_top in T; [|lia].
      assert (Hq2 : q = 255) by (unfold Top in T; change (2^23) with 8388608 in *; change (2^31) with 2147483648 in *; lia).
      assert (Hhelp : w32 (e_help e + 1) = e_help e + 1) by (unfold w32; rewrite Z.mod_small; lia).
      rewrite Hhelp.
      split; [|split; [|split; [|split]]].
      * constructor; cbn [e_low e_range e_help e_buf e_out]; try lia; auto.
      * unfold ghost, prefix. cbn [e_low e_range e_help e_buf e_out].
        rewrite !bytesZ_app, !bytesZ_cons, !bytesZ_repeat255. cbn [length]. rewrite !repeat_length.
        replace (Z.to_nat (e_help e + 1)) with (S (Z.to_nat (e_help e))) by lia.
        rewrite !P256_S. rewrite Hdm. rewrite Hq2, Htop. ring.
      * cbn [e_range]. reflexivity.
      * unfold nb, prefix. cbn [e_low e_range e_help e_buf e_out].
        rewrite !app_length. cbn [length]. rewrite !repeat_length. lia.
      * split; [exists []; rewrite app_nil_r; reflexivity|]. cbn [e_low e_range]. lia.
    + assert (T' : Top <= e_low e).
      { destruct (Z.lt_ge_cases (e_low e) Top); [|assumption]. exfalso. apply T. apply land_top; lia. }
      assert (Hq2 : 256 <= q) by (unfold Top in T'; change (2^23) with 8388608 in *; change (2^31) with 2147483648 in *; lia).
      assert (Hqm : q mod 256 = q - 256).
      { symmetry. apply (Z.mod_unique q 256 1); lia. }
      rewrite Hqm.
      assert (Hb2 : e_buf e < 255).
      { unfold is_byte in Hb. destruct (Z.eq_dec (e_buf e) 255) as [B|]; [|lia].
        specialize (Hc B). lia. }
      rewrite (Z.mod_small (e_buf e + 1)) by (unfold is_byte in Hb; lia).
      split; [|split; [|split; [|split]]].
      * constructor; cbn [e_low e_range e_help e_buf e_out]; try lia.
        -- unfold is_byte; lia.
        -- apply Forall_app; split; [assumption|]. constructor; [unfold is_byte in *; lia|].
           apply repeat_bytes; unfold is_byte; lia.
      * unfold ghost, prefix. cbn [e_low e_range e_help e_buf e_out].
        cbn [Z.to_nat repeat]. rewrite (bytesZ_app _ [q - 256]). rewrite bytesZ_cons. cbn [length].
        rewrite !bytesZ_app, !bytesZ_cons, bytesZ_repeat0, bytesZ_repeat255.
        cbn [length]. rewrite !repeat_length.
        rewrite bytesZ_nil, !P256_S, P256_0. rewrite Hdm. rewrite Htop. ring.
      * cbn [e_range]. reflexivity.
      * unfold nb, prefix. cbn [e_low e_range e_help e_buf e_out].
        cbn [Z.to_nat repeat]. rewrite !app_length. cbn [length]. rewrite !repeat_length. lia.
      * split; [eexists; reflexivity|]. cbn [e_low e_range]. lia.
Qed.

(** * Coding steps *)

Inductive kind := KFreq (tot : Z) | KShift (sh : Z).
Definition total (k : kind) : Z := match k with KFreq t => t | KShift s => 2 ^ s end.
Definition valid_kind (k : kind) : Prop :=
  match k with KFreq t => 1 <= t <= 2 ^ 23 | KShift s => 0 <= s <= 23 end.
Definition enc_step (e : enc) (k : kind) (sy lt : Z) : option enc :=
  match k with KFreq t => encode_freq e sy lt t | KShift s => encode_shift e sy lt s end.
Definition dec_cul (d : dec) (k : kind) : option (Z * dec) :=
  match k with KFreq t => decode_culfreq d t | KShift s => decode_culshift d s end.

Lemma total_bound k : valid_kind k -> 1 <= total k <= 2 ^ 23.
Proof.
  destruct k as [t|s]; cbn [valid_kind total]; [auto|]. intro H. split.
  - pose proof (Z.pow_pos_nonneg 2 s). lia.
  - apply Z.pow_le_mono_r; lia.
Qed.

(** [e'] is reached from [e] by [n] renormalisations. *)
Definition normd (n : nat) (e e' : enc) : Prop :=
  ghost e' = P256 n * ghost e /\ e_range e' = P256 n * e_range e /\
  nb e' = (n + nb e)%nat /\ exists more, e_out e' = e_out e ++ more.

Lemma normd_refl e : normd 0 e e.
Proof.
  unfold normd. rewrite P256_0. repeat split; try lia. exists []. now rewrite app_nil_r.
Qed.

Lemma normalize_loop_spec f : forall h e,
  inv h e -> h + Z.of_nat f < 2 ^ 32 -> Bottom < e_range e * P256 f ->
  exists n e', enc_normalize_loop f e = Some e' /\ inv (h + Z.of_nat f) e' /\
    normd n e e' /\ Bottom < e_range e' /\ (n <= f)%nat.
Proof.
  induction f as [|f IH]; intros h e Hi Hh Hr; cbn [enc_normalize_loop].
  - rewrite P256_0 in Hr. destruct (Z.leb_spec (e_range e) Bottom) as [L|L]; [lia|].
    exists O, e. split; [reflexivity|]. split; [apply (inv_weaken h); [assumption|lia]|].
    split; [apply normd_refl|]. split; [lia|lia].
  - destruct (Z.leb_spec (e_range e) Bottom) as [L|L].
    + destruct (iter_spec h e Hi ltac:(lia) L) as (Hi' & Hg & Hrg & Hn & (m1 & Hm1) & _).
      destruct (IH (h + 1) (enc_norm_iter e) Hi') as (n & e' & E & Hi2 & (G & R & N & (m2 & M)) & B & Hle).
      * lia.
      * rewrite Hrg. rewrite P256_S in Hr. lia.
      * exists (S n), e'. split; [exact E|]. split; [apply (inv_weaken _ _ _ Hi2); lia|].
        split; [|split; [assumption|lia]].
        unfold normd. rewrite P256_S, G, Hg, R, Hrg, N, Hn.
        split; [ring|]. split; [ring|]. split; [lia|].
        exists (m1 ++ m2). rewrite M, Hm1, app_assoc. reflexivity.
    + exists O, e. split; [reflexivity|].
      split; [apply (inv_weaken h); [assumption|lia]|].
      split; [apply normd_refl|]. split; [lia|lia].
Qed.

Lemma normalize_spec h e :
  inv h e -> h + 4 < 2 ^ 32 ->
  exists n e', enc_normalize e = Some e' /\ inv (h + 4) e' /\ normd n e e' /\ Bottom < e_range e'.
Proof.
  intros Hi Hh. destruct (normalize_loop_spec 4 h e Hi) as (n & e' & E & Hi2 & Hn & B & _).
  - exact Hh.
  - destruct Hi as [? [Hr _] ? ? ? ? ?]. change (P256 4) with 4294967296.
    change Bottom with 8388608. lia.
  - exists n, e'. auto.
Qed.

(** The narrowing part shared by both coding functions, with no machine overflow. *)
Definition narrow (e : enc) (k : kind) (sy lt : Z) : enc :=
  let r := e_range e / total k in
  Enc (e_low e + r * lt)
      (if lt + sy <? total k then r * sy else e_range e - r * lt)
      (e_help e) (e_buf e) (e_cnt e) (e_out e).

Definition valid_slice (k : kind) (sy lt : Z) : Prop :=
  valid_kind k /\ 1 <= sy /\ 0 <= lt /\ lt + sy <= total k.

Lemma narrow_arith R t sy lt :
  2 ^ 23 < R <= 2 ^ 31 -> 1 <= t <= 2 ^ 23 -> 1 <= sy -> 0 <= lt -> lt + sy <= t ->
  let r := R / t in
  1 <= r /\ 0 <= r * lt /\ r * (lt + sy) <= R /\ r * t <= R.
Proof.
  intros HR Ht Hs Hl Hsum r.
  assert (Hr : 1 <= r).
  { unfold r. apply Z.div_le_lower_bound; lia. }
  assert (Hm : r * t <= R).
  { unfold r. pose proof (Z.mul_div_le R t ltac:(lia)). lia. }
  repeat split; try assumption; try nia.
Qed.

Lemma shiftr_small x s : 0 <= x -> 0 <= s -> Z.shiftr x s = 0 <-> x < 2 ^ s.
Proof.
  intros Hx Hs. rewrite Z.shiftr_div_pow2 by lia.
  pose proof (Z.pow_pos_nonneg 2 s ltac:(lia) Hs). split; intro H0.
  - pose proof (Z.div_mod x (2 ^ s) ltac:(lia)) as D. rewrite H0 in D.
    pose proof (Z.mod_pos_bound x (2 ^ s) ltac:(lia)). lia.
  - apply Z.div_small. lia.
Qed.

Lemma enc_step_eq h e k sy lt :
  inv h e -> h + 4 < 2 ^ 32 -> valid_slice k sy lt ->
  exists n e1, enc_normalize e = Some e1 /\ inv (h + 4) e1 /\ normd n e e1 /\
    Bottom < e_range e1 /\ enc_step e k sy lt = Some (narrow e1 k sy lt).
Proof.
  intros Hi Hh (Hk & Hs & Hl & Hsum).
  destruct (normalize_spec h e Hi Hh) as (n & e1 & E & Hi1 & Hn & B).
  exists n, e1. repeat (split; [assumption|]).
  pose proof (total_bound k Hk) as Ht.
  destruct Hi1 as [H1 H2 H3 H4 H5 H6 H7].
  unfold Bottom in B. unfold Top in H2.
  destruct (narrow_arith (e_range e1) (total k) sy lt ltac:(lia) Ht Hs Hl Hsum) as (A1 & A2 & A3 & A4).
  assert (W : w32 (lt + sy) = lt + sy) by (unfold w32; rewrite Z.mod_small; lia).
  destruct k as [t|s]; cbn [enc_step total valid_kind] in *.
  - unfold encode_freq. rewrite E. destruct (Z.eqb_spec t 0); [lia|].
    set (r := e_range e1 / t) in *.
    assert (W2 : w32 (r * lt) = r * lt) by (unfold w32; rewrite Z.mod_small; lia).
    rewrite W, W2. unfold narrow. cbn [total]. fold r.
    f_equal. f_equal.
    + unfold w32. rewrite Z.mod_small by lia. reflexivity.
    + destruct (Z.ltb_spec (lt + sy) t); unfold w32; rewrite Z.mod_small; lia.
  - unfold encode_shift. rewrite E.
    destruct (Z.ltb_spec s 0); [lia|]. destruct (Z.leb_spec 32 s); [lia|]. cbn [orb].
    rewrite (Z.shiftr_div_pow2 (e_range e1)) by lia.
    set (r := e_range e1 / 2 ^ s) in *.
    assert (W2 : w32 (r * lt) = r * lt) by (unfold w32; rewrite Z.mod_small; lia).
    rewrite W, W2. unfold narrow. cbn [total]. fold r.
    f_equal. f_equal.
    + unfold w32. rewrite Z.mod_small by lia. reflexivity.
    + destruct (Z.ltb_spec (lt + sy) (2 ^ s)) as [L|L];
      destruct (Z.eqb_spec (Z.shiftr (lt + sy) s) 0) as [Q|Q];
      try (apply shiftr_small in Q; lia);
      try (unfold w32; rewrite Z.mod_small; lia).
      exfalso. apply Q. apply shiftr_small; lia.
Qed.

Lemma narrow_spec h e k sy lt :
  inv h e -> Bottom < e_range e -> valid_slice k sy lt ->
  let e' := narrow e k sy lt in
  inv h e' /\ ghost e <= ghost e' /\ ghost e' + e_range e' <= ghost e + e_range e /\
  nb e' = nb e /\ e_out e' = e_out e.
Proof.
  intros [H1 H2 H3 H4 H5 H6 H7] B (Hk & Hs & Hl & Hsum) e'.
  pose proof (total_bound k Hk) as Ht. unfold Bottom in B. unfold Top in H2.
  destruct (narrow_arith (e_range e) (total k) sy lt ltac:(lia) Ht Hs Hl Hsum) as (A1 & A2 & A3 & A4).
  unfold e', narrow, ghost, nb, prefix. cbn [e_low e_range e_help e_buf e_out].
  set (r := e_range e / total k) in *.
  assert (R1 : 1 <= (if lt + sy <? total k then r * sy else e_range e - r * lt)).
  { destruct (Z.ltb_spec (lt + sy) (total k)); nia. }
  assert (R2 : r * lt + (if lt + sy <? total k then r * sy else e_range e - r * lt) <= e_range e).
  { destruct (Z.ltb_spec (lt + sy) (total k)); nia. }
  split; [|split; [|split; [|split]]]; try lia; try reflexivity.
  constructor; cbn [e_low e_range e_help e_buf e_out]; try lia; auto; unfold Top; lia.
Qed.

(** * Containment of the final code in every intermediate interval *)

Definition contain (F : list Z) (e : enc) : Prop :=
  (nb e + 4 <= length F)%nat /\
  let M := P256 (length F - (nb e + 4)) in
  2 * ghost e * M <= bytesZ F < 2 * (ghost e + e_range e) * M.

Lemma contain_normd F n e e' : normd n e e' -> contain F e' -> contain F e.
Proof.
  intros (G & R & N & _) (L & C). split; [lia|].
  cbn zeta in *. rewrite G, R, N in C.
  replace (length F - (nb e + 4))%nat with (n + (length F - (n + nb e + 4)))%nat by lia.
  rewrite P256_add. lia.
Qed.

Lemma contain_narrow F e e' :
  ghost e <= ghost e' -> ghost e' + e_range e' <= ghost e + e_range e -> nb e' = nb e ->
  contain F e' -> contain F e.
Proof.
  intros G1 G2 N (L & C). split; [lia|]. cbn zeta in *. rewrite N in C.
  pose proof (P256_pos (length F - (nb e + 4))). nia.
Qed.

Lemma done_spec h e :
  inv h e -> h + 4 < 2 ^ 32 ->
  exists F, done_encoding e = Some F /\ contain F e /\ Forall is_byte F /\
            exists more, F = e_out e ++ more.
Proof.
  intros Hi Hh. destruct (normalize_spec h e Hi Hh) as (n & e1 & E & Hi1 & Hn & B).
  unfold done_encoding. rewrite E.
  destruct Hi1 as [H1 H2 H3 H4 H5 H6 H7].
  set (cnt := w32 (e_cnt e1 + 5)).
  assert (Hcnt : 0 <= cnt < 2 ^ 32) by (unfold cnt, w32; apply Z.mod_pos_bound; lia).
  replace (Bottom - 1) with (Z.ones 23) by reflexivity.
  replace 16777215 with (Z.ones 24) by reflexivity.
  replace 255 with (Z.ones 8) by reflexivity.
  rewrite !Z.land_ones by lia. change (Z.ones 8) with 255.
  rewrite !Z.shiftr_div_pow2 by (unfold SHIFT_BITS; lia).
  set (q := e_low e1 / 2 ^ SHIFT_BITS). set (m := e_low e1 mod 2 ^ 23).
  set (f := cnt mod 2 ^ 24 / 2 ^ 1).
  assert (Hq : e_low e1 = 2 ^ 23 * q + m) by (unfold q, m, SHIFT_BITS; apply Z.div_mod; lia).
  assert (Hm : 0 <= m < 2 ^ 23) by (apply Z.mod_pos_bound; lia).
  set (c24 := cnt mod 2 ^ 24) in *.
  assert (Hc24 : 0 <= c24 < 2 ^ 24) by (apply Z.mod_pos_bound; lia).
  assert (Hf : 2 * f <= c24 <= 2 * f + 1 /\ 0 <= f < 2 ^ 23).
  { unfold f. change (2 ^ 1) with 2. change (2 ^ 24) with 16777216 in *. change (2 ^ 23) with 8388608.
    Z.div_mod_to_equations; lia. }
  assert (Hbytes : cnt / 2 ^ 16 mod 2 ^ 8 * 65536 + cnt / 2 ^ 8 mod 2 ^ 8 * 256 + cnt mod 2 ^ 8 = c24).
  { unfold c24. change (2 ^ 24) with 16777216. change (2 ^ 16) with 65536. change (2 ^ 8) with 256.
    clear. Z.div_mod_to_equations. lia. }
  assert (Hq0 : 0 <= q < 512) by (change (2 ^ 23) with 8388608 in *; change (2 ^ 32) with 4294967296 in *; unfold Bottom in B; lia).
  set (tmp := if m <? f then q else w32 (q + 1)).
  assert (Htmp : e_low e1 <= tmp * 2 ^ 23 + f < e_low e1 + e_range e1 /\ 0 <= tmp < 512).
  { unfold tmp, Bottom in *. destruct (Z.ltb_spec m f).
    - rewrite Hq. lia.
    - unfold w32. rewrite Z.mod_small by lia.
      change (2 ^ 23) with 8388608 in *; change (2 ^ 32) with 4294967296 in *. lia. }
  eexists. split; [reflexivity|].
  set (head := if 255 <? tmp then _ else _).
  set (tail := [_; _; _; _]).
  assert (Hhead : Forall is_byte head /\ length head = S (Z.to_nat (e_help e1)) /\
    bytesZ (e_out e1 ++ head) * Top + (tmp mod 256) * 2 ^ 23 = bytesZ (prefix e1) * Top + tmp * 2 ^ 23).
  { unfold head. destruct (Z.ltb_spec 255 tmp) as [L|L].
    - assert (Hb2 : e_buf e1 < 255).
      { unfold is_byte in H4. destruct (Z.eq_dec (e_buf e1) 255) as [Bf|]; [|lia].
        specialize (H5 Bf). unfold Top in H5.
        change (2 ^ 23) with 8388608 in *; change (2 ^ 31) with 2147483648 in *. lia. }
      unfold is_byte in H4.
      rewrite (Z.mod_small (e_buf e1 + 1)) by lia.
      split; [constructor; [unfold is_byte; lia|apply repeat_bytes; unfold is_byte; lia]|].
      split; [cbn [length]; now rewrite repeat_length|].
      unfold prefix. rewrite !bytesZ_app, !bytesZ_cons, bytesZ_repeat0, bytesZ_repeat255.
      cbn [length]. rewrite !repeat_length.
      assert (tmp mod 256 = tmp - 256) as -> by (symmetry; apply (Z.mod_unique tmp 256 1); lia).
      unfold Top. change (2 ^ 31) with (256 * 2 ^ 23). ring.
    - split; [constructor; [assumption|apply repeat_bytes; unfold is_byte; lia]|].
      split; [cbn [length]; now rewrite repeat_length|].
      rewrite (Z.mod_small tmp) by lia. reflexivity. }
  destruct Hhead as (Hhb & Hhl & Hhv).
  assert (Htail : Forall is_byte tail).
  { unfold tail, is_byte. change (2 ^ 8) with 256.
    repeat constructor; apply Z.mod_pos_bound; lia. }
  assert (Hlen : length (e_out e1 ++ head ++ tail) = (nb e1 + 4)%nat).
  { unfold nb, prefix. rewrite !app_length. cbn [length]. rewrite repeat_length, Hhl.
    unfold tail; cbn [length]. lia. }
  split.
  - apply (contain_normd _ n e e1 Hn). split; [lia|]. cbn zeta. rewrite Hlen.
    replace (nb e1 + 4 - (nb e1 + 4))%nat with O by lia. rewrite P256_0.
    rewrite app_assoc. rewrite (bytesZ_app _ tail). change (P256 (length tail)) with (2 ^ 32).
    assert (Ht : bytesZ tail = (tmp mod 256) * 2 ^ 24 + c24).
    { unfold tail. rewrite <- Hbytes. change (2 ^ 8) with 256. unfold bytesZ. cbn [fold_left].
      change (2 ^ 24) with 16777216. ring. }
    rewrite Ht. unfold ghost.
    assert (Hv : bytesZ (e_out e1 ++ head) * 2 ^ 32 + tmp mod 256 * 2 ^ 24
                 = 2 * (bytesZ (prefix e1) * Top + tmp * 2 ^ 23)).
    { rewrite <- Hhv. unfold Top. change (2 ^ 32) with (2 * 2 ^ 31). change (2 ^ 24) with (2 * 2 ^ 23). ring. }
    lia.
  - split.
    + apply Forall_app; split; [assumption|]. apply Forall_app; split; assumption.
    + destruct Hn as (_ & _ & _ & (more & Hmore)). rewrite Hmore.
      exists (more ++ head ++ tail). rewrite !app_assoc. reflexivity.
Qed.

(** * Decoder *)

(** The decoder state [d] tracks encoder state [e] on the finished stream [F] followed
    by [rest]. *)
Definition track (F rest : list Z) (e : enc) (d : dec) : Prop :=
  let n := (nb e + 4)%nat in
  d_range d = e_range e /\
  d_in d = skipn n F ++ rest /\
  d_buf d = nth (n - 1) F 0 /\
  d_low d = bytesZ (firstn n F) / 2 - ghost e.

Lemma track_low F rest e d :
  Forall is_byte F -> contain F e -> track F rest e d -> 0 <= d_low d < e_range e.
Proof.
  intros HF (L & C) (_ & _ & _ & D). cbn zeta in C. rewrite D.
  pose proof (bytesZ_firstn (nb e + 4) F L HF) as B.
  set (A := bytesZ (firstn (nb e + 4) F)) in *.
  set (M := P256 (length F - (nb e + 4))) in *.
  assert (HM : 0 < M) by apply P256_pos.
  assert (X1 : 2 * ghost e < A + 1) by nia.
  assert (X2 : A < 2 * (ghost e + e_range e)) by nia.
  clear B C. Z.div_mod_to_equations. lia.
Qed.

Lemma firstn_S_nth (F : list Z) n : (n < length F)%nat ->
  firstn (S n) F = firstn n F ++ [nth n F 0].
Proof.
  revert n; induction F as [|x F IH]; intros n H; [cbn [length] in H; lia|].
  destruct n; [reflexivity|]. cbn [length] in H.
  cbn [firstn nth app]. f_equal. apply (IH n). lia.
Qed.
Lemma skipn_S_nth (F : list Z) n : (n < length F)%nat ->
  skipn n F = nth n F 0 :: skipn (S n) F.
Proof.
  revert n; induction F as [|x F IH]; intros n H; [cbn [length] in H; lia|].
  destruct n; [reflexivity|]. cbn [length] in H. cbn [skipn nth]. apply (IH n). lia.
Qed.

Lemma nth_byte F n : Forall is_byte F -> is_byte (nth n F 0).
Proof.
  intro H. destruct (Nat.lt_ge_cases n (length F)).
  - rewrite Forall_forall in H. apply H. now apply nth_In.
  - rewrite nth_overflow by lia. unfold is_byte; lia.
Qed.

Lemma lor_disjoint a k b : 0 <= k -> 0 <= b < 2 ^ k -> Z.lor (a * 2 ^ k) b = a * 2 ^ k + b.
Proof.
  intros Hk Hb.
  assert (D : Z.land (a * 2 ^ k) b = 0).
  { apply Z.bits_inj'. intros n Hn. rewrite Z.bits_0, Z.land_spec.
    destruct (Z.lt_ge_cases n k) as [L|L].
    - rewrite Z.mul_pow2_bits_low by lia. reflexivity.
    - replace (Z.testbit b n) with false; [apply andb_false_r|]. symmetry.
      apply Z.testbit_false; [lia|]. rewrite Z.div_small; [reflexivity|].
      pose proof (Z.pow_le_mono_r 2 k n). lia. }
  rewrite Z.add_nocarry_lxor by exact D. rewrite Z.lxor_lor by exact D. reflexivity.
Qed.

(** Shifting one more byte into the 31-bit window. *)
Lemma window_shift low buf b :
  0 <= low <= 2 ^ 23 -> is_byte buf -> is_byte b ->
  Z.lor (Z.lor (w32 (Z.shiftl low 8)) (Z.land (Z.shiftl buf EXTRA_BITS) 255))
        (Z.shiftr b (8 - EXTRA_BITS))
  = low * 256 + (buf mod 2) * 128 + b / 2.
Proof.
  intros Hl Hbuf Hb. unfold EXTRA_BITS, is_byte in *.
  change 255 with (Z.ones 8). rewrite Z.land_ones by lia.
  change (8 - 7) with 1. rewrite (Z.shiftr_div_pow2 b) by lia.
  rewrite !Z.shiftl_mul_pow2 by lia.
  unfold w32. rewrite (Z.mod_small (low * 2 ^ 8)) by (change (2^23) with 8388608 in *; change (2^32) with 4294967296; change (2 ^ 8) with 256; lia).
  assert (E : buf * 2 ^ 7 mod 2 ^ 8 = buf mod 2 * 128).
  { change (2 ^ 8) with 256. change (2 ^ 7) with 128. Z.div_mod_to_equations. lia. }
  rewrite E.
  rewrite lor_disjoint; [|lia|change (2 ^ 8) with 256; Z.div_mod_to_equations; lia].
  replace (low * 2 ^ 8 + buf mod 2 * 128) with ((low * 2 + buf mod 2) * 2 ^ 7)
    by (change (2 ^ 8) with 256; change (2 ^ 7) with 128; ring).
  rewrite lor_disjoint; [|lia|change (2 ^ 7) with 128; change (2 ^ 1) with 2; Z.div_mod_to_equations; lia].
  change (2 ^ 7) with 128; change (2 ^ 1) with 2. ring.
Qed.

Lemma dec_iter_track F rest h e d :
  Forall is_byte F -> inv h e -> h + 1 < 2 ^ 32 -> e_range e <= Bottom ->
  contain F e -> contain F (enc_norm_iter e) -> track F rest e d ->
  exists d', dec_norm_iter d = Some d' /\ track F rest (enc_norm_iter e) d'.
Proof.
  intros HF Hi Hh HB HC HC' HT.
  pose proof (track_low F rest e d HF HC HT) as Hlow.
  destruct (iter_spec h e Hi Hh HB) as (_ & Hg & Hr & Hn & _ & _).
  destruct HC' as (L' & _). destruct HT as (T1 & T2 & T3 & T4). cbn zeta in *.
  rewrite Hn in L'.
  unfold dec_norm_iter, inbyte. rewrite T2.
  rewrite (skipn_S_nth F (nb e + 4)) by lia. cbn [app].
  set (b := nth (nb e + 4) F 0).
  assert (Hb : is_byte b) by (apply nth_byte; assumption).
  rewrite (Z.mod_small b) by exact Hb.
  assert (Hbuf : is_byte (d_buf d)) by (rewrite T3; apply nth_byte; assumption).
  eexists. split; [reflexivity|]. unfold track. cbn zeta. cbn [d_range d_in d_buf d_low].
  rewrite Hn. replace (S (nb e) + 4)%nat with (S (nb e + 4)) by lia.
  split; [|split; [|split]].
  - rewrite Hr, T1. unfold w32. rewrite Z.shiftl_mul_pow2 by lia. change (2 ^ 8) with 256.
    destruct Hi as [_ Hrr _ _ _ _ _]. unfold Bottom in HB.
    rewrite Z.mod_small by lia. lia.
  - reflexivity.
  - replace (S (nb e + 4) - 1)%nat with (nb e + 4)%nat by lia. reflexivity.
  - unfold Bottom in HB. rewrite window_shift; [|lia|assumption|assumption].
    rewrite (firstn_S_nth F (nb e + 4)) by lia. fold b.
    rewrite bytesZ_app. cbn [length]. rewrite P256_S, P256_0, bytesZ_cons, bytesZ_nil.
    cbn [length]. rewrite P256_0. rewrite Hg, T4, T3.
    assert (HS : firstn (nb e + 4) F = firstn (nb e + 4 - 1) F ++ [nth (nb e + 4 - 1) F 0]).
    { rewrite <- firstn_S_nth by lia. f_equal. lia. }
    rewrite HS. set (c := nth (nb e + 4 - 1) F 0).
    assert (Hc : is_byte c) by (apply nth_byte; assumption).
    rewrite bytesZ_app, bytesZ_cons, bytesZ_nil. cbn [length]. rewrite P256_S, P256_0.
    set (A := bytesZ _). clearbody A c b. clear - Hb Hc. unfold is_byte in *.
    Z.div_mod_to_equations. lia.
Qed.

Lemma contain_iter F h e :
  inv h e -> h + 1 < 2 ^ 32 -> e_range e <= Bottom ->
  contain F (enc_norm_iter e) -> contain F e.
Proof.
  intros Hi Hh HB. destruct (iter_spec h e Hi Hh HB) as (_ & Hg & Hr & Hn & Ho & _).
  apply (contain_normd F 1). unfold normd. rewrite P256_S, P256_0. repeat split; try assumption; lia.
Qed.

Lemma normalize_loop_contain F f : forall h e e',
  inv h e -> h + Z.of_nat f < 2 ^ 32 -> enc_normalize_loop f e = Some e' ->
  contain F e' -> contain F e.
Proof.
  induction f as [|f IH]; intros h e e' Hi Hh E C; cbn [enc_normalize_loop] in E.
  - destruct (Z.leb_spec (e_range e) Bottom); [discriminate|]. now injection E as <-.
  - destruct (Z.leb_spec (e_range e) Bottom) as [L|L]; [|now injection E as <-].
    apply (contain_iter F h); try assumption; try lia.
    apply (IH (h + 1) _ e'); try assumption; try lia.
    apply (iter_spec h); try assumption; lia.
Qed.

Lemma dec_normalize_loop_track F rest f : forall h e e' d,
  Forall is_byte F -> inv h e -> h + Z.of_nat f < 2 ^ 32 ->
  enc_normalize_loop f e = Some e' -> contain F e' -> track F rest e d ->
  exists d', dec_normalize_loop f d = Some d' /\ track F rest e' d'.
Proof.
  induction f as [|f IH]; intros h e e' d HF Hi Hh E C T; cbn [enc_normalize_loop dec_normalize_loop] in *.
  - pose proof (proj1 T) as ->.
    destruct (Z.leb_spec (e_range e) Bottom); [discriminate|]. injection E as <-.
    exists d. auto.
  - pose proof (proj1 T) as ->.
    destruct (Z.leb_spec (e_range e) Bottom) as [L|L].
    + assert (Hi' : inv (h + 1) (enc_norm_iter e)) by (apply (iter_spec h); try assumption; lia).
      assert (C1 : contain F (enc_norm_iter e))
        by (apply (normalize_loop_contain F f (h + 1) _ e'); try assumption; lia).
      assert (C0 : contain F e) by (apply (contain_iter F h); try assumption; lia).
      destruct (dec_iter_track F rest h e d HF Hi ltac:(lia) L C0 C1 T) as (d1 & E1 & T1).
      rewrite E1. apply (IH (h + 1) _ e' d1 HF Hi'); try assumption; lia.
    + injection E as <-. exists d. auto.
Qed.

Lemma dec_normalize_track F rest h e e' d :
  Forall is_byte F -> inv h e -> h + 4 < 2 ^ 32 ->
  enc_normalize e = Some e' -> contain F e' -> track F rest e d ->
  exists d', dec_normalize d = Some d' /\ track F rest e' d'.
Proof. intros. eapply dec_normalize_loop_track; eauto. Qed.

(** One coding step seen by the decoder: the value obtained lies in the coded slice, and
    after the update the decoder tracks the encoder again. *)
Lemma dec_step F rest h e d k sy lt e' :
  Forall is_byte F -> inv h e -> h + 4 < 2 ^ 32 -> valid_slice k sy lt ->
  enc_step e k sy lt = Some e' -> contain F e' -> track F rest e d ->
  exists cf d1, dec_cul d k = Some (cf, d1) /\ lt <= cf < lt + sy /\
    track F rest e' (decode_update d1 sy lt (total k)).
Proof.
  intros HF Hi Hh Hv HE HC HT.
  destruct (enc_step_eq h e k sy lt Hi Hh Hv) as (n & e1 & E & Hi1 & Hn & B & ES).
  rewrite ES in HE. injection HE as <-.
  destruct (narrow_spec (h + 4) e1 k sy lt Hi1 B Hv) as (Hi2 & G1 & G2 & N & _).
  assert (C1 : contain F e1) by (eapply contain_narrow; eassumption).
  destruct (dec_normalize_track F rest h e e1 d HF Hi Hh E C1 HT) as (d1 & E1 & T1).
  pose proof (track_low F rest e1 d1 HF C1 T1) as L1.
  destruct Hv as (Hk & Hs & Hl & Hsum). pose proof (total_bound k Hk) as Ht.
  destruct Hi1 as [H1 H2 H3 H4 H5 H6 H7]. unfold Bottom in B. unfold Top in H2.
  destruct (narrow_arith (e_range e1) (total k) sy lt ltac:(lia) Ht Hs Hl Hsum) as (A1 & A2 & A3 & A4).
  set (r := e_range e1 / total k) in *.
  pose proof (proj1 T1) as Hrange.
  (* what the decoder computes *)
  assert (HD : dec_cul d k =
    Some (if total k <=? d_low d1 / r then total k - 1 else d_low d1 / r,
          Dec (d_low d1) (d_range d1) r (d_buf d1) (d_in d1))).
  { destruct k as [t|s]; cbn [dec_cul total] in *.
    - unfold decode_culfreq. rewrite E1. destruct (Z.eqb_spec t 0); [lia|].
      rewrite Hrange. fold r. destruct (Z.eqb_spec r 0); [lia|]. reflexivity.
    - unfold decode_culshift. rewrite E1. cbn [valid_kind] in Hk.
      destruct (Z.ltb_spec s 0); [lia|]. destruct (Z.leb_spec 32 s); [lia|]. cbn [orb].
      rewrite Hrange, (Z.shiftr_div_pow2 (e_range e1)) by lia. fold r.
      destruct (Z.eqb_spec r 0); [lia|].
      assert (0 <= d_low d1 / r) by (apply Z.div_pos; lia).
      f_equal. f_equal.
      rewrite (Z.shiftl_mul_pow2 1), Z.mul_1_l by lia. unfold w32 at 1.
      rewrite (Z.mod_small (2 ^ s)) by lia.
      destruct (Z.eqb_spec (Z.shiftr (d_low d1 / r) s) 0) as [Q|Q];
        destruct (Z.leb_spec (2 ^ s) (d_low d1 / r)) as [P|P]; try reflexivity.
      + apply shiftr_small in Q; lia.
      + exfalso. apply Q. apply shiftr_small; lia. }
  eexists. eexists. split; [exact HD|].
  (* position of the code inside the slice *)
  assert (C2 : contain F (narrow e1 k sy lt)) by exact HC.
  assert (Hpos : r * lt <= d_low d1 /\
                 d_low d1 < r * lt + e_range (narrow e1 k sy lt)).
  { set (d2 := Dec (d_low d1 - r * lt) (e_range (narrow e1 k sy lt)) 0 (d_buf d1) (d_in d1)).
    assert (T2 : track F rest (narrow e1 k sy lt) d2).
    { destruct T1 as (X1 & X2 & X3 & X4). unfold track. cbn zeta in *. rewrite N.
      cbn [d2 d_range d_in d_buf d_low]. repeat split; try assumption.
      rewrite X4. unfold ghost, narrow, prefix. cbn [e_low e_out e_buf e_help]. fold r. ring. }
    pose proof (track_low F rest _ d2 HF C2 T2) as L2. cbn [d2 d_low] in L2. lia. }
  assert (Hrng : e_range (narrow e1 k sy lt) =
     if lt + sy <? total k then r * sy else e_range e1 - r * lt) by reflexivity.
  split.
  - destruct Hpos as [Hp1 Hp2].
    assert (Q1 : lt <= d_low d1 / r) by (apply Z.div_le_lower_bound; lia).
    destruct (Z.leb_spec (total k) (d_low d1 / r)) as [P|P].
    + assert (Hlast : lt + sy = total k); [|lia].
      destruct (Z.ltb_spec (lt + sy) (total k)) as [Y|Y]; [exfalso|lia].
      rewrite Hrng in Hp2.
      assert (d_low d1 / r < lt + sy) by (apply Z.div_lt_upper_bound; lia). lia.
    + split; [assumption|].
      destruct (Z.ltb_spec (lt + sy) (total k)) as [Y|Y]; [|lia].
      rewrite Hrng in Hp2. apply Z.div_lt_upper_bound; lia.
  - destruct T1 as (X1 & X2 & X3 & X4). unfold track, decode_update. cbn zeta in *. rewrite N.
    cbn [d_range d_in d_buf d_low d_help].
    assert (W : w32 (lt + sy) = lt + sy) by (unfold w32; rewrite Z.mod_small; lia).
    assert (W2 : w32 (r * lt) = r * lt) by (unfold w32; rewrite Z.mod_small; lia).
    rewrite W, W2. split; [|split; [|split]]; try assumption.
    + rewrite Hrng, X1. destruct (Z.ltb_spec (lt + sy) (total k)); unfold w32; rewrite Z.mod_small; lia.
    + unfold w32. rewrite Z.mod_small by lia. rewrite X4.
      unfold ghost, narrow, prefix. cbn [e_low e_out e_buf e_help]. fold r. ring.
Qed.

(** * Start and end of a segment *)

Lemma start_inv c len out : is_byte c -> Forall is_byte out -> inv 0 (start_encoding c len out).
Proof.
  intros Hc Ho. unfold start_encoding. rewrite Z.mod_small by exact Hc.
  constructor; cbn [e_low e_range e_help e_buf e_out]; unfold Top; try lia; auto.
Qed.

Lemma start_track F rest c len out :
  is_byte c -> c <> 255 -> Forall is_byte out -> Forall is_byte F ->
  contain F (start_encoding c len out) ->
  exists d d', start_decoding (skipn (length out) F ++ rest) = Some (c, d) /\
    dec_normalize d = Some d' /\ track F rest (start_encoding c len out) d'.
Proof.
  intros Hc Hc255 Ho HF (L & C).
  unfold nb, prefix, ghost, start_encoding in *. rewrite Z.mod_small in * by exact Hc.
  unfold prefix in C.
  cbn [e_low e_range e_help e_buf e_out Z.to_nat repeat] in *.
  rewrite app_length in *. cbn [length] in *.
  set (n := length out) in *.
  rewrite (skipn_S_nth F n), (skipn_S_nth F (S n)), (skipn_S_nth F (S (S n))),
    (skipn_S_nth F (S (S (S n)))), (skipn_S_nth F (S (S (S (S n))))) by lia.
  pose proof (bytesZ_firstn (n + 1 + 4) F L HF) as B.
  replace (n + 1 + 4)%nat with (S (S (S (S (S n))))) in * by lia.
  set (M := P256 _) in *. assert (HM : 0 < M) by apply P256_pos.
  rewrite !firstn_S_nth in B by lia.
  rewrite !bytesZ_app, !bytesZ_cons, !bytesZ_nil in *. cbn [length] in *.
  rewrite !P256_S, !P256_0 in *.
  pose proof (nth_byte F n HF) as B0. pose proof (nth_byte F (S n) HF) as B1.
  pose proof (nth_byte F (S (S n)) HF) as B2. pose proof (nth_byte F (S (S (S n))) HF) as B3.
  pose proof (nth_byte F (S (S (S (S n)))) HF) as B4.
  set (b0 := nth n F 0) in *. set (b1 := nth (S n) F 0) in *. set (b2 := nth (S (S n)) F 0) in *.
  set (b3 := nth (S (S (S n))) F 0) in *. set (b4 := nth (S (S (S (S n)))) F 0) in *.
  set (PO := bytesZ out) in *. set (PF := bytesZ (firstn n F)) in *.
  set (A := (PF * 256 + b0) * 4294967296 + b1 * 16777216 + b2 * 65536 + b3 * 256 + b4).
  assert (HA : A * M <= bytesZ F < (A + 1) * M) by (unfold A; lia). clear B.
  assert (X1 : 2 * ((PO * 256 + c) * Top) < A + 1) by nia.
  assert (X2 : A < 2 * ((PO * 256 + c) * Top + Top)) by nia.
  assert (Hhead : PF * 256 + b0 = PO * 256 + c).
  { unfold A, Top, is_byte in *. change (2 ^ 31) with 2147483648 in *. lia. }
  assert (Hb0 : b0 = c) by (unfold is_byte in *; lia).
  unfold is_byte in *.
  unfold start_decoding, inbyte. cbn [app].
  rewrite (Z.mod_small b0) by assumption. rewrite (Z.mod_small b1) by assumption.
  destruct (Z.eqb_spec b0 255) as [Q|_]; [lia|].
  rewrite Hb0. eexists. eexists. split; [reflexivity|].
  change (Z.shiftl 1 EXTRA_BITS) with 128. rewrite (Z.shiftr_div_pow2 b1) by (unfold EXTRA_BITS; lia).
  change (2 ^ (8 - EXTRA_BITS)) with 2.
  split.
  - unfold dec_normalize, dec_normalize_loop, dec_norm_iter, inbyte.
    cbn [d_range d_in d_low d_buf d_help].
    rewrite (Z.mod_small b2) by assumption. rewrite (Z.mod_small b3) by assumption.
    rewrite (Z.mod_small b4) by assumption.
    change (128 <=? Bottom) with true. cbv iota. cbn [d_range d_in d_low d_buf d_help].
    change (w32 (Z.shiftl 128 8)) with 32768. change (32768 <=? Bottom) with true. cbv iota.
    cbn [d_range d_in d_low d_buf d_help].
    change (w32 (Z.shiftl 32768 8)) with 8388608. change (8388608 <=? Bottom) with true. cbv iota.
    cbn [d_range d_in d_low d_buf d_help].
    change (w32 (Z.shiftl 8388608 8)) with 2147483648. change (2147483648 <=? Bottom) with false.
    cbv iota. reflexivity.
  - assert (K1 : 0 <= b1 / 2 < 128) by (Z.div_mod_to_equations; lia).
    rewrite (window_shift (b1 / 2) b1 b2); [|change (2^23) with 8388608; lia|unfold is_byte; lia|unfold is_byte; lia].
    assert (K2 : b1 / 2 * 256 + b1 mod 2 * 128 + b2 / 2 = (b1 * 256 + b2) / 2) by (Z.div_mod_to_equations; lia).
    rewrite K2.
    rewrite (window_shift _ b2 b3); [|change (2^23) with 8388608; Z.div_mod_to_equations; lia|unfold is_byte; lia|unfold is_byte; lia].
    assert (K3 : (b1 * 256 + b2) / 2 * 256 + b2 mod 2 * 128 + b3 / 2 = (b1 * 65536 + b2 * 256 + b3) / 2) by (Z.div_mod_to_equations; lia).
    rewrite K3.
    rewrite (window_shift _ b3 b4); [|change (2^23) with 8388608; Z.div_mod_to_equations; lia|unfold is_byte; lia|unfold is_byte; lia].
    assert (K4 : (b1 * 65536 + b2 * 256 + b3) / 2 * 256 + b3 mod 2 * 128 + b4 / 2 =
                 (b1 * 16777216 + b2 * 65536 + b3 * 256 + b4) / 2) by (Z.div_mod_to_equations; lia).
    rewrite K4.
    unfold track, nb, ghost, prefix. cbn [e_low e_range e_help e_buf e_out Z.to_nat repeat d_range d_in d_low d_buf d_help].
    cbn zeta. rewrite app_length. cbn [length]. fold n.
    replace (n + 1 + 4)%nat with (S (S (S (S (S n))))) by lia.
    split; [reflexivity|]. split; [reflexivity|]. split.
    + cbn [Nat.sub]. reflexivity.
    + rewrite !firstn_S_nth by lia. fold b0 b1 b2 b3 b4.
      rewrite !bytesZ_app, !bytesZ_cons, !bytesZ_nil. cbn [length].
      rewrite !P256_S, !P256_0. fold PF PO. unfold Top. change (2 ^ 31) with 2147483648.
      clear - Hhead. Z.div_mod_to_equations. lia.
Qed.

Lemma contain_prefix F c len out :
  is_byte c -> Forall is_byte out -> contain F (start_encoding c len out) ->
  (length out + 5 <= length F)%nat.
Proof.
  intros Hc Ho (L & _). unfold nb, prefix, start_encoding in L.
  cbn [e_out e_buf e_help Z.to_nat repeat] in L. rewrite app_length in L. cbn [length] in L. lia.
Qed.

Lemma Some_inj {A} (a b : A) : Some a = Some b -> a = b.
Proof. congruence. Qed.

(** The decoder ends exactly behind the segment. *)
Lemma done_track F rest h e d :
  inv h e -> h + 4 < 2 ^ 32 -> done_encoding e = Some F -> track F rest e d ->
  done_decoding d = Some rest.
Proof.
  intros Hi Hh HD HT. destruct (done_spec h e Hi Hh) as (F' & E & C & HF & _).
  rewrite HD in E. injection E as <-.
  destruct (normalize_spec h e Hi Hh) as (n & e1 & EN & Hi1 & Hn & B).
  assert (Hlen : length F = (nb e1 + 4)%nat).
  { unfold done_encoding in HD. rewrite EN in HD. apply Some_inj in HD. rewrite <- HD.
    unfold nb, prefix. rewrite !app_length. cbn [length]. rewrite repeat_length.
    destruct (255 <? _); cbn [length]; rewrite repeat_length; lia. }
  assert (C1 : contain F e1).
  { split; [lia|]. destruct C as (_ & C). destruct Hn as (G & R & N & _). cbn zeta in *.
    rewrite G, R, N. rewrite N in Hlen.
    replace (length F - (nb e + 4))%nat with n in C by lia.
    replace (length F - (n + nb e + 4))%nat with O by lia. rewrite P256_0. lia. }
  destruct (dec_normalize_track F rest h e e1 d HF Hi Hh EN C1 HT) as (d1 & E1 & T1).
  unfold done_decoding. rewrite E1. destruct T1 as (_ & T & _). rewrite T.
  rewrite <- Hlen, skipn_all. reflexivity.
Qed.
