(** The floating point operations of the standard library, as used in FloatQuantModel, round correctly:
    proofs through Flocq (real numbers), statements in rational numbers. *)
From Coq Require Import ZArith QArith Qabs Qreals Reals Lra Lia Floats.SpecFloat.
From Flocq Require Import Core IEEE754.BinarySingleNaN Relative.
From Verif Require Import FloatQuantModel.
Open Scope Z_scope.

(** The value of a finite float. *)
Definition fq (x : spec_float) : Q :=
  match x with
  | S754_finite s m e => let z := if s then Zneg m else Zpos m in
      if 0 <=? e then inject_Z (z * 2 ^ e) else z # Z.to_pos (2 ^ (- e))
  | _ => 0%Q
  end.
Definition finite (x : spec_float) : bool := match x with S754_zero _ | S754_finite _ _ _ => true | _ => false end.

Lemma Q2R_fq_finite s m e : Q2R (fq (S754_finite s m e)) = F2R (Float radix2 (Zaux.cond_Zopp s (Zpos m)) e).
Proof.
  unfold F2R. cbn [Fnum Fexp fq]. replace (Zaux.cond_Zopp s (Zpos m)) with (if s then Zneg m else Zpos m) by (destruct s; reflexivity).
  set (z := if s then Zneg m else Zpos m). destruct (Z.leb_spec 0 e) as [H|H].
  - unfold Q2R, inject_Z. cbn [Qnum Qden]. rewrite Rinv_1, Rmult_1_r, mult_IZR. f_equal. rewrite <- IZR_Zpower by exact H. reflexivity.
  - unfold Q2R. cbn [Qnum Qden]. assert (P : (0 < 2 ^ (- e))%Z) by (apply Z.pow_pos_nonneg; lia). rewrite Z2Pos.id by exact P.
    f_equal. replace e with (- (- e))%Z at 2 by lia. rewrite bpow_opp. f_equal. rewrite <- IZR_Zpower by lia. reflexivity.
Qed.

Section Format.
  Variables prec emax : Z.
  Context (Hprec : Prec_gt_0 prec) (Hmax : Prec_lt_emax prec emax).
  Notation float := (binary_float prec emax).
  Variables (u eta big : Q).
  Hypothesis Hu : Q2R u = (/ 2 * bpow radix2 (- prec + 1))%R.
  Hypothesis Heta : Q2R eta = (/ 2 * bpow radix2 (emin prec emax))%R.
  Hypothesis Hbig : Q2R big = bpow radix2 (emax - 2).
  Hypothesis Hlow : (0 < prec /\ emin prec emax < emax)%Z.

  (** A valid finite float with a given value. *)
  Definition isf (x : spec_float) (q : Q) : Prop := valid_binary prec emax x = true /\ finite x = true /\ (fq x == q)%Q.
  (** What rounding to nearest guarantees. *)
  Definition near (v x : Q) : Prop := (Qabs (v - x) <= u * Qabs x + eta)%Q.

  Lemma Q2R_fq (x : float) : Q2R (fq (B2SF x)) = B2R x.
  Proof. destruct x as [s|s| |s m e H]; try (unfold Q2R; cbn; lra). apply Q2R_fq_finite. Qed.
  Lemma isf_B x q : isf x q -> exists b : float, B2SF b = x /\ is_finite b = true /\ B2R b = Q2R q.
  Proof.
    intros (V & F & E). exists (SF2B x V). split; [apply B2SF_SF2B|]. split; [rewrite is_finite_SF2B; destruct x; auto|].
    rewrite <- Q2R_fq, B2SF_SF2B. apply Qeq_eqR. exact E.
  Qed.
  Lemma B_isf (b : float) : is_finite b = true -> isf (B2SF b) (fq (B2SF b)).
  Proof. intro F. split; [apply valid_binary_B2SF|]. split; [destruct b; auto|reflexivity]. Qed.

  Lemma Q2R_abs q : Q2R (Qabs q) = Rabs (Q2R q).
  Proof.
    destruct (Qlt_le_dec q 0) as [H|H].
    - rewrite Qabs_neg by (apply Qlt_le_weak; exact H). rewrite Q2R_opp. symmetry. apply Rabs_left. apply Qlt_Rlt in H. unfold Q2R in H at 2. cbn in H. lra.
    - rewrite Qabs_pos by exact H. symmetry. apply Rabs_right. apply Qle_Rle in H. unfold Q2R in H at 1. cbn in H. lra.
  Qed.
  Lemma Q2R_0 : Q2R 0 = 0%R. Proof. unfold Q2R; cbn; lra. Qed.

  Notation rnd := (round radix2 (SpecFloat.fexp prec emax) (round_mode mode_NE)).
  Lemma rnd_error x : exists e h, (Rabs e <= Q2R u)%R /\ (Rabs h <= Q2R eta)%R /\ rnd x = (x * (1 + e) + h)%R.
  Proof.
    destruct (error_N_FLT radix2 (emin prec emax) prec ltac:(apply Hlow) (fun z => negb (Z.even z)) x) as (e & h & A & B & _ & E).
    exists e, h. rewrite Hu, Heta. split; [exact A|]. split; [exact B|]. exact E.
  Qed.
  Lemma rnd_near x : (Rabs (rnd x - x) <= Q2R u * Rabs x + Q2R eta)%R.
  Proof.
    destruct (rnd_error x) as (e & h & A & B & ->). replace (x * (1 + e) + h - x)%R with (e * x + h)%R by ring.
    eapply Rle_trans; [apply Rabs_triang|]. rewrite Rabs_mult. apply Rplus_le_compat; [|exact B]. apply Rmult_le_compat_r; [apply Rabs_pos|exact A].
  Qed.
  Lemma rnd_small q : (Qabs q <= big)%Q -> Rlt_bool (Rabs (rnd (Q2R q))) (bpow radix2 emax) = true.
  Proof.
    intro H. apply Rlt_bool_true. apply Qle_Rle in H. rewrite Q2R_abs, Hbig in H. pose proof (rnd_near (Q2R q)) as N.
    set (x := Q2R q) in *. rewrite Hu, Heta in N.
    assert (U : (/ 2 * bpow radix2 (- prec + 1) <= / 2)%R).
    { assert (bpow radix2 (- prec + 1) <= 1)%R; [|lra]. change 1%R with (bpow radix2 0). apply bpow_le. lia. }
    assert (T : (/ 2 * bpow radix2 (emin prec emax) < / 2 * bpow radix2 emax)%R) by (apply Rmult_lt_compat_l; [lra|apply bpow_lt; apply Hlow]).
    assert (P4 : bpow radix2 emax = (4 * bpow radix2 (emax - 2))%R).
    { replace emax with (2 + (emax - 2))%Z at 1 by lia. rewrite bpow_plus. reflexivity. }
    assert (P0 := bpow_gt_0 radix2 (emax - 2)).
    assert (A : (Rabs (rnd x) <= Rabs (rnd x - x) + Rabs x)%R) by (replace (rnd x) with ((rnd x - x) + x)%R at 1 by ring; apply Rabs_triang).
    assert (M : (/ 2 * bpow radix2 (- prec + 1) * Rabs x <= / 2 * Rabs x)%R) by (apply Rmult_le_compat_r; [apply Rabs_pos|exact U]).
    rewrite P4 in *. lra.
  Qed.
  Lemma near_of (b : float) q : B2R b = rnd (Q2R q) -> near (fq (B2SF b)) q.
  Proof.
    intro E. unfold near. apply Rle_Qle. rewrite Q2R_plus, Q2R_mult, !Q2R_abs, Q2R_minus, Q2R_fq, E. apply rnd_near.
  Qed.
  (** A value of the format is not changed. *)
  Lemma exact_of (b c : float) q : B2R b = rnd (Q2R q) -> B2R c = Q2R q -> (fq (B2SF b) == q)%Q.
  Proof.
    intros E C. apply eqR_Qeq. rewrite Q2R_fq, E, <- C. apply round_generic; [apply valid_rnd_N|]. apply generic_format_B2R.
  Qed.

  Lemma round_aux_eq sx mx ex lx : SpecFloat.binary_round_aux prec emax sx mx ex lx = binary_round_aux prec emax mode_NE sx mx ex lx.
  Proof.
    unfold SpecFloat.binary_round_aux, binary_round_aux. set (mrse' := shr_fexp _ _ _). destruct mrse' as [mrs' e']. cbn [fst snd].
    assert (R : forall m l, round_nearest_even m l = choice_mode mode_NE sx m l).
    { intros m l. destruct l as [|c]; [reflexivity|]. destruct c; [|reflexivity|reflexivity]. cbn. unfold Round.cond_incr. destruct (Z.even m); reflexivity. }
    rewrite R. reflexivity.
  Qed.
  Lemma normalize_eq m e szero : SpecFloat.binary_normalize prec emax m e szero = B2SF (binary_normalize prec emax Hprec Hmax mode_NE m e szero).
  Proof.
    assert (R : forall s p, SpecFloat.binary_round prec emax s p e = binary_round prec emax mode_NE s p e).
    { intros s p. unfold SpecFloat.binary_round, binary_round, shl_align_fexp. destruct (shl_align _ _ _) as [mz ez]. apply round_aux_eq. }
    destruct m as [|p|p]; [reflexivity| |]; cbn [SpecFloat.binary_normalize binary_normalize]; rewrite B2SF_SF2B; apply R.
  Qed.
  Lemma mul_eq (x y : float) : SFmul prec emax (B2SF x) (B2SF y) = B2SF (Bmult mode_NE x y).
  Proof. destruct x as [sx|sx| |sx mx ex Bx], y as [sy|sy| |sy my ey By]; [now trivial..|]. cbn [SFmul B2SF Bmult]. rewrite B2SF_SF2B. apply round_aux_eq. Qed.
  Lemma add_eq (x y : float) : SFadd prec emax (B2SF x) (B2SF y) = B2SF (Bplus mode_NE x y).
  Proof. destruct x as [sx|sx| |sx mx ex Bx], y as [sy|sy| |sy my ey By]; [now (trivial || simpl; case Bool.eqb)..|]. apply normalize_eq. Qed.
  Lemma sub_eq (x y : float) : SFsub prec emax (B2SF x) (B2SF y) = B2SF (Bminus mode_NE x y).
  Proof.
    destruct x as [sx|sx| |sx mx ex Bx], y as [sy|sy| |sy my ey By]; [now (trivial || simpl; case Bool.eqb)..|]. simpl.
    unfold Zminus. rewrite <- Zaux.cond_Zopp_negb. apply normalize_eq.
  Qed.
  Lemma div_eq (x y : float) : SFdiv prec emax (B2SF x) (B2SF y) = B2SF (Bdiv mode_NE x y).
  Proof.
    destruct x as [sx|sx| |sx mx ex Bx], y as [sy|sy| |sy my ey By]; [now (trivial || simpl; case Bool.eqb)..|]. simpl.
    rewrite B2SF_SF2B. destruct (SFdiv_core_binary _ _ _ _ _ _) as [[mz ez] lz]. apply round_aux_eq.
  Qed.

  (** The four operations and the conversions, within the range of the format. *)
  Lemma SFadd_near x y a b : isf x a -> isf y b -> (Qabs (a + b) <= big)%Q -> exists v, isf (SFadd prec emax x y) v /\ near v (a + b)%Q.
  Proof.
    intros X Y S. destruct (isf_B _ _ X) as (bx & <- & Fx & Vx), (isf_B _ _ Y) as (by_ & <- & Fy & Vy). rewrite add_eq.
    pose proof (Bplus_correct prec emax Hprec Hmax mode_NE bx by_ Fx Fy) as C. rewrite Vx, Vy, <- Q2R_plus, (rnd_small _ S) in C. destruct C as (C & F & _).
    eexists. split; [apply B_isf; exact F|]. apply near_of. exact C.
  Qed.
  Lemma SFsub_near x y a b : isf x a -> isf y b -> (Qabs (a - b) <= big)%Q -> exists v, isf (SFsub prec emax x y) v /\ near v (a - b)%Q.
  Proof.
    intros X Y S. destruct (isf_B _ _ X) as (bx & <- & Fx & Vx), (isf_B _ _ Y) as (by_ & <- & Fy & Vy). rewrite sub_eq.
    pose proof (Bminus_correct prec emax Hprec Hmax mode_NE bx by_ Fx Fy) as C. rewrite Vx, Vy, <- Q2R_minus, (rnd_small _ S) in C. destruct C as (C & F & _).
    eexists. split; [apply B_isf; exact F|]. apply near_of. exact C.
  Qed.
  Lemma SFmul_near x y a b : isf x a -> isf y b -> (Qabs (a * b) <= big)%Q -> exists v, isf (SFmul prec emax x y) v /\ near v (a * b)%Q.
  Proof.
    intros X Y S. destruct (isf_B _ _ X) as (bx & <- & Fx & Vx), (isf_B _ _ Y) as (by_ & <- & Fy & Vy). rewrite mul_eq.
    pose proof (Bmult_correct prec emax Hprec Hmax mode_NE bx by_) as C. rewrite Vx, Vy, <- Q2R_mult, (rnd_small _ S) in C. destruct C as (C & F & _). rewrite Fx, Fy in F.
    eexists. split; [apply B_isf; exact F|]. apply near_of. exact C.
  Qed.
  Lemma SFdiv_near x y a b : isf x a -> isf y b -> ~ (b == 0)%Q -> (Qabs (a / b) <= big)%Q -> exists v, isf (SFdiv prec emax x y) v /\ near v (a / b)%Q.
  Proof.
    intros X Y N S. destruct (isf_B _ _ X) as (bx & <- & Fx & Vx), (isf_B _ _ Y) as (by_ & <- & Fy & Vy). rewrite div_eq.
    assert (N' : B2R by_ <> 0%R) by (rewrite Vy; intro Z; apply N; apply eqR_Qeq; rewrite Z, Q2R_0; reflexivity).
    pose proof (Bdiv_correct prec emax Hprec Hmax mode_NE bx by_ N') as C. rewrite Vx, Vy, <- Q2R_div, (rnd_small _ S) in C by exact N. destruct C as (C & F & _). rewrite Fx in F.
    eexists. split; [apply B_isf; exact F|]. apply near_of. exact C.
  Qed.
  (** Larger exact results are not rounded to smaller ones. *)
  Lemma rnd_mono (b c : float) q r : B2R b = rnd (Q2R q) -> B2R c = rnd (Q2R r) -> (q <= r)%Q -> (fq (B2SF b) <= fq (B2SF c))%Q.
  Proof. intros B C H. apply Rle_Qle. rewrite !Q2R_fq, B, C. apply round_le; [apply fexp_correct; exact Hprec|apply valid_rnd_N|]. apply Qle_Rle. exact H. Qed.
  Lemma SFsub_mono x y a b x' y' a' b' : isf x a -> isf y b -> isf x' a' -> isf y' b' -> (Qabs (a - b) <= big)%Q -> (Qabs (a' - b') <= big)%Q -> (a - b <= a' - b')%Q ->
    (fq (SFsub prec emax x y) <= fq (SFsub prec emax x' y'))%Q.
  Proof.
    intros X Y X' Y' S S' H. destruct (isf_B _ _ X) as (bx & <- & Fx & Vx), (isf_B _ _ Y) as (by_ & <- & Fy & Vy), (isf_B _ _ X') as (bx' & <- & Fx' & Vx'), (isf_B _ _ Y') as (by' & <- & Fy' & Vy'). rewrite !sub_eq.
    pose proof (Bminus_correct prec emax Hprec Hmax mode_NE bx by_ Fx Fy) as C. rewrite Vx, Vy, <- Q2R_minus, (rnd_small _ S) in C. destruct C as (C & _ & _).
    pose proof (Bminus_correct prec emax Hprec Hmax mode_NE bx' by' Fx' Fy') as C'. rewrite Vx', Vy', <- Q2R_minus, (rnd_small _ S') in C'. destruct C' as (C' & _ & _).
    exact (rnd_mono _ _ _ _ C C' H).
  Qed.
  (** A quotient below a value of the format, or above, stays so. *)
  Lemma SFdiv_bounds x y a b lo hi l h : isf x a -> isf y b -> ~ (b == 0)%Q -> (Qabs (a / b) <= big)%Q -> isf lo l -> isf hi h -> (l <= a / b)%Q -> (a / b <= h)%Q ->
    (l <= fq (SFdiv prec emax x y))%Q /\ (fq (SFdiv prec emax x y) <= h)%Q.
  Proof.
    intros X Y N S L H HL HH. destruct (isf_B _ _ X) as (bx & <- & Fx & Vx), (isf_B _ _ Y) as (by_ & <- & Fy & Vy), (isf_B _ _ L) as (bl & _ & _ & Vl), (isf_B _ _ H) as (bh & _ & _ & Vh). rewrite div_eq.
    assert (N' : B2R by_ <> 0%R) by (rewrite Vy; intro Z; apply N; apply eqR_Qeq; rewrite Z, Q2R_0; reflexivity).
    pose proof (Bdiv_correct prec emax Hprec Hmax mode_NE bx by_ N') as C. rewrite Vx, Vy, <- Q2R_div, (rnd_small _ S) in C by exact N. destruct C as (C & _ & _).
    apply Qle_Rle in HL. apply Qle_Rle in HH. split; apply Rle_Qle; rewrite Q2R_fq, C.
    - rewrite <- Vl. apply round_ge_generic; [apply fexp_correct; exact Hprec|apply valid_rnd_N|apply generic_format_B2R|]. rewrite Vl. exact HL.
    - rewrite <- Vh. apply round_le_generic; [apply fexp_correct; exact Hprec|apply valid_rnd_N|apply generic_format_B2R|]. rewrite Vh. exact HH.
  Qed.
  (** A quotient that is a value of the format is exact. *)
  Lemma SFdiv_exact x y a b : isf x a -> isf y b -> ~ (b == 0)%Q -> (Qabs (a / b) <= big)%Q -> generic_format radix2 (SpecFloat.fexp prec emax) (Q2R (a / b)) -> isf (SFdiv prec emax x y) (a / b)%Q.
  Proof.
    intros X Y N S G. destruct (isf_B _ _ X) as (bx & <- & Fx & Vx), (isf_B _ _ Y) as (by_ & <- & Fy & Vy). rewrite div_eq.
    assert (N' : B2R by_ <> 0%R) by (rewrite Vy; intro Z; apply N; apply eqR_Qeq; rewrite Z, Q2R_0; reflexivity).
    pose proof (Bdiv_correct prec emax Hprec Hmax mode_NE bx by_ N') as C. rewrite Vx, Vy, <- Q2R_div, (rnd_small _ S) in C by exact N. destruct C as (C & F & _). rewrite Fx in F.
    destruct (B_isf _ F) as (V & F' & _). split; [exact V|]. split; [exact F'|]. apply eqR_Qeq. rewrite Q2R_fq, C. apply round_generic; [apply valid_rnd_N|exact G].
  Qed.
  (** Multiplying by one changes nothing. *)
  Lemma SFmul_one x y a b : isf x a -> isf y b -> (b == 1)%Q -> (Qabs a <= big)%Q -> isf (SFmul prec emax x y) a.
  Proof.
    intros X Y O S. destruct (isf_B _ _ X) as (bx & <- & Fx & Vx), (isf_B _ _ Y) as (by_ & <- & Fy & Vy). rewrite mul_eq.
    assert (S' : (Qabs (a * b) <= big)%Q) by (rewrite O, Qmult_1_r; exact S). assert (E : Q2R (a * b) = Q2R a) by (apply Qeq_eqR; rewrite O; ring).
    pose proof (Bmult_correct prec emax Hprec Hmax mode_NE bx by_) as C. rewrite Vx, Vy, <- Q2R_mult, (rnd_small _ S') in C. destruct C as (C & F & _). rewrite Fx, Fy in F. rewrite E in C.
    split; [apply valid_binary_B2SF|]. split; [destruct (Bmult _ _ _); auto|]. exact (exact_of _ bx a C Vx).
  Qed.
  (** binary_normalize rounds m * 2^e. *)
  Definition pow_val (z e : Z) : Q := if 0 <=? e then inject_Z (z * 2 ^ e) else z # Z.to_pos (2 ^ (- e)).
  Lemma Q2R_pow_val z e : Q2R (pow_val z e) = F2R (Float radix2 z e).
  Proof.
    unfold pow_val, F2R. cbn [Fnum Fexp]. destruct (Z.leb_spec 0 e) as [H|H].
    - unfold Q2R, inject_Z. cbn [Qnum Qden]. rewrite Rinv_1, Rmult_1_r, mult_IZR. f_equal. rewrite <- IZR_Zpower by exact H. reflexivity.
    - unfold Q2R. cbn [Qnum Qden]. assert (P : (0 < 2 ^ (- e))%Z) by (apply Z.pow_pos_nonneg; lia). rewrite Z2Pos.id by exact P.
      f_equal. replace e with (- (- e))%Z at 2 by lia. rewrite bpow_opp. f_equal. rewrite <- IZR_Zpower by lia. reflexivity.
  Qed.
  Lemma normalize_near z e s : (Qabs (pow_val z e) <= big)%Q -> exists v, isf (SpecFloat.binary_normalize prec emax z e s) v /\ near v (pow_val z e) /\
    (generic_format radix2 (SpecFloat.fexp prec emax) (Q2R (pow_val z e)) -> (v == pow_val z e)%Q).
  Proof.
    intro S. rewrite normalize_eq. pose proof (binary_normalize_correct prec emax Hprec Hmax mode_NE z e s) as C. cbv zeta in C. rewrite <- Q2R_pow_val, (rnd_small _ S) in C. destruct C as (C & F & _).
    eexists. split; [apply B_isf; exact F|]. split; [apply near_of; exact C|]. intro G. apply eqR_Qeq. rewrite Q2R_fq, C. apply round_generic; [apply valid_rnd_N|exact G].
  Qed.
End Format.
