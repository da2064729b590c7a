(** C68: the rounding of IEEE 754 single precision, computed on rationals, is the one of Flocq; it is
    a rounding in the sense of PropRRound. *)
From Coq Require Import List Bool Arith ZArith QArith Qabs Qround Qreals Reals Lia Lqa Lra.
From Flocq Require Import Core.
From Verif Require Import AabModel RTreeModel FloatLink PropRTree PropRRound.
Import ListNotations.
Open Scope Z_scope.

(** The exponent [g] with 2^(g-1) <= |x| < 2^g. *)
Definition magQ (x : Q) : Z :=
  let n := Z.abs (Qnum x) in let d := Zpos (Qden x) in
  let k := Z.log2 n - Z.log2 d in
  if d * 2 ^ Z.max k 0 <=? n * 2 ^ Z.max (- k) 0 then k + 1 else k.
(** To the nearest integer, ties to even. *)
Definition nearestQ (y : Q) : Z :=
  let f := Qfloor y in
  match Qcompare (y - inject_Z f) (1 # 2) with
  | Lt => f
  | Eq => if Z.even f then f else f + 1
  | Gt => f + 1
  end.
(** 24 bits, the least exponent -149 (IEEE 754 binary32; no overflow). *)
Definition rnd24 (x : Q) : Q :=
  if Qnum x =? 0 then 0%Q
  else let e := Z.max (magQ x - 24) (-149) in pow_val (nearestQ (x * pow_val 1 (- e))) e.

Notation R32 := (round radix2 (FLT_exp (-149) 24) ZnearestE).

Lemma Q2R_frac x : Q2R x = (IZR (Qnum x) / IZR (Zpos (Qden x)))%R. Proof. reflexivity. Qed.
Lemma magQ_ok x : Qnum x <> 0 -> (bpow radix2 (magQ x - 1) <= Rabs (Q2R x) < bpow radix2 (magQ x))%R.
Proof.
  intros N. set (n := Z.abs (Qnum x)). set (d := Zpos (Qden x)). assert (N0 : 0 < n) by (unfold n; lia). assert (D0 : 0 < d) by reflexivity.
  assert (E : Rabs (Q2R x) = (IZR n / IZR d)%R).
  { rewrite Q2R_frac. unfold Rdiv. rewrite Rabs_mult, <- abs_IZR, Rabs_inv, <- abs_IZR. reflexivity. }
  rewrite E. pose proof (Z.log2_spec n N0) as [A1 A2]. pose proof (Z.log2_spec d D0) as [B1 B2].
  pose proof (Z.log2_nonneg n). pose proof (Z.log2_nonneg d).
  assert (P : forall e, 0 <= e -> bpow radix2 e = IZR (2 ^ e)) by (intros e He; rewrite <- (IZR_Zpower radix2) by exact He; reflexivity).
  assert (DR : (0 < IZR d)%R) by (apply IZR_lt; exact D0).
  assert (Low : forall e, (d * 2 ^ Z.max e 0 <= n * 2 ^ Z.max (- e) 0) -> (bpow radix2 e <= IZR n / IZR d)%R).
  { intros e L. apply Rmult_le_reg_r with (1 := DR). unfold Rdiv. rewrite Rmult_assoc, Rinv_l, Rmult_1_r by lra.
    apply Rmult_le_reg_r with (r := bpow radix2 (Z.max (- e) 0)); [apply bpow_gt_0|]. rewrite (Rmult_comm (bpow radix2 e)), Rmult_assoc, <- bpow_plus.
    replace (e + Z.max (- e) 0) with (Z.max e 0) by lia. rewrite !P by lia. rewrite <- !mult_IZR. apply IZR_le. exact L. }
  assert (Up : forall e, (n * 2 ^ Z.max (- e) 0 < d * 2 ^ Z.max e 0) -> (IZR n / IZR d < bpow radix2 e)%R).
  { intros e L. apply Rmult_lt_reg_r with (1 := DR). unfold Rdiv. rewrite Rmult_assoc, Rinv_l, Rmult_1_r by lra.
    apply Rmult_lt_reg_r with (r := bpow radix2 (Z.max (- e) 0)); [apply bpow_gt_0|]. rewrite (Rmult_comm (bpow radix2 e)), (Rmult_assoc (IZR d)), <- bpow_plus.
    replace (e + Z.max (- e) 0) with (Z.max e 0) by lia. rewrite !P by lia. rewrite <- !mult_IZR. apply IZR_lt. exact L. }
  unfold magQ. fold n d. set (a := Z.log2 n) in *. set (b := Z.log2 d) in *.
  assert (S1 : (bpow radix2 (a - b - 1) <= IZR n / IZR d)%R).
  { apply Rlt_le. apply Rmult_lt_reg_r with (1 := DR). unfold Rdiv. rewrite Rmult_assoc, Rinv_l, Rmult_1_r by lra.
    apply Rlt_le_trans with (bpow radix2 (a - b - 1) * bpow radix2 (Z.succ b))%R.
    - apply Rmult_lt_compat_l; [apply bpow_gt_0|]. rewrite P by lia. apply IZR_lt. exact B2.
    - rewrite <- bpow_plus. replace (a - b - 1 + Z.succ b) with a by lia. rewrite P by lia. apply IZR_le. exact A1. }
  assert (S2 : (IZR n / IZR d < bpow radix2 (a - b + 1))%R).
  { apply Rmult_lt_reg_r with (1 := DR). unfold Rdiv. rewrite Rmult_assoc, Rinv_l, Rmult_1_r by lra.
    apply Rlt_le_trans with (bpow radix2 (a - b + 1) * bpow radix2 b)%R.
    - rewrite <- bpow_plus. replace (a - b + 1 + b) with (Z.succ a) by lia. rewrite P by lia. apply IZR_lt. exact A2.
    - apply Rmult_le_compat_l; [apply bpow_ge_0|]. rewrite P by lia. apply IZR_le. exact B1. }
  destruct (Z.leb_spec (d * 2 ^ Z.max (a - b) 0) (n * 2 ^ Z.max (- (a - b)) 0)) as [L|L].
  - split; [replace (a - b + 1 - 1) with (a - b) by lia; apply Low; exact L|exact S2].
  - split; [exact S1|apply Up; exact L].
Qed.
Lemma Zfloor_Q y : Zfloor (Q2R y) = Qfloor y.
Proof.
  apply Zfloor_imp. pose proof (Qfloor_le y) as A. pose proof (Qlt_floor y) as B. apply Qle_Rle in A. apply Qlt_Rlt in B.
  rewrite !Q2R_frac in A, B. cbn [Qnum Qden inject_Z] in A, B. rewrite Q2R_frac. lra.
Qed.
Lemma nearestQ_ok y : nearestQ y = ZnearestE (Q2R y).
Proof.
  unfold nearestQ, Znearest. rewrite Zfloor_Q. set (f := Qfloor y).
  assert (X : (Q2R (y - inject_Z f) = Q2R y - IZR f)%R). { rewrite Q2R_minus. f_equal. unfold Q2R. cbn. lra. }
  assert (H2 : Q2R (1 # 2) = (/ 2)%R) by (unfold Q2R; cbn; lra).
  assert (Cl : (Q2R y - IZR f)%R <> 0%R -> Zceil (Q2R y) = f + 1).
  { intros N. rewrite Zceil_floor_neq; rewrite Zfloor_Q; fold f; [reflexivity|]. intros Y. apply N. rewrite <- Y. lra. }
  destruct (Qcompare_spec (y - inject_Z f) (1 # 2)) as [E|E|E].
  - apply Qeq_eqR in E. rewrite X, H2 in E. rewrite Rcompare_Eq by exact E. rewrite Cl by lra. destruct (Z.even f); reflexivity.
  - apply Qlt_Rlt in E. rewrite X, H2 in E. rewrite Rcompare_Lt by exact E. reflexivity.
  - apply Qlt_Rlt in E. rewrite X, H2 in E. rewrite Rcompare_Gt by exact E. rewrite Cl by lra. reflexivity.
Qed.

(** [rnd24] is the rounding of single precision. *)
Theorem rnd24_single : forall x, Q2R (rnd24 x) = R32 (Q2R x).
Proof.
  intros x. unfold rnd24. destruct (Z.eqb_spec (Qnum x) 0) as [N|N].
  - assert (E : Q2R x = 0%R) by (rewrite Q2R_frac, N; unfold Rdiv; apply Rmult_0_l). rewrite E, round_0 by apply valid_rnd_N. unfold Q2R. cbn. lra.
  - rewrite Q2R_pow_val. unfold round, scaled_mantissa, cexp.
    rewrite (mag_unique radix2 (Q2R x) (magQ x) (magQ_ok x N)). change (FLT_exp (-149) 24 (magQ x)) with (Z.max (magQ x - 24) (-149)).
    f_equal. f_equal. rewrite nearestQ_ok. f_equal. rewrite Q2R_mult, Q2R_pow_val. f_equal. unfold F2R. cbn [Fnum Fexp]. apply Rmult_1_l.
Qed.
Print Assumptions rnd24_single.

Lemma rnd24_rounding : rounding rnd24.
Proof.
  split.
  - intros x y H. apply Rle_Qle. rewrite !rnd24_single. apply round_le; [apply FLT_exp_valid; reflexivity|apply valid_rnd_N|apply Qle_Rle; exact H].
  - intros k K. apply eqR_Qeq. rewrite rnd24_single. apply round_generic; [apply valid_rnd_N|].
    assert (F : Q2R (k # 2) = F2R (Float radix2 k (-1))) by (unfold Q2R, F2R; cbn; lra). rewrite F.
    destruct (Z.eq_dec (Z.abs k) (2 ^ 24)) as [T|T].
    + apply generic_format_FLT. exists (Float radix2 (k / 2) 0); [|cbn [Fnum]|cbn; lia].
      * unfold F2R. cbn [Fnum Fexp bpow]. assert (E : k = 2 ^ 24 \/ k = - 2 ^ 24) by lia; destruct E as [E|E]; rewrite E; change (2 ^ 24 / 2) with (2 ^ 23); change (- 2 ^ 24 / 2) with (- 2 ^ 23); cbn; lra.
      * assert (E : k = 2 ^ 24 \/ k = - 2 ^ 24) by lia; destruct E as [E|E]; rewrite E; reflexivity.
    + apply generic_format_FLT. exists (Float radix2 k (-1)); [reflexivity|cbn [Fnum]; change (Zpower radix2 24) with (2 ^ 24); lia|cbn; lia].
Qed.

(** In single precision: boxes in a box of volume at most 2^23 - 1 are inserted, removed and found. *)
Theorem rtree_single_partial : forall D (hull : Rect) M m vol (deqb : D -> D -> bool) ops,
  capacities M m -> (2 <= m)%nat -> volume_ok vol -> (vol hull <= inject_Z (2 ^ 23 - 1))%Q ->
  Forall (op_in hull) ops ->
  exists root h k L, run M m vol (fun x y => rnd24 (x - y)) deqb ops empty = Some root /\
    well_shaped (length hull) M m h root /\ stored deqb ops [] k L /\ Count root = Some (length L) /\
    forall q, exists found, Search (fun _ _ => true) q root = Some found /\ answers q L found.
Proof.
  intros D hull M m vol deqb ops C C2 V B K.
  exact (rtree_rounded_history_partial D hull M m vol rnd24 deqb ops C C2 V rnd24_rounding B K).
Qed.
Print Assumptions rtree_single_partial.
(** Above: four equal squares of area 2^26, capacities 3 and 1. *)
Theorem rtree_single_refuted : exists M m ops,
  m = (M / 2)%nat /\ capacities M m /\ Forall (op_dim 2) ops /\ Forall is_ins ops /\
  run M m RectVolume (fun x y => rnd24 (x - y)) Z.eqb ops empty = None.
Proof.
  exists 3%nat, 1%nat, (map (Ins square) [1; 2; 3; 4]%Z). split; [reflexivity|]. split; [unfold capacities; lia|].
  split; [repeat constructor|]. split; [repeat constructor|]. vm_compute. reflexivity.
Qed.
Print Assumptions rtree_single_refuted.

(** ** Examples *)
(** Twenty boxes in a strip of area 30, and removals; the rounding is not the identity. *)
Definition strip_hull : Rect := [(0, 30); (0, 1)].
Example rtree_single_nonvacuous :
  capacities 8 4 /\ volume_ok RectVolume /\ (RectVolume strip_hull <= inject_Z (2 ^ 23 - 1))%Q /\
  Forall (op_in strip_hull) (ins_all (strip 20) ++ del_all (firstn 12 (strip 20))).
Proof.
  split; [unfold capacities; lia|]. split; [exact RectVolume_ok|]. split; [vm_compute; discriminate|].
  repeat (constructor; [cbn; try exact I; unfold within_box; repeat constructor; cbn; lia|]). constructor.
Qed.
Example rnd24_rounds : (rnd24 (1 # 10) == 13421773 # 134217728)%Q /\ (rnd24 (inject_Z (2 ^ 26 + 5)) == inject_Z (2 ^ 26 + 8))%Q /\ (rnd24 (- inject_Z (2 ^ 26) - 1) == - inject_Z (2 ^ 26))%Q.
Proof. repeat split; vm_compute; reflexivity. Qed.
Example rtree_single_run : exists root,
  run 8 4 RectVolume (fun x y => rnd24 (x - y)) Z.eqb (ins_all (strip 20) ++ del_all (firstn 12 (strip 20))) empty = Some root /\ Count root = Some 8%nat.
Proof. eexists. split; vm_compute; reflexivity. Qed.
