(** C91 on IEEE 754 floats: quantised positions are stable near the origin. *)
From Coq Require Import ZArith QArith Qabs Qpower Qreals Reals Lra Lqa Lia Floats.SpecFloat.
From Flocq Require Import Core IEEE754.BinarySingleNaN.
From Verif Require Import QuantModel FloatQuantModel FloatQuantProofs FloatLink.
Open Scope Z_scope.

Definition P24 : Prec_gt_0 24 := eq_refl. Definition P53 : Prec_gt_0 53 := eq_refl.
Definition M24 : Prec_lt_emax 24 128 := eq_refl. Definition M53 : Prec_lt_emax 53 1024 := eq_refl.
Notation u24 := (1 # 2 ^ 24)%Q. Notation u53 := (1 # 2 ^ 53)%Q.
Notation h24 := (1 # 2 ^ 150)%Q. Notation h53 := (1 # 2 ^ 1075)%Q.
Notation b24 := (inject_Z (2 ^ 126)). Notation b53 := (inject_Z (2 ^ 1022)).

Lemma half_bpow p e : (0 < p)%Z -> e = (- p)%Z -> Q2R (1 # Z.to_pos (2 ^ p)) = bpow radix2 e.
Proof.
  intros H ->. unfold Q2R. cbn [Qnum Qden]. rewrite Z2Pos.id by (apply Z.pow_pos_nonneg; lia). rewrite bpow_opp, Rmult_1_l. f_equal. rewrite <- IZR_Zpower by lia. reflexivity.
Qed.
Lemma half_mult e : (/ 2 * bpow radix2 e = bpow radix2 (e - 1))%R.
Proof. unfold Zminus. rewrite bpow_plus. cbn. change (Z.pow_pos 2 1) with 2%Z. rewrite Rmult_comm. reflexivity. Qed.
Lemma U24 : Q2R u24 = (/ 2 * bpow radix2 (- 24 + 1))%R. Proof. rewrite half_mult. exact (half_bpow 24 (-24) eq_refl eq_refl). Qed.
Lemma U53 : Q2R u53 = (/ 2 * bpow radix2 (- 53 + 1))%R. Proof. rewrite half_mult. exact (half_bpow 53 (-53) eq_refl eq_refl). Qed.
Lemma H24 : Q2R h24 = (/ 2 * bpow radix2 (emin 24 128))%R. Proof. rewrite half_mult. exact (half_bpow 150 (-150) eq_refl eq_refl). Qed.
Lemma H53 : Q2R h53 = (/ 2 * bpow radix2 (emin 53 1024))%R. Proof. rewrite half_mult. exact (half_bpow 1075 (-1075) eq_refl eq_refl). Qed.
Lemma Q2R_int z : Q2R (inject_Z z) = IZR z. Proof. unfold Q2R, inject_Z. cbn [Qnum Qden]. rewrite Rinv_1, Rmult_1_r. reflexivity. Qed.
Lemma B24 : Q2R b24 = bpow radix2 (128 - 2). Proof. rewrite Q2R_int. rewrite <- IZR_Zpower by lia. reflexivity. Qed.
Lemma B53 : Q2R b53 = bpow radix2 (1024 - 2). Proof. rewrite Q2R_int. rewrite <- IZR_Zpower by lia. reflexivity. Qed.
Lemma L24 : (0 < 24 /\ emin 24 128 < 128)%Z. Proof. split; reflexivity. Qed.
Lemma L53 : (0 < 53 /\ emin 53 1024 < 1024)%Z. Proof. split; reflexivity. Qed.

Definition add53 := SFadd_near 53 1024 P53 M53 u53 h53 b53 U53 H53 B53 L53.
Definition mul53 := SFmul_near 53 1024 P53 M53 u53 h53 b53 U53 H53 B53 L53.
Definition one53 := SFmul_one 53 1024 P53 M53 u53 h53 b53 U53 H53 B53 L53.
Definition sub24 := SFsub_near 24 128 P24 M24 u24 h24 b24 U24 H24 B24 L24.
Definition div24 := SFdiv_near 24 128 P24 M24 u24 h24 b24 U24 H24 B24 L24.
Definition one24 := SFmul_one 24 128 P24 M24 u24 h24 b24 U24 H24 B24 L24.
Definition norm24 := normalize_near 24 128 P24 M24 u24 h24 b24 U24 H24 B24 L24.
Definition norm53 := normalize_near 53 1024 P53 M53 u53 h53 b53 U53 H53 B53 L53.
Notation isf24 := (isf 24 128). Notation isf53 := (isf 53 1024).
Notation near24 := (near u24 h24). Notation near53 := (near u53 h53).

Lemma fq_pow_val s m e : fq (S754_finite s m e) = pow_val (if s then Zneg m else Zpos m) e.
Proof. reflexivity. Qed.
Lemma Qabs_le_comp a b c : (a == b)%Q -> (Qabs b <= c)%Q -> (Qabs a <= c)%Q.
Proof. intros E H. rewrite E. exact H. Qed.
Lemma isf_eq prec emax x a b : (a == b)%Q -> isf prec emax x a -> isf prec emax x b.
Proof. intros E (V & F & H). split; [exact V|]. split; [exact F|]. rewrite H. exact E. Qed.

(** A float is a double. *)
Lemma widen x a : isf24 x a -> (Qabs a <= b53)%Q -> isf53 (conv 53 1024 x) a.
Proof.
  intros I S. pose proof I as (V & F & E). destruct x as [s|s| |s m e]; try discriminate F; [split; [reflexivity|split; [reflexivity|exact E]]|].
  cbn [conv]. rewrite fq_pow_val in E. destruct (norm53 (if s then Zneg m else Zpos m) e s (Qabs_le_comp _ _ _ E S)) as (v & Iv & _ & G).
  apply (isf_eq _ _ _ v); [|exact Iv]. rewrite <- E. apply G. clear G Iv v.
  destruct (isf_B 24 128 _ _ I) as (b & _ & _ & B). rewrite (Qeq_eqR _ _ E), <- B.
  pose proof (generic_format_B2R 24 128 b) as G. apply (@FLT_format_generic radix2 (emin 24 128) 24 P24) in G.
  destruct G as [f Hf Hn He]. apply (generic_format_FLT radix2 (emin 53 1024) 53). exists f; [exact Hf| |].
  - apply Z.lt_le_trans with (1 := Hn). vm_compute. discriminate.
  - apply Z.le_trans with (2 := He). vm_compute. discriminate.
Qed.
Lemma int53 z : (0 <= z < 2 ^ 17)%Z -> isf53 (of_int 53 1024 z) (inject_Z z).
Proof.
  intro H. assert (E : (pow_val z 0 == inject_Z z)%Q) by (unfold pow_val; cbn [Z.leb Z.compare]; rewrite Z.mul_1_r; reflexivity).
  assert (S : (Qabs (pow_val z 0) <= b53)%Q).
  { rewrite E, Qabs_pos by (change 0%Q with (inject_Z 0); rewrite <- Zle_Qle; lia). rewrite <- Zle_Qle. apply Z.le_trans with (2 ^ 17)%Z; [lia|]. vm_compute. discriminate. }
  destruct (norm53 z 0 false S) as (v & Iv & _ & G). apply (isf_eq _ _ _ v); [|exact Iv]. rewrite G; [exact E|].
  rewrite Q2R_pow_val. apply (generic_format_FLT radix2 (emin 53 1024) 53). exists (Float radix2 z 0); [reflexivity| |vm_compute; discriminate].
  cbn [Fnum]. apply Z.lt_le_trans with (2 ^ 17)%Z; [lia|]. vm_compute. discriminate.
Qed.
Lemma narrow x a : isf53 x a -> (Qabs a <= b24)%Q -> exists v, isf24 (f32 x) v /\ near24 v a.
Proof.
  intros I S. pose proof I as (V & F & E). destruct x as [s|s| |s m e]; try discriminate F.
  - exists 0%Q. split; [split; [reflexivity|split; reflexivity]|]. unfold near. cbn [fq] in E. rewrite <- E. vm_compute. discriminate.
  - unfold f32. cbn [conv]. rewrite fq_pow_val in E. destruct (norm24 (if s then Zneg m else Zpos m) e s (Qabs_le_comp _ _ _ E S)) as (v & Iv & Nv & _).
    exists v. split; [exact Iv|]. unfold near in *. rewrite <- E. exact Nv.
Qed.
Lemma one_24 : isf24 (of_int 24 128 1) 1. Proof. split; [reflexivity|]. split; [reflexivity|]. vm_compute. reflexivity. Qed.
Lemma one_53 : isf53 (of_int 53 1024 1) 1. Proof. split; [reflexivity|]. split; [reflexivity|]. vm_compute. reflexivity. Qed.
Lemma half_53 : isf53 half (1 # 2). Proof. split; [reflexivity|]. split; [reflexivity|]. vm_compute. reflexivity. Qed.

(** Conversion to int of a value between two whole numbers. *)
Lemma to_int_between x a z : isf24 x a -> (0 <= z < 2 ^ 16)%Z -> (inject_Z z + (1 # 5) <= a)%Q -> (a <= inject_Z z + (4 # 5))%Q -> to_int x = Some z.
Proof.
  intros (V & F & E) Hz A B. assert (Z0 : (0 <= inject_Z z)%Q) by (change 0%Q with (inject_Z 0); rewrite <- Zle_Qle; lia).
  destruct x as [s|s| |s m e]; try discriminate F; [cbn [fq] in E; exfalso; clear - A Z0 E; Lqa.lra|].
  destruct s; [exfalso|].
  { assert (N : (fq (S754_finite true m e) <= 0)%Q).
    { cbn [fq]. destruct (Z.leb_spec 0 e); [change 0%Q with (inject_Z 0); rewrite <- Zle_Qle; pose proof (Z.pow_pos_nonneg 2 e); nia|unfold Qle; cbn; lia]. }
    clear - A Z0 E N. Lqa.lra. }
  cbn [to_int]. cbn [fq] in E. destruct (Z.leb_spec 0 e) as [He|He].
  - exfalso. set (w := (Zpos m * 2 ^ e)%Z) in *. assert (L : (inject_Z z < inject_Z w)%Q) by (clear - A E; Lqa.lra). assert (R : (inject_Z w < inject_Z (z + 1))%Q) by (rewrite inject_Z_plus; change (inject_Z 1) with 1%Q; clear - B E; Lqa.lra).
    rewrite <- Zlt_Qlt in L, R. lia.
  - set (k := (2 ^ (- e))%Z) in *. assert (P : (0 < k)%Z) by (apply Z.pow_pos_nonneg; lia).
    assert (L : (z * k <= Zpos m)%Z).
    { assert (H : (inject_Z z <= Zpos m # Z.to_pos k)%Q) by (clear - A E; Lqa.lra). unfold Qle in H. cbn [Qnum Qden inject_Z] in H. rewrite Z2Pos.id in H by exact P. lia. }
    assert (R : (Zpos m < (z + 1) * k)%Z).
    { assert (H : (Zpos m # Z.to_pos k < inject_Z (z + 1))%Q) by (rewrite inject_Z_plus; change (inject_Z 1) with 1%Q; clear - B E; Lqa.lra). unfold Qlt in H. cbn [Qnum Qden inject_Z] in H. rewrite Z2Pos.id in H by exact P. lia. }
    assert (D : (Zpos m / k = z)%Z) by (symmetry; apply Z.div_unique with (Zpos m - z * k)%Z; lia). rewrite D.
    change (2 ^ 31)%Z with 2147483648%Z. destruct (Z.ltb_spec z 2147483648); [reflexivity|lia].
Qed.

(** Where the rounding of the format is within the tolerance of the estimate. *)
Lemma near_tol u h v x t : near u h v x -> (h <= t)%Q -> (Qabs (v - x) <= u * Qabs x + t)%Q.
Proof. unfold near. intros H L. Lqa.lra. Qed.
Lemma self_tol u x t : (0 <= u)%Q -> (0 <= t)%Q -> (Qabs (x - x) <= u * Qabs x + t)%Q.
Proof.
  intros U T. setoid_replace (x - x)%Q with 0%Q by ring. change (Qabs 0) with 0%Q. pose proof (Qmult_le_0_compat _ _ U (Qabs_nonneg x)). Lqa.lra.
Qed.
Lemma below s a c N M : (0 < s)%Q -> (s <= inject_Z (2 ^ 100))%Q -> (Qabs a <= c * s)%Q -> (0 <= c)%Q -> (c <= inject_Z N)%Q -> (N * 2 ^ 100 <= M)%Z -> (Qabs a <= inject_Z M)%Q.
Proof.
  intros S1 S2 H C1 C2 L. apply Qle_trans with (1 := H). apply Qle_trans with (inject_Z N * inject_Z (2 ^ 100))%Q; [|rewrite <- inject_Z_mult, <- Zle_Qle; exact L].
  apply Qle_trans with (c * inject_Z (2 ^ 100))%Q; [rewrite !(Qmult_comm c); apply Qmult_le_compat_r; auto|]. apply Qmult_le_compat_r; [exact C2|]. vm_compute. discriminate.
Qed.

Section Chain.
  Variables (corner step : spec_float) (b s : Q) (z : Z).
  Hypothesis IC : isf24 corner b.
  Hypothesis IS : isf24 step s.
  Hypothesis S1 : ((1 # 2 ^ 120) <= s)%Q.
  Hypothesis S2 : (s <= inject_Z (2 ^ 100))%Q.
  Hypothesis Hz : 0 <= z < 2 ^ 16.
  Hypothesis HC : (Qabs b <= inject_Z (2 ^ 22 - 2 ^ 16) * s)%Q.
  Notation t20 := (1 # 2 ^ 20)%Q.

  Lemma spos : (0 < s)%Q. Proof. eapply Qlt_le_trans; [|exact S1]. reflexivity. Qed.
  Lemma tol24 : (h24 <= t20 * s)%Q.
  Proof. apply Qle_trans with (t20 * (1 # 2 ^ 120))%Q; [vm_compute; discriminate|]. rewrite !(Qmult_comm t20). apply Qmult_le_compat_r; [exact S1|vm_compute; discriminate]. Qed.
  Lemma tol53 : (h53 <= t20 * s)%Q. Proof. eapply Qle_trans; [|exact tol24]. vm_compute. discriminate. Qed.
  Lemma t0 : (0 <= t20 * s)%Q. Proof. apply Qmult_le_0_compat; [vm_compute; discriminate|apply Qlt_le_weak, spos]. Qed.

  Lemma pos_back : getQuantizedPosF corner step (getPosF corner step z) = Some z.
  Proof.
    pose proof spos as SP. pose proof tol24 as T24. pose proof tol53 as T53. pose proof t0 as T0.
    assert (D0 : (0 <= u53)%Q) by (vm_compute; discriminate). assert (U0 : (0 <= u24)%Q) by (vm_compute; discriminate). assert (TT : (0 <= t20)%Q) by (vm_compute; discriminate).
    pose proof (fun v0 v1 v2 v3 v4 v5 v6 => stable_points b s z v0 v1 v2 v3 v4 v5 v6 SP Hz HC) as SP6. cbv zeta in SP6.
    assert (BB : (Qabs b <= b53)%Q) by (apply (below s b (inject_Z (2 ^ 22 - 2 ^ 16)) (2 ^ 22)); auto; vm_compute; discriminate).
    assert (BS : (Qabs s <= b53)%Q) by (apply (below s s 1 1); auto; try (vm_compute; discriminate); rewrite Qabs_pos by (apply Qlt_le_weak; exact SP); Lqa.lra).
    pose proof (widen _ _ IC BB) as WC. pose proof (widen _ _ IS BS) as WS.
    unfold getPosF.
    pose proof (int53 z ltac:(lia)) as I0. set (v0 := inject_Z z) in *.
    assert (Z1 : (Qabs (v0 + (1 # 2)) <= 65536)%Q).
    { apply Qabs_Qle_condition. assert ((0 <= v0)%Q) by (change 0%Q with (inject_Z 0); unfold v0; rewrite <- Zle_Qle; lia). assert ((v0 <= 65535)%Q) by (change 65535%Q with (inject_Z 65535); unfold v0; rewrite <- Zle_Qle; lia). Lqa.lra. }
    destruct (add53 _ _ _ _ I0 half_53) as (v1 & I1 & N1); [apply Qle_trans with (1 := Z1); vm_compute; discriminate|].
    pose proof (near_tol _ _ _ _ t20 N1 ltac:(vm_compute; discriminate)) as E1. clear N1. set (x1 := SFadd 53 1024 _ half) in *. clearbody x1.
    destruct (SP6 v0 v1 (v1 * s)%Q (v1 * s + b)%Q (v1 * s + b)%Q (v1 * s + b - b)%Q ((v1 * s + b - b) / s)%Q (Qeq_refl _) E1) as [(K1 & K2 & _) _]; try (apply self_tol; auto).
    destruct (mul53 _ _ _ _ I1 WS) as (v2 & I2 & N2); [apply (below s _ 65538 65538); auto; vm_compute; discriminate|].
    pose proof (near_tol _ _ _ _ _ N2 T53) as E2. clear N2. set (x2 := SFmul 53 1024 x1 _) in *. clearbody x2.
    destruct (SP6 v0 v1 v2 (v2 + b)%Q (v2 + b)%Q (v2 + b - b)%Q ((v2 + b - b) / s)%Q (Qeq_refl _) E1 E2) as [(_ & K2' & K3 & _) _]; try (apply self_tol; auto).
    pose proof (one53 _ _ _ _ I2 one_53 (Qeq_refl _) ltac:(apply (below s _ 65538 65538); auto; vm_compute; discriminate)) as I2'. clear I2. set (x2' := SFmul 53 1024 x2 _) in *. clearbody x2'.
    destruct (add53 _ _ _ _ I2' WC) as (v3 & I3 & N3); [apply (below s _ 4194307 4194307); auto; vm_compute; discriminate|].
    pose proof (near_tol _ _ _ _ _ N3 T53) as E3. clear N3. set (x3 := SFadd 53 1024 x2' _) in *. clearbody x3.
    destruct (SP6 v0 v1 v2 v3 v3 (v3 - b)%Q ((v3 - b) / s)%Q (Qeq_refl _) E1 E2 E3) as [(_ & _ & K3' & K4 & _) _]; try (apply self_tol; auto).
    destruct (narrow _ _ I3) as (v4 & I4 & N4); [apply (below s _ 4194307 4194307); auto; vm_compute; discriminate|].
    pose proof (near_tol _ _ _ _ _ N4 T24) as E4. clear N4. set (x4 := f32 x3) in *. clearbody x4.
    destruct (SP6 v0 v1 v2 v3 v4 (v4 - b)%Q ((v4 - b) / s)%Q (Qeq_refl _) E1 E2 E3 E4) as [(_ & _ & _ & K4' & K5) _]; try (apply self_tol; auto).
    unfold getQuantizedPosF.
    destruct (sub24 _ _ _ _ I4 IC) as (v5 & I5 & N5); [apply (below s _ 65540 65540); auto; vm_compute; discriminate|].
    pose proof (near_tol _ _ _ _ _ N5 T24) as E5. clear N5. set (x5 := SFsub 24 128 x4 _) in *. clearbody x5.
    destruct (SP6 v0 v1 v2 v3 v4 v5 (v5 / s)%Q (Qeq_refl _) E1 E2 E3 E4 E5) as [(_ & _ & _ & _ & K5') _]; try (apply self_tol; auto).
    pose proof (one24 _ _ _ _ IS one_24 (Qeq_refl _) ltac:(apply (below s _ 1 1); auto; try (vm_compute; discriminate); rewrite Qabs_pos by (apply Qlt_le_weak; exact SP); Lqa.lra)) as IS'.
    destruct (div24 _ _ _ _ I5 IS') as (v6 & I6 & N6); [intro Z; rewrite Z in SP; discriminate SP| |].
    - apply Qle_trans with 65540%Q; [|vm_compute; discriminate]. unfold Qdiv. rewrite Qabs_Qmult, (Qabs_pos (/ s)) by (apply Qinv_le_0_compat, Qlt_le_weak, SP).
      apply Qle_shift_div_r; [exact SP|exact K5'].
    - pose proof (near_tol _ _ _ _ t20 N6 ltac:(vm_compute; discriminate)) as E6. clear N6.
      destruct (SP6 v0 v1 v2 v3 v4 v5 v6 (Qeq_refl _) E1 E2 E3 E4 E5 E6) as [_ [A B]]. exact (to_int_between _ _ _ I6 Hz A B).
  Qed.
  Lemma pos_val : exists v, isf24 (getPosF corner step z) v /\ (inject_Z z + (1 # 5) <= (v - b) / s)%Q /\ ((v - b) / s <= inject_Z z + (4 # 5))%Q.
  Proof.
    pose proof spos as SP. pose proof tol24 as T24. pose proof tol53 as T53. pose proof t0 as T0.
    assert (D0 : (0 <= u53)%Q) by (vm_compute; discriminate). assert (U0 : (0 <= u24)%Q) by (vm_compute; discriminate). assert (TT : (0 <= t20)%Q) by (vm_compute; discriminate).
    pose proof (fun v0 v1 v2 v3 v4 v5 v6 => stable_points b s z v0 v1 v2 v3 v4 v5 v6 SP Hz HC) as SP6. cbv zeta in SP6.
    assert (BB : (Qabs b <= b53)%Q) by (apply (below s b (inject_Z (2 ^ 22 - 2 ^ 16)) (2 ^ 22)); auto; vm_compute; discriminate).
    assert (BS : (Qabs s <= b53)%Q) by (apply (below s s 1 1); auto; try (vm_compute; discriminate); rewrite Qabs_pos by (apply Qlt_le_weak; exact SP); Lqa.lra).
    pose proof (widen _ _ IC BB) as WC. pose proof (widen _ _ IS BS) as WS.
    unfold getPosF.
    pose proof (int53 z ltac:(lia)) as I0. set (v0 := inject_Z z) in *.
    assert (Z1 : (Qabs (v0 + (1 # 2)) <= 65536)%Q).
    { apply Qabs_Qle_condition. assert ((0 <= v0)%Q) by (change 0%Q with (inject_Z 0); unfold v0; rewrite <- Zle_Qle; lia). assert ((v0 <= 65535)%Q) by (change 65535%Q with (inject_Z 65535); unfold v0; rewrite <- Zle_Qle; lia). Lqa.lra. }
    destruct (add53 _ _ _ _ I0 half_53) as (v1 & I1 & N1); [apply Qle_trans with (1 := Z1); vm_compute; discriminate|].
    pose proof (near_tol _ _ _ _ t20 N1 ltac:(vm_compute; discriminate)) as E1. clear N1. set (x1 := SFadd 53 1024 _ half) in *. clearbody x1.
    destruct (SP6 v0 v1 (v1 * s)%Q (v1 * s + b)%Q (v1 * s + b)%Q (v1 * s + b - b)%Q ((v1 * s + b - b) / s)%Q (Qeq_refl _) E1) as [(K1 & K2 & _) _]; try (apply self_tol; auto).
    destruct (mul53 _ _ _ _ I1 WS) as (v2 & I2 & N2); [apply (below s _ 65538 65538); auto; vm_compute; discriminate|].
    pose proof (near_tol _ _ _ _ _ N2 T53) as E2. clear N2. set (x2 := SFmul 53 1024 x1 _) in *. clearbody x2.
    destruct (SP6 v0 v1 v2 (v2 + b)%Q (v2 + b)%Q (v2 + b - b)%Q ((v2 + b - b) / s)%Q (Qeq_refl _) E1 E2) as [(_ & K2' & K3 & _) _]; try (apply self_tol; auto).
    pose proof (one53 _ _ _ _ I2 one_53 (Qeq_refl _) ltac:(apply (below s _ 65538 65538); auto; vm_compute; discriminate)) as I2'. clear I2. set (x2' := SFmul 53 1024 x2 _) in *. clearbody x2'.
    destruct (add53 _ _ _ _ I2' WC) as (v3 & I3 & N3); [apply (below s _ 4194307 4194307); auto; vm_compute; discriminate|].
    pose proof (near_tol _ _ _ _ _ N3 T53) as E3. clear N3. set (x3 := SFadd 53 1024 x2' _) in *. clearbody x3.
    destruct (SP6 v0 v1 v2 v3 v3 (v3 - b)%Q ((v3 - b) / s)%Q (Qeq_refl _) E1 E2 E3) as [(_ & _ & K3' & K4 & _) _]; try (apply self_tol; auto).
    destruct (narrow _ _ I3) as (v4 & I4 & N4); [apply (below s _ 4194307 4194307); auto; vm_compute; discriminate|].
    pose proof (near_tol _ _ _ _ _ N4 T24) as E4. clear N4. set (x4 := f32 x3) in *. clearbody x4.
    destruct (SP6 v0 v1 v2 v3 v4 (v4 - b)%Q ((v4 - b) / s)%Q (Qeq_refl _) E1 E2 E3 E4) as [_ [A B]]; try (apply self_tol; auto).
    exists v4. split; [exact I4|]. split; assumption.
  Qed.
End Chain.

(** C91 in the floats of the machine.  For every corner and step (steps between 2^-120 and 2^100) such
    that the corner is within 2^22 - 2^16 steps of the origin, each of up to 2^16 grid positions is
    found again from the point computed for it.  Missing for the full claim: nothing can be, see the
    refutation (a corner 2^23 steps away). *)
Theorem float_positions_stable_partial : forall corner step z,
  valid_binary 24 128 corner = true -> finite corner = true -> valid_binary 24 128 step = true -> finite step = true ->
  ((1 # 2 ^ 120) <= fq step)%Q -> (fq step <= inject_Z (2 ^ 100))%Q ->
  (Qabs (fq corner) <= inject_Z (2 ^ 22 - 2 ^ 16) * fq step)%Q -> 0 <= z < 2 ^ 16 ->
  getQuantizedPosF corner step (getPosF corner step z) = Some z.
Proof.
  intros corner step z V1 F1 V2 F2 S1 S2 HC Hz. apply (pos_back corner step (fq corner) (fq step) z); auto; (split; [assumption|split; [assumption|reflexivity]]).
Qed.
Print Assumptions float_positions_stable_partial.
Example float_positions_near_nonvacuous :
  let corner := of_int 24 128 (-4000000) in let step := S754_finite false 11000000 (-23) in
  valid_binary 24 128 corner = true /\ finite corner = true /\ valid_binary 24 128 step = true /\ finite step = true /\
  ((1 # 2 ^ 120) <= fq step)%Q /\ (fq step <= inject_Z (2 ^ 100))%Q /\ (Qabs (fq corner) <= inject_Z (2 ^ 22 - 2 ^ 16) * fq step)%Q /\
  SFeqb (getPosF corner step 65535) (SFadd 24 128 corner (SFmul 24 128 step (SFadd 24 128 (of_int 24 128 65535) (S754_finite false 8388608 (-24))))) = true.
Proof. vm_compute. repeat split; discriminate. Qed.

(** * The field a coordinate is written into *)
Lemma int24 z : (0 <= z <= 2 ^ 16)%Z -> isf24 (of_int 24 128 z) (inject_Z z).
Proof.
  intro H. assert (E : (pow_val z 0 == inject_Z z)%Q) by (unfold pow_val; cbn [Z.leb Z.compare]; rewrite Z.mul_1_r; reflexivity).
  assert (S : (Qabs (pow_val z 0) <= b24)%Q).
  { rewrite E, Qabs_pos by (change 0%Q with (inject_Z 0); rewrite <- Zle_Qle; lia). rewrite <- Zle_Qle. apply Z.le_trans with (2 ^ 16)%Z; [lia|]. vm_compute. discriminate. }
  destruct (norm24 z 0 false S) as (v & Iv & _ & G). apply (isf_eq _ _ _ v); [|exact Iv]. rewrite G; [exact E|].
  rewrite Q2R_pow_val. apply (generic_format_FLT radix2 (emin 24 128) 24). exists (Float radix2 z 0); [reflexivity| |vm_compute; discriminate].
  cbn [Fnum]. apply Z.le_lt_trans with (2 ^ 16)%Z; [lia|]. reflexivity.
Qed.
Lemma to_int_floor x a : isf24 x a -> (0 <= a)%Q -> (a < inject_Z (2 ^ 31))%Q -> exists q, to_int x = Some q /\ (inject_Z q <= a)%Q /\ (a < inject_Z (q + 1))%Q.
Proof.
  intros (V & F & E) A B. destruct x as [s|s| |s m e]; try discriminate F.
  - exists 0. split; [reflexivity|]. cbn [fq] in E. rewrite <- E. split; reflexivity || (vm_compute; discriminate).
  - destruct s; [exfalso|].
    { assert (N : (fq (S754_finite true m e) < 0)%Q).
      { cbn [fq]. destruct (Z.leb_spec 0 e); [change 0%Q with (inject_Z 0); rewrite <- Zlt_Qlt; pose proof (Z.pow_pos_nonneg 2 e); nia|unfold Qlt; cbn; lia]. }
      clear - A E N. Lqa.lra. }
    cbn [to_int]. cbn [fq] in E. destruct (Z.leb_spec 0 e) as [He|He].
    + set (w := (Zpos m * 2 ^ e)%Z) in *. rewrite <- E, <- Zlt_Qlt in B. destruct (Z.ltb_spec w (2 ^ 31)); [|lia]. exists w. split; [reflexivity|]. rewrite <- E. rewrite <- Zle_Qle, <- Zlt_Qlt. lia.
    + set (k := (2 ^ (- e))%Z) in *. assert (P : (0 < k)%Z) by (apply Z.pow_pos_nonneg; lia). pose proof (Z.div_mod (Zpos m) k ltac:(lia)) as DM. pose proof (Z.mod_pos_bound (Zpos m) k P) as MB. set (q := (Zpos m / k)%Z) in *.
      assert (L : (inject_Z q <= a)%Q) by (rewrite <- E; unfold Qle; cbn [Qnum Qden inject_Z]; rewrite Z2Pos.id by exact P; nia).
      assert (R : (a < inject_Z (q + 1))%Q) by (rewrite <- E; unfold Qlt; cbn [Qnum Qden inject_Z]; rewrite Z2Pos.id by exact P; nia).
      assert (Q0 : (q < 2 ^ 31)%Z) by (rewrite Zlt_Qlt; eapply Qle_lt_trans; eauto). destruct (Z.ltb_spec q (2 ^ 31)); [|lia]. exists q. auto.
Qed.
(** The step is exactly the range divided by the number of cells. *)
Lemma step_exact bits range r : 1 <= bits <= 16 -> isf24 range r -> ((1 # 2 ^ 100) <= r)%Q -> (r <= inject_Z (2 ^ 100))%Q -> isf24 (quantStepF bits range) (r / inject_Z (2 ^ bits))%Q.
Proof.
  intros Hb IR R1 R2. assert (W : (2 <= 2 ^ bits <= 2 ^ 16)%Z) by (split; [change 2%Z with (2 ^ 1)%Z at 1|]; apply Z.pow_le_mono_r; lia).
  assert (RP : (0 < r)%Q) by (eapply Qlt_le_trans; [|exact R1]; reflexivity).
  assert (WP : (2 <= inject_Z (2 ^ bits))%Q) by (change 2%Q with (inject_Z 2); rewrite <- Zle_Qle; lia).
  unfold quantStepF. apply (SFdiv_exact 24 128 P24 M24 u24 h24 b24 U24 H24 B24 L24); [exact IR|apply int24; lia|intro Z; rewrite Z in WP; apply WP; reflexivity| |].
  - rewrite Qabs_pos by (apply Qle_shift_div_l; Lqa.lra). apply Qle_shift_div_r; [Lqa.lra|]. apply Qle_trans with (1 := R2).
    apply Qle_trans with (inject_Z (2 ^ 126) * 1)%Q; [vm_compute; discriminate|]. rewrite !(Qmult_comm (inject_Z (2 ^ 126))). apply Qmult_le_compat_r; [Lqa.lra|vm_compute; discriminate].
  - rewrite Q2R_div by (intro Z; rewrite Z in WP; apply WP; reflexivity). destruct (isf_B 24 128 _ _ IR) as (b & _ & _ & VB).
    pose proof (generic_format_B2R 24 128 b) as G. apply (@FLT_format_generic radix2 (emin 24 128) 24 P24) in G. rewrite VB in G.
    destruct G as [f Hf Hn _]. apply (generic_format_FLT radix2 (emin 24 128) 24). exists (Float radix2 (Fnum f) (Fexp f - bits)); [| exact Hn|].
    + rewrite Hf. unfold F2R. cbn [Fnum Fexp]. unfold Zminus, Rdiv. rewrite bpow_plus, bpow_opp, Rmult_assoc. rewrite Q2R_int. do 2 f_equal. f_equal. rewrite <- IZR_Zpower by lia. reflexivity.
    + cbn [Fexp]. change (emin 24 128) with (-149)%Z. destruct (Z.le_gt_cases (-149) (Fexp f - bits)) as [|C]; [assumption|exfalso].
      apply Qle_Rle in R1. change (1 # 2 ^ 100)%Q with (1 # Z.to_pos (2 ^ 100))%Q in R1. rewrite (half_bpow 100 (-100) eq_refl eq_refl), Hf in R1.
      assert (X : (F2R f < bpow radix2 (24 + Fexp f))%R).
      { unfold F2R. rewrite bpow_plus. apply Rmult_lt_compat_r; [apply bpow_gt_0|]. apply Rle_lt_trans with (IZR (Z.abs (Fnum f))); [apply IZR_le; lia|].
        rewrite <- IZR_Zpower by lia. apply IZR_lt. exact Hn. }
      assert (Y : (bpow radix2 (24 + Fexp f) <= bpow radix2 (-100))%R) by (apply bpow_le; lia). Lra.lra.
Qed.

(** C157.  In the floats of the machine every coordinate of a vertex is written into its field without
    loss, wherever the box lies: its number is below 2^bits.  [range] is the largest range of the
    three axes, hence not below the one computed for this axis. *)
Theorem float_coordinates_fit : forall bits lo hi p range, 1 <= bits <= 16 ->
  (valid_binary 24 128 lo = true /\ finite lo = true) -> (valid_binary 24 128 hi = true /\ finite hi = true) ->
  (valid_binary 24 128 p = true /\ finite p = true) -> (valid_binary 24 128 range = true /\ finite range = true) ->
  (fq lo <= fq p)%Q -> (fq p <= fq hi)%Q -> (fq hi - fq lo <= inject_Z (2 ^ 100))%Q ->
  (fq (SFsub 24 128 hi lo) <= fq range)%Q -> ((1 # 2 ^ 100) <= fq range)%Q -> (fq range <= inject_Z (2 ^ 100))%Q ->
  exists q x, quantizeCoordF bits lo (quantStepF bits range) p = Some (q, x) /\ 0 <= q < 2 ^ bits.
Proof.
  intros bits lo hi p range Hb [Vl Fl] [Vh Fh] [Vp Fp] [Vr Fr] P1 P2 W R0 R1 R2.
  assert (IL : isf24 lo (fq lo)) by (split; [|split]; auto; reflexivity). assert (IH : isf24 hi (fq hi)) by (split; [|split]; auto; reflexivity).
  assert (IP : isf24 p (fq p)) by (split; [|split]; auto; reflexivity). assert (IR : isf24 range (fq range)) by (split; [|split]; auto; reflexivity).
  pose proof (step_exact bits range (fq range) Hb IR R1 R2) as IS. set (step := quantStepF bits range) in *. clearbody step.
  assert (WZ : (2 <= 2 ^ bits <= 2 ^ 16)%Z) by (split; [change 2%Z with (2 ^ 1)%Z at 1|]; apply Z.pow_le_mono_r; lia).
  set (r := fq range) in *. set (w := inject_Z (2 ^ bits)) in *. assert (RP : (0 < r)%Q) by (eapply Qlt_le_trans; [|exact R1]; reflexivity).
  assert (WP : (2 <= w)%Q) by (unfold w; change 2%Q with (inject_Z 2); rewrite <- Zle_Qle; lia).
  assert (BG : (inject_Z (2 ^ 100) <= b24)%Q) by (vm_compute; discriminate).
  assert (SP : (0 < r / w)%Q) by (apply Qlt_shift_div_l; Lqa.lra).
  assert (SM : (r / w <= r)%Q). { apply Qle_shift_div_r; [Lqa.lra|]. apply Qle_trans with (r * 1)%Q; [Lqa.lra|]. rewrite !(Qmult_comm r). apply Qmult_le_compat_r; Lqa.lra. }
  assert (A1 : (Qabs (fq p - fq lo) <= b24)%Q) by (apply Qabs_Qle_condition; Lqa.lra).
  assert (A2 : (Qabs (fq hi - fq lo) <= b24)%Q) by (apply Qabs_Qle_condition; Lqa.lra).
  unfold quantizeCoordF, getQuantizedPosF.
  destruct (sub24 _ _ _ _ IP IL A1) as (v & Iv & _).
  assert (M1 : (fq (SFsub 24 128 p lo) <= fq (SFsub 24 128 hi lo))%Q) by (apply (SFsub_mono 24 128 P24 M24 u24 h24 b24 U24 H24 B24 L24 _ _ (fq p) (fq lo) _ _ (fq hi) (fq lo)); auto; Lqa.lra).
  assert (M0 : (0 <= fq (SFsub 24 128 p lo))%Q).
  { assert (AZ : (Qabs (fq lo - fq lo) <= b24)%Q) by (apply Qabs_Qle_condition; split; Lqa.lra).
    pose proof (SFsub_mono 24 128 P24 M24 u24 h24 b24 U24 H24 B24 L24 _ _ (fq lo) (fq lo) _ _ (fq p) (fq lo) IL IL IP IL AZ A1 ltac:(Lqa.lra)) as M.
    destruct (sub24 _ _ _ _ IL IL AZ) as (v0 & (V0 & F0 & E0) & N0). 
    assert (Z0 : (fq (SFsub 24 128 lo lo) == 0)%Q).
    { destruct (isf_B 24 128 _ _ IL) as (bl & <- & Fb & Vb). rewrite (sub_eq 24 128 P24 M24). apply eqR_Qeq. rewrite Q2R_fq.
      pose proof (Bminus_correct 24 128 P24 M24 mode_NE bl bl Fb Fb) as C. rewrite Rminus_diag_eq in C by reflexivity. rewrite round_0 in C by apply valid_rnd_N. rewrite Rabs_R0, Rlt_bool_true in C by apply bpow_gt_0.
      destruct C as (-> & _ & _). symmetry. apply Q2R_0. }
    rewrite Z0 in M. exact M. }
  destruct Iv as (Vv & Fv & Ev). set (x5 := SFsub 24 128 p lo) in *. clearbody x5. clear v Ev.
  assert (I5 : isf24 x5 (fq x5)) by (split; [|split]; auto; reflexivity).
  assert (I1 : isf24 (SFmul 24 128 step (of_int 24 128 1)) (r / w)%Q).
  { apply (one24 _ _ _ 1%Q IS one_24 (Qeq_refl _)). rewrite Qabs_pos by Lqa.lra. Lqa.lra. }
  assert (D : (fq x5 / (r / w) <= w)%Q).
  { apply Qle_shift_div_r; [exact SP|]. setoid_replace (w * (r / w))%Q with r by (field; Lqa.lra). Lqa.lra. }
  assert (D0 : (0 <= fq x5 / (r / w))%Q) by (apply Qle_shift_div_l; [exact SP|Lqa.lra]).
  assert (W16 : (w <= inject_Z (2 ^ 16))%Q) by (unfold w; rewrite <- Zle_Qle; lia).
  assert (AD : (Qabs (fq x5 / (r / w)) <= b24)%Q) by (rewrite Qabs_pos by exact D0; apply Qle_trans with (1 := D); apply Qle_trans with (1 := W16); vm_compute; discriminate).
  assert (NZ : ~ (r / w == 0)%Q) by (intro Z; rewrite Z in SP; discriminate SP).
  destruct (div24 _ _ _ _ I5 I1 NZ AD) as (v6 & I6 & _).
  destruct (SFdiv_bounds 24 128 P24 M24 u24 h24 b24 U24 H24 B24 L24 _ _ _ _ _ _ _ _ I5 I1 NZ AD (int24 0 ltac:(lia)) (int24 (2 ^ bits) ltac:(lia)) D0 D) as [G0 G1].
  destruct I6 as (V6 & F6 & E6). set (x6 := SFdiv 24 128 x5 _) in *. clearbody x6.
  assert (I6 : isf24 x6 (fq x6)) by (split; [|split]; auto; reflexivity).
  destruct (to_int_floor _ _ I6 G0) as (q & -> & Q1 & Q2).
  { apply Qle_lt_trans with (1 := G1). rewrite <- Zlt_Qlt. apply Z.le_lt_trans with (2 ^ 16)%Z; [lia|reflexivity]. }
  assert (QL : (q <= 2 ^ bits)%Z) by (rewrite Zle_Qle; eapply Qle_trans; eauto). assert (QG : (0 < q + 1)%Z) by (rewrite Zlt_Qlt; eapply Qle_lt_trans; eauto).
  do 2 eexists. split; [reflexivity|]. destruct (Z.eqb_spec q (2 ^ bits)); lia.
Qed.
Print Assumptions float_coordinates_fit.
(** A box far from the origin, its far corner: the quotient is 2^bits and is pulled back. *)
Example float_coordinates_nonvacuous :
  let lo := of_int 24 128 8388608 in let hi := of_int 24 128 8404995 in let range := SFsub 24 128 hi lo in
  (valid_binary 24 128 range = true /\ finite range = true) /\ ((1 # 2 ^ 100) <= fq range)%Q /\ (fq range <= inject_Z (2 ^ 100))%Q /\
  getQuantizedPosF lo (quantStepF 14 range) hi = Some 16384 /\ option_map fst (quantizeCoordF 14 lo (quantStepF 14 range) hi) = Some 16383 /\
  option_map fst (quantizeCoordF 14 lo (quantStepF 14 range) lo) = Some 0.
Proof. vm_compute. repeat split; discriminate. Qed.

(** C13 in the floats of the machine, near the origin: compressing moves a vertex by less than nine
    tenths of a step along each axis.  Missing: boxes farther away, where the spacing of floats
    exceeds a quarter of a step. *)
Theorem float_error_bounded_partial : forall bits lo hi p range, 1 <= bits <= 16 ->
  (valid_binary 24 128 lo = true /\ finite lo = true) -> (valid_binary 24 128 hi = true /\ finite hi = true) ->
  (valid_binary 24 128 p = true /\ finite p = true) -> (valid_binary 24 128 range = true /\ finite range = true) ->
  (fq lo <= fq p)%Q -> (fq p <= fq hi)%Q -> (fq hi - fq lo <= inject_Z (2 ^ 100))%Q ->
  (fq (SFsub 24 128 hi lo) <= fq range)%Q -> ((1 # 2 ^ 100) <= fq range)%Q -> (fq range <= inject_Z (2 ^ 100))%Q ->
  (Qabs (fq lo) <= inject_Z (2 ^ 22 - 2 ^ 16) * (fq range / inject_Z (2 ^ bits)))%Q ->
  exists q x, quantizeCoordF bits lo (quantStepF bits range) p = Some (q, x) /\ (Qabs (fq x - fq p) <= (9 # 10) * fq (quantStepF bits range))%Q.
Proof.
  intros bits lo hi p range Hb [Vl Fl] [Vh Fh] [Vp Fp] [Vr Fr] P1 P2 W R0 R1 R2 HC.
  assert (IL : isf24 lo (fq lo)) by (split; [|split]; auto; reflexivity). assert (IH : isf24 hi (fq hi)) by (split; [|split]; auto; reflexivity).
  assert (IP : isf24 p (fq p)) by (split; [|split]; auto; reflexivity). assert (IR : isf24 range (fq range)) by (split; [|split]; auto; reflexivity).
  pose proof (step_exact bits range (fq range) Hb IR R1 R2) as IS. set (step := quantStepF bits range) in *. clearbody step.
  assert (WZ : (2 <= 2 ^ bits <= 2 ^ 16)%Z) by (split; [change 2%Z with (2 ^ 1)%Z at 1|]; apply Z.pow_le_mono_r; lia).
  set (r := fq range) in *. set (w := inject_Z (2 ^ bits)) in *. assert (RP : (0 < r)%Q) by (eapply Qlt_le_trans; [|exact R1]; reflexivity).
  assert (WP : (2 <= w)%Q) by (unfold w; change 2%Q with (inject_Z 2); rewrite <- Zle_Qle; lia).
  assert (BG : (inject_Z (2 ^ 100) <= b24)%Q) by (vm_compute; discriminate).
  assert (SP : (0 < r / w)%Q) by (apply Qlt_shift_div_l; Lqa.lra).
  assert (SM : (r / w <= r)%Q). { apply Qle_shift_div_r; [Lqa.lra|]. apply Qle_trans with (r * 1)%Q; [Lqa.lra|]. rewrite !(Qmult_comm r). apply Qmult_le_compat_r; Lqa.lra. }
  assert (A1 : (Qabs (fq p - fq lo) <= b24)%Q) by (apply Qabs_Qle_condition; Lqa.lra).
  assert (A2 : (Qabs (fq hi - fq lo) <= b24)%Q) by (apply Qabs_Qle_condition; Lqa.lra).
  unfold quantizeCoordF, getQuantizedPosF.
  destruct (sub24 _ _ _ _ IP IL A1) as (v & Iv & Nv). destruct (sub24 _ _ _ _ IH IL A2) as (vh & (_ & _ & Evh) & Nvh).
  assert (M1 : (fq (SFsub 24 128 p lo) <= fq (SFsub 24 128 hi lo))%Q) by (apply (SFsub_mono 24 128 P24 M24 u24 h24 b24 U24 H24 B24 L24 _ _ (fq p) (fq lo) _ _ (fq hi) (fq lo)); auto; Lqa.lra).
  assert (M0 : (0 <= fq (SFsub 24 128 p lo))%Q).
  { assert (AZ : (Qabs (fq lo - fq lo) <= b24)%Q) by (apply Qabs_Qle_condition; split; Lqa.lra).
    pose proof (SFsub_mono 24 128 P24 M24 u24 h24 b24 U24 H24 B24 L24 _ _ (fq lo) (fq lo) _ _ (fq p) (fq lo) IL IL IP IL AZ A1 ltac:(Lqa.lra)) as M.
    destruct (sub24 _ _ _ _ IL IL AZ) as (v0 & (V0 & F0 & E0) & N0). 
    assert (Z0 : (fq (SFsub 24 128 lo lo) == 0)%Q).
    { destruct (isf_B 24 128 _ _ IL) as (bl & <- & Fb & Vb). rewrite (sub_eq 24 128 P24 M24). apply eqR_Qeq. rewrite Q2R_fq.
      pose proof (Bminus_correct 24 128 P24 M24 mode_NE bl bl Fb Fb) as C. rewrite Rminus_diag_eq in C by reflexivity. rewrite round_0 in C by apply valid_rnd_N. rewrite Rabs_R0, Rlt_bool_true in C by apply bpow_gt_0.
      destruct C as (-> & _ & _). symmetry. apply Q2R_0. }
    rewrite Z0 in M. exact M. }
  destruct Iv as (Vv & Fv & Ev). rewrite Evh in R0. assert (N5 : (Qabs (fq (SFsub 24 128 p lo) - (fq p - fq lo)) <= u24 * Qabs (fq p - fq lo) + h24)%Q) by (rewrite Ev; exact Nv). rewrite Evh in M1. clear Nv. set (x5 := SFsub 24 128 p lo) in *. clearbody x5. clear v Ev.
  assert (I5 : isf24 x5 (fq x5)) by (split; [|split]; auto; reflexivity).
  assert (I1 : isf24 (SFmul 24 128 step (of_int 24 128 1)) (r / w)%Q).
  { apply (one24 _ _ _ 1%Q IS one_24 (Qeq_refl _)). rewrite Qabs_pos by Lqa.lra. Lqa.lra. }
  assert (D : (fq x5 / (r / w) <= w)%Q).
  { apply Qle_shift_div_r; [exact SP|]. setoid_replace (w * (r / w))%Q with r by (field; Lqa.lra). Lqa.lra. }
  assert (D0 : (0 <= fq x5 / (r / w))%Q) by (apply Qle_shift_div_l; [exact SP|Lqa.lra]).
  assert (W16 : (w <= inject_Z (2 ^ 16))%Q) by (unfold w; rewrite <- Zle_Qle; lia).
  assert (AD : (Qabs (fq x5 / (r / w)) <= b24)%Q) by (rewrite Qabs_pos by exact D0; apply Qle_trans with (1 := D); apply Qle_trans with (1 := W16); vm_compute; discriminate).
  assert (NZ : ~ (r / w == 0)%Q) by (intro Z; rewrite Z in SP; discriminate SP).
  destruct (div24 _ _ _ _ I5 I1 NZ AD) as (v6 & I6 & Nv6).
  destruct (SFdiv_bounds 24 128 P24 M24 u24 h24 b24 U24 H24 B24 L24 _ _ _ _ _ _ _ _ I5 I1 NZ AD (int24 0 ltac:(lia)) (int24 (2 ^ bits) ltac:(lia)) D0 D) as [G0 G1].
  destruct I6 as (V6 & F6 & E6). assert (N6 : (Qabs (fq (SFdiv 24 128 x5 (SFmul 24 128 step (of_int 24 128 1))) - fq x5 / (r / w)) <= u24 * Qabs (fq x5 / (r / w)) + h24)%Q) by (rewrite E6; exact Nv6). clear Nv6. set (x6 := SFdiv 24 128 x5 _) in *. clearbody x6.
  assert (I6 : isf24 x6 (fq x6)) by (split; [|split]; auto; reflexivity).
  destruct (to_int_floor _ _ I6 G0) as (q & -> & Q1 & Q2).
  { apply Qle_lt_trans with (1 := G1). rewrite <- Zlt_Qlt. apply Z.le_lt_trans with (2 ^ 16)%Z; [lia|reflexivity]. }
  assert (QL : (q <= 2 ^ bits)%Z) by (rewrite Zle_Qle; eapply Qle_trans; eauto). assert (QG : (0 < q + 1)%Z) by (rewrite Zlt_Qlt; eapply Qle_lt_trans; eauto).
  set (q' := if q =? 2 ^ bits then 2 ^ bits - 1 else q).
  assert (Q3 : 0 <= q' < 2 ^ bits) by (unfold q'; destruct (Z.eqb_spec q (2 ^ bits)); lia).
  assert (X1 : (inject_Z q' <= fq x6)%Q) by (apply Qle_trans with (inject_Z q); [rewrite <- Zle_Qle; unfold q'; destruct (Z.eqb_spec q (2 ^ bits)); lia|exact Q1]).
  assert (X2 : (fq x6 <= inject_Z q' + 1)%Q).
  { change 1%Q with (inject_Z 1). rewrite <- inject_Z_plus. unfold q'. destruct (Z.eqb_spec q (2 ^ bits)) as [Eq|_]; [|apply Qlt_le_weak; exact Q2]. replace (2 ^ bits - 1 + 1) with (2 ^ bits) by lia. exact G1. }
  set (s := (r / w)%Q) in *. assert (Er : (r == w * s)%Q) by (unfold s; field; Lqa.lra).
  assert (S1 : ((1 # 2 ^ 120) <= s)%Q) by (unfold s; apply Qle_shift_div_l; [Lqa.lra|]; apply Qle_trans with ((1 # 2 ^ 120) * inject_Z (2 ^ 16))%Q; [rewrite !(Qmult_comm (1 # 2 ^ 120)); apply Qmult_le_compat_r; [exact W16|vm_compute; discriminate]|apply Qle_trans with (2 := R1); vm_compute; discriminate]).
  assert (LH : (h24 <= (1 # 2 ^ 20) * s)%Q) by (apply Qle_trans with ((1 # 2 ^ 20) * (1 # 2 ^ 120))%Q; [vm_compute; discriminate|]; rewrite !(Qmult_comm (1 # 2 ^ 20)); apply Qmult_le_compat_r; [exact S1|vm_compute; discriminate]).
  destruct (pos_val lo step (fq lo) s q' IL IS S1 ltac:(Lqa.lra) ltac:(lia) HC) as (v & (Vv' & Fv' & Ev') & Y1 & Y2).
  exists q', (getPosF lo step q'). split; [reflexivity|].
  destruct IS as (_ & _ & Es). rewrite Ev', Es. set (l := fq lo) in *. set (pp := fq p) in *. set (hh := fq hi) in *.
  set (X := ((v - l) / s)%Q) in *. set (T := ((pp - l) / s)%Q). set (V5 := (fq x5 / s)%Q) in *.
  assert (EX : (v - l == X * s)%Q) by (unfold X; field; Lqa.lra). assert (ET : (pp - l == T * s)%Q) by (unfold T; field; Lqa.lra). assert (E5 : (fq x5 == V5 * s)%Q) by (unfold V5; field; Lqa.lra).
  assert (HH : (hh - l <= 2 * r)%Q).
  { unfold near in Nvh. rewrite (Qabs_pos (hh - l)) in Nvh by Lqa.lra. apply Qabs_Qle_condition in Nvh. destruct Nvh as [Nvh _]. change u24 with (1 # 16777216)%Q in Nvh.
    assert (2 * h24 <= r)%Q by (apply Qle_trans with (2 := R1); vm_compute; discriminate). Lqa.lra. }
  assert (K5 : (Qabs (fq x5 - (pp - l)) <= (9 # 1000) * s)%Q).
  { apply Qle_trans with (1 := N5). rewrite (Qabs_pos (pp - l)) by Lqa.lra. change u24 with (1 # 16777216)%Q. change (1 # 2 ^ 20)%Q with (1 # 1048576)%Q in LH.
    assert (R3 : (r <= 65536 * s)%Q) by (rewrite Er; apply Qmult_le_compat_r; [exact W16|Lqa.lra]). Lqa.lra. }
  assert (K6 : (Qabs (fq x6 - V5) <= 1 # 100)%Q).
  { apply Qle_trans with (1 := N6). rewrite (Qabs_pos V5) by exact D0. change u24 with (1 # 16777216)%Q. change (inject_Z (2 ^ 16)) with 65536%Q in W16. assert (h24 <= 1 # 1000000)%Q by (vm_compute; discriminate). Lqa.lra. }
  apply Qabs_Qle_condition in K6. apply Qabs_Qle_condition in K5.
  assert (K5' : (- (9 # 1000) <= V5 - T /\ V5 - T <= 9 # 1000)%Q) by (split; apply Qmult_le_r with s; try exact SP; Lqa.lra).
  assert (EV : (v - pp == (X - T) * s)%Q) by Lqa.lra. rewrite EV, Qabs_Qmult, (Qabs_pos s) by Lqa.lra. apply Qmult_le_compat_r; [|Lqa.lra]. apply Qabs_Qle_condition. Lqa.lra.
Qed.
Print Assumptions float_error_bounded_partial.
Example float_error_nonvacuous :
  let lo := of_int 24 128 (-500) in let hi := of_int 24 128 500 in let range := SFsub 24 128 hi lo in let p := S754_finite false 16112345 (-17) in
  (fq lo <= fq p)%Q /\ (fq p <= fq hi)%Q /\ (Qabs (fq lo) <= inject_Z (2 ^ 22 - 2 ^ 16) * (fq range / inject_Z (2 ^ 12)))%Q /\
  match quantizeCoordF 12 lo (quantStepF 12 range) p with
  | Some (q, x) => q = 2551 /\ x = S754_finite false 16112000 (-17) /\ (fq x - fq p == - (345 # 131072))%Q /\ (fq (quantStepF 12 range) == 1000 # 4096)%Q
  | None => False end.
Proof. vm_compute. repeat split; discriminate. Qed.

(** The conversion to int cuts off the fraction: the value of a finite float lies between the result and the
    next number away from zero.  There is a result exactly below 2^31. *)
Theorem to_int_truncates : forall s m e,
  match to_int (S754_finite s m e) with
  | Some z => exists n, z = (if s then - n else n)%Z /\ (inject_Z n <= inject_Z (Zpos m) * Qpower 2 e < inject_Z (n + 1))%Q /\ (0 <= n < 2 ^ 31)%Z
  | None => (inject_Z (2 ^ 31) <= inject_Z (Zpos m) * Qpower 2 e)%Q
  end.
Proof.
  intros s m e. unfold to_int. set (n := if (0 <=? e)%Z then (Zpos m * 2 ^ e)%Z else (Zpos m / 2 ^ (- e))%Z).
  assert (B : (inject_Z n <= inject_Z (Zpos m) * Qpower 2 e < inject_Z (n + 1))%Q /\ (0 <= n)%Z).
  { unfold n. destruct (Z.leb_spec 0 e) as [H|H].
    - assert (E : (inject_Z (Zpos m * 2 ^ e) == inject_Z (Zpos m) * Qpower 2 e)%Q) by (rewrite inject_Z_mult, Zpower_Qpower by exact H; reflexivity).
      split; [split|].
      + rewrite E. apply Qle_refl.
      + rewrite <- E, <- Zlt_Qlt. lia.
      + apply Z.mul_nonneg_nonneg; [lia|apply Z.pow_nonneg; lia].
    - assert (P : (0 < 2 ^ (- e))%Z) by (apply Z.pow_pos_nonneg; lia).
      assert (E : (inject_Z (Zpos m) * Qpower 2 e == inject_Z (Zpos m) / inject_Z (2 ^ (- e)))%Q).
      { rewrite (Zpower_Qpower 2 (- e)) by lia. unfold Qdiv. rewrite <- Qpower_opp. replace (- - e)%Z with e by lia. reflexivity. }
      pose proof (Z.div_mod (Zpos m) (2 ^ (- e)) ltac:(lia)) as D. pose proof (Z.mod_pos_bound (Zpos m) (2 ^ (- e)) P) as M.
      split; [split|].
      + rewrite E. apply Qle_shift_div_l; [change 0%Q with (inject_Z 0); rewrite <- Zlt_Qlt; exact P|]. rewrite <- inject_Z_mult, <- Zle_Qle. lia.
      + rewrite E. apply Qlt_shift_div_r; [change 0%Q with (inject_Z 0); rewrite <- Zlt_Qlt; exact P|]. rewrite <- inject_Z_mult, <- Zlt_Qlt. lia.
      + apply Z.div_pos; lia. }
  destruct B as [B N]. destruct (Z.ltb_spec n (2 ^ 31)) as [H|H].
  - exists n. split; [reflexivity|]. split; [exact B|]. lia.
  - eapply Qle_trans; [|apply B]. rewrite <- Zle_Qle. exact H.
Qed.
Print Assumptions to_int_truncates.
Example to_int_truncates_nonvacuous : to_int (S754_finite true 15 (-2)) = Some (-3)%Z /\ to_int (S754_finite false 15 2) = Some 60%Z /\ to_int (S754_finite false 1 31) = None.
Proof. repeat split. Qed.
