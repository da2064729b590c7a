(** Rounding to 24 bits: monotone, odd, compatible with powers of two, relative error. *)
From Coq Require Import QArith Qabs Qround Qpower ZArith List Bool Lia Lqa.
From Verif Require Import AabModel AabProofs OctreeModel TextModel TextProofs FloatBoxModel.
Import ListNotations.
Open Scope Q_scope.

Notation two e := (2 ^ e).
Lemma two_pos e : 0 < two e.
Proof. apply Qpower_0_lt. reflexivity. Qed.
Lemma two_plus a b : two (a + b) == two a * two b.
Proof. apply Qpower_plus. intro H. discriminate H. Qed.
Lemma two_le a b : (a <= b)%Z -> two a <= two b.
Proof. intro H. apply Qpower_le_compat_l; [exact H|discriminate]. Qed.
Lemma two_Z e : (0 <= e)%Z -> two e == inject_Z (2 ^ e).
Proof. intro H. rewrite Zpower_Qpower by exact H. reflexivity. Qed.
Lemma two_inv e : two e * two (- e) == 1.
Proof. rewrite <- two_plus. replace (e + - e)%Z with 0%Z by lia. reflexivity. Qed.

(** * The exponent *)
Lemma bexp_spec x : ~ x == 0 -> two (bexp x) <= Qabs x /\ Qabs x < two (bexp x + 1).
Proof.
  intro N. unfold bexp. destruct x as [n d]. cbn [Qabs Qnum Qden]. 
  assert (Hn : (0 < Z.abs n)%Z). { unfold Qeq in N. cbn in N. lia. }
  set (a := Z.log2 (Z.abs n)). set (b := Z.log2 (Zpos d)).
  destruct (Z.log2_spec (Z.abs n) Hn) as [A1 A2]. destruct (Z.log2_spec (Zpos d) ltac:(lia)) as [B1 B2]. fold a in A1, A2. fold b in B1, B2.
  assert (a0 : (0 <= a)%Z) by apply Z.log2_nonneg. assert (b0 : (0 <= b)%Z) by apply Z.log2_nonneg.
  rewrite <- Z.add_1_r in A2, B2.
  assert (E : forall y, (0 <= b + y)%Z -> two y * inject_Z (2 ^ b) == inject_Z (2 ^ (b + y))).
  { intros y Hy. rewrite <- !two_Z by lia. rewrite <- two_plus. rewrite Z.add_comm. reflexivity. }
  assert (D : (Z.abs n # d) * inject_Z (Zpos d) == inject_Z (Z.abs n)) by (unfold Qeq, inject_Z; cbn; lia).
  assert (L1 : inject_Z (2 ^ a) <= inject_Z (Z.abs n)) by (rewrite <- Zle_Qle; exact A1).
  assert (L2 : inject_Z (Z.abs n) < inject_Z (2 ^ (a + 1))) by (rewrite <- Zlt_Qlt; exact A2).
  assert (L3 : inject_Z (2 ^ b) <= inject_Z (Zpos d)) by (rewrite <- Zle_Qle; exact B1).
  assert (L4 : inject_Z (Zpos d) < inject_Z (2 ^ (b + 1))) by (rewrite <- Zlt_Qlt; exact B2).
  rewrite <- !two_Z in * by lia. set (v := Z.abs n # d) in *. assert (v0 : 0 < v) by (unfold v, Qlt; cbn; lia).
  assert (P0 : 0 < inject_Z (Zpos d)) by (change 0 with (inject_Z 0); rewrite <- Zlt_Qlt; lia).
  assert (Pa := two_pos a). assert (Pb := two_pos b).
  assert (Eab : two a == two (a - b) * two b) by (rewrite <- two_plus; replace (a - b + b)%Z with a by lia; reflexivity).
  assert (Ea1 : two (a + 1) == two (a - b + 1) * two b) by (rewrite <- two_plus; replace (a - b + 1 + b)%Z with (a + 1)%Z by lia; reflexivity).
  assert (Eb1 : two a == two (a - b - 1) * two (b + 1)) by (rewrite <- two_plus; replace (a - b - 1 + (b + 1))%Z with a by lia; reflexivity).
  assert (Pc := two_pos (a - b - 1)). assert (Pd := two_pos (a - b + 1)).
  destruct (Qle_bool (two (a - b)) v) eqn:C.
  - apply Qle_bool_iff in C. split; [exact C|]. apply Qmult_lt_r with (two b); [exact Pb|].
    eapply Qle_lt_trans; [|rewrite <- Ea1; exact L2]. rewrite <- D. rewrite !(Qmult_comm v). apply Qmult_le_compat_r; lra.
  - assert (C' : v < two (a - b)) by (apply Qnot_le_lt; intro X; apply Qle_bool_iff in X; rewrite X in C; discriminate C).
    replace (a - b - 1 + 1)%Z with (a - b)%Z by lia. split; [|exact C'].
    apply Qlt_le_weak. apply Qmult_lt_r with (two (b + 1)); [apply two_pos|]. rewrite <- Eb1.
    eapply Qle_lt_trans; [exact L1|]. rewrite <- D. rewrite !(Qmult_comm v). apply Qmult_lt_r; [exact v0|exact L4].
Qed.
Lemma two_lt_inv a b : two a < two b -> (a < b)%Z.
Proof. intro H. destruct (Z_lt_le_dec a b) as [L|L]; [exact L|exfalso]. apply two_le in L. lra. Qed.
Lemma bexp_unique x e : two e <= Qabs x -> Qabs x < two (e + 1) -> bexp x = e.
Proof.
  intros H1 H2. assert (N : ~ x == 0). { intro E. rewrite E in H1. change (Qabs 0) with 0 in H1. assert (P := two_pos e). lra. }
  destruct (bexp_spec x N) as [A B]. assert (L1 : (bexp x < e + 1)%Z) by (apply two_lt_inv; lra). assert (L2 : (e < bexp x + 1)%Z) by (apply two_lt_inv; lra). lia.
Qed.
Lemma bexp_le x y : ~ x == 0 -> Qabs x <= Qabs y -> (bexp x <= bexp y)%Z.
Proof.
  intros N L. assert (Ny : ~ y == 0). { intro E. rewrite E in L. change (Qabs 0) with 0 in L. destruct (bexp_spec x N) as [A _]. assert (P := two_pos (bexp x)). lra. }
  destruct (bexp_spec x N) as [A _]. destruct (bexp_spec y Ny) as [_ B]. assert ((bexp x < bexp y + 1)%Z) by (apply two_lt_inv; lra). lia.
Qed.

(** * Rounding to integers *)
Lemma round_even_comp q q' : q == q' -> round_even q = round_even q'.
Proof.
  intro E. unfold round_even. rewrite (Qfloor_comp _ _ E). replace (Qcompare (q - inject_Z (Qfloor q')) (1 # 2)) with (Qcompare (q' - inject_Z (Qfloor q')) (1 # 2)); [reflexivity|].
  rewrite E. reflexivity.
Qed.
Lemma round_even_mono q q' : q <= q' -> (round_even q <= round_even q')%Z.
Proof.
  intro L. assert (F := Qfloor_resp_le _ _ L). destruct (Z.eq_dec (Qfloor q) (Qfloor q')) as [E|N].
  - unfold round_even. rewrite E. set (f := Qfloor q'). 
    destruct (Qcompare_spec (q - inject_Z f) (1 # 2)), (Qcompare_spec (q' - inject_Z f) (1 # 2)); try destruct (Z.even f); try lia; exfalso; lra.
  - assert (A : (round_even q <= Qfloor q + 1)%Z) by (unfold round_even; destruct (Qcompare _ _); try destruct (Z.even _); lia).
    assert (B : (Qfloor q' <= round_even q')%Z) by (unfold round_even; destruct (Qcompare _ _); try destruct (Z.even _); lia). lia.
Qed.
Lemma round_even_Z z : round_even (inject_Z z) = z.
Proof. unfold round_even. rewrite Qfloor_Z. destruct (Qcompare_spec (inject_Z z - inject_Z z) (1 # 2)); [exfalso; lra|reflexivity|exfalso; lra]. Qed.
Lemma floor_is q z : inject_Z z <= q -> q < inject_Z (z + 1) -> Qfloor q = z.
Proof.
  intros A B. assert (C := Qfloor_le q). assert (D := Qlt_floor q).
  assert (X : (z < Qfloor q + 1)%Z) by (rewrite Zlt_Qlt; lra). assert (Y : (Qfloor q < z + 1)%Z) by (rewrite Zlt_Qlt; lra). lia.
Qed.
Lemma round_even_opp q : round_even (- q) = (- round_even q)%Z.
Proof.
  set (f := Qfloor q). assert (C := Qfloor_le q). assert (D := Qlt_floor q). fold f in C, D. rewrite inject_Z_plus in D. change (inject_Z 1) with 1 in D.
  destruct (Qlt_le_dec (inject_Z f) q) as [S|S].
  - assert (E : Qfloor (- q) = (- f - 1)%Z).
    { apply floor_is; unfold Z.sub; rewrite ?inject_Z_plus, ?inject_Z_opp; change (inject_Z 1) with 1; change (inject_Z (-1)) with (-(1)); lra. }
    unfold round_even. rewrite E. fold f. unfold Z.sub. rewrite inject_Z_plus, inject_Z_opp. change (inject_Z (-(1))) with (-(1)).
    assert (Ev : Z.even (- f + -1) = negb (Z.even f)). { rewrite Z.even_add, Z.even_opp. change (Z.even (-1)) with false. destruct (Z.even f); reflexivity. }
    destruct (Qcompare_spec (- q - (- inject_Z f + -(1))) (1 # 2)), (Qcompare_spec (q - inject_Z f) (1 # 2)); try (exfalso; lra); try lia.
    change (- f + - (1))%Z with (- f + -1)%Z. rewrite Ev. destruct (Z.even f); cbn [negb]; lia.
  - assert (E : q == inject_Z f) by lra. rewrite (round_even_comp (- q) (inject_Z (- f))) by (rewrite E, inject_Z_opp; reflexivity).
    rewrite (round_even_comp _ _ E), !round_even_Z. reflexivity.
Qed.

(** * Rounding *)
Lemma fl_nz x : ~ x == 0 -> fl x = inject_Z (round_even (x * two (23 - bexp x))) * two (bexp x - 23).
Proof. intro N. unfold fl. destruct (Qeq_bool x 0) eqn:E; [exfalso; apply N, Qeq_bool_iff, E|reflexivity]. Qed.
Lemma fl_0 x : x == 0 -> fl x = 0.
Proof. intro E. unfold fl. apply Qeq_bool_iff in E. rewrite E. reflexivity. Qed.
Lemma bexp_comp x y : x == y -> ~ x == 0 -> bexp x = bexp y.
Proof.
  intros E N. destruct (bexp_spec x N) as [A B]. symmetry. apply bexp_unique; rewrite <- E; assumption.
Qed.
Lemma fl_comp x y : x == y -> fl x == fl y.
Proof.
  intro E. destruct (Qeq_dec x 0) as [Z|N].
  - rewrite (fl_0 x Z), (fl_0 y); [reflexivity|rewrite <- E; exact Z].
  - rewrite (fl_nz x N), (fl_nz y) by (rewrite <- E; exact N). rewrite <- (bexp_comp x y E N).
    rewrite (round_even_comp (y * two (23 - bexp x)) (x * two (23 - bexp x))) by (apply Qmult_comp; [symmetry; exact E|reflexivity]). reflexivity.
Qed.
Add Morphism fl with signature Qeq ==> Qeq as fl_morph.
Proof. exact fl_comp. Qed.
Lemma fl_opp x : fl (- x) == - fl x.
Proof.
  destruct (Qeq_dec x 0) as [Z|N].
  - rewrite (fl_0 x Z), (fl_0 (- x)); [reflexivity|rewrite Z; reflexivity].
  - assert (N' : ~ - x == 0) by (intro E; apply N; lra).
    assert (B : bexp (- x) = bexp x) by (destruct (bexp_spec x N) as [A B]; apply bexp_unique; rewrite Qabs_opp; assumption).
    rewrite (fl_nz x N), (fl_nz _ N'), B. rewrite (round_even_comp (- x * two (23 - bexp x)) (- (x * two (23 - bexp x)))) by ring.
    rewrite round_even_opp, inject_Z_opp. ring.
Qed.
(** The significand of a positive number lies between 2^23 and 2^24. *)
Lemma signif x : 0 < x -> inject_Z (2 ^ 23) <= x * two (23 - bexp x) /\ x * two (23 - bexp x) < inject_Z (2 ^ 24).
Proof.
  intro P. destruct (bexp_spec x) as [A B]; [intro E; lra|]. rewrite Qabs_pos in A, B by lra. set (e := bexp x) in *.
  assert (E1 : inject_Z (2 ^ 23) == two e * two (23 - e)) by (rewrite <- two_plus; replace (e + (23 - e))%Z with 23%Z by lia; reflexivity).
  assert (E2 : inject_Z (2 ^ 24) == two (e + 1) * two (23 - e)) by (rewrite <- two_plus; replace (e + 1 + (23 - e))%Z with 24%Z by lia; reflexivity).
  rewrite E1, E2. assert (Q := two_pos (23 - e)). split; [apply Qmult_le_compat_r; lra|apply Qmult_lt_r; lra].
Qed.
Lemma fl_bounds x : 0 < x -> two (bexp x) <= fl x /\ fl x <= two (bexp x + 1).
Proof.
  intro P. destruct (signif x P) as [A B]. rewrite fl_nz by (intro E; lra). set (e := bexp x) in *. set (s := x * two (23 - e)) in *.
  assert (R1 := round_even_ge _ _ A). assert (R2 := round_even_le s (2 ^ 24) ltac:(lra)).
  assert (E1 : two e == inject_Z (2 ^ 23) * two (e - 23)) by (change (inject_Z (2 ^ 23)) with (two 23); rewrite <- two_plus; replace (23 + (e - 23))%Z with e by lia; reflexivity).
  assert (E2 : two (e + 1) == inject_Z (2 ^ 24) * two (e - 23)) by (change (inject_Z (2 ^ 24)) with (two 24); rewrite <- two_plus; replace (24 + (e - 23))%Z with (e + 1)%Z by lia; reflexivity).
  rewrite E1, E2. assert (Q := two_pos (e - 23)). split; apply Qmult_le_compat_r; try lra; rewrite <- Zle_Qle; assumption.
Qed.
Lemma fl_pos x : 0 < x -> 0 < fl x.
Proof. intro P. destruct (fl_bounds x P) as [A _]. assert (Q := two_pos (bexp x)). lra. Qed.
Lemma fl_nonneg x : 0 <= x -> 0 <= fl x.
Proof. intro P. destruct (Qeq_dec x 0) as [E|N]; [rewrite (fl_0 x E); lra|]. apply Qlt_le_weak, fl_pos. lra. Qed.
Lemma fl_mono_pos x y : 0 < x -> x <= y -> fl x <= fl y.
Proof.
  intros P L. assert (Py : 0 < y) by lra. assert (E : (bexp x <= bexp y)%Z) by (apply bexp_le; [intro E; lra|rewrite !Qabs_pos by lra; exact L]).
  destruct (Z.eq_dec (bexp x) (bexp y)) as [S|D].
  - rewrite (fl_nz x) by (intro Z; lra). rewrite (fl_nz y) by (intro Z; lra). rewrite S. apply Qmult_le_compat_r; [|apply Qlt_le_weak, two_pos].
    rewrite <- Zle_Qle. apply round_even_mono. apply Qmult_le_compat_r; [exact L|apply Qlt_le_weak, two_pos].
  - destruct (fl_bounds x P) as [_ A]. destruct (fl_bounds y Py) as [B _]. assert (T := two_le (bexp x + 1) (bexp y) ltac:(lia)). lra.
Qed.
Theorem fl_mono x y : x <= y -> fl x <= fl y.
Proof.
  intro L. destruct (Qlt_le_dec 0 x) as [P|P]; [apply fl_mono_pos; assumption|].
  destruct (Qlt_le_dec y 0) as [M|M].
  - assert (A := fl_mono_pos (- y) (- x) ltac:(lra) ltac:(lra)). rewrite !fl_opp in A. lra.
  - assert (A := fl_nonneg y M). assert (B := fl_nonneg (- x) ltac:(lra)). rewrite fl_opp in B. lra.
Qed.
(** Relative error 2^-24. *)
Theorem fl_error x : Qabs (fl x - x) <= (1 # 16777216) * Qabs x.
Proof.
  destruct (Qeq_dec x 0) as [Z|N]; [rewrite (fl_0 x Z), Z; discriminate|].
  destruct (bexp_spec x N) as [A _]. rewrite (fl_nz x N). set (e := bexp x) in *. set (s := x * two (23 - e)).
  assert (I : two (23 - e) * two (e - 23) == 1) by (rewrite <- two_plus; replace (23 - e + (e - 23))%Z with 0%Z by lia; reflexivity).
  assert (Ex : x == s * two (e - 23)) by (unfold s; rewrite <- Qmult_assoc, I; ring).
  assert (E : inject_Z (round_even s) * two (e - 23) - x == (inject_Z (round_even s) - s) * two (e - 23)) by (rewrite Ex at 1; ring).
  rewrite E, Qabs_Qmult. assert (P := two_pos (e - 23)). rewrite (Qabs_pos (two (e - 23))) by lra.
  eapply Qle_trans; [apply Qmult_le_compat_r; [apply round_even_half|lra]|].
  assert (T : two e == 8388608 * two (e - 23)) by (change 8388608 with (two 23); rewrite <- two_plus; replace (23 + (e - 23))%Z with e by lia; reflexivity). lra.
Qed.
(** Powers of two pass through. *)
Lemma fl_scale x k : fl (x * two k) == fl x * two k.
Proof.
  assert (Pk := two_pos k). destruct (Qeq_dec x 0) as [Z|N]; [rewrite (fl_0 x Z), (fl_0 (x * two k)); [ring|rewrite Z; ring]|].
  assert (N' : ~ x * two k == 0). { intro E. apply N. apply Qmult_integral in E. destruct E as [E|E]; [exact E|lra]. }
  assert (B : bexp (x * two k) = (bexp x + k)%Z).
  { destruct (bexp_spec x N) as [A B]. apply bexp_unique; rewrite Qabs_Qmult, (Qabs_pos (two k)) by lra.
    - rewrite two_plus. apply Qmult_le_compat_r; lra.
    - replace (bexp x + k + 1)%Z with (bexp x + 1 + k)%Z by lia. rewrite two_plus. apply Qmult_lt_r; lra. }
  rewrite (fl_nz x N), (fl_nz _ N'), B. rewrite (round_even_comp (x * two k * two (23 - (bexp x + k))) (x * two (23 - bexp x))).
  - replace (bexp x + k - 23)%Z with (bexp x - 23 + k)%Z by lia. rewrite two_plus. ring.
  - replace (23 - bexp x)%Z with (k + (23 - (bexp x + k)))%Z by lia. rewrite two_plus. ring.
Qed.
(** A rounded number is a float. *)
Lemma fl_idem x : fl (fl x) == fl x.
Proof.
  assert (Pos : forall x, 0 < x -> fl (fl x) == fl x).
  { clear x. intros x P. destruct (fl_bounds x P) as [A B]. assert (Q := fl_pos x P).
    destruct (Qlt_le_dec (fl x) (two (bexp x + 1))) as [L|L].
    - assert (E : bexp (fl x) = bexp x) by (apply bexp_unique; rewrite Qabs_pos by lra; assumption).
      rewrite (fl_nz (fl x)) by (intro Z; lra). rewrite E. rewrite (fl_nz x) by (intro Z; lra).
      set (m := round_even (x * two (23 - bexp x))). rewrite (round_even_comp _ (inject_Z m)).
      + rewrite round_even_Z. reflexivity.
      + rewrite <- Qmult_assoc, <- two_plus. replace (bexp x - 23 + (23 - bexp x))%Z with 0%Z by lia. change (two 0) with 1. ring.
    - assert (E : fl x == 1 * two (bexp x + 1)) by lra. rewrite E, fl_scale. assert (F1 : fl 1 == 1) by (vm_compute; reflexivity). rewrite F1. reflexivity. }
  destruct (Qlt_le_dec 0 x) as [P|P]; [apply Pos, P|]. destruct (Qeq_dec x 0) as [Z|N]; [rewrite (fl_0 x Z); reflexivity|].
  assert (H := Pos (- x) ltac:(lra)). rewrite !fl_opp in H. lra.
Qed.
Lemma fl_near x : 0 <= x -> (1 - (1 # 16777216)) * x <= fl x /\ fl x <= (1 + (1 # 16777216)) * x.
Proof. intro P. assert (E := fl_error x). rewrite (Qabs_pos x P) in E. apply Qabs_Qle_condition in E. lra. Qed.
