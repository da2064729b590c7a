(** Proofs about the triangle intersection test. *)
From Coq Require Import QArith List Bool Arith Lia Lqa Setoid.
From Verif Require Import AabModel AabProofs SegDistModel SegDistProofs TriIntModel.
Import ListNotations.
Open Scope Q_scope.

(** A triangle as a set of points: corner [C], edges [P1] and [P2]. *)
Definition tri_point (C P1 P2 : vec) (a b : Q) : vec := fun i => C i + a * P1 i + b * P2 i.
Definition bary (a b : Q) : Prop := 0 <= a /\ 0 <= b /\ a + b <= 1.
Definition in_tri (C P1 P2 X : vec) : Prop := exists a b, bary a b /\ forall i, X i == tri_point C P1 P2 a b i.
Definition share (C P1 P2 D Q1 Q2 : vec) : Prop := exists X, in_tri C P1 P2 X /\ in_tri D Q1 Q2 X.

(** * Division *)
Lemma Qmult_pos x y : 0 < x -> 0 < y -> 0 < x * y.
Proof. intros. apply Qmult_lt_0_compat; assumption. Qed.
Lemma div_pos_unit x d : 0 < d -> (unit (x / d) <-> 0 <= x <= d).
Proof.
  intros Hd. assert (E : d * (x / d) == x) by (field; lra). unfold unit. split.
  - intros [H1 H2]. split.
    + rewrite <- E. apply Qmult_le_0_compat; lra.
    + assert (0 <= d * (1 - x / d)) by (apply Qmult_le_0_compat; lra). lra.
  - intros [H1 H2]. split; apply (cancel_le d _ _ Hd); rewrite E; lra.
Qed.
Lemma div_opp x d : ~ d == 0 -> x / d == (- x) / (- d).
Proof. intros H. field; repeat split; lra. Qed.
Lemma unit_comp x y : x == y -> unit x -> unit y.
Proof. unfold unit; intros; lra. Qed.
Lemma div_neg_unit x d : d < 0 -> (unit (x / d) <-> d <= x <= 0).
Proof.
  intros Hd. assert (E : x / d == (- x) / (- d)) by (apply div_opp; lra).
  pose proof (div_pos_unit (- x) (- d) ltac:(lra)) as H. split.
  - intros U. apply (unit_comp _ _ E) in U. apply H in U. lra.
  - intros U. symmetry in E. apply (unit_comp _ _ E). apply H. lra.
Qed.

(** * Which edges a line crosses
    A linear function has value [- rho] at the corner and grows by [d1], [d2] along the edges. *)
Definition leg (rho d : Q) : Prop := ~ d == 0 /\ unit (rho / d).
Lemma legal_iff rho d : legal (rho * d) d = true <-> leg rho d.
Proof.
  unfold legal, leg. destruct (Qeq_bool d 0) eqn:E.
  { apply Qeq_bool_iff in E. rewrite andb_false_r. split; [discriminate|intros [H _]; contradiction]. }
  apply Qeq_bool_neq in E. rewrite andb_true_r, andb_true_iff, !Qle_bool_iff.
  assert (K : d * d * (rho / d) == rho * d) by (field; exact E).
  assert (P : 0 < d * d). { pose proof (sq_nonneg d). destruct (Qlt_le_dec 0 (d * d)) as [L|L]; [exact L|].
    assert (Z : d * d == 0) by lra. destruct (Qmult_integral _ _ Z); contradiction. }
  unfold unit. split.
  - intros [H1 H2]. split; [exact E|]. split; apply (cancel_le (d * d) _ _ P); rewrite K; lra.
  - intros [_ [H1 H2]]. rewrite <- K. split; [apply Qmult_le_0_compat; lra|].
    assert (0 <= d * d * (1 - rho / d)) by (apply Qmult_le_0_compat; lra). lra.
Qed.
Lemma legal_false rho d : legal (rho * d) d = false <-> ~ leg rho d.
Proof. rewrite <- legal_iff. destruct (legal _ _); split; congruence. Qed.
Lemma legal_comp x y d e : x == y -> d == e -> legal x d = legal y e.
Proof.
  intros H K. unfold legal.
  assert (A : Qle_bool 0 x = Qle_bool 0 y) by (destruct (Qleb_spec 0 x), (Qleb_spec 0 y); reflexivity || lra).
  assert (B : Qle_bool x (d * d) = Qle_bool y (e * e)).
  { assert (d * d == e * e) by (rewrite K; reflexivity). destruct (Qleb_spec x (d * d)), (Qleb_spec y (e * e)); reflexivity || lra. }
  assert (C : Qeq_bool d 0 = Qeq_bool e 0).
  { destruct (Qeq_bool d 0) eqn:X, (Qeq_bool e 0) eqn:Y; try reflexivity;
      [apply Qeq_bool_iff in X; apply Qeq_bool_neq in Y|apply Qeq_bool_neq in X; apply Qeq_bool_iff in Y]; lra. }
  rewrite A, B, C. reflexivity.
Qed.

Definition third (rho d1 d2 : Q) : Q := (rho - d1) / (d2 - d1).

Lemma leg_pos rho d : 0 < d -> (leg rho d <-> 0 <= rho <= d).
Proof. intros H. unfold leg. rewrite (div_pos_unit _ _ H). split; [tauto|intros; split; [lra|assumption]]. Qed.
Lemma leg_neg rho d : d < 0 -> (leg rho d <-> d <= rho <= 0).
Proof. intros H. unfold leg. rewrite (div_neg_unit _ _ H). split; [tauto|intros; split; [lra|assumption]]. Qed.
Lemma leg_opp rho d : leg rho d <-> leg (- rho) (- d).
Proof.
  destruct (Qlt_le_dec 0 d) as [L|L]; [rewrite (leg_pos _ _ L), leg_neg by lra; split; lra|].
  destruct (Qlt_le_dec d 0) as [M|M]; [rewrite (leg_neg _ _ M), leg_pos by lra; split; lra|].
  assert (E : d == 0) by lra. unfold leg. split; intros [H _]; lra.
Qed.

(** Order of the values when the first edge is crossed and the second is not. *)
Lemma order rho d1 d2 : 0 < d1 -> leg rho d1 -> ~ leg rho d2 ->
  0 <= rho <= d1 /\ d2 < d1 /\ (d2 < rho \/ d2 == 0).
Proof.
  intros P1 L1 N2. apply (leg_pos _ _ P1) in L1. split; [exact L1|].
  destruct (Qlt_le_dec 0 d2) as [L|L]; [rewrite (leg_pos _ _ L) in N2|].
  - destruct (Qlt_le_dec d2 rho); [lra|]. destruct N2; lra.
  - destruct (Qlt_le_dec d2 0) as [M|M]; [|lra]. lra.
Qed.

Lemma third_unit rho d1 d2 : leg rho d1 -> ~ leg rho d2 -> ~ d2 - d1 == 0 /\ unit (third rho d1 d2).
Proof.
  intros L1 N2. destruct (Qlt_le_dec 0 d1) as [P|P].
  - destruct (order _ _ _ P L1 N2) as (H1 & H2 & H3). split; [lra|]. apply div_neg_unit; lra.
  - assert (P' : 0 < - d1) by (destruct L1 as [Z _]; destruct (Qlt_le_dec d1 0); [lra|]; destruct Z; lra).
    rewrite leg_opp in L1, N2. destruct (order _ _ _ P' L1 N2) as (H1 & H2 & H3). split; [lra|]. apply div_pos_unit; lra.
Qed.

(** The crossing points, in barycentric coordinates. *)
Lemma cut12 rho d1 d2 a b : ~ rho == 0 -> leg rho d1 -> leg rho d2 -> bary a b -> a * d1 + b * d2 == rho ->
  exists l, unit l /\ a == l * (rho / d1) /\ b == (1 - l) * (rho / d2).
Proof.
  intros Z [N1 [A0 A1]] [N2 [B0 B1]] (Ha & Hb & _) E.
  exists (a * d1 / rho).
  assert (Pa : 0 < rho / d1).
  { destruct (Qlt_le_dec 0 (rho / d1)) as [L|L]; [exact L|]. assert (K : rho / d1 == 0) by lra.
    destruct Z. assert (F : rho == d1 * (rho / d1)) by (field; exact N1). rewrite F, K. ring. }
  assert (Pb : 0 < rho / d2).
  { destruct (Qlt_le_dec 0 (rho / d2)) as [L|L]; [exact L|]. assert (K : rho / d2 == 0) by lra.
    destruct Z. assert (F : rho == d2 * (rho / d2)) by (field; exact N2). rewrite F, K. ring. }
  assert (Fa : rho / d1 * (a * d1 / rho) == a) by (field; split; assumption).
  assert (G : 1 - a * d1 / rho == b * d2 / rho).
  { assert (K : b * d2 == rho - a * d1) by lra. rewrite K. field; exact Z. }
  assert (Fb : rho / d2 * (b * d2 / rho) == b) by (field; split; assumption).
  split; [split|split].
  - apply (cancel_le _ _ _ Pa). rewrite Fa. lra.
  - assert (0 <= b * d2 / rho). { apply (cancel_le _ _ _ Pb). rewrite Fb. lra. } lra.
  - lra.
  - rewrite G. lra.
Qed.

Lemma cut13_pos rho d1 d2 a b : ~ rho == 0 -> 0 < d1 -> leg rho d1 -> ~ leg rho d2 -> bary a b -> a * d1 + b * d2 == rho ->
  exists l, unit l /\ a == l * (rho / d1) + (1 - l) * (1 - third rho d1 d2) /\ b == (1 - l) * third rho d1 d2.
Proof.
  intros Z P L1 N2 (Ha & Hb & Hab) E. destruct (order _ _ _ P L1 N2) as (H1 & H2 & H3).
  destruct (third_unit _ _ _ L1 N2) as [N3 [T0 T1]].
  assert (T : (d2 - d1) * third rho d1 d2 == rho - d1) by (unfold third; field; exact N3).
  assert (K : 0 <= (1 - a - b) * d1) by (apply Qmult_le_0_compat; lra).
  destruct (Qeq_dec rho d1) as [Er|Er].
  - exists 1. assert (T' : third rho d1 d2 == 0).
    { assert (X : (d2 - d1) * third rho d1 d2 == 0) by lra. destruct (Qmult_integral _ _ X); [contradiction|assumption]. }
    assert (S1 : rho / d1 == 1) by (rewrite Er; field; lra).
    assert (B0 : b == 0).
    { assert (X : 0 <= b * (d1 - d2)) by (apply Qmult_le_0_compat; lra). assert (Y : b * (d1 - d2) <= 0) by lra.
      assert (W : b * (d1 - d2) == 0) by lra. destruct (Qmult_integral _ _ W); [assumption|lra]. }
    assert (A1 : a == 1).
    { assert (X : (a - 1) * d1 == 0). { rewrite B0 in E. lra. } destruct (Qmult_integral _ _ X); lra. }
    split; [unfold unit; lra|]. rewrite S1, T'. split; lra.
  - assert (T2 : 0 < third rho d1 d2).
    { destruct (Qlt_le_dec 0 (third rho d1 d2)) as [L|L]; [exact L|]. assert (X : third rho d1 d2 == 0) by lra.
      rewrite X in T. lra. }
    assert (Bt : b <= third rho d1 d2).
    { apply (cancel_le (d1 - d2)); [lra|]. lra. }
    exists (1 - b / third rho d1 d2).
    assert (F : third rho d1 d2 * (b / third rho d1 d2) == b) by (field; lra).
    assert (U : unit (b / third rho d1 d2)) by (apply div_pos_unit; lra). destruct U as [U0 U1].
    split; [unfold unit; lra|]. split; [|lra].
    apply (Qmult_inj_r _ _ d1); [lra|].
    assert (G : rho / d1 * d1 == rho) by (field; lra).
    set (q := b / third rho d1 d2) in *. set (th := third rho d1 d2) in *.
    assert (X : ((1 - q) * (rho / d1) + (1 - (1 - q)) * (1 - th)) * d1 == (1 - q) * (rho / d1 * d1) + q * d1 - th * q * d1) by ring.
    rewrite X, G, F.
    assert (Y : (d2 - d1) * (th * q) == q * (rho - d1)) by (rewrite <- T; ring). rewrite F in Y. lra.
Qed.
Lemma cut13 rho d1 d2 a b : ~ rho == 0 -> leg rho d1 -> ~ leg rho d2 -> bary a b -> a * d1 + b * d2 == rho ->
  exists l, unit l /\ a == l * (rho / d1) + (1 - l) * (1 - third rho d1 d2) /\ b == (1 - l) * third rho d1 d2.
Proof.
  intros Z L1 N2 HB E. destruct (Qlt_le_dec 0 d1) as [P|P]; [apply cut13_pos; assumption|].
  assert (N1 : ~ d1 == 0) by (destruct L1; assumption).
  assert (P' : 0 < - d1) by (destruct (Qlt_le_dec d1 0); [lra|destruct N1; lra]).
  destruct (third_unit _ _ _ L1 N2) as [N3 _].
  rewrite leg_opp in L1, N2.
  destruct (cut13_pos (- rho) (- d1) (- d2) a b ltac:(lra) P' L1 N2 HB ltac:(lra)) as (l & Hl & A & B).
  assert (T : third (- rho) (- d1) (- d2) == third rho d1 d2) by (unfold third; field; repeat split; lra).
  assert (R : (- rho) / (- d1) == rho / d1) by (field; repeat split; lra).
  exists l. rewrite T, ?R in A. rewrite T in B. auto.
Qed.
Lemma cut_none rho d1 d2 a b : ~ rho == 0 -> ~ leg rho d1 -> ~ leg rho d2 -> bary a b -> a * d1 + b * d2 == rho -> False.
Proof.
  assert (Pos : forall rho d1 d2, 0 < rho -> ~ leg rho d1 -> ~ leg rho d2 -> bary a b -> a * d1 + b * d2 == rho -> False).
  { clear. intros rho d1 d2 P N1 N2 (Ha & Hb & Hab) E.
    assert (W : forall d, ~ leg rho d -> d < rho).
    { intros d N. destruct (Qlt_le_dec d rho) as [L|L]; [exact L|]. destruct N. apply leg_pos; lra. }
    pose proof (W _ N1) as W1. pose proof (W _ N2) as W2.
    assert (K1 : 0 <= a * (rho - d1)) by (apply Qmult_le_0_compat; lra).
    assert (K2 : 0 <= b * (rho - d2)) by (apply Qmult_le_0_compat; lra).
    assert (K3 : 0 <= (1 - a - b) * rho) by (apply Qmult_le_0_compat; lra).
    assert (K4 : a * (rho - d1) == 0) by lra. assert (K5 : b * (rho - d2) == 0) by lra.
    assert (A0 : a == 0) by (destruct (Qmult_integral _ _ K4); lra).
    assert (B0 : b == 0) by (destruct (Qmult_integral _ _ K5); lra).
    rewrite A0, B0 in E. lra. }
  intros Z N1 N2 HB E. destruct (Qlt_le_dec 0 rho) as [P|P]; [exact (Pos rho d1 d2 P N1 N2 HB E)|].
  rewrite leg_opp in N1, N2. apply (Pos (- rho) (- d1) (- d2)); try assumption; [|lra].
  destruct (Qlt_le_dec rho 0); [lra|destruct Z; lra].
Qed.

(** * The test in the plane *)
Lemma sq_pos d : ~ d == 0 -> 0 < d * d.
Proof.
  intros H. pose proof (sq_nonneg d). destruct (Qlt_le_dec 0 (d * d)) as [L|L]; [exact L|].
  assert (Z : d * d == 0) by lra. destruct (Qmult_integral _ _ Z); contradiction.
Qed.
Lemma end_iff g det c : ~ det == 0 -> g == - c * (det * det) ->
  Qle_bool g 0 && Qle_bool (- (det * det)) g = true <-> unit c.
Proof.
  intros N E. pose proof (sq_pos _ N) as P. rewrite andb_true_iff, !Qle_bool_iff, E. unfold unit. split.
  - intros [H1 H2]. split; apply (cancel_le _ _ _ P); lra.
  - intros [H1 H2]. assert (0 <= (det * det) * c) by (apply Qmult_le_0_compat; lra).
    assert (0 <= (det * det) * (1 - c)) by (apply Qmult_le_0_compat; lra). lra.
Qed.
Lemma neg_scale x y p q : 0 < p -> 0 < q -> (x * p) * (y * q) < 0 <-> x * y < 0.
Proof.
  intros P Q. pose proof (Qmult_pos _ _ P Q) as W. split; intros H.
  - destruct (Qlt_le_dec (x * y) 0) as [L|L]; [exact L|].
    assert (0 <= (x * y) * (p * q)) by (apply Qmult_le_0_compat; lra). lra.
  - assert (0 < (- (x * y)) * (p * q)) by (apply Qmult_pos; lra). lra.
Qed.
Lemma stretch_iff g1 det1 c1 g2 det2 c2 : ~ det1 == 0 -> ~ det2 == 0 ->
  g1 == - c1 * (det1 * det1) -> g2 == - c2 * (det2 * det2) ->
  stretch g1 det1 g2 det2 = true <-> unit c1 \/ unit c2 \/ c1 * c2 < 0.
Proof.
  intros N1 N2 E1 E2. unfold stretch. rewrite !orb_true_iff, (end_iff _ _ _ N1 E1), (end_iff _ _ _ N2 E2).
  assert (K : Qltb (g1 * g2) 0 = true <-> c1 * c2 < 0).
  { rewrite <- (neg_scale c1 c2 _ _ (sq_pos _ N1) (sq_pos _ N2)).
    assert (X : g1 * g2 == c1 * (det1 * det1) * (c2 * (det2 * det2))) by (rewrite E1, E2; ring).
    destruct (Qltb_spec (g1 * g2) 0); split; intros; try lra; try discriminate; reflexivity. }
  rewrite K. tauto.
Qed.

(** A stretch between parameters [c1] and [c2] meets [0,1]. *)
Lemma meet_iff c1 c2 : unit c1 \/ unit c2 \/ c1 * c2 < 0 <-> exists l, unit l /\ unit (l * c1 + (1 - l) * c2).
Proof.
  split.
  - intros [H|[H|H]].
    + exists 1. unfold unit in *; lra.
    + exists 0. unfold unit in *; lra.
    + assert (N : ~ c2 - c1 == 0).
      { intros Z. assert (X : c2 == c1) by lra. rewrite X in H. pose proof (sq_nonneg c1). lra. }
      exists (c2 / (c2 - c1)). split.
      * destruct (Qlt_le_dec 0 c2) as [P|P].
        -- assert (c1 < 0).
           { destruct (Qlt_le_dec c1 0) as [L|L]; [exact L|]. assert (0 <= c1 * c2) by (apply Qmult_le_0_compat; lra). lra. }
           apply div_pos_unit; lra.
        -- assert (0 < c1).
           { destruct (Qlt_le_dec 0 c1) as [L|L]; [exact L|]. assert (0 <= (- c1) * (- c2)) by (apply Qmult_le_0_compat; lra). lra. }
           apply div_neg_unit; lra.
      * assert (Z : c2 / (c2 - c1) * c1 + (1 - c2 / (c2 - c1)) * c2 == 0) by (field; exact N).
        apply (unit_comp 0); [symmetry; exact Z|unfold unit; lra].
  - intros (l & [L0 L1] & [U0 U1]).
    destruct (Qlt_le_dec c1 0) as [A|A], (Qlt_le_dec c2 0) as [B|B].
    + exfalso. assert (0 <= l * - c1) by (apply Qmult_le_0_compat; lra).
      assert (0 <= (1 - l) * - c2) by (apply Qmult_le_0_compat; lra).
      destruct (Qlt_le_dec 0 l) as [P|P]; [assert (0 < l * - c1) by (apply Qmult_pos; lra); lra|].
      assert (0 < (1 - l) * - c2) by (apply Qmult_pos; lra). lra.
    + destruct (Qlt_le_dec 1 c2) as [D|D]; [|right; left; unfold unit; lra].
      right; right. assert (0 < (- c1) * c2) by (apply Qmult_pos; lra). lra.
    + destruct (Qlt_le_dec 1 c1) as [D|D]; [|left; unfold unit; lra].
      right; right. assert (0 < c1 * (- c2)) by (apply Qmult_pos; lra). lra.
    + destruct (Qlt_le_dec 1 c1) as [C|C]; [|left; unfold unit; lra].
      destruct (Qlt_le_dec 1 c2) as [D|D]; [|right; left; unfold unit; lra]. exfalso.
      assert (0 <= l * (c1 - 1)) by (apply Qmult_le_0_compat; lra).
      assert (0 <= (1 - l) * (c2 - 1)) by (apply Qmult_le_0_compat; lra).
      destruct (Qlt_le_dec 0 l) as [P|P]; [assert (0 < l * (c1 - 1)) by (apply Qmult_pos; lra); lra|].
      assert (0 < (1 - l) * (c2 - 1)) by (apply Qmult_pos; lra). lra.
Qed.

Lemma cramer px py rx ry tx ty : let det := px * ty - tx * py in ~ det == 0 ->
  (rx * ty - tx * ry) / det * px == rx + - ((px * ry - rx * py) / det) * tx /\
  (rx * ty - tx * ry) / det * py == ry + - ((px * ry - rx * py) / det) * ty.
Proof. intros det N. unfold det in *. split; field; exact N. Qed.

(** The two points where the line of the stretch crosses the border of the first triangle, with
    their parameters on the stretch, and what remains of the test. *)
Definition flat_meet (p1 p2 r4 t : Q * Q) (a b c : Q) : Prop :=
  a * fst p1 + b * fst p2 == fst r4 + c * fst t /\ a * snd p1 + b * snd p2 == snd r4 + c * snd t.

Section Flat.
  Variables p1x p1y p2x p2y rx ry tx ty : Q.
  Let det1 := p1x * ty - tx * p1y.
  Let det2 := p2x * ty - tx * p2y.
  Let rho := rx * ty - tx * ry.
  Let c1 := - ((p1x * ry - rx * p1y) / det1).
  Let c2 := - ((p2x * ry - rx * p2y) / det2).
  Let c3 := - (((p2x - p1x) * (ry - p1y) - (rx - p1x) * (p2y - p1y)) / (det2 - det1)).

  Lemma flat_eq : flat_test (p1x, p1y) (p2x, p2y) (rx, ry) (tx, ty) =
    let g1 := (p1x * ry - rx * p1y) * det1 in
    let g2 := (p2x * ry - rx * p2y) * det2 in
    let g3 := ((p2x - p1x) * (ry - p1y) - (rx - p1x) * (p2y - p1y)) * (det2 - det1) in
    if legal (rho * det1) det1 then
      if legal (rho * det2) det2 then stretch g1 det1 g2 det2 else stretch g1 det1 g3 (det2 - det1)
    else if legal (rho * det2) det2 then stretch g2 det2 g3 (det2 - det1)
    else false.
  Proof. reflexivity. Qed.

  Lemma point3 : ~ det2 - det1 == 0 ->
    p1x + third rho det1 det2 * (p2x - p1x) == rx + c3 * tx /\ p1y + third rho det1 det2 * (p2y - p1y) == ry + c3 * ty.
  Proof.
    intros N. assert (D : (p2x - p1x) * ty - tx * (p2y - p1y) == det2 - det1) by (unfold det1, det2; ring).
    destruct (cramer (p2x - p1x) (p2y - p1y) (rx - p1x) (ry - p1y) tx ty) as [X Y]; [rewrite D; exact N|].
    rewrite D in X, Y. assert (R : (rx - p1x) * ty - tx * (ry - p1y) == rho - det1) by (unfold rho, det1; ring).
    rewrite R in X, Y. fold (third rho det1 det2) in X, Y. fold c3 in X, Y. split; lra.
  Qed.

  Lemma third_swap : ~ det2 - det1 == 0 -> third rho det2 det1 == 1 - third rho det1 det2.
  Proof. intros N. unfold third. field. split; lra. Qed.

  Lemma flat_sound : flat_test (p1x, p1y) (p2x, p2y) (rx, ry) (tx, ty) = true ->
    (~ det1 == 0 \/ ~ det2 == 0) /\
    exists a b c, bary a b /\ unit c /\ flat_meet (p1x, p1y) (p2x, p2y) (rx, ry) (tx, ty) a b c.
  Proof.
    rewrite flat_eq. cbv zeta. unfold flat_meet; cbn [fst snd].
    destruct (legal (rho * det1) det1) eqn:L1; destruct (legal (rho * det2) det2) eqn:L2; intros T; try discriminate.
    - apply legal_iff in L1 as [N1 [A0 A1]]; apply legal_iff in L2 as [N2 [B0 B1]].
      apply (stretch_iff _ _ c1 _ _ c2 N1 N2) in T; [|unfold c1; field; exact N1|unfold c2; field; exact N2].
      apply meet_iff in T as (l & [L0 L1] & U). split; [auto|].
      destruct (cramer p1x p1y rx ry tx ty N1) as [X1 Y1], (cramer p2x p2y rx ry tx ty N2) as [X2 Y2].
      fold det1 rho in X1, Y1. fold det2 rho in X2, Y2. fold c1 in X1, Y1. fold c2 in X2, Y2.
      exists (l * (rho / det1)), ((1 - l) * (rho / det2)), (l * c1 + (1 - l) * c2).
      set (a := rho / det1) in *. set (b := rho / det2) in *. clearbody a b c1 c2.
      assert (0 <= l * a) by (apply Qmult_le_0_compat; lra). assert (0 <= (1 - l) * b) by (apply Qmult_le_0_compat; lra).
      assert (0 <= l * (1 - a)) by (apply Qmult_le_0_compat; lra).
      assert (0 <= (1 - l) * (1 - b)) by (apply Qmult_le_0_compat; lra).
      split; [unfold bary; lra|]. split; [exact U|].
      assert (W1 : l * (a * p1x) == l * (rx + c1 * tx)) by (rewrite X1; reflexivity).
      assert (W2 : l * (a * p1y) == l * (ry + c1 * ty)) by (rewrite Y1; reflexivity).
      assert (W3 : (1 - l) * (b * p2x) == (1 - l) * (rx + c2 * tx)) by (rewrite X2; reflexivity).
      assert (W4 : (1 - l) * (b * p2y) == (1 - l) * (ry + c2 * ty)) by (rewrite Y2; reflexivity).
      split; lra.
    - apply legal_iff in L1; apply legal_false in L2.
      destruct (third_unit _ _ _ L1 L2) as [N3 [T0 T1]]. destruct (point3 N3) as [X3 Y3]. destruct L1 as [N1 [A0 A1]].
      apply (stretch_iff _ _ c1 _ _ c3 N1 N3) in T; [|unfold c1; field; exact N1|unfold c3; field; exact N3].
      apply meet_iff in T as (l & [L0 L1] & U). split; [auto|].
      destruct (cramer p1x p1y rx ry tx ty N1) as [X1 Y1]. fold det1 rho in X1, Y1. fold c1 in X1, Y1.
      exists (l * (rho / det1) + (1 - l) * (1 - third rho det1 det2)), ((1 - l) * third rho det1 det2), (l * c1 + (1 - l) * c3).
      set (a := rho / det1) in *. set (s := third rho det1 det2) in *. clearbody a s c1 c3.
      assert (0 <= l * a) by (apply Qmult_le_0_compat; lra). assert (0 <= (1 - l) * s) by (apply Qmult_le_0_compat; lra).
      assert (0 <= l * (1 - a)) by (apply Qmult_le_0_compat; lra).
      assert (0 <= (1 - l) * (1 - s)) by (apply Qmult_le_0_compat; lra).
      split; [unfold bary; lra|]. split; [exact U|].
      assert (W1 : l * (a * p1x) == l * (rx + c1 * tx)) by (rewrite X1; reflexivity).
      assert (W2 : l * (a * p1y) == l * (ry + c1 * ty)) by (rewrite Y1; reflexivity).
      assert (W3 : (1 - l) * (p1x + s * (p2x - p1x)) == (1 - l) * (rx + c3 * tx)) by (rewrite X3; reflexivity).
      assert (W4 : (1 - l) * (p1y + s * (p2y - p1y)) == (1 - l) * (ry + c3 * ty)) by (rewrite Y3; reflexivity).
      split; lra.
    - apply legal_false in L1; apply legal_iff in L2.
      destruct (third_unit _ _ _ L2 L1) as [N3' [T0 T1]]. assert (N3 : ~ det2 - det1 == 0) by lra.
      rewrite (third_swap N3) in T0, T1.
      destruct (point3 N3) as [X3 Y3]. destruct L2 as [N2 [A0 A1]].
      apply (stretch_iff _ _ c2 _ _ c3 N2 N3) in T; [|unfold c2; field; exact N2|unfold c3; field; exact N3].
      apply meet_iff in T as (l & [L0 L1'] & U). split; [auto|].
      destruct (cramer p2x p2y rx ry tx ty N2) as [X1 Y1]. fold det2 rho in X1, Y1. fold c2 in X1, Y1.
      exists ((1 - l) * (1 - third rho det1 det2)), (l * (rho / det2) + (1 - l) * third rho det1 det2), (l * c2 + (1 - l) * c3).
      set (a := rho / det2) in *. set (s := third rho det1 det2) in *. clearbody a s c2 c3.
      assert (0 <= l * a) by (apply Qmult_le_0_compat; lra). assert (0 <= (1 - l) * s) by (apply Qmult_le_0_compat; lra).
      assert (0 <= l * (1 - a)) by (apply Qmult_le_0_compat; lra).
      assert (0 <= (1 - l) * (1 - s)) by (apply Qmult_le_0_compat; lra).
      split; [unfold bary; lra|]. split; [exact U|].
      assert (W1 : l * (a * p2x) == l * (rx + c2 * tx)) by (rewrite X1; reflexivity).
      assert (W2 : l * (a * p2y) == l * (ry + c2 * ty)) by (rewrite Y1; reflexivity).
      assert (W3 : (1 - l) * (p1x + s * (p2x - p1x)) == (1 - l) * (rx + c3 * tx)) by (rewrite X3; reflexivity).
      assert (W4 : (1 - l) * (p1y + s * (p2y - p1y)) == (1 - l) * (ry + c3 * ty)) by (rewrite Y3; reflexivity).
      split; lra.
  Qed.

  (** The parameter of a point of the line is unique. *)
  Lemma param_unique c c' : ~ rho == 0 -> rx + c * tx == rx + c' * tx -> ry + c * ty == ry + c' * ty -> c == c'.
  Proof.
    intros Z HX HY. destruct (Qeq_dec c c') as [E|E]; [exact E|]. destruct Z.
    assert (A : (c - c') * tx == 0) by lra. assert (B : (c - c') * ty == 0) by lra.
    destruct (Qmult_integral _ _ A) as [A'|A']; [lra|]. destruct (Qmult_integral _ _ B) as [B'|B']; [lra|].
    unfold rho. rewrite A', B'. ring.
  Qed.

  Lemma flat_complete a b c : ~ rho == 0 -> bary a b -> unit c ->
    flat_meet (p1x, p1y) (p2x, p2y) (rx, ry) (tx, ty) a b c ->
    flat_test (p1x, p1y) (p2x, p2y) (rx, ry) (tx, ty) = true.
  Proof.
    intros Z HB HC [MX MY]. cbn [fst snd] in MX, MY. rewrite flat_eq. cbv zeta.
    assert (E : a * det1 + b * det2 == rho).
    { assert (K1 : (a * p1x + b * p2x) * ty == (rx + c * tx) * ty) by (rewrite MX; reflexivity).
      assert (K2 : (a * p1y + b * p2y) * tx == (ry + c * ty) * tx) by (rewrite MY; reflexivity).
      unfold det1, det2, rho. lra. }
    destruct (legal (rho * det1) det1) eqn:L1; destruct (legal (rho * det2) det2) eqn:L2.
    - apply legal_iff in L1; apply legal_iff in L2.
      destruct (cut12 _ _ _ _ _ Z L1 L2 HB E) as (l & Hl & Ea & Eb). destruct L1 as [N1 _], L2 as [N2 _].
      apply (stretch_iff _ _ c1 _ _ c2 N1 N2); [unfold c1; field; exact N1|unfold c2; field; exact N2|].
      apply meet_iff. exists l. split; [exact Hl|]. apply (unit_comp c); [|exact HC].
      destruct (cramer p1x p1y rx ry tx ty N1) as [X1 Y1], (cramer p2x p2y rx ry tx ty N2) as [X2 Y2].
      fold det1 rho in X1, Y1. fold det2 rho in X2, Y2. fold c1 in X1, Y1. fold c2 in X2, Y2.
      apply (param_unique _ _ Z); [rewrite <- MX|rewrite <- MY]; rewrite Ea, Eb.
      + assert (W1 : l * (rho / det1 * p1x) == l * (rx + c1 * tx)) by (rewrite X1; reflexivity).
        assert (W3 : (1 - l) * (rho / det2 * p2x) == (1 - l) * (rx + c2 * tx)) by (rewrite X2; reflexivity).
        clearbody c1 c2. set (u := rho / det1) in *. set (v := rho / det2) in *. clearbody u v. lra.
      + assert (W1 : l * (rho / det1 * p1y) == l * (ry + c1 * ty)) by (rewrite Y1; reflexivity).
        assert (W3 : (1 - l) * (rho / det2 * p2y) == (1 - l) * (ry + c2 * ty)) by (rewrite Y2; reflexivity).
        clearbody c1 c2. set (u := rho / det1) in *. set (v := rho / det2) in *. clearbody u v. lra.
    - apply legal_iff in L1; apply legal_false in L2.
      destruct (cut13 _ _ _ _ _ Z L1 L2 HB E) as (l & Hl & Ea & Eb).
      destruct (third_unit _ _ _ L1 L2) as [N3 _]. destruct (point3 N3) as [X3 Y3]. destruct L1 as [N1 _].
      apply (stretch_iff _ _ c1 _ _ c3 N1 N3); [unfold c1; field; exact N1|unfold c3; field; exact N3|].
      apply meet_iff. exists l. split; [exact Hl|]. apply (unit_comp c); [|exact HC].
      destruct (cramer p1x p1y rx ry tx ty N1) as [X1 Y1]. fold det1 rho in X1, Y1. fold c1 in X1, Y1.
      apply (param_unique _ _ Z); [rewrite <- MX|rewrite <- MY]; rewrite Ea, Eb.
      + assert (W1 : l * (rho / det1 * p1x) == l * (rx + c1 * tx)) by (rewrite X1; reflexivity).
        assert (W3 : (1 - l) * (p1x + third rho det1 det2 * (p2x - p1x)) == (1 - l) * (rx + c3 * tx)) by (rewrite X3; reflexivity).
        clearbody c1 c3. set (u := rho / det1) in *. set (v := third rho det1 det2) in *. clearbody u v. lra.
      + assert (W1 : l * (rho / det1 * p1y) == l * (ry + c1 * ty)) by (rewrite Y1; reflexivity).
        assert (W3 : (1 - l) * (p1y + third rho det1 det2 * (p2y - p1y)) == (1 - l) * (ry + c3 * ty)) by (rewrite Y3; reflexivity).
        clearbody c1 c3. set (u := rho / det1) in *. set (v := third rho det1 det2) in *. clearbody u v. lra.
    - apply legal_false in L1; apply legal_iff in L2.
      assert (HB' : bary b a) by (unfold bary in *; lra). assert (E' : b * det2 + a * det1 == rho) by lra.
      destruct (cut13 _ _ _ _ _ Z L2 L1 HB' E') as (l & Hl & Eb & Ea).
      destruct (third_unit _ _ _ L2 L1) as [N3' _]. assert (N3 : ~ det2 - det1 == 0) by lra.
      rewrite (third_swap N3) in Ea, Eb. destruct (point3 N3) as [X3 Y3]. destruct L2 as [N2 _].
      apply (stretch_iff _ _ c2 _ _ c3 N2 N3); [unfold c2; field; exact N2|unfold c3; field; exact N3|].
      apply meet_iff. exists l. split; [exact Hl|]. apply (unit_comp c); [|exact HC].
      destruct (cramer p2x p2y rx ry tx ty N2) as [X1 Y1]. fold det2 rho in X1, Y1. fold c2 in X1, Y1.
      apply (param_unique _ _ Z); [rewrite <- MX|rewrite <- MY]; rewrite Ea, Eb.
      + assert (W1 : l * (rho / det2 * p2x) == l * (rx + c2 * tx)) by (rewrite X1; reflexivity).
        assert (W3 : (1 - l) * (p1x + third rho det1 det2 * (p2x - p1x)) == (1 - l) * (rx + c3 * tx)) by (rewrite X3; reflexivity).
        clearbody c2 c3. set (u := rho / det2) in *. set (v := third rho det1 det2) in *. clearbody u v. lra.
      + assert (W1 : l * (rho / det2 * p2y) == l * (ry + c2 * ty)) by (rewrite Y1; reflexivity).
        assert (W3 : (1 - l) * (p1y + third rho det1 det2 * (p2y - p1y)) == (1 - l) * (ry + c3 * ty)) by (rewrite Y3; reflexivity).
        clearbody c2 c3. set (u := rho / det2) in *. set (v := third rho det1 det2) in *. clearbody u v. lra.
    - apply legal_false in L1; apply legal_false in L2. destruct (cut_none _ _ _ _ _ Z L1 L2 HB E).
  Qed.
End Flat.

(** * The test in space *)
Section Space.
  Variables C1 P1 P2 D1 Q1 Q2 : vec.
  Let r := vsub D1 C1.
  Let dp0 := P1 AY * P2 AZ - P2 AY * P1 AZ.
  Let dp1 := P1 AX * P2 AZ - P2 AX * P1 AZ.
  Let dp2 := P1 AX * P2 AY - P2 AX * P1 AY.
  Definition ndot_ (d0 d1 d2 : Q) (v : vec) : Q := v AX * d0 - v AY * d1 + v AZ * d2.
  Let nd := ndot_ dp0 dp1 dp2.
  Let dq1 := Q1 AX * dp0 - Q1 AY * dp1 + Q1 AZ * dp2.
  Let dq2 := Q2 AX * dp0 - Q2 AY * dp1 + Q2 AZ * dp2.
  Let dr := - r AX * dp0 + r AY * dp1 - r AZ * dp2.
  Let final (SF : Q) (r4 t : Q * Q) : bool :=
    flat_test (SF * P1 AX, SF * P1 AY) (SF * P2 AX, SF * P2 AY) r4 t.

  Lemma TriInt_eq : TriInt C1 P1 P2 D1 Q1 Q2 =
    if Qeq_bool dq1 0 && Qeq_bool dq2 0 then
      if negb (Qeq_bool dr 0) then false
      else coplanar_tri_tri (vcross P1 P2) C1 (vadd C1 P1) (vadd C1 P2) D1 (vadd D1 Q1) (vadd D1 Q2)
    else if legal (dr * dq1) dq1 then
      if legal (dr * dq2) dq2 then
        final (dq1 * dq2) (sVpsV_2 (dq1 * dq2) r (dr * dq2) Q1) (sVpsV_2 (dr * dq1) Q2 (- (dr * dq2)) Q1)
      else
        let SF := dq1 * (dq2 - dq1) in
        final SF (sVpsV_2 SF r (dr * dq2 - dr * dq1) Q1)
          (sVpsV_2 (SF - (dr - dq1) * dq1 - (dr * dq2 - dr * dq1)) Q1 ((dr - dq1) * dq1) Q2)
    else if legal (dr * dq2) dq2 then
      let SF := dq2 * (dq2 - dq1) in
      final SF (sVpsV_2 SF r (dr * dq2 - dr * dq1) Q2)
        (sVpsV_2 (SF - (dr - dq1) * dq2) Q1 ((dr - dq1) * dq2 - (dr * dq2 - dr * dq1)) Q2)
    else false.
  Proof.
    unfold TriInt. fold r dp0 dp1 dp2. fold dq1 dq2 dr.
    fold (legal (dr * dq1) dq1). fold (legal (dr * dq2) dq2).
    destruct (Qeq_bool dq1 0 && Qeq_bool dq2 0); [reflexivity|].
    destruct (legal (dr * dq1) dq1), (legal (dr * dq2) dq2); reflexivity.
  Qed.

  Definition on_cut (A B : Q) : Prop := bary A B /\ A * dq1 + B * dq2 == dr.

  Lemma edges_in_plane : nd P1 == 0 /\ nd P2 == 0.
  Proof. unfold nd, ndot_, dp0, dp1, dp2. split; ring. Qed.
  Lemma nd_q : nd Q1 == dq1 /\ nd Q2 == dq2 /\ nd r == - dr.
  Proof. unfold nd, ndot_, dq1, dq2, dr. repeat split; ring. Qed.

  (** A vanishing last component of the normal makes every determinant of the flat test vanish. *)
  Lemma upright v w : dp2 == 0 -> nd v == 0 -> nd w == 0 -> ~ (dq1 == 0 /\ dq2 == 0) -> v AX * w AY - w AX * v AY == 0.
  Proof.
    intros Z V W N. unfold nd, ndot_ in V, W. rewrite Z in V, W.
    destruct (Qeq_dec dp0 0) as [E0|E0]; [destruct (Qeq_dec dp1 0) as [E1|E1]|].
    - destruct N. unfold dq1, dq2. rewrite E0, E1, Z. split; ring.
    - assert (X : v AX * w AY - w AX * v AY == 0 * 1); [|lra]. apply (Qmult_inj_l _ _ dp1 E1).
      assert (K1 : w AX * (v AX * dp0 - v AY * dp1 + v AZ * 0) == w AX * 0) by (rewrite V; reflexivity).
      assert (K2 : v AX * (w AX * dp0 - w AY * dp1 + w AZ * 0) == v AX * 0) by (rewrite W; reflexivity). lra.
    - assert (X : v AX * w AY - w AX * v AY == 0 * 1); [|lra]. apply (Qmult_inj_l _ _ dp0 E0).
      assert (K1 : w AY * (v AX * dp0 - v AY * dp1 + v AZ * 0) == w AY * 0) by (rewrite V; reflexivity).
      assert (K2 : v AY * (w AX * dp0 - w AY * dp1 + w AZ * 0) == v AY * 0) by (rewrite W; reflexivity). lra.
  Qed.

  (** The stretch from the point with coordinates (A0, B0) to the one with (A1, B1). *)
  Section Stretch.
    Variables SF A0 B0 A1 B1 rx ry tx ty : Q.
    Hypothesis NSF : ~ SF == 0.
    Hypothesis H0 : on_cut A0 B0.
    Hypothesis H1 : on_cut A1 B1.
    Hypothesis Erx : rx == SF * (r AX + A0 * Q1 AX + B0 * Q2 AX).
    Hypothesis Ery : ry == SF * (r AY + A0 * Q1 AY + B0 * Q2 AY).
    Hypothesis Etx : tx == SF * ((A1 - A0) * Q1 AX + (B1 - B0) * Q2 AX).
    Hypothesis Ety : ty == SF * ((A1 - A0) * Q1 AY + (B1 - B0) * Q2 AY).

    Lemma lift : ~ (dq1 == 0 /\ dq2 == 0) -> final SF (rx, ry) (tx, ty) = true -> share C1 P1 P2 D1 Q1 Q2.
    Proof using NSF H0 H1 Erx Ery Etx Ety.
      intros N T. apply flat_sound in T as (Nd & a & b & c & HB & HC & MX & MY). cbn [fst snd] in MX, MY.
      assert (U : ~ dp2 == 0).
      { intros Z. pose (tv := fun i => (A1 - A0) * Q1 i + (B1 - B0) * Q2 i).
        assert (Tn : nd tv == 0).
        { assert (X : nd tv == (A1 * dq1 + B1 * dq2) - (A0 * dq1 + B0 * dq2)) by (unfold nd, tv, ndot_, dq1, dq2; ring).
          rewrite X. destruct H0 as [_ ->], H1 as [_ ->]. ring. }
        destruct edges_in_plane as [E1 E2].
        pose proof (upright P1 tv Z E1 Tn N) as K1. pose proof (upright P2 tv Z E2 Tn N) as K2. unfold tv in K1, K2.
        destruct Nd as [Nd|Nd]; apply Nd; rewrite Etx, Ety.
        - assert (X : SF * P1 AX * (SF * ((A1 - A0) * Q1 AY + (B1 - B0) * Q2 AY)) - SF * ((A1 - A0) * Q1 AX + (B1 - B0) * Q2 AX) * (SF * P1 AY)
            == SF * SF * (P1 AX * ((A1 - A0) * Q1 AY + (B1 - B0) * Q2 AY) - ((A1 - A0) * Q1 AX + (B1 - B0) * Q2 AX) * P1 AY)) by ring.
          rewrite X, K1. ring.
        - assert (X : SF * P2 AX * (SF * ((A1 - A0) * Q1 AY + (B1 - B0) * Q2 AY)) - SF * ((A1 - A0) * Q1 AX + (B1 - B0) * Q2 AX) * (SF * P2 AY)
            == SF * SF * (P2 AX * ((A1 - A0) * Q1 AY + (B1 - B0) * Q2 AY) - ((A1 - A0) * Q1 AX + (B1 - B0) * Q2 AX) * P2 AY)) by ring.
          rewrite X, K2. ring. }
      set (A := (1 - c) * A0 + c * A1). set (B := (1 - c) * B0 + c * B1).
      assert (X : a * P1 AX + b * P2 AX == r AX + A * Q1 AX + B * Q2 AX).
      { apply (Qmult_inj_l _ _ SF NSF). rewrite Erx, Etx in MX. unfold A, B. lra. }
      assert (Y : a * P1 AY + b * P2 AY == r AY + A * Q1 AY + B * Q2 AY).
      { apply (Qmult_inj_l _ _ SF NSF). rewrite Ery, Ety in MY. unfold A, B. lra. }
      assert (CA : A * dq1 + B * dq2 == dr).
      { unfold A, B. destruct H0 as [_ K0], H1 as [_ K1].
        assert (V0 : (1 - c) * (A0 * dq1 + B0 * dq2) == (1 - c) * dr) by (rewrite K0; reflexivity).
        assert (V1 : c * (A1 * dq1 + B1 * dq2) == c * dr) by (rewrite K1; reflexivity).
        set (e := dr) in *. clearbody e. set (f := dq1) in *. clearbody f. set (g := dq2) in *. clearbody g. lra. }
      assert (Zz : a * P1 AZ + b * P2 AZ == r AZ + A * Q1 AZ + B * Q2 AZ).
      { pose (w := fun i => a * P1 i + b * P2 i - (r i + A * Q1 i + B * Q2 i)).
        assert (Wn : nd w == a * nd P1 + b * nd P2 - (nd r + A * nd Q1 + B * nd Q2)) by (unfold nd, w, ndot_; ring).
        destruct edges_in_plane as [E1 E2]. destruct nd_q as (E3 & E4 & E5). rewrite E1, E2, E3, E4, E5 in Wn.
        assert (Wn' : nd w == 0) by (rewrite Wn; lra).
        assert (Wx : w AX == 0) by (unfold w; lra). assert (Wy : w AY == 0) by (unfold w; lra).
        unfold nd, ndot_ in Wn'. rewrite Wx, Wy in Wn'.
        assert (Wz : w AZ * dp2 == 0) by lra. destruct (Qmult_integral _ _ Wz) as [K|K]; [unfold w in K; lra|contradiction]. }
      exists (tri_point C1 P1 P2 a b). split; [exists a, b; split; [exact HB|intros; reflexivity]|].
      exists A, B. split.
      - destruct HC as [C0 C1']. destruct H0 as [(X0 & X1 & X2) _], H1 as [(Y0 & Y1 & Y2) _]. unfold bary, A, B.
        assert (0 <= (1 - c) * A0) by (apply Qmult_le_0_compat; lra). assert (0 <= c * A1) by (apply Qmult_le_0_compat; lra).
        assert (0 <= (1 - c) * B0) by (apply Qmult_le_0_compat; lra). assert (0 <= c * B1) by (apply Qmult_le_0_compat; lra).
        assert (0 <= (1 - c) * (1 - A0 - B0)) by (apply Qmult_le_0_compat; lra).
        assert (0 <= c * (1 - A1 - B1)) by (apply Qmult_le_0_compat; lra). lra.
      - intros i. unfold tri_point. unfold r, vsub in *. destruct i; lra.
    Qed.

    (** The other direction, for a stretch whose line misses the corner of the first triangle. *)
    Lemma unlift l a b : unit l -> bary a b ->
      (forall i, a * P1 i + b * P2 i == r i + (l * A0 + (1 - l) * A1) * Q1 i + (l * B0 + (1 - l) * B1) * Q2 i) ->
      ~ rx * ty - tx * ry == 0 -> final SF (rx, ry) (tx, ty) = true.
    Proof using Erx Ery Etx Ety.
      intros [L0 L1] HB E Z. apply (flat_complete _ _ _ _ _ _ _ _ a b (1 - l) Z HB); [unfold unit; lra|].
      split; cbn [fst snd]; [rewrite Erx, Etx|rewrite Ery, Ety].
      - assert (K : SF * (a * P1 AX + b * P2 AX) == SF * (r AX + (l * A0 + (1 - l) * A1) * Q1 AX + (l * B0 + (1 - l) * B1) * Q2 AX))
          by (rewrite E; reflexivity). lra.
      - assert (K : SF * (a * P1 AY + b * P2 AY) == SF * (r AY + (l * A0 + (1 - l) * A1) * Q1 AY + (l * B0 + (1 - l) * B1) * Q2 AY))
          by (rewrite E; reflexivity). lra.
    Qed.

    (** When that line misses the corner. *)
    Lemma misses : ~ dp2 == 0 -> ~ A0 * B1 - B0 * A1 == 0 -> ~ vdot r (vcross Q1 Q2) == 0 -> ~ rx * ty - tx * ry == 0.
    Proof using NSF H0 H1 Erx Ery Etx Ety.
      intros U S M Z.
      pose (e0 := fun i => r i + A0 * Q1 i + B0 * Q2 i). pose (e1 := fun i => r i + A1 * Q1 i + B1 * Q2 i).
      assert (W : SF * SF * vcross e0 e1 AZ == 0).
      { rewrite <- Z, Erx, Ery, Etx, Ety. unfold vcross, v3, e0, e1. ring. }
      assert (W0 : vcross e0 e1 AZ == 0).
      { destruct (Qmult_integral _ _ W) as [K|K]; [|exact K]. destruct (Qmult_integral _ _ K); contradiction. }
      destruct nd_q as (Eq1 & Eq2 & Er).
      assert (N0 : nd e0 == 0).
      { assert (X : nd e0 == nd r + A0 * nd Q1 + B0 * nd Q2) by (unfold nd, e0, ndot_; ring).
        rewrite X, Eq1, Eq2, Er. destruct H0 as [_ K]. lra. }
      assert (N1 : nd e1 == 0).
      { assert (X : nd e1 == nd r + A1 * nd Q1 + B1 * nd Q2) by (unfold nd, e1, ndot_; ring).
        rewrite X, Eq1, Eq2, Er. destruct H1 as [_ K]. lra. }
      (* the cross product is along the normal, so it vanishes altogether *)
      assert (K : dp2 * vdot r (vcross e0 e1) == vcross e0 e1 AZ * nd r + r AX * (e0 AY * nd e1 - e1 AY * nd e0) - r AY * (e0 AX * nd e1 - e1 AX * nd e0)).
      { unfold vdot, sum3, vcross, v3, nd, ndot_. ring. }
      rewrite W0, N0, N1 in K.
      assert (K' : dp2 * vdot r (vcross e0 e1) == 0) by lra.
      destruct (Qmult_integral _ _ K') as [?|K2]; [contradiction|].
      assert (V : vdot r (vcross e0 e1) == (A0 * B1 - B0 * A1) * vdot r (vcross Q1 Q2)).
      { unfold vdot, sum3, vcross, v3, e0, e1. ring. }
      rewrite V in K2. destruct (Qmult_integral _ _ K2); contradiction.
    Qed.
  End Stretch.

  Lemma div_cut1 d : ~ d == 0 -> dr / d * d == dr. Proof. intros; field; assumption. Qed.

  Lemma space_sound : ~ (dq1 == 0 /\ dq2 == 0) -> TriInt C1 P1 P2 D1 Q1 Q2 = true -> share C1 P1 P2 D1 Q1 Q2.
  Proof.
    intros N T. rewrite TriInt_eq in T.
    destruct (Qeq_bool dq1 0 && Qeq_bool dq2 0) eqn:E.
    { apply andb_prop in E as [E1 E2]. apply Qeq_bool_iff in E1, E2. destruct N; auto. }
    clear E. cbv zeta in T. unfold sVpsV_2 in T.
    destruct (legal (dr * dq1) dq1) eqn:L1; destruct (legal (dr * dq2) dq2) eqn:L2; try discriminate.
    - apply legal_iff in L1 as [N1 [X0 X1]]; apply legal_iff in L2 as [N2 [Y0 Y1]].
      eapply (lift _ (dr / dq1) 0 0 (dr / dq2)); [| | | | | | |exact N|exact T].
      + intros Z. destruct (Qmult_integral _ _ Z); contradiction.
      + split; [unfold bary; lra|]. rewrite div_cut1 by exact N1. ring.
      + split; [unfold bary; lra|]. rewrite div_cut1 by exact N2. ring.
      + field; assumption.
      + field; assumption.
      + field; split; assumption.
      + field; split; assumption.
    - apply legal_iff in L1; apply legal_false in L2. destruct (third_unit _ _ _ L1 L2) as [N3 [T0 T1]].
      destruct L1 as [N1 [X0 X1]].
      eapply (lift _ (dr / dq1) 0 (1 - third dr dq1 dq2) (third dr dq1 dq2)); [| | | | | | |exact N|exact T].
      + intros Z. destruct (Qmult_integral _ _ Z); contradiction.
      + split; [unfold bary; lra|]. rewrite div_cut1 by exact N1. ring.
      + split; [unfold bary; lra|]. unfold third. field; exact N3.
      + field; assumption.
      + field; assumption.
      + unfold third. field; split; assumption.
      + unfold third. field; split; assumption.
    - apply legal_false in L1; apply legal_iff in L2. destruct (third_unit _ _ _ L2 L1) as [N3' [T0 T1]].
      assert (N3 : ~ dq2 - dq1 == 0) by lra. destruct L2 as [N2 [X0 X1]].
      assert (TS : third dr dq2 dq1 == 1 - third dr dq1 dq2) by (unfold third; field; split; lra).
      rewrite TS in T0, T1.
      eapply (lift _ 0 (dr / dq2) (1 - third dr dq1 dq2) (third dr dq1 dq2)); [| | | | | | |exact N|exact T].
      + intros Z. destruct (Qmult_integral _ _ Z); contradiction.
      + split; [unfold bary; lra|]. rewrite div_cut1 by exact N2. ring.
      + split; [unfold bary; lra|]. unfold third. field; exact N3.
      + field; assumption.
      + field; assumption.
      + unfold third. field; split; assumption.
      + unfold third. field; split; assumption.
  Qed.

  Lemma shared_point : share C1 P1 P2 D1 Q1 Q2 -> exists a b a' b', bary a b /\ bary a' b' /\
    (forall i, a * P1 i + b * P2 i == r i + a' * Q1 i + b' * Q2 i) /\ a' * dq1 + b' * dq2 == dr.
  Proof.
    intros (X & (a & b & HB & E1) & (a' & b' & HB' & E2)). exists a, b, a', b'.
    assert (E : forall i, a * P1 i + b * P2 i == r i + a' * Q1 i + b' * Q2 i).
    { intros i. specialize (E1 i); specialize (E2 i). unfold tri_point in *. unfold r, vsub. lra. }
    split; [exact HB|split; [exact HB'|split; [exact E|]]].
    destruct edges_in_plane as [Z1 Z2]. destruct nd_q as (Eq1 & Eq2 & Er).
    assert (K : a * nd P1 + b * nd P2 == nd r + a' * nd Q1 + b' * nd Q2).
    { unfold nd, ndot_.
      assert (KX : (a * P1 AX + b * P2 AX) * dp0 == (r AX + a' * Q1 AX + b' * Q2 AX) * dp0) by (rewrite E; reflexivity).
      assert (KY : (a * P1 AY + b * P2 AY) * dp1 == (r AY + a' * Q1 AY + b' * Q2 AY) * dp1) by (rewrite E; reflexivity).
      assert (KZ : (a * P1 AZ + b * P2 AZ) * dp2 == (r AZ + a' * Q1 AZ + b' * Q2 AZ) * dp2) by (rewrite E; reflexivity).
      clearbody dp0 dp1 dp2. lra. }
    rewrite Z1, Z2, Eq1, Eq2, Er in K. lra.
  Qed.

  Lemma space_complete : ~ dp2 == 0 -> ~ dr == 0 -> ~ dr == dq1 -> ~ dr == dq2 -> ~ vdot r (vcross Q1 Q2) == 0 ->
    share C1 P1 P2 D1 Q1 Q2 -> TriInt C1 P1 P2 D1 Q1 Q2 = true.
  Proof.
    intros U G1 G2 G3 M S. destruct (shared_point S) as (a & b & a' & b' & HB & HB' & E & K). rewrite TriInt_eq.
    destruct (Qeq_bool dq1 0 && Qeq_bool dq2 0) eqn:Ez.
    { apply andb_prop in Ez as [E1 E2]. apply Qeq_bool_iff in E1, E2. destruct G1. rewrite <- K, E1, E2. ring. }
    clear Ez. cbv zeta. unfold sVpsV_2.
    destruct (legal (dr * dq1) dq1) eqn:L1; destruct (legal (dr * dq2) dq2) eqn:L2.
    - apply legal_iff in L1; apply legal_iff in L2.
      destruct (cut12 _ _ _ _ _ G1 L1 L2 HB' K) as (l & Hl & Ea & Eb).
      destruct L1 as [N1 [X0 X1]], L2 as [N2 [Y0 Y1]].
      eapply (unlift _ (dr / dq1) 0 0 (dr / dq2)); [| | | |exact Hl|exact HB| |].
      + field; assumption.
      + field; assumption.
      + field; split; assumption.
      + field; split; assumption.
      + intros i. rewrite E, Ea, Eb. ring.
      + eapply (misses (dq1 * dq2) (dr / dq1) 0 0 (dr / dq2)); [| | | | | | |exact U| |exact M].
        * intros Z. destruct (Qmult_integral _ _ Z); contradiction.
        * split; [unfold bary; lra|]. rewrite div_cut1 by exact N1. ring.
        * split; [unfold bary; lra|]. rewrite div_cut1 by exact N2. ring.
        * field; assumption.
        * field; assumption.
        * field; split; assumption.
        * field; split; assumption.
        * intros Z. apply G1. assert (W : dr * dr == (dr / dq1 * (dr / dq2) - 0 * 0) * (dq1 * dq2)) by (field; split; assumption).
          rewrite Z in W. assert (W' : dr * dr == 0) by lra. destruct (Qmult_integral _ _ W'); assumption.
    - apply legal_iff in L1; apply legal_false in L2.
      destruct (cut13 _ _ _ _ _ G1 L1 L2 HB' K) as (l & Hl & Ea & Eb). destruct (third_unit _ _ _ L1 L2) as [N3 [T0 T1]].
      destruct L1 as [N1 [X0 X1]].
      eapply (unlift _ (dr / dq1) 0 (1 - third dr dq1 dq2) (third dr dq1 dq2)); [| | | |exact Hl|exact HB| |].
      + field; assumption.
      + field; assumption.
      + unfold third. field; split; assumption.
      + unfold third. field; split; assumption.
      + intros i. rewrite E, Ea, Eb. ring.
      + eapply (misses (dq1 * (dq2 - dq1)) (dr / dq1) 0 (1 - third dr dq1 dq2) (third dr dq1 dq2)); [| | | | | | |exact U| |exact M].
        * intros Z. destruct (Qmult_integral _ _ Z); contradiction.
        * split; [unfold bary; lra|]. rewrite div_cut1 by exact N1. ring.
        * split; [unfold bary; lra|]. unfold third. field; exact N3.
        * field; assumption.
        * field; assumption.
        * unfold third. field; split; assumption.
        * unfold third. field; split; assumption.
        * intros Z. assert (W : dr * (dr - dq1) == (dr / dq1 * third dr dq1 dq2 - 0 * (1 - third dr dq1 dq2)) * (dq1 * (dq2 - dq1)))
            by (unfold third; field; split; assumption).
          rewrite Z in W. assert (W' : dr * (dr - dq1) == 0) by lra. destruct (Qmult_integral _ _ W'); [contradiction|].
          apply G2; lra.
    - apply legal_false in L1; apply legal_iff in L2.
      assert (HB2 : bary b' a') by (unfold bary in *; lra). assert (K2 : b' * dq2 + a' * dq1 == dr) by lra.
      destruct (cut13 _ _ _ _ _ G1 L2 L1 HB2 K2) as (l & Hl & Eb & Ea). destruct (third_unit _ _ _ L2 L1) as [N3' [T0 T1]].
      assert (N3 : ~ dq2 - dq1 == 0) by lra. destruct L2 as [N2 [X0 X1]].
      assert (TS : third dr dq2 dq1 == 1 - third dr dq1 dq2) by (unfold third; field; split; lra).
      rewrite TS in *.
      eapply (unlift _ 0 (dr / dq2) (1 - third dr dq1 dq2) (third dr dq1 dq2)); [| | | |exact Hl|exact HB| |].
      + field; assumption.
      + field; assumption.
      + unfold third. field; split; assumption.
      + unfold third. field; split; assumption.
      + intros i. rewrite E, Ea, Eb. ring.
      + eapply (misses (dq2 * (dq2 - dq1)) 0 (dr / dq2) (1 - third dr dq1 dq2) (third dr dq1 dq2)); [| | | | | | |exact U| |exact M].
        * intros Z. destruct (Qmult_integral _ _ Z); contradiction.
        * split; [unfold bary; lra|]. rewrite div_cut1 by exact N2. ring.
        * split; [unfold bary; lra|]. unfold third. field; exact N3.
        * field; assumption.
        * field; assumption.
        * unfold third. field; split; assumption.
        * unfold third. field; split; assumption.
        * intros Z. assert (W : dr * (dr - dq2) == (0 * third dr dq1 dq2 - dr / dq2 * (1 - third dr dq1 dq2)) * (dq2 * (dq2 - dq1)))
            by (unfold third; field; split; assumption).
          rewrite Z in W. assert (W' : dr * (dr - dq2) == 0) by lra. destruct (Qmult_integral _ _ W'); [contradiction|].
          apply G3; lra.
    - apply legal_false in L1; apply legal_false in L2. destruct (cut_none _ _ _ _ _ G1 L1 L2 HB' K).
  Qed.
End Space.

(** * In terms of the normal of the first triangle *)
Definition height (C P1 P2 X : vec) : Q := vdot (vcross P1 P2) (vsub X C).

Lemma tri_sound C1 P1 P2 D1 Q1 Q2 :
  ~ (vdot (vcross P1 P2) Q1 == 0 /\ vdot (vcross P1 P2) Q2 == 0) ->
  TriInt C1 P1 P2 D1 Q1 Q2 = true -> share C1 P1 P2 D1 Q1 Q2.
Proof.
  intros N. apply space_sound. intros [E1 E2]. apply N. unfold vdot, sum3, vcross, v3.
  split; [rewrite <- E1|rewrite <- E2]; ring.
Qed.

Lemma tri_complete C1 P1 P2 D1 Q1 Q2 :
  ~ vcross P1 P2 AZ == 0 ->
  ~ height C1 P1 P2 D1 == 0 -> ~ height C1 P1 P2 (vadd D1 Q1) == 0 -> ~ height C1 P1 P2 (vadd D1 Q2) == 0 ->
  ~ height D1 Q1 Q2 C1 == 0 ->
  share C1 P1 P2 D1 Q1 Q2 -> TriInt C1 P1 P2 D1 Q1 Q2 = true.
Proof.
  intros U G1 G2 G3 M. unfold height, vdot, sum3, vcross, vsub, vadd, v3 in *. apply space_complete; unfold vsub in *.
  - intros Z. apply U. rewrite <- Z. ring.
  - intros Z. apply G1. assert (Z' := Qopp_comp _ _ Z). rewrite <- (Qopp_involutive 0) in Z'.
    rewrite Qopp_involutive in Z'. lra.
  - intros Z. apply G2. lra.
  - intros Z. apply G3. lra.
  - unfold vdot, sum3, vcross, v3. intros Z. apply M. lra.
Qed.
