(** C223: the distances between points. *)
From Coq Require Import List QArith Qabs Lia Lqa.
From Verif Require Import PointDistModel.
Import ListNotations.
Open Scope Q_scope.

(** * Specification: a metric on points. *)
Definition same_point (a b : point) : Prop := forall i, (i < 3)%nat -> a i == b i.
Definition metric (d : point -> point -> Q) : Prop :=
  (forall a b, 0 <= d a b) /\ (forall a b, d a b == 0 <-> same_point a b) /\ (forall a b, d a b == d b a) /\
  (forall a b c, d a c <= d a b + d b c).

(** * Proof *)
Lemma d_eq a b : distance a b == (b 0%nat - a 0%nat) * (b 0%nat - a 0%nat) + (b 1%nat - a 1%nat) * (b 1%nat - a 1%nat) + (b 2%nat - a 2%nat) * (b 2%nat - a 2%nat).
Proof. unfold distance. cbn [fold_left]. ring. Qed.
Lemma m_eq a b : mdistance a b == Qabs (b 0%nat - a 0%nat) + Qabs (b 1%nat - a 1%nat) + Qabs (b 2%nat - a 2%nat).
Proof. unfold mdistance. cbn [fold_left]. ring. Qed.
Lemma abs_facts x : 0 <= Qabs x /\ Qabs x * Qabs x == x * x /\ x <= Qabs x /\ - x <= Qabs x.
Proof. apply (Qabs_case x (fun y => 0 <= y /\ y * y == x * x /\ x <= y /\ - x <= y)); intro H; repeat split; try lra; ring. Qed.
Lemma abs_zero x : Qabs x == 0 -> x == 0.
Proof. intro H. destruct (abs_facts x) as (_ & _ & A & B). lra. Qed.
Lemma same3 a b : a 0%nat == b 0%nat -> a 1%nat == b 1%nat -> a 2%nat == b 2%nat -> same_point a b.
Proof. intros A B C i I. destruct i as [|[|[|i]]]; [exact A|exact B|exact C|lia]. Qed.

(** mdistance is a metric. *)
Theorem mdistance_metric : metric mdistance.
Proof.
  split; [|split; [|split]].
  - intros a b. rewrite m_eq. destruct (abs_facts (b 0%nat - a 0%nat)), (abs_facts (b 1%nat - a 1%nat)), (abs_facts (b 2%nat - a 2%nat)). lra.
  - intros a b. rewrite m_eq. split.
    + intro H. pose proof (Qabs_nonneg (b 0%nat - a 0%nat)). pose proof (Qabs_nonneg (b 1%nat - a 1%nat)). pose proof (Qabs_nonneg (b 2%nat - a 2%nat)).
      assert (X : b 0%nat - a 0%nat == 0) by (apply abs_zero; lra). assert (Y : b 1%nat - a 1%nat == 0) by (apply abs_zero; lra).
      assert (Z : b 2%nat - a 2%nat == 0) by (apply abs_zero; lra). apply same3; lra.
    + intro S. assert (E : forall i, (i < 3)%nat -> Qabs (b i - a i) == 0).
      { intros i I. specialize (S i I). setoid_replace (b i - a i) with 0 by lra. reflexivity. }
      rewrite !E by lia. reflexivity.
  - intros a b. rewrite !m_eq, (Qabs_Qminus (b 0%nat)), (Qabs_Qminus (b 1%nat)), (Qabs_Qminus (b 2%nat)). reflexivity.
  - intros a b c. rewrite !m_eq. assert (T : forall i, Qabs (c i - a i) <= Qabs (b i - a i) + Qabs (c i - b i)).
    { intro i. setoid_replace (c i - a i) with ((b i - a i) + (c i - b i)) by ring. apply Qabs_triangle. }
    pose proof (T 0%nat). pose proof (T 1%nat). pose proof (T 2%nat). lra.
Qed.
Print Assumptions mdistance_metric.
Lemma square_zero x : x * x == 0 -> x == 0.
Proof. intro H. destruct (Qmult_integral _ _ H); assumption. Qed.
Lemma square_pos (x : Q) : 0 <= x * x.
Proof. destruct (abs_facts x) as (A & B & _). rewrite <- B. apply Qmult_le_0_compat; exact A. Qed.
(** Full claim of C223 for the other two: [metric distance].  Proved: all but the triangle inequality, of which the weaker form for
    squares holds; get_distance is the same function. *)
Theorem distance_metric_partial :
  (forall a b, 0 <= distance a b) /\ (forall a b, distance a b == 0 <-> same_point a b) /\ (forall a b, distance a b == distance b a) /\
  (forall a b c, distance a c <= 2 * (distance a b + distance b c)) /\ (forall a b, get_distance a b == distance a b).
Proof.
  split; [|split; [|split; [|split]]].
  - intros a b. rewrite d_eq. pose proof (square_pos (b 0%nat - a 0%nat)). pose proof (square_pos (b 1%nat - a 1%nat)). pose proof (square_pos (b 2%nat - a 2%nat)). lra.
  - intros a b. rewrite d_eq. pose proof (square_pos (b 0%nat - a 0%nat)). pose proof (square_pos (b 1%nat - a 1%nat)). pose proof (square_pos (b 2%nat - a 2%nat)). split.
    + intro E. assert (X : b 0%nat - a 0%nat == 0) by (apply square_zero; lra). assert (Y : b 1%nat - a 1%nat == 0) by (apply square_zero; lra).
      assert (Z : b 2%nat - a 2%nat == 0) by (apply square_zero; lra). apply same3; lra.
    + intro S. rewrite (S 0%nat), (S 1%nat), (S 2%nat) by lia. ring.
  - intros a b. rewrite !d_eq. ring.
  - intros a b c. rewrite !d_eq. assert (T : forall x y z, (z - x) * (z - x) <= 2 * ((y - x) * (y - x) + (z - y) * (z - y))).
    { intros x y z. pose proof (square_pos ((y - x) - (z - y))) as S.
      setoid_replace (2 * ((y - x) * (y - x) + (z - y) * (z - y))) with ((z - x) * (z - x) + (y - x - (z - y)) * (y - x - (z - y))) by ring. lra. }
    pose proof (T (a 0%nat) (b 0%nat) (c 0%nat)). pose proof (T (a 1%nat) (b 1%nat) (c 1%nat)). pose proof (T (a 2%nat) (b 2%nat) (c 2%nat)). lra.
  - reflexivity.
Qed.
Print Assumptions distance_metric_partial.
(** C223 is false: distance is the square, two steps of one are shorter than one of two. *)
Theorem distance_metric_refuted : exists a b c : point, distance a b + distance b c < distance a c.
Proof. exists (fun _ => 0), (fun i => if Nat.eqb i 0 then 1 else 0), (fun i => if Nat.eqb i 0 then 2 else 0). vm_compute. reflexivity. Qed.
Print Assumptions distance_metric_refuted.
(** The two compare: the square of mdistance lies between distance and three times distance. *)
Theorem distances_compare : forall a b, distance a b <= mdistance a b * mdistance a b /\ mdistance a b * mdistance a b <= 3 * distance a b.
Proof.
  intros a b. rewrite !m_eq, !d_eq. destruct (abs_facts (b 0%nat - a 0%nat)) as (X & X2 & _), (abs_facts (b 1%nat - a 1%nat)) as (Y & Y2 & _), (abs_facts (b 2%nat - a 2%nat)) as (Z & Z2 & _).
  rewrite <- X2, <- Y2, <- Z2. set (x := Qabs _) in *. set (y := Qabs (b 1%nat - _)) in *. set (z := Qabs (b 2%nat - _)) in *. clearbody x y z. clear X2 Y2 Z2.
  pose proof (Qmult_le_0_compat _ _ X Y) as XY. pose proof (Qmult_le_0_compat _ _ X Z) as XZ. pose proof (Qmult_le_0_compat _ _ Y Z) as YZ.
  pose proof (square_pos (x - y)) as S1. pose proof (square_pos (x - z)) as S2. pose proof (square_pos (y - z)) as S3. split.
  - setoid_replace ((x + y + z) * (x + y + z)) with (x * x + y * y + z * z + 2 * (x * y + x * z + y * z)) by ring. lra.
  - setoid_replace (3 * (x * x + y * y + z * z)) with ((x + y + z) * (x + y + z) + ((x - y) * (x - y) + (x - z) * (x - z) + (y - z) * (y - z))) by ring. lra.
Qed.
Print Assumptions distances_compare.
Definition here : point := fun i => nth i [1; 2; 3] 0.
Definition there : point := fun i => nth i [4; -2; 3] 0.
Example distances_ex : distance here there == 25 /\ mdistance here there == 7 /\ ~ same_point here there.
Proof. split; [reflexivity|]. split; [reflexivity|]. intro S. specialize (S 0%nat ltac:(lia)). vm_compute in S. discriminate S. Qed.
