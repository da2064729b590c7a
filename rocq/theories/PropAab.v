(** C16-C19: axis-aligned boxes. *)
From Coq Require Import QArith List Bool Lqa.
From Verif Require Import AabModel AabProofs.
Import ListNotations.
Open Scope Q_scope.

(** C16.  The reported minimum is below the squared distance of any two points of the boxes, some
    pair attains it, and it does not depend on the order of the boxes. *)
Theorem box_mindist_tight : forall b c, wf b -> wf c ->
  (forall p q, inside p b -> inside q c -> mindist (distance b c) <= dist2 p q) /\
  (exists p q, inside p b /\ inside q c /\ dist2 p q == mindist (distance b c)) /\
  mindist (distance b c) == mindist (distance c b).
Proof.
  exact (fun b c Hb Hc => conj (mindist_lower b c) (conj (mindist_attained b c Hb Hc) (proj1 (distance_sym b c Hb Hc)))).
Qed.
Print Assumptions box_mindist_tight.
Definition box_a : aab := Aab (v3 0 0 0) (v3 1 2 3).
Definition box_b : aab := Aab (v3 (5 # 2) 1 (-(4))) (v3 4 7 (-(1))).
Example mindist_nonvacuous : wf box_a /\ wf box_b /\ mindist (distance box_a box_b) == 13 # 4.
Proof. split; [|split]; [intros []; cbn; lra|intros []; cbn; lra|vm_compute; reflexivity]. Qed.

(** C17 is false: the reported maximum is the squared distance of the box centres, and two closed
    surfaces, one inside the other, are farther apart than that. *)
Theorem box_maxdist_bound_refuted : exists (A B : vec -> Prop) (b c : aab), is_box_of A b /\ is_box_of B c /\
  (exists p, A p) /\ (exists q, B q) /\ forall p q, A p -> B q -> maxdist (distance b c) < dist2 p q.
Proof. exact upper_refuted. Qed.
Print Assumptions box_maxdist_bound_refuted.

(** C17, the part that holds: objects containing the centre of their box are at most that far
    apart, and the range is never inverted.  Missing: objects that do not contain the centre. *)
Theorem box_maxdist_bound_partial : forall b c, wf b -> wf c ->
  mindist (distance b c) <= maxdist (distance b c) /\
  forall A B : vec -> Prop, A (centre b) -> B (centre c) -> exists p q, A p /\ B q /\ dist2 p q <= maxdist (distance b c).
Proof. exact (fun b c Hb Hc => conj (mindist_le_maxdist b c Hb Hc) (fun A B HA HB => upper_solid A B b c HA HB)). Qed.
Print Assumptions box_maxdist_bound_partial.
Example maxdist_nonvacuous : inside (centre box_a) box_a /\ inside (centre box_b) box_b /\ 25 < maxdist (distance box_a box_b).
Proof.
  split; [|split]; [intros []; unfold centre, box_a; cbn [bmin bmax v3]; lra|intros []; unfold centre, box_b; cbn [bmin bmax v3]; lra|vm_compute; reflexivity].
Qed.

(** C18.  A box grown by points and boxes contains them all and lies in every box that does. *)
Theorem accumulated_box_least : forall l, l <> [] -> exists b, fold_left acc l None = Some b /\
  Forall (covers b) l /\ forall c, Forall (covers c) l -> within b c.
Proof. exact accumulate_least. Qed.
Print Assumptions accumulated_box_least.
(** Order and repetition do not matter. *)
Theorem accumulated_box_order_irrelevant : forall l l' b c, (forall i, In i l <-> In i l') ->
  fold_left acc l None = Some b -> fold_left acc l' None = Some c -> same_box b c.
Proof. exact accumulate_order. Qed.
Print Assumptions accumulated_box_order_irrelevant.
Example accumulated_nonvacuous :
  match fold_left acc [IPoint (v3 1 2 3); IBox box_a; IPoint (v3 (-(1)) 5 0)] None with
  | Some b => same_box b (Aab (v3 (-(1)) 0 0) (v3 1 5 3))
  | None => False
  end.
Proof. cbn. intros []; split; vm_compute; reflexivity. Qed.

(** C19.  For boxes with positive thickness the overlap test holds exactly when the open boxes share
    a point; it is symmetric; a thick box overlaps every box containing it. *)
Theorem overlap_test_exact : forall b c, thick b -> thick c ->
  (intersect b c = true <-> exists p, strictly_inside p b /\ strictly_inside p c).
Proof. exact intersect_exact. Qed.
Print Assumptions overlap_test_exact.
Theorem overlap_test_symmetric : forall b c, intersect b c = intersect c b.
Proof. exact intersect_sym. Qed.
Print Assumptions overlap_test_symmetric.
Theorem overlap_with_container : forall b c, contains b c = true -> thick c -> intersect b c = true.
Proof. exact (fun b c H => intersect_container b c (proj1 (contains_spec b c) H)). Qed.
Print Assumptions overlap_with_container.
Example overlap_nonvacuous : thick box_a /\ thick (Aab (v3 (1 # 2) 1 1) (v3 4 7 8)) /\
  intersect box_a (Aab (v3 (1 # 2) 1 1) (v3 4 7 8)) = true /\ intersect box_a box_b = false /\
  contains outer inner = true /\ thick inner.
Proof. split; [intros []; cbn; lra|]. split; [intros []; cbn; lra|]. split; [reflexivity|]. split; [reflexivity|]. split; [reflexivity|intros []; cbn; lra]. Qed.

(** C19 without thickness: a flat box on the side of the box containing it does not overlap it. *)
Theorem overlap_flat_refuted : exists b c, contains b c = true /\ wf c /\ intersect b c = false.
Proof.
  exists outer, (Aab (v3 0 1 1) (v3 0 2 2)). split; [reflexivity|]. split; [intros []; cbn; lra|reflexivity].
Qed.
Print Assumptions overlap_flat_refuted.

(** C76.  Of two ranges that are not inverted, exactly one of "nearer", "farther" and "equal" holds
    ("equal" means that they meet); a nearer range lies below the other altogether. *)
Definition between (x : Q) (r : range) : Prop := mindist r <= x <= maxdist r.
Theorem range_comparison_exact : forall r d, mindist r <= maxdist r -> mindist d <= maxdist d ->
  (range_lt r d = true <-> forall x y, between x r -> between y d -> x < y) /\
  (range_gt r d = true <-> forall x y, between x r -> between y d -> y < x) /\
  (range_eq r d = true <-> exists x, between x r /\ between x d) /\
  (range_lt r d && range_gt r d = false) /\ (range_eq r d = negb (range_lt r d || range_gt r d)) /\
  range_lt d r = range_gt r d /\ range_eq d r = range_eq r d.
Proof.
  intros r d Hr Hd. unfold range_lt, range_gt, range_eq, between.
  destruct (Qltb_spec (maxdist r) (mindist d)) as [A|A]; destruct (Qltb_spec (maxdist d) (mindist r)) as [B|B]; try (exfalso; lra); cbn [orb andb negb].
  - split; [split; [intros _ x y ? ?; lra|auto]|]. split; [split; [discriminate|intro H; specialize (H (mindist r) (mindist d) ltac:(lra) ltac:(lra)); lra]|].
    split; [split; [discriminate|intros (x & ? & ?); lra]|]. auto.
  - split; [split; [discriminate|intro H; specialize (H (mindist r) (mindist d) ltac:(lra) ltac:(lra)); lra]|]. split; [split; [intros _ x y ? ?; lra|auto]|].
    split; [split; [discriminate|intros (x & ? & ?); lra]|]. auto.
  - split; [split; [discriminate|intro H; specialize (H (maxdist r) (mindist d) ltac:(lra) ltac:(lra)); lra]|].
    split; [split; [discriminate|intro H; specialize (H (mindist r) (maxdist d) ltac:(lra) ltac:(lra)); lra]|].
    split; [|auto]. split; [intros _|auto]. destruct (Qlt_le_dec (mindist r) (mindist d)); [exists (mindist d)|exists (mindist r)]; lra.
Qed.
Print Assumptions range_comparison_exact.

(** C76.  Merging ranges keeps the smaller lower and the smaller upper end. *)
Theorem range_update_smallest : forall l d,
  let r := fold_left range_update l d in
  (forall e, In e (d :: l) -> mindist r <= mindist e /\ maxdist r <= maxdist e) /\
  (exists e, In e (d :: l) /\ mindist r == mindist e) /\ (exists e, In e (d :: l) /\ maxdist r == maxdist e).
Proof.
  intros l. cbv zeta. induction l as [|c l IH]; intro d; cbn [fold_left].
  - split; [intros e [<-|[]]; lra|]. split; exists d; (split; [left; reflexivity|lra]).
  - destruct (IH (range_update d c)) as (A & (e1 & E1 & M1) & (e2 & E2 & M2)).
    assert (U : mindist (range_update d c) <= mindist d /\ mindist (range_update d c) <= mindist c /\ maxdist (range_update d c) <= maxdist d /\ maxdist (range_update d c) <= maxdist c).
    { unfold range_update; cbn [mindist maxdist]. destruct (Qltb_spec (mindist c) (mindist d)); destruct (Qltb_spec (maxdist c) (maxdist d)); repeat split; lra. }
    assert (V : (mindist (range_update d c) == mindist d \/ mindist (range_update d c) == mindist c) /\ (maxdist (range_update d c) == maxdist d \/ maxdist (range_update d c) == maxdist c)).
    { unfold range_update; cbn [mindist maxdist]. destruct (Qltb (mindist c) (mindist d)); destruct (Qltb (maxdist c) (maxdist d)); split; (left; reflexivity) || (right; reflexivity). }
    split; [|split].
    + intros e [<-|[<-|H]].
      * specialize (A _ (or_introl eq_refl)). lra.
      * specialize (A _ (or_introl eq_refl)). lra.
      * apply A. right. exact H.
    + destruct E1 as [<-|H]; [|exists e1; split; [right; right; exact H|lra]].
      destruct (proj1 V) as [X|X]; [exists d|exists c]; (split; [cbn; auto|lra]).
    + destruct E2 as [<-|H]; [|exists e2; split; [right; right; exact H|lra]].
      destruct (proj2 V) as [X|X]; [exists d|exists c]; (split; [cbn; auto|lra]).
Qed.
Print Assumptions range_update_smallest.
Example range_nonvacuous : mindist (Range 1 2) <= maxdist (Range 1 2) /\ range_lt (Range 1 2) (Range 3 5) = true /\
  range_eq (Range 1 4) (Range 3 5) = true /\ range_gt (Range 6 7) (Range 3 5) = true.
Proof. split; [cbn; lra|]. split; [reflexivity|]. split; reflexivity. Qed.

(** C77.  Volume and squared diagonal: not negative, growing with the box, unchanged by a
    translation; the volume of a box cut in two by a plane is the sum of the two volumes; the
    squared diagonal is the largest squared distance of two of its points. *)
Lemma mult_mono a b c d : 0 <= a -> a <= b -> 0 <= c -> c <= d -> 0 <= a * c /\ a * c <= b * d.
Proof.
  intros A B C D. split; [apply Qmult_le_0_compat; auto|].
  apply Qle_trans with (b * c); [apply Qmult_le_compat_r; auto|]. rewrite !(Qmult_comm b). apply Qmult_le_compat_r; [auto|lra].
Qed.
Theorem volume_monotone : forall b c, wf c -> contains b c = true ->
  0 <= volume c /\ volume c <= volume b /\ 0 <= diagonal_length c /\ diagonal_length c <= diagonal_length b.
Proof.
  intros b c W H. apply contains_spec in H. unfold volume, diagonal_length, sum3.
  assert (E : forall a, 0 <= bmax c a - bmin c a /\ bmax c a - bmin c a <= bmax b a - bmin b a).
  { intro a. specialize (W a). specialize (H a). lra. }
  pose proof (fun a => mult_mono _ _ _ _ (proj1 (E a)) (proj2 (E a)) (proj1 (E a)) (proj2 (E a))) as S.
  destruct (mult_mono _ _ _ _ (proj1 (E AX)) (proj2 (E AX)) (proj1 (E AY)) (proj2 (E AY))) as [P1 P2].
  destruct (mult_mono _ _ _ _ P1 P2 (proj1 (E AZ)) (proj2 (E AZ))) as [P3 P4].
  split; [exact P3|]. split; [exact P4|]. pose proof (S AX). pose proof (S AY). pose proof (S AZ). split; lra.
Qed.
Print Assumptions volume_monotone.
(** The two parts of a box left and right of the plane at [x] on axis [a]. *)
Definition set_axis (v : vec) (a : axis) (x : Q) : vec := fun a' => match a, a' with AX, AX => x | AY, AY => x | AZ, AZ => x | _, _ => v a' end.
Theorem volume_additive : forall b a x,
  volume b == volume (Aab (bmin b) (set_axis (bmax b) a x)) + volume (Aab (set_axis (bmin b) a x) (bmax b)).
Proof. intros b a x. unfold volume. cbn [bmin bmax]. destruct a; cbn [set_axis]; ring. Qed.
Print Assumptions volume_additive.
Theorem volume_unit : forall x y z, volume (Aab (v3 x y z) (v3 (x + 1) (y + 1) (z + 1))) == 1.
Proof. intros. unfold volume. cbn [bmin bmax v3]. ring. Qed.
Print Assumptions volume_unit.
Lemma sq_le t e : - e <= t -> t <= e -> t * t <= e * e.
Proof.
  intros A B. assert (0 <= (e - t) * (e + t)) by (apply Qmult_le_0_compat; lra).
  assert ((e - t) * (e + t) == e * e - t * t) by ring. lra.
Qed.
Theorem diagonal_is_diameter : forall b, wf b ->
  (forall p q, inside p b -> inside q b -> dist2 p q <= diagonal_length b) /\
  (exists p q, inside p b /\ inside q b /\ dist2 p q == diagonal_length b).
Proof.
  intros b W. split.
  - intros p q P H. unfold dist2, diagonal_length, sum3.
    assert (S : forall a, (p a - q a) * (p a - q a) <= (bmax b a - bmin b a) * (bmax b a - bmin b a)).
    { intro a. specialize (P a). specialize (H a). apply sq_le; lra. }
    pose proof (S AX). pose proof (S AY). pose proof (S AZ). lra.
  - exists (bmax b), (bmin b). split; [|split].
    + intro a. specialize (W a). lra.
    + intro a. specialize (W a). lra.
    + unfold dist2, diagonal_length, sum3. lra.
Qed.
Print Assumptions diagonal_is_diameter.
Example volume_nonvacuous : wf inner /\ contains outer inner = true /\ volume (Aab (v3 0 0 0) (v3 2 3 4)) == 24 /\ diagonal_length (Aab (v3 0 0 0) (v3 2 3 4)) == 29.
Proof. split; [intros []; cbn; lra|]. split; [reflexivity|]. split; reflexivity. Qed.
