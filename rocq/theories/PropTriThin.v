(** C64, further: a second triangle without area. *)
From Coq Require Import QArith List Bool Lqa Setoid.
From Verif Require Import AabModel AabProofs SegDistModel SegDistProofs TriIntModel TriIntProofs TriFlatProofs.
Import ListNotations.
Open Scope Q_scope.

Lemma thin_no_point i0 i1 U X : area i0 i1 U == 0 -> point_in_tri i0 i1 X (U AX) (U AY) (U AZ) = false.
Proof.
  intros Z. unfold point_in_tri.
  set (a := side i0 i1 (U AX) (U AY) X). set (b := side i0 i1 (U AY) (U AZ) X). set (c := side i0 i1 (U AZ) (U AX) X).
  assert (S : a + b + c == 0).
  { assert (E : a + b + c == - area i0 i1 U) by (unfold a, b, c, side, area, cr, edge, vsub; cbn [nxt]; ring). rewrite E, Z. reflexivity. }
  clearbody a b c. destruct (Qltb_spec 0 (a * b)) as [H|H]; [|reflexivity]. destruct (Qltb_spec 0 (a * c)) as [K|K]; [|reflexivity]. exfalso.
  assert (T : a * b + a * c == - (a * a)) by (assert (R : c == - a - b) by lra; rewrite R; ring).
  pose proof (sq_nonneg a). lra.
Qed.

Lemma flat_sound C1 P1 P2 D1 Q1 Q2 : ~ (forall i, vcross P1 P2 i == 0) ->
  vdot (vcross P1 P2) Q1 == 0 -> vdot (vcross P1 P2) Q2 == 0 ->
  TriInt C1 P1 P2 D1 Q1 Q2 = true -> share C1 P1 P2 D1 Q1 Q2.
Proof.
  intros NP H1 H2 T. set (N := vcross P1 P2) in *.
  destruct (cross_perp P1 P2) as [G1 G2]. fold N in G1, G2.
  assert (Q : vdot N (vsub D1 C1) == 0 /\
     coplanar_tri_tri N (tri C1 P1 P2 AX) (tri C1 P1 P2 AY) (tri C1 P1 P2 AZ) (tri D1 Q1 Q2 AX) (tri D1 Q1 Q2 AY) (tri D1 Q1 Q2 AZ) = true).
  { revert T. unfold TriInt. cbv zeta.
    match goal with |- (if Qeq_bool ?x 0 && Qeq_bool ?y 0 then _ else _) = _ -> _ =>
      assert (E1 : x == 0) by (rewrite <- H1; unfold N, vdot, sum3, vcross, v3; ring);
      assert (E2 : y == 0) by (rewrite <- H2; unfold N, vdot, sum3, vcross, v3; ring) end.
    apply Qeq_bool_iff in E1. apply Qeq_bool_iff in E2. rewrite E1, E2. cbn [andb]. fold N.
    match goal with |- (if negb (Qeq_bool ?x 0) then _ else _) = _ -> _ =>
      assert (E3 : x == - vdot N (vsub D1 C1)) by (unfold N, vdot, sum3, vcross, v3; ring); revert E3; generalize x end.
    intros x E3. unfold tri, corners. destruct (Qeq_bool x 0) eqn:Z; cbn [negb]; [|intros K; discriminate K].
    apply Qeq_bool_iff in Z. intros K. split; [lra|exact K]. }
  destruct Q as [Z C]. clear T.
  assert (ED : vdot N (vsub D1 C1) == vdot N D1 - vdot N C1) by (unfold vdot, sum3, vsub; ring).
  assert (EP : vdot N D1 == vdot N C1) by lra.
  destruct (kept_frame N NP) as (k & F & Nk). revert C. unfold coplanar_tri_tri.
  destruct (kept_axes N) as [i0 i1]. cbn [fst snd] in F.
  assert (NV : ~ area i0 i1 (tri C1 P1 P2) == 0) by (rewrite <- (frame_area i0 i1 k C1 P1 P2 F); exact Nk).
  rewrite !orb_true_iff.
  assert (Edge : forall kk, edge_tri i0 i1 (tri C1 P1 P2 kk) (tri C1 P1 P2 (nxt kk)) (tri D1 Q1 Q2 AX) (tri D1 Q1 Q2 AY) (tri D1 Q1 Q2 AZ) = true ->
            share C1 P1 P2 D1 Q1 Q2).
  { intros kk H. apply (proj1 (edge_tri_iff i0 i1 (tri C1 P1 P2) (tri D1 Q1 Q2) kk)) in H. destruct H as (j & _ & s & q & Us & Uq & E).
    exists (at_ (tri C1 P1 P2 kk) (edge (tri C1 P1 P2) kk) s).
    pose proof (on_edge_in_tri C1 P1 P2 kk s Us) as I1. pose proof (on_edge_in_tri D1 Q1 Q2 j q Uq) as I2.
    split; [exact I1|]. apply (in_tri_comp _ _ _ (at_ (tri D1 Q1 Q2 j) (edge (tri D1 Q1 Q2) j) q)); [|exact I2].
    apply (frame_plane i0 i1 k N _ _ F Nk); [|split; symmetry; apply E].
    rewrite (in_tri_plane N _ _ _ _ G1 G2 I1), (in_tri_plane N _ _ _ _ H1 H2 I2). exact EP. }
  intros [[[[H|H]|H]|H]|H].
  - exact (Edge AX H).
  - exact (Edge AY H).
  - exact (Edge AZ H).
  - destruct (Qeq_dec (area i0 i1 (tri D1 Q1 Q2)) 0) as [A|A].
    + rewrite (thin_no_point i0 i1 _ _ A) in H. discriminate H.
    + pose proof (proj1 (point_in_tri_iff i0 i1 _ _ A) H) as W. exists C1. split; [apply in_tri_corner|].
      apply (inside_in_tri i0 i1 k N); try assumption; [symmetry; exact EP|]. intros j. specialize (W j). apply Qlt_le_weak. exact W.
  - pose proof (proj1 (point_in_tri_iff i0 i1 _ _ NV) H) as W. exists D1. split; [|apply in_tri_corner].
    apply (inside_in_tri i0 i1 k N); try assumption. intros j. specialize (W j). apply Qlt_le_weak. exact W.
Qed.

(** C64, what holds: if the first triangle has an area, the answer "intersecting" is right whatever the
    second one is. *)
Theorem triint_degenerate_partial C1 P1 P2 D1 Q1 Q2 : ~ (forall i, vcross P1 P2 i == 0) ->
  TriInt C1 P1 P2 D1 Q1 Q2 = true -> share C1 P1 P2 D1 Q1 Q2.
Proof.
  intros NP T. destruct (Qeq_dec (vdot (vcross P1 P2) Q1) 0) as [E1|E1]; [destruct (Qeq_dec (vdot (vcross P1 P2) Q2) 0) as [E2|E2]|].
  - exact (flat_sound C1 P1 P2 D1 Q1 Q2 NP E1 E2 T).
  - apply (tri_sound C1 P1 P2 D1 Q1 Q2); [tauto|exact T].
  - apply (tri_sound C1 P1 P2 D1 Q1 Q2); [tauto|exact T].
Qed.
Print Assumptions triint_degenerate_partial.
(** A line lying across the first triangle, in its plane. *)
Example triint_thin_case : ~ (forall i, vcross (v3 4 0 0) (v3 0 4 0) i == 0) /\ (forall i, vcross (v3 1 0 0) (v3 8 0 0) i == 0)
  /\ TriInt (v3 0 0 0) (v3 4 0 0) (v3 0 4 0) (v3 (-(1)) 1 0) (v3 1 0 0) (v3 8 0 0) = true.
Proof.
  split; [intros H; specialize (H AZ); vm_compute in H; discriminate H|]. split; [intros []; reflexivity|reflexivity].
Qed.

(** The answer "disjoint" can be wrong for it: a needle through the middle of the first triangle. *)
Theorem triint_needle_refuted : exists C1 P1 P2 D1 Q1 Q2, ~ (forall i, vcross P1 P2 i == 0) /\ (forall i, vcross Q1 Q2 i == 0)
  /\ TriInt C1 P1 P2 D1 Q1 Q2 = false /\ exists a b c, 0 < a /\ 0 < b /\ a + b < 1 /\ 0 < c < 1
     /\ forall i, C1 i + a * P1 i + b * P2 i == D1 i + c * Q1 i.
Proof.
  exists (v3 0 0 0), (v3 4 0 0), (v3 0 4 0), (v3 1 1 (-(1))), (v3 0 0 2), (v3 0 0 3).
  split; [intros H; specialize (H AZ); vm_compute in H; discriminate H|]. split; [intros []; reflexivity|]. split; [reflexivity|].
  exists (1 # 4), (1 # 4), (1 # 2). split; [reflexivity|]. split; [reflexivity|]. split; [reflexivity|]. split; [split; reflexivity|]. intros []; reflexivity.
Qed.
Print Assumptions triint_needle_refuted.
