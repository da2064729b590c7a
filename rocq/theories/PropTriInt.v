(** C39, C40, C63-C66: intersection of triangles. *)
From Coq Require Import QArith List Bool Arith Lia Lqa Permutation.
From Verif Require Import AabModel AabProofs SegDistModel SegDistProofs TriIntModel TriIntProofs TriFlatProofs TriSetProofs.
Import ListNotations.
Open Scope Q_scope.

(** C39 is false.  Two triangles of positive area in different planes share a point, yet the answer
    is "disjoint": the first triangle is parallel to the z axis. *)
Definition crossing (C1 P1 P2 D1 Q1 Q2 : vec) : Prop :=
  ~ (vdot (vcross P1 P2) Q1 == 0 /\ vdot (vcross P1 P2) Q2 == 0) /\
  ~ (forall i, vcross P1 P2 i == 0) /\ ~ (forall i, vcross Q1 Q2 i == 0) /\ share C1 P1 P2 D1 Q1 Q2.
Ltac crossing_by X a b a' b' :=
  split; [intros [E1 E2]; vm_compute in E1, E2; discriminate|];
  split; [intros E; first [specialize (E AX); vm_compute in E; discriminate | specialize (E AY); vm_compute in E; discriminate | specialize (E AZ); vm_compute in E; discriminate]|];
  split; [intros E; first [specialize (E AX); vm_compute in E; discriminate | specialize (E AY); vm_compute in E; discriminate | specialize (E AZ); vm_compute in E; discriminate]|];
  exists X; split; [exists a, b|exists a', b']; (split; [unfold bary; lra|intros []; vm_compute; reflexivity]).

Theorem triint_sound_refuted : exists C1 P1 P2 D1 Q1 Q2,
  crossing C1 P1 P2 D1 Q1 Q2 /\ TriInt C1 P1 P2 D1 Q1 Q2 = false.
Proof.
  exists (v3 0 0 0), (v3 1 0 0), (v3 0 0 1), (v3 (1 # 4) (-1) (1 # 4)), (v3 0 2 0), (v3 (1 # 4) 2 0).
  split; [|vm_compute; reflexivity]. crossing_by (v3 (1 # 4) 0 (1 # 4)) (1 # 4) (1 # 4) (1 # 2) 0.
Qed.
Print Assumptions triint_sound_refuted.
(** Also when a corner of the second triangle touches the inside of the first ... *)
Theorem triint_touch_refuted : exists C1 P1 P2 D1 Q1 Q2,
  crossing C1 P1 P2 D1 Q1 Q2 /\ ~ vcross P1 P2 AZ == 0 /\ TriInt C1 P1 P2 D1 Q1 Q2 = false.
Proof.
  exists (v3 0 0 0), (v3 1 0 0), (v3 0 1 0), (v3 (1 # 4) (1 # 4) 0), (v3 0 0 1), (v3 1 0 1).
  split; [|split; [vm_compute; discriminate|vm_compute; reflexivity]].
  crossing_by (v3 (1 # 4) (1 # 4) 0) (1 # 4) (1 # 4) 0 0.
Qed.
Print Assumptions triint_touch_refuted.
(** ... and when the second triangle crosses the inside of the first in a line pointing to its first
    corner. *)
Theorem triint_corner_refuted : exists C1 P1 P2 D1 Q1 Q2,
  crossing C1 P1 P2 D1 Q1 Q2 /\ ~ vcross P1 P2 AZ == 0 /\
  ~ height C1 P1 P2 D1 == 0 /\ ~ height C1 P1 P2 (vadd D1 Q1) == 0 /\ ~ height C1 P1 P2 (vadd D1 Q2) == 0 /\
  TriInt C1 P1 P2 D1 Q1 Q2 = false.
Proof.
  exists (v3 0 0 0), (v3 1 0 0), (v3 0 1 0), (v3 (1 # 4) (1 # 4) (-1)), (v3 (1 # 8) (1 # 8) 2), (v3 (1 # 16) (1 # 16) 2).
  split; [|repeat split; try (vm_compute; discriminate); vm_compute; reflexivity].
  crossing_by (v3 (5 # 16) (5 # 16) 0) (5 # 16) (5 # 16) (1 # 2) 0.
Qed.
Print Assumptions triint_corner_refuted.

(** C39, the part that holds: "intersecting" is always right for triangles of positive area,
    "disjoint" is right for triangles in general position.  Missing: first triangles parallel to the
    z axis, corners of the second triangle in the plane of the first, and the first corner of the
    first triangle in the plane of the second. *)
Theorem triint_sound_partial : forall C1 P1 P2 D1 Q1 Q2,
  ~ (forall i, vcross P1 P2 i == 0) -> ~ (forall i, vcross Q1 Q2 i == 0) ->
  (TriInt C1 P1 P2 D1 Q1 Q2 = true -> share C1 P1 P2 D1 Q1 Q2) /\
  (~ vcross P1 P2 AZ == 0 ->
   ~ height C1 P1 P2 D1 == 0 -> ~ height C1 P1 P2 (vadd D1 Q1) == 0 -> ~ height C1 P1 P2 (vadd D1 Q2) == 0 ->
   ~ height D1 Q1 Q2 C1 == 0 ->
   TriInt C1 P1 P2 D1 Q1 Q2 = false -> ~ share C1 P1 P2 D1 Q1 Q2).
Proof.
  intros C1 P1 P2 D1 Q1 Q2 NP NQ. split.
  - destruct (Qeq_dec (vdot (vcross P1 P2) Q1) 0) as [E1|E1]; [destruct (Qeq_dec (vdot (vcross P1 P2) Q2) 0) as [E2|E2]|].
    + apply (flat_exact C1 P1 P2 D1 Q1 Q2 NP NQ E1 E2).
    + apply tri_sound. tauto.
    + apply tri_sound. tauto.
  - intros H1 H2 H3 H4 H5 F S. rewrite (tri_complete C1 P1 P2 D1 Q1 Q2 H1 H2 H3 H4 H5 S) in F. discriminate.
Qed.
Print Assumptions triint_sound_partial.
Definition ex_c := v3 0 0 0. Definition ex_p1 := v3 4 0 1. Definition ex_p2 := v3 0 4 1.
Definition ex_d := v3 1 1 (-(3)). Definition ex_q1 := v3 1 0 7. Definition ex_q2 := v3 0 2 6.
Example triint_sound_nonvacuous :
  ~ (forall i, vcross ex_p1 ex_p2 i == 0) /\ ~ (forall i, vcross ex_q1 ex_q2 i == 0) /\ ~ vcross ex_p1 ex_p2 AZ == 0 /\
  ~ height ex_c ex_p1 ex_p2 ex_d == 0 /\ ~ height ex_c ex_p1 ex_p2 (vadd ex_d ex_q1) == 0 /\
  ~ height ex_c ex_p1 ex_p2 (vadd ex_d ex_q2) == 0 /\ ~ height ex_d ex_q1 ex_q2 ex_c == 0 /\
  TriInt ex_c ex_p1 ex_p2 ex_d ex_q1 ex_q2 = true /\ TriInt ex_c ex_p1 ex_p2 (vadd ex_d (v3 9 0 0)) ex_q1 ex_q2 = false.
Proof.
  repeat split; try (vm_compute; discriminate); try (vm_compute; reflexivity).
  - intros H. specialize (H AZ). vm_compute in H. discriminate.
  - intros H. specialize (H AZ). vm_compute in H. discriminate.
Qed.

(** C63.  Triangles of positive area in parallel planes: the answer is exact, also for touching,
    nested and overlapping triangles of the same plane. *)
Theorem triint_parallel_exact : forall C1 P1 P2 D1 Q1 Q2,
  ~ (forall i, vcross P1 P2 i == 0) -> ~ (forall i, vcross Q1 Q2 i == 0) ->
  vdot (vcross P1 P2) Q1 == 0 -> vdot (vcross P1 P2) Q2 == 0 ->
  (TriInt C1 P1 P2 D1 Q1 Q2 = true <->
   exists X, in_tri C1 P1 P2 X /\ in_tri D1 Q1 Q2 X).
Proof. exact flat_exact. Qed.
Print Assumptions triint_parallel_exact.
Definition fl_c := v3 0 0 0. Definition fl_p1 := v3 4 0 4. Definition fl_p2 := v3 0 4 4.
Definition fl_d := v3 1 1 2. Definition fl_q1 := v3 1 0 1. Definition fl_q2 := v3 0 1 1.
Example triint_parallel_nonvacuous :
  ~ (forall i, vcross fl_p1 fl_p2 i == 0) /\ ~ (forall i, vcross fl_q1 fl_q2 i == 0) /\
  vdot (vcross fl_p1 fl_p2) fl_q1 == 0 /\ vdot (vcross fl_p1 fl_p2) fl_q2 == 0 /\
  TriInt fl_c fl_p1 fl_p2 fl_d fl_q1 fl_q2 = true /\ TriInt fl_c fl_p1 fl_p2 (vadd fl_d (v3 2 2 4)) fl_q1 fl_q2 = false.
Proof.
  split; [intros H; specialize (H AZ); vm_compute in H; discriminate|].
  split; [intros H; specialize (H AZ); vm_compute in H; discriminate|]. vm_compute; repeat split; reflexivity.
Qed.

(** C64 is false: with a first triangle of no area the answer can be "intersecting" although the two
    triangles lie five apart. *)
Theorem triint_degenerate_refuted : exists C1 P1 P2 D1 Q1 Q2,
  TriInt C1 P1 P2 D1 Q1 Q2 = true /\
  forall X Y, in_tri C1 P1 P2 X -> in_tri D1 Q1 Q2 Y -> X AY + 5 <= Y AY.
Proof.
  exists (v3 0 0 0), (v3 1 0 1), (v3 2 0 2), (v3 0 5 1), (v3 1 0 (-(1))), (v3 0 3 (-(1))).
  split; [vm_compute; reflexivity|]. intros X Y (a & b & (A & B & S) & E) (c & d & (C & D & T) & F).
  rewrite (E AY), (F AY). unfold tri_point, v3. lra.
Qed.
Print Assumptions triint_degenerate_refuted.

(** C40.  Two buffers of triangles are reported intersecting exactly when some pair is. *)
Theorem triint_single_disjunction : forall l1 l2,
  TriInt_single (tri_buffer l1) (tri_buffer l2) (length l1) (length l2) = true <->
  exists t1 t2, In t1 l1 /\ In t2 l2 /\ tri_pair t1 t2 = true.
Proof. exact single_iff. Qed.
Print Assumptions triint_single_disjunction.
Definition ex_t1 : triangle := ((0, 0, 0), (4, 0, 1), (0, 4, 1)).
Definition ex_t2 : triangle := ((1, 1, -(3)), (1, 0, 7), (0, 2, 6)).
Definition ex_t3 : triangle := ((10, 1, -(3)), (1, 0, 7), (0, 2, 6)).
Example triint_single_nonvacuous :
  TriInt_single (tri_buffer [ex_t3; ex_t1]) (tri_buffer [ex_t3; ex_t3; ex_t2]) 2 3 = true /\
  TriInt_single (tri_buffer [ex_t1; ex_t2]) (tri_buffer [ex_t3]) 2 1 = false.
Proof. vm_compute; split; reflexivity. Qed.

(** C65.  An "intersecting" answer for two sets of triangles of positive area is always right. *)
Theorem triint_sets_sound : forall l1 l2, Forall solid l1 -> Forall solid l2 ->
  TriInt_single (tri_buffer l1) (tri_buffer l2) (length l1) (length l2) = true ->
  exists t1 t2, In t1 l1 /\ In t2 l2 /\ tri_share t1 t2.
Proof.
  intros l1 l2 S1 S2 H. apply single_iff in H as (t1 & t2 & I1 & I2 & H). exists t1, t2. split; [exact I1|split; [exact I2|]].
  pose proof (proj1 (Forall_forall _ _) S1 t1 I1) as N1. pose proof (proj1 (Forall_forall _ _) S2 t2 I2) as N2.
  destruct t1 as [[c p] r], t2 as [[d q] s]. cbn in *. exact (proj1 (triint_sound_partial _ _ _ _ _ _ N1 N2) H).
Qed.
Print Assumptions triint_sets_sound.
Example triint_sets_nonvacuous : Forall solid [ex_t3; ex_t1] /\ Forall solid [ex_t3; ex_t2].
Proof.
  split; (constructor; [|constructor; [|constructor]]); intros H; specialize (H AZ); vm_compute in H; discriminate.
Qed.

(** C66.  The device computes, for every pair of triangle ranges and in whatever order its threads
    run, whether some triangle of the first range meets one of the second. *)
Theorem triint_device_batch : forall l os pair_num order intersect k,
  Permutation order (tri_grid (N.to_nat 1024%N) pair_num) -> length intersect = pair_num -> (k < pair_num)%nat ->
  (os_at os (k * 4) + os_at os (k * 4 + 1) <= length l)%nat ->
  (os_at os (k * 4 + 2) + os_at os (k * 4 + 3) <= length l)%nat ->
  (nth_error (tri_batch (tri_buffer l) os pair_num order intersect) k = Some true <->
   exists t1 t2, In t1 (firstn (os_at os (k * 4 + 1)) (skipn (os_at os (k * 4)) l)) /\
     In t2 (firstn (os_at os (k * 4 + 3)) (skipn (os_at os (k * 4 + 2)) l)) /\ tri_pair t1 t2 = true).
Proof.
  intros l os n order inter k P L Hk B1 B2.
  destruct (tri_batch_spec (tri_buffer l) os n order inter L) as [LL T]. rewrite <- (kernel_iff l os k B1 B2).
  rewrite (nth_error_nth' _ true) by lia. rewrite (T k Hk).
  assert (E : existsb (Nat.eqb k) order = true).
  { apply existsb_exists. exists k. split; [|apply Nat.eqb_refl]. apply (Permutation_in k (Permutation_sym P)).
    apply grid_covers; [lia|exact Hk]. }
  rewrite E. split; [injection 1 as H; exact H|intros H; rewrite H; reflexivity].
Qed.
Print Assumptions triint_device_batch.
Example triint_device_nonvacuous :
  tri_batch (tri_buffer [ex_t1; ex_t3; ex_t2]) [0; 1; 1; 1; 0; 1; 1; 2]%nat 2 (rev (tri_grid 4 2)) [true; false] = [false; true].
Proof. vm_compute; reflexivity. Qed.
