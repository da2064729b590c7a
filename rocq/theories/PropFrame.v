(** C203: the local frame of a gate. *)
From Coq Require Import QArith Qround ZArith List Bool Lia Lqa Setoid.
From Verif Require Import AabModel SegDistModel TriIntModel RotModel RotProofs PropRotFrame FrameModel.
Open Scope Q_scope.

(** C203, what holds.  If the normal has length 1 and the gate is not along it, the two tangents and the normal are at
    right angles, of length 1 and right-handed, and the first tangent is the gate without its part along the normal.
    [r] is the length of that part of the gate. *)
Theorem frame_orthonormal_partial : forall L P Q0 normal r,
  (forall q s, 0 <= s -> s * s == q -> l_sqrt L q == s) -> vdot normal normal == 1 ->
  0 < r -> r * r == vdot (gateVector P Q0) (gateVector P Q0) - vdot (gateVector P Q0) normal * vdot (gateVector P Q0) normal ->
  let T1 := frame_t1 L P Q0 normal in let T2 := frame_t2 L P Q0 normal in
  orthonormal T1 T2 normal /\ veq (cross_product T1 T2) normal /\
  (exists k, forall a, P a - Q0 a == r * T1 a + k * normal a).
Proof.
  intros L P Q0 n r S N R E T1 T2. set (g := gateVector P Q0) in *. set (d := vdot g n) in *.
  assert (F : vdot (flat_part g n) (flat_part g n) == r * r).
  { rewrite E. transitivity (vdot g g - 2 * d * vdot g n + d * d * vdot n n); [unfold flat_part, d, vdot, sum3; ring|]. rewrite N. fold d. ring. }
  assert (Ln : l_sqrt L (vdot (flat_part g n) (flat_part g n)) == r) by (apply S; [lra|symmetry; exact F]).
  assert (X : forall a, T1 a == flat_part g n a / r).
  { intros a. unfold T1, frame_t1. fold g. destruct (Qeq_bool _ 0) eqn:B; [apply Qeq_bool_iff in B; rewrite Ln in B; lra|]. rewrite Ln. reflexivity. }
  assert (A1 : vdot T1 T1 == 1).
  { transitivity (vdot (flat_part g n) (flat_part g n) / (r * r)); [unfold vdot, sum3; rewrite !X; field; lra|]. rewrite F. field. lra. }
  assert (A2 : vdot T1 n == 0).
  { transitivity ((vdot g n - d * vdot n n) / r); [unfold vdot, sum3; rewrite !X; unfold flat_part; fold d; unfold vdot, sum3; field; lra|]. rewrite N. fold d. field. lra. }
  assert (A3 : vdot T2 T2 == 1).
  { transitivity (vdot n n * vdot T1 T1 - vdot T1 n * vdot T1 n); [|rewrite N, A1, A2; ring].
    unfold T2, frame_t2. fold T1. unfold vdot, sum3, cross_product, v3. ring. }
  split; [|split].
  - repeat split; try assumption; unfold T2, frame_t2; fold T1; unfold vdot, sum3, cross_product, v3; ring.
  - intros a. transitivity (n a * vdot T1 T1 - T1 a * vdot T1 n); [|rewrite A1, A2; ring].
    unfold T2, frame_t2. fold T1. destruct a; unfold vdot, sum3, cross_product, v3; ring.
  - exists d. intros a. rewrite X. unfold flat_part. fold d. unfold g, gateVector. field. lra.
Qed.
Print Assumptions frame_orthonormal_partial.
(** With C164: the rotation computed from the frame of a gate takes the normal to the z axis and the gate, seen along the
    normal, to the x axis or against it. *)
Theorem frame_rotated : forall L P Q0 normal r s, exact L -> vdot normal normal == 1 ->
  0 < r -> r * r == vdot (gateVector P Q0) (gateVector P Q0) - vdot (gateVector P Q0) normal * vdot (gateVector P Q0) normal ->
  0 <= s -> s * s == normal AX * normal AX + normal AY * normal AY ->
  let T1 := frame_t1 L P Q0 normal in let T2 := frame_t2 L P Q0 normal in
  veq (exact_rotation L T1 T2 normal normal) (v3 0 0 1) /\
  (veq (exact_rotation L T1 T2 normal T1) (v3 1 0 0) \/ veq (exact_rotation L T1 T2 normal T1) (v3 (-1) 0 0)).
Proof.
  intros L P Q0 n r s E N R RE S SE T1 T2.
  destruct (frame_orthonormal_partial L P Q0 n r (e_sqrt L E) N R RE) as [O _].
  destruct (rotation_takes_frame_to_axes L T1 T2 n s E O S SE) as (A & _ & B). split; assumption.
Qed.
Print Assumptions frame_rotated.
(** C203 is false for a gate along the normal and for the null vector computeNormal gives a facet without area. *)
Theorem frame_orthonormal_refuted : exists P Q0 n P' Q0', exact half_angles /\
  vdot n n == 1 /\ ~ veq P Q0 /\ ~ orthonormal (frame_t1 half_angles P Q0 n) (frame_t2 half_angles P Q0 n) n /\
  ~ veq P' Q0' /\ ~ orthonormal (frame_t1 half_angles P' Q0' (v3 0 0 0)) (frame_t2 half_angles P' Q0' (v3 0 0 0)) (v3 0 0 0).
Proof.
  exists (v3 0 0 3), (v3 0 0 1), (v3 0 0 1), (v3 1 0 0), (v3 0 0 0). split; [exact half_angles_exact|].
  split; [reflexivity|]. split; [intros H; specialize (H AZ); discriminate H|].
  split; [intros (H & _); vm_compute in H; discriminate H|]. split; [intros H; specialize (H AX); discriminate H|].
  intros (_ & _ & H & _). vm_compute in H. discriminate H.
Qed.
Print Assumptions frame_orthonormal_refuted.
(** A gate of length 13 that is slanted against its normal. *)
Example frame_case : let P := v3 7 5 9 in let Q0 := v3 4 1 (-3) in let n := v3 0 0 1 in
  vdot n n == 1 /\ 0 < 5 /\ 5 * 5 == vdot (gateVector P Q0) (gateVector P Q0) - vdot (gateVector P Q0) n * vdot (gateVector P Q0) n /\
  0 <= 0 /\ 0 * 0 == n AX * n AX + n AY * n AY /\
  veq (frame_t1 half_angles P Q0 n) (v3 (3 # 5) (4 # 5) 0) /\ veq (frame_t2 half_angles P Q0 n) (v3 (- (4 # 5)) (3 # 5) 0).
Proof. intros P Q0 n. repeat split; try lra; try (vm_compute; reflexivity); intros []; vm_compute; reflexivity. Qed.
