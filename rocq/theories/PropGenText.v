(** C201: the voxels written for a generated object and the object. *)
From Coq Require Import QArith Qabs ZArith List Lia Lqa.
From Verif Require Import AabModel AabProofs TextModel TextSpec TextProofs PropText GenModel GenTextModel.
Import ListNotations.
Open Scope Q_scope.

(** Spec: a point in a box, and in a box that is larger by some amount. *)
Definition within (b : aab) (e : vec) (p : vec) : Prop := forall a, bmin b a - e a <= p a /\ p a <= bmax b a + e a.

Lemma shown_close v : ordinary v -> Qabs (shown 6 v - v) <= (1 # 200000) * Qabs v /\ (few_digits 6 v -> shown 6 v == v).
Proof.
  intros O. destruct (general_shown 6 v ltac:(lia) O) as (w & R & _ & E). destruct (text_number_close 6 v w ltac:(lia) O R) as [F C].
  split.
  - rewrite <- E. eapply Qle_trans; [exact C|]. apply Qmult_le_compat_r; [vm_compute; congruence|apply Qabs_nonneg].
  - intros D. rewrite <- E. apply F, D.
Qed.
(** C201, what holds.  Each vertex written is at most half a unit of its sixth digit outside the voxel that holds
    it in the mesh as loaded; and inside if six digits suffice for the moved vertex. *)
Theorem voxels_hold_object_partial : forall shift pts v i q w,
  nth_error (voxel_mesh pts) i = Some q -> nth_error (object_written shift pts) i = Some w -> within v (fun _ => 0) q ->
  (forall a, ordinary (q a + shift a)) ->
  within (voxel_written shift v) (fun a => (1 # 200000) * Qabs (q a + shift a)) w /\
  ((forall a, few_digits 6 (q a + shift a)) -> within (voxel_written shift v) (fun _ => 0) w).
Proof.
  intros shift pts v i q w Q W V O. unfold object_written, shift_polyhedron, voxel_mesh, through_text in *.
  rewrite !map_map in W. rewrite nth_error_map in Q, W. fold vec in Q, W. destruct (nth_error pts i) as [p|]; [|cbn [option_map] in Q; discriminate Q].
  cbn [option_map] in Q, W. injection Q as <-. injection W as <-.
  split; [|intros F]; intros a; specialize (V a); specialize (O a); cbn beta in V, O; cbn [voxel_written bmin bmax]; destruct (shown_close _ O) as [C E].
  - apply Qabs_Qle_condition in C. destruct V as [V1 V2]. split; lra.
  - rewrite (E (F a)). destruct V as [V1 V2]. split; lra.
Qed.
Print Assumptions voxels_hold_object_partial.
(** C201 is false: a cube of side 0.126 that is moved by 1000 is written larger than its only voxel. *)
Definition cube_pts (s : Q) : list vec := flat_map (fun x => flat_map (fun y => map (fun z => v3 x y z) [0; s]) [0; s]) [0; s].
Theorem voxels_hold_object_refuted : exists shift pts v w,
  Forall (within v (fun _ => 0)) (voxel_mesh pts) /\ In w (object_written shift pts) /\ ~ within (voxel_written shift v) (fun _ => 0) w.
Proof.
  exists (v3 1000 0 0), (cube_pts (126 # 1000)), (Aab (v3 0 0 0) (v3 (126 # 1000) (126 # 1000) (126 # 1000))), (fun a => shown 6 (shown 6 (v3 (126 # 1000) 0 0 a) + v3 1000 0 0 a)).
  split; [|split].
  - assert (H : forallb (fun p => all3 (fun a => Qle_bool 0 (p a) && Qle_bool (p a) (126 # 1000))%bool) (voxel_mesh (cube_pts (126 # 1000))) = true) by (vm_compute; reflexivity).
    apply Forall_forall. intros p I a. apply (proj1 (forallb_forall _ _) H) in I. unfold all3 in I. rewrite !Bool.andb_true_iff, !Qle_bool_iff in I.
    destruct I as [[X Y] Z]. destruct a; cbn [bmin bmax v3]; lra.
  - unfold object_written, shift_polyhedron, through_text, cube_pts. rewrite !map_map.
    apply (in_map (fun (p : vec) (a : axis) => shown 6 (shown 6 (p a) + v3 1000 0 0 a))).
    cbn [flat_map map app]. do 4 right. left. reflexivity.
  - intros H. destruct (H AX) as [_ X]. apply Qle_bool_iff in X. vm_compute in X. discriminate X.
Qed.
Print Assumptions voxels_hold_object_refuted.
(** The same cube at 100: its vertices have six digits there. *)
Example voxels_hold_object_case : let q : vec := fun a => shown 6 (v3 (126 # 1000) 0 0 a) in
  nth_error (voxel_mesh (cube_pts (126 # 1000))) 4 = Some q /\ (forall a, ordinary (q a + v3 100 0 0 a)) /\ (forall a, few_digits 6 (q a + v3 100 0 0 a)).
Proof.
  intros q. split; [reflexivity|]. split; intros a.
  - destruct a; [right|left|left]; try (vm_compute; reflexivity). split; [apply Qle_bool_iff; vm_compute; reflexivity|].
    apply Qnot_le_lt. intros C. apply Qle_bool_iff in C. vm_compute in C. discriminate C.
  - destruct a; [exists 100126%Z, (-3)%Z|exists 0%Z, 0%Z|exists 0%Z, 0%Z]; split; vm_compute; reflexivity.
Qed.
