(** C224: the boxes that get_boxes writes. *)
From Coq Require Import QArith ZArith List Bool Lia Lqa.
From Verif Require Import Arr AabModel AabProofs VoxelModel BoxFileModel.
Import ListNotations.
Close Scope Q_scope.
Close Scope Z_scope.

(** * Specification: [inside] and [within] (C01).  The least box around some points: the boxes around it are those around the
    points. *)
Definition least_box (b : aab) (ps : list vec) : Prop := forall B, within b B <-> Forall (fun p => inside p B) ps.

(** * Proof *)
Definition fits (B : aab) (o : option aab) : Prop := match o with None => True | Some b => within b B end.
Lemma min_iff x m y : (x <= upd_min m y)%Q <-> (x <= m /\ x <= y)%Q.
Proof. destruct (upd_min_spec m y) as (A & C & [D|D]); split; intros; lra. Qed.
Lemma max_iff x m y : (upd_max m y <= x)%Q <-> (m <= x /\ y <= x)%Q.
Proof. destruct (upd_max_spec m y) as (A & C & [D|D]); split; intros; lra. Qed.
Lemma fits_point B o p : fits B (acc_point o p) <-> fits B o /\ inside p B.
Proof.
  destruct o as [b|]; cbn [acc_point fits]; unfold within, inside, update_point; cbn [bmin bmax]; [|tauto]. split.
  - intro H. split; intro a; specialize (H a); rewrite min_iff, max_iff in H; tauto.
  - intros (H & I) a. rewrite min_iff, max_iff. specialize (H a). specialize (I a). tauto.
Qed.
Lemma fits_box B o c : fits B (acc_box o c) <-> fits B o /\ within c B.
Proof.
  destruct o as [b|]; cbn [acc_box fits]; unfold within, update_box; cbn [bmin bmax]; [|tauto]. split.
  - intro H. split; intro a; specialize (H a); rewrite min_iff, max_iff in H; tauto.
  - intros (H & I) a. rewrite min_iff, max_iff. specialize (H a). specialize (I a). tauto.
Qed.
Lemma fits_points B ps : forall o, fits B (fold_left acc_point ps o) <-> fits B o /\ Forall (fun p => inside p B) ps.
Proof.
  induction ps as [|p ps IH]; intro o; cbn [fold_left]; [intuition|]. rewrite IH, fits_point, Forall_cons_iff. tauto.
Qed.
Lemma fits_common B vs : fits B (common_box vs) <-> Forall (fun v => fits B (v_box v)) vs.
Proof.
  unfold common_box. assert (G : forall o, fits B (fold_left (fun b v => match v_box v with Some c => acc_box b c | None => b end) vs o) <-> fits B o /\ Forall (fun v => fits B (v_box v)) vs).
  { induction vs as [|v vs IH]; intro o; cbn [fold_left]; [intuition|]. rewrite IH, Forall_cons_iff. destruct (v_box v) as [c|] eqn:E.
    - rewrite fits_box. cbn [fits]. tauto.
    - cbn [fits]. tauto. }
  rewrite G. cbn [fits]. tauto.
Qed.
Lemma upd_forall {A} (P : A -> Prop) l : forall i v w, nth_error l i = Some v -> forall Q : Prop, (P w <-> P v /\ Q) -> (Forall P (upd l i w) <-> Forall P l /\ Q).
Proof.
  induction l as [|x l IH]; intros [|i] v w E Q H; cbn [nth_error upd] in *; try discriminate E; rewrite !Forall_cons_iff.
  - injection E as ->. tauto.
  - rewrite (IH _ _ _ E Q H). tauto.
Qed.
Lemma assign_one lod cores vs p vs' : assign_vertex lod cores vs p = Some vs' -> exists i v n, nth_error vs i = Some v /\ v_size v lod = Some n /\
  vs' = upd vs i (set_size (set_box v (acc_point (v_box v) p)) lod (n + 1)%Z).
Proof.
  unfold assign_vertex, aget, aset. destruct (_ <? 0)%Z; [discriminate|]. destruct (nth_error vs _) as [v|] eqn:N; [|discriminate]. cbn [bind].
  destruct (v_size v lod) as [n|] eqn:S; [|discriminate]. cbn [bind]. destruct (_ && _); [|discriminate]. intro E. exists (Z.to_nat (gid cores p)), v, n. split; [exact N|]. split; [exact S|]. congruence.
Qed.
Lemma fits_assign B lod cores ps : forall vs vs', assign_vertices lod cores vs ps = Some vs' ->
  (Forall (fun v => fits B (v_box v)) vs' <-> Forall (fun v => fits B (v_box v)) vs /\ Forall (fun p => inside p B) ps).
Proof.
  induction ps as [|p ps IH]; intros vs vs' E; cbn [assign_vertices] in E; [injection E as <-; intuition|].
  destruct (assign_vertex lod cores vs p) as [ws|] eqn:A; [|discriminate E]. cbn [bind] in E. rewrite (IH _ _ E), Forall_cons_iff.
  destruct (assign_one _ _ _ _ _ A) as (i & v & n & N & _ & ->). rewrite (upd_forall _ _ _ _ _ N (inside p B)); [tauto|].
  cbn [set_size set_box v_box]. apply fits_point.
Qed.
Definition counted (lod : Z) (v : voxel) : Prop := exists n, v_size v lod = Some n /\ (0 <= n)%Z /\ (n = 0%Z -> v_box v = None).
Lemma counted_assign lod cores ps : forall vs vs', assign_vertices lod cores vs ps = Some vs' -> Forall (counted lod) vs -> Forall (counted lod) vs'.
Proof.
  induction ps as [|p ps IH]; intros vs vs' E C; cbn [assign_vertices] in E; [injection E as <-; exact C|].
  destruct (assign_vertex lod cores vs p) as [ws|] eqn:A; [|discriminate E]. cbn [bind] in E. apply (IH _ _ E).
  destruct (assign_one _ _ _ _ _ A) as (i & v & n & N & S & ->).
  assert (V : counted lod v) by (rewrite Forall_forall in C; apply C; eapply nth_error_In; exact N). destruct V as (n' & S' & P & _).
  assert (n' = n) by congruence. subst n'.
  apply (upd_forall _ _ _ _ _ N True); [|tauto]. split; [|intros _; exists (n + 1)%Z; cbn [set_size v_size]; unfold put; rewrite Z.eqb_refl; split; [reflexivity|lia]].
  intros _. split; [|exact I]. rewrite Forall_forall in C. apply C. eapply nth_error_In. exact N.
Qed.
Lemma fits_filter B lod vs : Forall (counted lod) vs -> (Forall (fun v => fits B (v_box v)) (filter (has_data lod) vs) <-> Forall (fun v => fits B (v_box v)) vs).
Proof.
  induction 1 as [|v vs (n & S & P & N) _ IH]; cbn [filter]; [tauto|]. rewrite Forall_cons_iff. unfold has_data at 1. rewrite S.
  destruct n as [|n|n]; [|rewrite Forall_cons_iff; tauto|lia]. rewrite (N eq_refl). cbn [fits]. tauto.
Qed.
Lemma fits_bounding B m : fits B (bounding_box m) <-> Forall (fun p => inside p B) (m_vertices m).
Proof. unfold bounding_box. rewrite fits_points. cbn [fits]. tauto. Qed.
Lemma fits_voxels B m cores vs : voxels_of_cores m cores = Some vs -> (Forall (fun v => fits B (v_box v)) vs <-> Forall (fun p => inside p B) (m_vertices m)).
Proof.
  unfold voxels_of_cores. set (mk := fun c => Voxel (Some c) None (fun _ => None) (put (fun _ => None) (m_lod m) 0%Z)).
  assert (One : forall v, Forall (fun v => fits B (v_box v)) [set_size (set_box v (bounding_box m)) (m_lod m) (Z.of_nat (length (m_edges m)))] <-> Forall (fun p => inside p B) (m_vertices m)).
  { intro v. rewrite Forall_cons_iff. cbn [set_size set_box v_box]. rewrite fits_bounding. intuition. }
  destruct cores as [|c [|d cores]]; cbn [map].
  - intro E. injection E as <-. apply One.
  - intro E. injection E as <-. apply One.
  - set (all := c :: d :: cores). change (mk c :: mk d :: map mk cores) with (map mk all).
    destruct (assign_vertices (m_lod m) all (map mk all) (m_vertices m)) as [ws|] eqn:A; [|discriminate]. cbn [bind]. intro E. injection E as <-.
    rewrite fits_filter.
    + rewrite (fits_assign B _ _ _ _ _ A). assert (Z0 : Forall (fun v => fits B (v_box v)) (map mk all)).
      { apply Forall_forall. intros v I. apply in_map_iff in I. destruct I as (x & <- & _). exact I. }
      tauto.
    + apply (counted_assign _ _ _ _ _ A). apply Forall_forall. intros v I. apply in_map_iff in I. destruct I as (x & <- & _).
      exists 0%Z. cbn [mk v_size v_box]. unfold put. rewrite Z.eqb_refl. split; [reflexivity|]. split; [lia|reflexivity].
Qed.
Lemma fits_generated B rand sk size m vs : generate_voxels rand sk size m = Some vs ->
  (fits B (common_box vs) <-> Forall (fun p => inside p B) (m_vertices m)).
Proof.
  rewrite fits_common. unfold generate_voxels. destruct (_ <? size)%Z.
  - intro E. injection E as <-. rewrite Forall_cons_iff. cbn [set_size set_box v_box]. rewrite fits_bounding. intuition.
  - destruct (get_skeleton_points _ _ _) as [cores|]; [|discriminate]. cbn [bind]. apply fits_voxels.
Qed.
Lemma no_box_fits_none : forall p : vec, exists B, ~ inside p B.
Proof. intro p. exists (Aab (fun a => p a + 1)%Q (fun a => p a + 1)%Q). intro H. specialize (H AX). cbn [bmin bmax] in H. lra. Qed.
(** The last box written is the least box around the vertices of the mesh, however the vertices went to voxels, and every box written
    lies within it. *)
Theorem common_box_least : forall rand sk size m vs, m_vertices m <> [] -> generate_voxels rand sk size m = Some vs ->
  exists boxes b, boxes_written vs = boxes ++ [Some b] /\ length boxes = length vs /\ least_box b (m_vertices m) /\
    (forall c, In (Some c) boxes -> within c b).
Proof.
  intros rand sk size m vs NE E. pose proof (fun B => fits_generated B _ _ _ _ _ E) as F. unfold boxes_written.
  destruct (common_box vs) as [b|] eqn:C.
  - exists (map v_box vs), b. split; [reflexivity|]. split; [apply map_length|]. split; [intro B; exact (F B)|].
    intros c I. assert (W : fits b (common_box vs)) by (rewrite C; intro a; split; apply Qle_refl).
    rewrite fits_common, Forall_forall in W. apply in_map_iff in I. destruct I as (v & V & I). specialize (W v I). rewrite V in W. exact W.
  - exfalso. destruct (m_vertices m) as [|p ps]; [contradiction|]. destruct (no_box_fits_none p) as (B & N). apply N.
    destruct (F B) as (G & _). exact (Forall_inv (G Logic.I)).
Qed.
Print Assumptions common_box_least.
(** Two such boxes agree, so the box does not depend on the random numbers or the skeleton. *)
Theorem common_box_unique : forall ps b c, least_box b ps -> least_box c ps -> forall a, (bmin b a == bmin c a /\ bmax b a == bmax c a)%Q.
Proof.
  intros ps b c LB LC a. assert (W1 : within b c) by (apply LB, LC; intro x; split; apply Qle_refl).
  assert (W2 : within c b) by (apply LC, LB; intro x; split; apply Qle_refl). specialize (W1 a). specialize (W2 a). lra.
Qed.
Print Assumptions common_box_unique.
(** Three cores; the last is nearest to no vertex, so two voxels are left. *)
Definition corner_mesh : mesh := Mesh 100 [v3 0 0 0; v3 9 0 1; v3 8 1 0; v3 1 1 1] [] [].
Example corner_boxes : m_vertices corner_mesh <> [] /\
  match generate_voxels (fun _ => 0%Z) (Some [v3 0 0 0; v3 10 0 0; v3 100 0 0]) 1 corner_mesh with
  | Some vs => length vs = 2 /\ match common_box vs with Some b => (bmax b AX == 9 /\ bmin b AX == 0 /\ bmax b AZ == 1)%Q | None => False end
  | None => False end.
Proof. split; [discriminate|]. vm_compute. auto. Qed.
