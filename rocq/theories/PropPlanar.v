(** C187: the test of planarity. *)
From Coq Require Import Reals List Lia Lra.
From Verif Require Import SurfModel SurfProofs.
Import ListNotations.
Open Scope R_scope.

(** All points of a list lie in the plane u . p = d. *)
Definition in_plane (u : pt) (d : R) (poly : list pt) : Prop :=
  Forall (fun p => px u * px p + py u * py p + pz u * pz p = d) poly.

Lemma in_plane_at u d poly i : in_plane u d poly -> (i < length poly)%nat -> pdot u (corner_at poly i) = d.
Proof.
  intros H L. unfold in_plane in H. rewrite Forall_forall in H. exact (H _ (nth_In poly porigin L)).
Qed.
Lemma bary_plane u d poly : poly <> [] -> in_plane u d poly -> pdot u (barycenter poly) = d.
Proof.
  intros N H. rewrite barycenters_agree. unfold barycenter_gate.
  assert (K : forall l x, in_plane u d l -> pdot u (fold_left padd l x) = pdot u x + INR (length l) * d).
  { induction l as [|p l IH]; intros x F; cbn [fold_left]; [cbn [length INR]; ring|].
    inversion F as [|? ? A B]; subst. rewrite (IH _ B). cbn [length]. rewrite S_INR.
    replace (pdot u (padd x p)) with (pdot u x + (px u * px p + py u * py p + pz u * pz p)) by (unfold pdot, padd; cbn [px py pz]; ring). ring. }
  assert (Z : INR (length poly) <> 0) by (apply not_0_INR; destruct poly; [congruence|discriminate]).
  replace (pdot u (pscale (/ INR (length poly)) (fold_left padd poly porigin)))
    with (/ INR (length poly) * pdot u (fold_left padd poly porigin)) by (unfold pdot, pscale; cbn [px py pz]; ring).
  rewrite (K poly porigin H). unfold pdot at 1. cbn [px py pz porigin]. field. exact Z.
Qed.
Lemma det_zero u x y z : u <> porigin -> pdot u x = 0 -> pdot u y = 0 -> pdot u z = 0 -> pdot (pcross x y) z = 0.
Proof.
  intros U X Y Z.
  assert (K : pdot (pcross x y) z * pdot u u = 0).
  { replace (pdot (pcross x y) z * pdot u u)
      with (pdot u x * pdot (pcross y z) u + pdot u y * pdot (pcross z x) u + pdot u z * pdot (pcross x y) u)
      by (unfold pdot, pcross; cbn [px py pz]; ring). rewrite X, Y, Z. ring. }
  apply Rmult_integral in K. destruct K as [K|K]; [exact K|]. exfalso. exact (U (pdot_zero u K)).
Qed.
Lemma size_nonneg poly : 0 <= characteristic_size poly.
Proof.
  unfold characteristic_size. rewrite fold_sumn, Rplus_0_l. destruct poly as [|p l]; [cbn; lra|].
  unfold Rdiv. apply Rmult_le_pos; [apply sumn_nonneg; intros; apply pdot_nonneg|]. left. apply Rinv_0_lt_compat. apply lt_0_INR. cbn [length]. lia.
Qed.
Lemma pdot_sym p q : pdot p q = pdot q p.
Proof. unfold pdot. ring. Qed.

(** C187, what holds.  A polygon in a plane passes for every tolerance not negative. *)
Theorem planar_passes u d poly epsilon : u <> porigin -> in_plane u d poly -> 0 <= epsilon -> isPlanar poly epsilon = true.
Proof.
  intros U H E. unfold isPlanar. apply forallb_forall. intros i I. apply in_seq in I.
  assert (N : poly <> []) by (destruct poly; [cbn in I; lia|discriminate]).
  assert (D : plane_dist poly i = 0).
  { unfold plane_dist. set (q := psub (corner_at poly i) (barycenter poly)). rewrite pdot_sym.
    assert (A : pdot q (area_vector poly) = 0).
    { rewrite (area_from poly (barycenter poly)), <- pdot_sump. 
      rewrite (sumn_ext _ (fun _ => 0 * 0)); [rewrite sumn_scale; ring|]. intros j J. rewrite Rmult_0_l, pdot_sym.
      assert (S : forall k, (k < length poly)%nat -> pdot u (psub (corner_at poly k) (barycenter poly)) = 0).
      { intros k K. replace (pdot u (psub (corner_at poly k) (barycenter poly))) with (pdot u (corner_at poly k) - pdot u (barycenter poly))
          by (unfold pdot, psub; cbn [px py pz]; ring). rewrite (in_plane_at u d poly k H K), (bary_plane u d poly N H). ring. }
      apply (det_zero u); [exact U|apply S; lia|apply S; apply Nat.mod_upper_bound; lia|apply S; lia]. }
    pose proof (unit_len (area_vector poly) q) as K. fold (normal_of_polygon poly) in K. rewrite A in K. apply Rmult_integral in K.
    destruct K as [K|K]; [|exact K]. unfold normal_of_polygon, unit_of.
    assert (pdot (area_vector poly) (area_vector poly) = 0) as Z by (rewrite <- plen_sqr, K; ring).
    destruct (Req_EM_T _ 0); [|contradiction]. unfold pdot, porigin. cbn [px py pz]. ring. }
  rewrite D. destruct (Rlt_dec _ _) as [L|L]; [|reflexivity]. exfalso.
  pose proof (Rmult_le_pos _ _ E (size_nonneg poly)). lra.
Qed.
Print Assumptions planar_passes.
Example planar_passes_case : isPlanar [Pt 0 0 5; Pt 1 0 5; Pt 1 1 5; Pt 0 1 5] 0 = true.
Proof.
  apply (planar_passes (Pt 0 0 1) 5); [|repeat constructor; cbn; ring|lra]. intros K. apply (f_equal pz) in K. cbn in K. lra.
Qed.

(** A polygon whose area vector is not zero and that passes with tolerance 0 lies in a plane. *)
Theorem planar_only_partial poly : area_vector poly <> porigin -> isPlanar poly 0 = true ->
  in_plane (area_vector poly) (pdot (area_vector poly) (barycenter poly)) poly.
Proof.
  intros N H. apply Forall_forall. intros p I. destruct (In_nth poly p porigin I) as [i [L E]].
  unfold isPlanar in H. rewrite forallb_forall in H. specialize (H i ltac:(apply in_seq; lia)).
  destruct (Rlt_dec _ _) as [K|K]; [discriminate H|]. rewrite Rmult_0_l in K.
  assert (D : plane_dist poly i = 0).
  { assert (plane_dist poly i * plane_dist poly i = 0) as Z by (pose proof (Rle_0_sqr (plane_dist poly i)) as S; unfold Rsqr in S; lra).
    apply Rmult_integral in Z. tauto. }
  unfold plane_dist in D. rewrite pdot_sym in D.
  pose proof (unit_len (area_vector poly) (psub (corner_at poly i) (barycenter poly))) as W. fold (normal_of_polygon poly) in W.
  rewrite D, Rmult_0_r in W. unfold corner_at in W. rewrite E in W. revert W. unfold pdot, psub. cbn [px py pz]. lra.
Qed.
Print Assumptions planar_only_partial.
Example planar_only_case : area_vector [Pt 0 0 5; Pt 1 0 5; Pt 0 1 5] <> porigin.
Proof.
  rewrite (area_from _ (Pt 0 0 5)). unfold sump, next_at, corner_at. cbn [length sumn nth Nat.modulo Nat.divmod Nat.add Nat.sub fst snd].
  intros K. apply (f_equal pz) in K. cbn in K. lra.
Qed.

(** C187 in full is false: a closed way round whose area vector is zero passes with tolerance 0, though it
    does not lie in a plane. *)
Definition winding : list pt := [Pt 0 0 0; Pt 0 1 0; Pt 0 0 1; Pt 0 0 0; Pt 0 0 1; Pt 1 0 0; Pt 0 0 0; Pt 0 0 1; Pt (-1) 1 0].
Theorem planar_only_refuted : exists poly, isPlanar poly 0 = true /\ forall u d, u <> porigin -> ~ in_plane u d poly.
Proof.
  exists winding. split.
  - unfold isPlanar. apply forallb_forall. intros i I.
    assert (A : area_vector winding = porigin).
    { rewrite area_sum. unfold sump, winding, next_at, corner_at. cbn [length sumn nth Nat.modulo Nat.divmod Nat.add Nat.sub fst snd]. apply pt_eq; cbn; ring. }
    assert (D : plane_dist winding i = 0).
    { unfold plane_dist, normal_of_polygon, unit_of. rewrite A. destruct (Req_EM_T (pdot porigin porigin) 0) as [K|K].
      - unfold pdot, porigin. cbn [px py pz]. ring.
      - exfalso. apply K. unfold pdot, porigin. cbn [px py pz]. ring. }
    rewrite D. destruct (Rlt_dec _ _) as [L|L]; [exfalso; lra|reflexivity].
  - intros u d U H. apply U. unfold in_plane in H. rewrite Forall_forall in H.
    pose proof (H (Pt 0 0 0) ltac:(cbn; tauto)) as H0. pose proof (H (Pt 0 1 0) ltac:(cbn; tauto)) as H1.
    pose proof (H (Pt 0 0 1) ltac:(cbn; tauto)) as H2. pose proof (H (Pt 1 0 0) ltac:(cbn; tauto)) as H3.
    cbn [px py pz] in *. apply pt_eq; cbn [px py pz porigin]; lra.
Qed.
Print Assumptions planar_only_refuted.
