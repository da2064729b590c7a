(** C197: the error of a removal does not depend on the size of the mesh. *)
From Coq Require Import Reals List Lra Lia.
From Verif Require Import SurfModel SurfProofs.
Import ListNotations.
Open Scope R_scope.

(** The polygon made [k] times as large, from the origin. *)
Definition enlarged (k : R) (poly : list pt) : list pt := map (pscale k) poly.
Section Scale.
Variable k : R.
Hypothesis K : 0 < k.
Lemma corner_scale poly i : corner_at (enlarged k poly) i = pscale k (corner_at poly i).
Proof.
  unfold corner_at, enlarged. rewrite <- (map_nth (pscale k)). f_equal. unfold pscale, porigin. cbn [px py pz]. f_equal; ring.
Qed.
Lemma length_scale poly : length (enlarged k poly) = length poly.
Proof. apply map_length. Qed.
Lemma next_scale poly i : next_at (enlarged k poly) i = pscale k (next_at poly i).
Proof. unfold next_at. rewrite length_scale. apply corner_scale. Qed.
Lemma plen_scale v : plen (pscale k v) = k * plen v.
Proof.
  apply plen_unique; [apply Rmult_le_pos; [lra|apply plen_nonneg]|]. transitivity (k * k * (plen v * plen v)); [|ring]. rewrite plen_sqr. unfold pdot, pscale. cbn [px py pz]. ring.
Qed.
Lemma psub_scale a b : psub (pscale k a) (pscale k b) = pscale k (psub a b).
Proof. unfold psub, pscale. cbn [px py pz]. f_equal; ring. Qed.
Lemma perimeter_scale poly : perimeter (enlarged k poly) = k * perimeter poly.
Proof.
  unfold perimeter. rewrite length_scale, !fold_sumn. rewrite Rmult_plus_distr_l, Rmult_0_r, <- sumn_scale. f_equal. apply sumn_ext. intros i _. rewrite corner_scale, next_scale, psub_scale. apply plen_scale.
Qed.
Lemma bary_scale poly : barycenter (enlarged k poly) = pscale k (barycenter poly).
Proof.
  rewrite !barycenters_agree. unfold barycenter_gate. rewrite length_scale. unfold enlarged.
  assert (E : forall l x, fold_left padd (map (pscale k) l) (pscale k x) = pscale k (fold_left padd l x)).
  { induction l as [|p l IH]; intros x; [reflexivity|]. cbn [map fold_left]. rewrite <- IH. f_equal. unfold padd, pscale. cbn [px py pz]. f_equal; ring. }
  replace porigin with (pscale k porigin) at 1 by (unfold pscale, porigin; cbn [px py pz]; f_equal; ring). rewrite E. unfold pscale. cbn [px py pz]. f_equal; ring.
Qed.
Lemma cross_scale a b : pcross (pscale k a) (pscale k b) = pscale (k * k) (pcross a b).
Proof. unfold pcross, pscale. cbn [px py pz]. f_equal; ring. Qed.
Lemma unit_scale m n : 0 < m -> unit_of (pscale m n) = unit_of n.
Proof.
  intros M. unfold unit_of.
  assert (E : pdot (pscale m n) (pscale m n) = m * m * pdot n n) by (unfold pdot, pscale; cbn [px py pz]; ring).
  pose proof (pdot_nonneg n) as P. assert (0 < m * m) by (apply Rmult_lt_0_compat; exact M).
  destruct (Req_EM_T (pdot n n) 0) as [Z|Z], (Req_EM_T (pdot (pscale m n) (pscale m n)) 0) as [Y|Y]; [reflexivity| | |].
  - exfalso. apply Y. rewrite E, Z. ring.
  - exfalso. rewrite E in Y. apply Rmult_integral in Y. destruct Y; lra.
  - rewrite E, sqrt_mult by lra. rewrite sqrt_square by lra. assert (0 < sqrt (pdot n n)) by (apply sqrt_lt_R0; lra).
    unfold pscale. cbn [px py pz]. f_equal; field; lra.
Qed.
Lemma surface_scale a b c : triangleSurface (pscale k a) (pscale k b) (pscale k c) = k * k * triangleSurface a b c.
Proof.
  rewrite !heron, !psub_scale, cross_scale. replace (plen (pscale (k * k) (pcross (psub b a) (psub c a)))) with (k * k * plen (pcross (psub b a) (psub c a))); [lra|].
  symmetry. apply plen_unique; [apply Rmult_le_pos; [apply Rmult_le_pos; lra|apply plen_nonneg]|].
  transitivity (k * k * (k * k) * (plen (pcross (psub b a) (psub c a)) * plen (pcross (psub b a) (psub c a)))); [|ring]. rewrite plen_sqr. unfold pdot, pscale. cbn [px py pz]. ring.
Qed.
Lemma normal_triangle_scale a b c : normal_of_triangle (pscale k a) (pscale k b) (pscale k c) = normal_of_triangle a b c.
Proof. unfold normal_of_triangle. rewrite !psub_scale, cross_scale. apply unit_scale. apply Rmult_lt_0_compat; exact K. Qed.
Lemma area_scale poly : area_vector (enlarged k poly) = pscale (k * k) (area_vector poly).
Proof.
  rewrite !area_sum, length_scale. unfold sump, pscale. cbn [px py pz]. f_equal; rewrite <- sumn_scale; apply sumn_ext; intros i _; rewrite corner_scale, next_scale, cross_scale; reflexivity.
Qed.
Lemma normal_scale poly : normal_of_polygon (enlarged k poly) = normal_of_polygon poly.
Proof. unfold normal_of_polygon. rewrite area_scale. apply unit_scale. apply Rmult_lt_0_compat; exact K. Qed.
Lemma pdot_scale a b : pdot (pscale k a) b = k * pdot a b.
Proof. unfold pdot, pscale. cbn [px py pz]. ring. Qed.
Lemma fan_scale poly : fan_area (enlarged k poly) = k * k * fan_area poly.
Proof.
  unfold fan_area. rewrite length_scale, !fold_sumn, Rmult_plus_distr_l, Rmult_0_r, <- sumn_scale. f_equal. apply sumn_ext. intros i _. rewrite corner_scale, next_scale, bary_scale. apply surface_scale.
Qed.
Lemma volume_scale poly : removal_volume (enlarged k poly) = k * k * k * removal_volume poly.
Proof.
  unfold removal_volume. rewrite length_scale, bary_scale, fan_scale, normal_scale, pdot_scale.
  rewrite (fold_sumn (fun i => 1 / 3 * triangleSurface (corner_at (enlarged k poly) i) (next_at (enlarged k poly) i) (pscale k (barycenter poly)) * pdot (corner_at (enlarged k poly) i) (normal_of_triangle (corner_at (enlarged k poly) i) (next_at (enlarged k poly) i) (pscale k (barycenter poly))))).
  rewrite (fold_sumn (fun i => 1 / 3 * triangleSurface (corner_at poly i) (next_at poly i) (barycenter poly) * pdot (corner_at poly i) (normal_of_triangle (corner_at poly i) (next_at poly i) (barycenter poly)))).
  rewrite Rmult_plus_distr_l, <- sumn_scale. f_equal; [ring|]. apply sumn_ext. intros i _. rewrite corner_scale, next_scale, surface_scale, normal_triangle_scale, pdot_scale. ring.
Qed.
End Scale.

(** The error is the same for a mesh of another size. *)
Theorem removal_error_scale : forall k v poly, 0 < k -> perimeter poly <> 0 -> removalError (pscale k v) (enlarged k poly) = removalError v poly.
Proof.
  intros k v poly K P. unfold removalError. rewrite (volume_scale k K), (perimeter_scale k K), length_scale.
  assert (K3 : 0 < k * k * k) by (repeat apply Rmult_lt_0_compat; exact K).
  destruct (Rlt_dec 0 (removal_volume poly)) as [V|V], (Rlt_dec 0 (k * k * k * removal_volume poly)) as [W|W].
  - rewrite <- Rpower_mult_distr by assumption. replace (Rpower (k * k * k) (1 / 3)) with k; [field; split; [exact P|lra]|].
    replace (k * k * k) with (Rpower k 3); [rewrite Rpower_mult; replace (3 * (1 / 3)) with 1 by lra; symmetry; apply Rpower_1; exact K|].
    replace 3 with (INR 3) by (cbn; lra). rewrite Rpower_pow by exact K. cbn [pow]. ring.
  - exfalso. apply W. apply Rmult_lt_0_compat; assumption.
  - exfalso. apply V. apply (Rmult_lt_reg_l (k * k * k)); [exact K3|lra].
  - reflexivity.
Qed.
Print Assumptions removal_error_scale.
From Verif Require Import PropSurf.
(** A saddle below the origin has a perimeter and an error. *)
Example removal_error_scale_ex : perimeter (saddle (-1)) <> 0 /\ 0 < removal_volume (saddle (-1)).
Proof.
  split; [|rewrite saddle_volume; lra]. unfold perimeter, saddle. cbn [length seq fold_left next_at corner_at Nat.modulo Nat.divmod fst snd Nat.sub Nat.add nth].
  unfold next_at, corner_at, psub. cbn [length Nat.modulo Nat.divmod fst snd Nat.sub Nat.add nth px py pz].
  repeat match goal with |- context [plen ?v] => lazymatch goal with H : 0 < plen v |- _ => fail | _ => assert (0 < plen v) by (unfold plen; apply sqrt_lt_R0; unfold pdot; cbn [px py pz]; lra); generalize dependent (plen v); intros end end.
  lra.
Qed.
