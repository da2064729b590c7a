(** C185, C186: surfaces of triangles and faces, and the error of a removal. *)
From Coq Require Import Reals List Lia Lra Psatz.
From Verif Require Import SurfModel SurfProofs.
Import ListNotations.
Open Scope R_scope.

(** C185.  The surface of a triangle is half the length of the cross product of two of its sides. *)
Theorem triangle_surface p0 p1 p2 : 2 * triangleSurface p0 p1 p2 = plen (pcross (psub p1 p0) (psub p2 p0)).
Proof. rewrite heron. field. Qed.
Print Assumptions triangle_surface.
Example triangle_surface_case : triangleSurface (Pt 0 0 0) (Pt 3 0 0) (Pt 0 4 0) = 6.
Proof.
  pose proof (triangle_surface (Pt 0 0 0) (Pt 3 0 0) (Pt 0 4 0)) as H.
  rewrite (plen_unique _ 12) in H; [lra|lra|]. unfold pdot, pcross, psub. cbn [px py pz]. ring.
Qed.

(** Seen from the point [b], the corners go round once in one plane with direction [u]: the cross product
    of the ways to two consecutive corners is a multiple of u, and not a negative one. *)
Definition round_about (u b : pt) (poly : list pt) : Prop :=
  px u * px u + py u * py u + pz u * pz u = 1
  /\ forall i p q, nth_error poly i = Some p -> nth_error poly (Nat.modulo (i + 1) (length poly)) = Some q ->
     exists t, 0 <= t /\ pcross (psub p b) (psub q b) = Pt (t * px u) (t * py u) (t * pz u).

Lemma corner_some poly i : (i < length poly)%nat -> nth_error poly i = Some (corner_at poly i).
Proof. intros L. unfold corner_at. apply nth_error_nth'. exact L. Qed.
Lemma round_fan u poly : round_about u (barycenter poly) poly -> fan_area poly = plen (area_vector poly) / 2.
Proof.
  intros [U H]. rewrite fan_area_sum, (area_from poly (barycenter poly)). set (b := barycenter poly) in *. set (n := length poly) in *.
  assert (K : forall m, (m <= n)%nat -> exists t, 0 <= t /\ sump (fun i => pcross (psub (corner_at poly i) b) (psub (next_at poly i) b)) m = pscale t u
     /\ sumn (fun i => plen (pcross (psub (corner_at poly i) b) (psub (next_at poly i) b)) / 2) m = t / 2).
  { induction m as [|m IH]; intros L.
    - exists 0. split; [lra|]. split; [apply pt_eq; cbn; ring|cbn [sumn]; field].
    - destruct (IH ltac:(lia)) as (t & T & A & B).
      destruct (H m (corner_at poly m) (next_at poly m)) as (t' & T' & C).
      + apply corner_some. unfold n in L. lia.
      + unfold next_at. apply corner_some. apply Nat.mod_upper_bound. unfold n in L. lia.
      + exists (t + t'). split; [lra|]. split.
        * change (sump (fun i => pcross (psub (corner_at poly i) b) (psub (next_at poly i) b)) (S m))
            with (padd (sump (fun i => pcross (psub (corner_at poly i) b) (psub (next_at poly i) b)) m) (pcross (psub (corner_at poly m) b) (psub (next_at poly m) b))).
          rewrite A, C. apply pt_eq; cbn; ring.
        * cbn [sumn]. rewrite B, C. rewrite (plen_unique _ t'); [field|exact T'|].
          replace (pdot (Pt (t' * px u) (t' * py u) (t' * pz u)) (Pt (t' * px u) (t' * py u) (t' * pz u)))
            with (t' * t' * (px u * px u + py u * py u + pz u * pz u)) by (unfold pdot; cbn [px py pz]; ring).
          rewrite U. ring. }
  destruct (K n (le_n n)) as (t & T & A & B). rewrite A, B. f_equal. symmetry. apply plen_unique; [exact T|].
  replace (pdot (pscale t u) (pscale t u)) with (t * t * (px u * px u + py u * py u + pz u * pz u)) by (unfold pdot, pscale; cbn [px py pz]; ring).
  rewrite U. ring.
Qed.

(** The surface of a face is never less than half the length of its area vector, and it is just that when
    the face is flat and goes round its barycenter; in particular for every flat convex face. *)
Theorem face_surface poly :
  plen (area_vector poly) / 2 <= faceSurface poly
  /\ forall u, round_about u (barycenter_gate poly) poly -> faceSurface poly = plen (area_vector poly) / 2.
Proof.
  rewrite face_surface_sum. split; [apply fan_at_least|]. intros u H. rewrite <- barycenters_agree in H. exact (round_fan u poly H).
Qed.
Print Assumptions face_surface.

Definition square (z : R) : list pt := [Pt 0 0 z; Pt 1 0 z; Pt 1 1 z; Pt 0 1 z].
Lemma square_bary z : barycenter_gate (square z) = Pt (1 / 2) (1 / 2) z.
Proof. unfold barycenter_gate, square. cbn [length fold_left INR]. apply pt_eq; cbn [px py pz pscale padd porigin]; field. Qed.
Example square_round z : round_about (Pt 0 0 1) (barycenter_gate (square z)) (square z).
Proof.
  split; [cbn; ring|]. rewrite square_bary. intros i p q A B.
  assert (i < 4)%nat as L by (apply (proj1 (nth_error_Some (square z) i)); rewrite A; discriminate).
  exists (1 / 2). split; [lra|].
  destruct i as [|[|[|[|i]]]]; [| | | |lia]; cbn in A, B; injection A as <-; injection B as <-; apply pt_eq; cbn; field.
Qed.
Lemma square_vector z : area_vector (square z) = Pt 0 0 2.
Proof. rewrite (area_from _ (Pt 0 0 z)). unfold sump, square, next_at, corner_at. cbn [length sumn nth Nat.modulo Nat.divmod Nat.add Nat.sub fst snd]. apply pt_eq; cbn; ring. Qed.
Example square_surface z : faceSurface (square z) = 1.
Proof.
  rewrite (proj2 (face_surface (square z)) (Pt 0 0 1) (square_round z)), square_vector, (plen_unique _ 2); [field|lra|].
  unfold pdot. cbn [px py pz]. ring.
Qed.

(** C186, what holds: the error is that of the volume (|N|/2 - A) * (b . n) / 3, with A the surface of the
    fan over the barycenter b and n the direction of the area vector N.  So it is 0 when the polygon is flat
    and goes round its barycenter, and 0 as well when the barycenter, seen from the origin, is not behind
    the polygon. *)
Theorem removal_error_value v poly :
  removal_volume poly = (plen (area_vector poly) / 2 - fan_area poly) * pdot (barycenter poly) (normal_of_polygon poly) / 3
  /\ (forall u, round_about u (barycenter poly) poly -> removalError v poly = 0)
  /\ (0 <= pdot (barycenter poly) (area_vector poly) -> removalError v poly = 0).
Proof.
  split; [apply volume_value|]. split.
  - intros u H. unfold removalError. rewrite volume_value, (round_fan u poly H).
    destruct (Rlt_dec 0 _) as [L|L]; [|reflexivity]. exfalso. revert L. rewrite Rminus_diag_eq by reflexivity. lra.
  - intros H. unfold removalError. rewrite volume_value.
    destruct (Rlt_dec 0 _) as [L|L]; [|reflexivity]. exfalso.
    pose proof (fan_at_least poly) as F. pose proof (unit_len (area_vector poly) (barycenter poly)) as E. fold (normal_of_polygon poly) in E.
    destruct (Rle_or_lt 0 (pdot (barycenter poly) (normal_of_polygon poly))) as [P|P].
    + assert (0 <= (fan_area poly - plen (area_vector poly) / 2) * pdot (barycenter poly) (normal_of_polygon poly)) as K
        by (apply Rmult_le_pos; lra). lra.
    + pose proof (plen_nonneg (area_vector poly)) as Q.
      destruct (Req_dec (plen (area_vector poly)) 0) as [Z|Z].
      * assert (pdot (area_vector poly) (area_vector poly) = 0) as D by (rewrite <- plen_sqr, Z; ring).
        unfold normal_of_polygon, unit_of in P. destruct (Req_EM_T _ 0); [|contradiction]. unfold pdot, porigin in P. cbn [px py pz] in P. lra.
      * assert (plen (area_vector poly) * pdot (barycenter poly) (normal_of_polygon poly) < 0) by nra. lra.
Qed.
Print Assumptions removal_error_value.
Example removal_error_case v : removalError v (square 5) = 0.
Proof.
  apply (proj1 (proj2 (removal_error_value v (square 5))) (Pt 0 0 1)). rewrite barycenters_agree. apply square_round.
Qed.

(** The volume of the pyramid over a flat polygon with top [v]: a third of height times area. *)
Definition pyramid_volume (v : pt) (poly : list pt) : R :=
  match poly with [] => 0 | p :: _ => pdot (psub v p) (area_vector poly) / 6 end.
(** C186 is false: the error does not see the vertex removed; a vertex in the plane of its neighbours and
    one at the top of a pyramid get the same. *)
Theorem removal_error_refuted : exists poly v v', pyramid_volume v poly = 0 /\ 0 < pyramid_volume v' poly
  /\ removalError v poly = removalError v' poly.
Proof.
  exists (square 0), (Pt (1 / 2) (1 / 2) 0), (Pt (1 / 2) (1 / 2) 1). split; [|split; [|reflexivity]].
  - change (pyramid_volume (Pt (1 / 2) (1 / 2) 0) (square 0)) with (pdot (psub (Pt (1 / 2) (1 / 2) 0) (Pt 0 0 0)) (area_vector (square 0)) / 6).
    rewrite square_vector. unfold pdot, psub. cbn [px py pz]. field.
  - change (pyramid_volume (Pt (1 / 2) (1 / 2) 1) (square 0)) with (pdot (psub (Pt (1 / 2) (1 / 2) 1) (Pt 0 0 0)) (area_vector (square 0)) / 6).
    rewrite square_vector. unfold pdot, psub. cbn [px py pz]. lra.
Qed.
Print Assumptions removal_error_refuted.

(** Nor does it only see the shape: a saddle has an error or none, depending on where it is. *)
Definition saddle (z : R) : list pt := [Pt 1 0 (2 + z); Pt 0 1 (-2 + z); Pt (-1) 0 (2 + z); Pt 0 (-1) (-2 + z)].
Lemma saddle_bary z : barycenter (saddle z) = Pt 0 0 z.
Proof. rewrite barycenters_agree. unfold barycenter_gate, saddle. cbn [length fold_left INR]. apply pt_eq; cbn [px py pz pscale padd porigin]; field. Qed.
Lemma saddle_vector z : area_vector (saddle z) = Pt 0 0 4.
Proof. rewrite (area_from _ (Pt 0 0 z)). unfold sump, saddle, next_at, corner_at. cbn [length sumn nth Nat.modulo Nat.divmod Nat.add Nat.sub fst snd]. apply pt_eq; cbn; ring. Qed.
Lemma saddle_fan z : fan_area (saddle z) = 6.
Proof.
  rewrite fan_area_sum, saddle_bary. unfold saddle, next_at, corner_at. cbn [length sumn nth Nat.modulo Nat.divmod Nat.add Nat.sub fst snd].
  rewrite !(plen_unique _ 3); [field|..]; try lra; unfold pdot, pcross, psub; cbn [px py pz]; ring.
Qed.
Lemma saddle_volume z : removal_volume (saddle z) = - 4 / 3 * z.
Proof.
  rewrite volume_value, saddle_fan, saddle_bary. pose proof (unit_len (area_vector (saddle z)) (Pt 0 0 z)) as E. fold (normal_of_polygon (saddle z)) in E.
  rewrite saddle_vector in *. rewrite (plen_unique (Pt 0 0 4) 4) in *; [|lra|unfold pdot; cbn [px py pz]; ring|lra|unfold pdot; cbn [px py pz]; ring].
  unfold pdot in E at 2. cbn [px py pz] in E. lra.
Qed.
Theorem removal_error_moved_refuted : exists v poly w, removalError v poly = 0 /\ 0 < removalError (padd v w) (map (fun p => padd p w) poly).
Proof.
  exists porigin, (saddle 3), (Pt 0 0 (- 6)). split.
  - apply (proj2 (proj2 (removal_error_value porigin (saddle 3)))). rewrite saddle_bary, saddle_vector. unfold pdot. cbn [px py pz]. lra.
  - replace (map (fun p => padd p (Pt 0 0 (-6))) (saddle 3)) with (saddle (- 3)).
    2: { unfold saddle. cbn [map]. do 4 (apply f_equal2; [apply pt_eq; cbn [padd px py pz]; lra|]). reflexivity. }
    unfold removalError. rewrite saddle_volume. destruct (Rlt_dec 0 (- 4 / 3 * -3)) as [L|L]; [|exfalso; apply L; lra].
    assert (0 < perimeter (saddle (-3))) as P.
    { unfold perimeter. rewrite fold_sumn, Rplus_0_l. unfold saddle, next_at, corner_at. cbn [length sumn nth Nat.modulo Nat.divmod Nat.add Nat.sub fst snd].
      repeat match goal with |- context [plen ?v] => lazymatch v with psub _ _ => rewrite (plen_unique v (sqrt 18)); [|apply sqrt_pos|rewrite sqrt_sqrt by lra; unfold pdot, psub; cbn [px py pz]; ring] end end.
      pose proof (sqrt_lt_R0 18 ltac:(lra)). lra. }
    unfold Rdiv. apply Rmult_lt_0_compat; [|apply Rinv_0_lt_compat; exact P]. apply Rmult_lt_0_compat; [apply exp_pos|]. cbn. lra.
Qed.
Print Assumptions removal_error_moved_refuted.
