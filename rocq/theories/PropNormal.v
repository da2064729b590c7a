(** C199, C200: normals of facets and vertices. *)
From Coq Require Import Reals List Lia Lra Psatz Permutation.
From Verif Require Import SurfModel SurfProofs NormalModel ConvexProofs.
Import ListNotations.
Open Scope R_scope.

(** Spec: the sum of the cross products along the sides. *)
Definition side_sum (es : list (pt * pt)) : pt := fold_right (fun e s => padd (pcross (fst e) (snd e)) s) porigin es.
Definition opposite (v : pt) : pt := pscale (-1) v.

Ltac coords := apply pt_eq; cbn [padd psub pscale pcross porigin opposite px py pz].
Lemma side_sum_perm a b : Permutation a b -> side_sum a = side_sum b.
Proof.
  induction 1 as [|e a b _ IH|e f a|a b c _ IH1 _ IH2]; cbn [side_sum fold_right]; [reflexivity| | |congruence].
  - fold (side_sum a). fold (side_sum b). rewrite IH. reflexivity.
  - fold (side_sum a). coords; ring.
Qed.
Lemma side_sum_swap es : side_sum (map (fun e => (snd e, fst e)) es) = opposite (side_sum es).
Proof.
  induction es as [|e es IH]; cbn [map side_sum fold_right].
  - coords; ring.
  - fold (side_sum es). fold (side_sum (map (fun e : pt * pt => (snd e, fst e)) es)). rewrite IH. cbn [fst snd]. coords; ring.
Qed.
Lemma walk_chain first l n : facet_walk first l n = padd n (side_sum (combine l (tl l ++ [first]))).
Proof.
  revert n. induction l as [|p l IH]; intros n; cbn [facet_walk tl combine app].
  - cbn [combine side_sum fold_right]. coords; ring.
  - rewrite IH. destruct l as [|q l]; [cbn [tl app combine side_sum fold_right fst snd]; coords; ring|].
    cbn [tl app]. set (rest := combine (q :: l) (l ++ [first])). change (combine (p :: q :: l) (q :: l ++ [first])) with ((p, q) :: rest).
    cbn [side_sum fold_right fst snd]. fold (side_sum rest). coords; ring.
Qed.
Lemma facet_sum x r : facet_walk x (x :: r) porigin = side_sum (cyc (x :: r)).
Proof. rewrite walk_chain. cbn [tl]. unfold cyc. coords; ring. Qed.
Lemma cyc_seq x r : cyc (x :: r) = map (fun i => (corner_at (x :: r) i, next_at (x :: r) i)) (seq 0 (length (x :: r))).
Proof.
  unfold cyc. set (l := x :: r). set (n := length l).
  assert (Ln : length (combine l (r ++ [x])) = n) by (rewrite combine_length, app_length; unfold n, l; cbn [length]; lia).
  apply (nth_ext _ _ (porigin, porigin) (porigin, porigin)); [rewrite map_length, seq_length; exact Ln|].
  intros i I. rewrite Ln in I. rewrite combine_nth by (rewrite app_length; unfold l; cbn [length]; lia).
  rewrite (nth_indep _ _ (corner_at l 0, next_at l 0)) by (rewrite map_length, seq_length; exact I).
  rewrite (map_nth (fun i => (corner_at l i, next_at l i))), seq_nth by exact I. cbn [Nat.add]. f_equal.
  unfold next_at, corner_at. fold n. destruct (Nat.eq_dec (i + 1) n) as [E|E].
  - rewrite E, Nat.mod_same by (unfold n, l; cbn [length]; lia). rewrite app_nth2 by (unfold n, l in *; cbn [length] in *; lia).
    replace (i - length r)%nat with 0%nat by (unfold n, l in *; cbn [length] in *; lia). reflexivity.
  - rewrite Nat.mod_small by lia. rewrite app_nth1 by (unfold n, l in *; cbn [length] in *; lia).
    replace (i + 1)%nat with (S i) by lia. reflexivity.
Qed.
Lemma fold_side_sum {A} (f : A -> pt * pt) l n : fold_left (fun v i => padd v (pcross (fst (f i)) (snd (f i)))) l n = padd n (side_sum (map f l)).
Proof.
  revert n. induction l as [|a l IH]; intros n; cbn [fold_left map side_sum fold_right]; [coords; ring|].
  rewrite IH. fold (side_sum (map f l)). coords; ring.
Qed.
Lemma area_cyc poly : area_vector poly = side_sum (cyc poly).
Proof.
  destruct poly as [|x r]; [reflexivity|]. rewrite cyc_seq. unfold area_vector.
  rewrite (fold_side_sum (fun i => (corner_at (x :: r) i, next_at (x :: r) i))). coords; ring.
Qed.

Lemma sump_ext f g n : (forall i, (i < n)%nat -> f i = g i) -> sump f n = sump g n.
Proof. intros H. unfold sump. f_equal; apply sumn_ext; intros i I; rewrite (H i I); reflexivity. Qed.
Lemma corner_map (f : pt -> pt) poly i : (i < length poly)%nat -> corner_at (map f poly) i = f (corner_at poly i).
Proof. intros I. unfold corner_at. rewrite (nth_indep _ porigin (f porigin)) by (rewrite map_length; exact I). apply map_nth. Qed.
Lemma next_map (f : pt -> pt) poly i : (i < length poly)%nat -> next_at (map f poly) i = f (next_at poly i).
Proof. intros I. unfold next_at. rewrite map_length. apply corner_map. apply Nat.mod_upper_bound. lia. Qed.
Lemma area_moved poly t : area_vector (map (fun p => padd p t) poly) = area_vector poly.
Proof.
  rewrite (area_from _ t), area_sum, map_length. apply sump_ext. intros i I. rewrite (corner_map (fun p => padd p t)), (next_map (fun p => padd p t)) by exact I.
  coords; ring.
Qed.

Lemma unit_opposite n : unit_of (opposite n) = opposite (unit_of n).
Proof.
  unfold unit_of. assert (E : pdot (opposite n) (opposite n) = pdot n n) by (unfold pdot, opposite, pscale; cbn [px py pz]; ring). rewrite E.
  destruct (Req_EM_T (pdot n n) 0); coords; ring.
Qed.
(** Spec: n is the direction of s: of length 1, and s is n times its length; 0 if s is. *)
Definition direction (s n : pt) : Prop :=
  (s = porigin /\ n = porigin) \/ (pdot n n = 1 /\ exists k, 0 < k /\ s = pscale k n).
Lemma unit_direction s : direction s (unit_of s).
Proof.
  unfold direction, unit_of. destruct (Req_EM_T (pdot s s) 0) as [E|E]; [left; split; [apply pdot_zero, E|reflexivity]|right].
  pose proof (pdot_nonneg s) as P. assert (Q : 0 < sqrt (pdot s s)) by (apply sqrt_lt_R0; lra). pose proof (sqrt_sqrt _ P) as S.
  split.
  - transitivity (/ sqrt (pdot s s) * / sqrt (pdot s s) * pdot s s); [unfold pdot, pscale; cbn [px py pz]; ring|].
    set (q := sqrt (pdot s s)) in *. rewrite <- S. field. lra.
  - exists (sqrt (pdot s s)). split; [exact Q|]. coords; field; lra.
Qed.
Lemma direction_unique s n n' : direction s n -> direction s n' -> n = n'.
Proof.
  assert (Z : forall k n, 0 < k -> pdot n n = 1 -> pscale k n <> porigin).
  { intros k m K U E. assert (X : pdot (pscale k m) (pscale k m) = 0) by (rewrite E; unfold pdot, porigin; cbn [px py pz]; ring).
    replace (pdot (pscale k m) (pscale k m)) with (k * k * pdot m m) in X by (unfold pdot, pscale; cbn [px py pz]; ring). rewrite U in X. nra. }
  intros [[E ->]|(U & k & K & E)] [[E' ->]|(U' & k' & K' & E')]; [reflexivity|exfalso; rewrite E in E'; exact (Z k' n' K' U' (eq_sym E'))|exfalso; rewrite E in E'; exact (Z k n K U E')|].
  assert (kk : k = k').
  { assert (X : pdot s s = k * k) by (rewrite E; transitivity (k * k * pdot n n); [unfold pdot, pscale; cbn [px py pz]; ring|rewrite U; ring]).
    assert (Y : pdot s s = k' * k') by (rewrite E'; transitivity (k' * k' * pdot n' n'); [unfold pdot, pscale; cbn [px py pz]; ring|rewrite U'; ring]). nra. }
  subst k'. rewrite E in E'. assert (F : forall p q, pscale k p = pscale k q -> p = q).
  { intros [a b c] [d e f] H. unfold pscale in H. cbn [px py pz] in H. injection H as H1 H2 H3. f_equal; nra. }
  apply F, E'.
Qed.

(** Spec: the corners lie in a plane with normal m. *)
Definition in_plane (m : pt) (c : R) (poly : list pt) : Prop := Forall (fun p => pdot m p = c) poly.
Lemma sump_cross m g n : (forall i, (i < n)%nat -> pcross (g i) m = porigin) -> pcross (sump g n) m = porigin.
Proof.
  induction n as [|n IH]; intros H; [unfold sump; cbn [sumn]; coords; ring|].
  pose proof (IH ltac:(intros; apply H; lia)) as E. pose proof (H n ltac:(lia)) as F.
  unfold sump in *. cbn [sumn]. unfold pcross, porigin in *. cbn [px py pz] in *. injection E as E1 E2 E3. injection F as F1 F2 F3. f_equal; lra.
Qed.
Lemma plane_area m c poly : in_plane m c poly -> pcross (area_vector poly) m = porigin.
Proof.
  intros P. destruct poly as [|x r]; [cbv [area_vector length seq fold_left]; coords; ring|]. set (poly := x :: r) in *.
  rewrite (area_from poly x). apply sump_cross. intros i I.
  assert (A : forall j, (j < length poly)%nat -> pdot m (corner_at poly j) = c).
  { intros j J. apply (proj1 (Forall_forall _ _) P). unfold corner_at. apply nth_In, J. }
  pose proof (A i I) as X. pose proof (A (Nat.modulo (i + 1) (length poly)) ltac:(apply Nat.mod_upper_bound; lia)) as Y.
  fold (next_at poly i) in Y. pose proof (Forall_inv P) as O. cbn beta in O.
  assert (X' : pdot m (psub (corner_at poly i) x) = 0) by (unfold pdot, psub in *; cbn [px py pz]; lra).
  assert (Y' : pdot m (psub (next_at poly i) x) = 0) by (unfold pdot, psub in *; cbn [px py pz]; lra).
  set (u := psub (corner_at poly i) x) in *. set (v := psub (next_at poly i) x) in *.
  transitivity (psub (pscale (pdot m u) v) (pscale (pdot m v) u)); [unfold pdot; coords; ring|rewrite X', Y'; coords; ring].
Qed.

(** C199.  The normal of a facet is the direction of the sum of the cross products along its sides; all four
    functions agree on it whatever corner they begin with; moving the facet does not change it, going round the other
    way turns it to the opposite; it is at right angles to the plane of a plane facet. *)
Theorem facet_normal : forall poly,
  direction (side_sum (cyc poly)) (normal_of_facet poly) /\
  normal_of_facet poly = normal_of_polygon poly /\
  (forall a b, poly = a ++ b -> normal_of_gate a b = normal_of_facet poly /\ normal_of_facet (b ++ a) = normal_of_facet poly) /\
  (forall t, normal_of_facet (map (fun p => padd p t) poly) = normal_of_facet poly) /\
  normal_of_facet (rev poly) = opposite (normal_of_facet poly) /\
  (forall m c, in_plane m c poly -> pcross (normal_of_facet poly) m = porigin) /\
  (forall p q r, poly = [p; q; r] -> normal_of_triangle p q r = normal_of_facet poly).
Proof.
  intros poly.
  assert (F : forall l, normal_of_facet l = unit_of (side_sum (cyc l))).
  { intros [|x r]; [|unfold normal_of_facet; rewrite facet_sum; reflexivity]. cbn [normal_of_facet cyc side_sum fold_right]. unfold unit_of.
    destruct (Req_EM_T _ 0) as [E|E]; [reflexivity|]. exfalso. apply E. unfold pdot, porigin. cbn [px py pz]. ring. }
  assert (G : forall l, normal_of_facet l = normal_of_polygon l) by (intros l; rewrite F, <- area_cyc; reflexivity).
  split; [rewrite F; apply unit_direction|]. split; [apply G|].
  split; [|split; [|split; [|split]]].
  - intros a b ->. assert (R : normal_of_facet (b ++ a) = normal_of_facet (a ++ b)) by (rewrite !F; f_equal; apply side_sum_perm, cyc_rotate).
    split; [|exact R]. unfold normal_of_gate. rewrite <- G. exact R.
  - intros t. rewrite !G. unfold normal_of_polygon. rewrite area_moved. reflexivity.
  - rewrite !F, <- unit_opposite, <- side_sum_swap. f_equal. apply side_sum_perm, cyc_rev.
  - intros m c P. pose proof (plane_area m c poly P) as E. rewrite area_cyc in E. rewrite F. unfold unit_of. destruct (Req_EM_T _ 0); [coords; ring|].
    set (s := side_sum (cyc poly)) in *. set (k := / sqrt (pdot s s)). unfold pcross, porigin in E. injection E as E1 E2 E3.
    coords.
    + transitivity (k * (py s * pz m - pz s * py m)); [ring|rewrite E1; ring].
    + transitivity (k * (pz s * px m - px s * pz m)); [ring|rewrite E2; ring].
    + transitivity (k * (px s * py m - py s * px m)); [ring|rewrite E3; ring].
  - intros p q r ->. rewrite F. unfold normal_of_triangle. f_equal. unfold cyc, side_sum. cbn [app combine fold_right fst snd]. coords; ring.
Qed.
Print Assumptions facet_normal.
(** A square in the plane z = 5: its normal points up. *)
Example facet_normal_case : let poly := [Pt 0 0 5; Pt 1 0 5; Pt 1 1 5; Pt 0 1 5] in
  in_plane (Pt 0 0 1) 5 poly /\ normal_of_facet poly = Pt 0 0 1 /\ normal_of_gate [Pt 0 0 5] [Pt 1 0 5; Pt 1 1 5; Pt 0 1 5] = Pt 0 0 1.
Proof.
  intros poly. split; [repeat constructor; unfold pdot; cbn [px py pz]; ring|].
  assert (E : normal_of_facet poly = Pt 0 0 1).
  { apply (direction_unique (side_sum (cyc poly))); [apply facet_normal|]. right. split; [unfold pdot; cbn [px py pz]; ring|].
    exists 2. split; [lra|]. unfold poly, cyc, side_sum. cbn [app combine fold_right fst snd]. coords; ring. }
  split; [exact E|]. rewrite (proj1 (proj1 (proj2 (proj2 (facet_normal poly))) [Pt 0 0 5] _ eq_refl)). exact E.
Qed.

Definition sum_of (l : list pt) : pt := fold_right padd porigin l.
Lemma vertex_sum fs n : fold_left (fun n f => padd n (normal_of_gate [] f)) fs n = padd n (sum_of (map normal_of_facet fs)).
Proof.
  revert n. induction fs as [|f fs IH]; intros n; cbn [fold_left map sum_of fold_right]; [coords; ring|]. rewrite IH. fold (sum_of (map normal_of_facet fs)).
  replace (normal_of_gate [] f) with (normal_of_facet f); [coords; ring|]. symmetry. apply (proj1 (proj2 (proj2 (facet_normal f))) [] f eq_refl).
Qed.
Lemma sum_perm a b : Permutation a b -> sum_of a = sum_of b.
Proof.
  induction 1 as [|e a b _ IH|e f a|a b c _ IH1 _ IH2]; cbn [sum_of fold_right]; [reflexivity| | |congruence].
  - fold (sum_of a). fold (sum_of b). rewrite IH. reflexivity.
  - fold (sum_of a). coords; ring.
Qed.
(** C200.  The normal of a vertex is the direction of the sum of the normals of its facets; the order and the
    first corner of the facets do not matter; facets with the same normal give that one; what is in front of all
    facets is in front of the vertex. *)
Theorem vertex_normal_is : forall fs,
  direction (sum_of (map normal_of_facet fs)) (vertex_normal fs) /\
  (forall gs, Permutation fs gs -> vertex_normal gs = vertex_normal fs) /\
  (forall m, fs <> [] -> pdot m m = 1 -> Forall (fun f => normal_of_facet f = m) fs -> vertex_normal fs = m) /\
  (forall m, fs <> [] -> Forall (fun f => 0 < pdot m (normal_of_facet f)) fs -> 0 < pdot m (vertex_normal fs)).
Proof.
  intros fs. assert (V : forall fs, vertex_normal fs = unit_of (sum_of (map normal_of_facet fs))) by (intros l; unfold vertex_normal; rewrite vertex_sum; f_equal; coords; ring).
  assert (D : direction (sum_of (map normal_of_facet fs)) (vertex_normal fs)) by (rewrite V; apply unit_direction).
  split; [exact D|]. split; [|split].
  - intros gs P. rewrite !V. f_equal. apply sum_perm, Permutation_map, Permutation_sym, P.
  - intros m N U F. apply (direction_unique _ _ _ D). right. split; [exact U|]. exists (INR (length fs)). split; [apply lt_0_INR; destruct fs; [contradiction|cbn [length]; lia]|].
    clear D N. induction F as [|f fs E _ IH]; cbn [map sum_of fold_right]; [coords; cbn [length INR]; ring|].
    fold (sum_of (map normal_of_facet fs)). rewrite E, IH, (S_INR (length fs) : INR (length (f :: fs)) = _). coords; ring.
  - intros m N F. assert (P : 0 < pdot m (sum_of (map normal_of_facet fs))).
    { clear D. destruct fs as [|f fs]; [contradiction|]. clear N. pose proof (Forall_inv F) as A. apply Forall_inv_tail in F. cbn beta in A.
      assert (B : 0 <= pdot m (sum_of (map normal_of_facet fs))).
      { clear A. induction F as [|g gs A _ IH]; cbn [map sum_of fold_right]; [unfold pdot, porigin; cbn [px py pz]; lra|].
        fold (sum_of (map normal_of_facet gs)). unfold pdot, padd in *. cbn [px py pz]. lra. }
      cbn [map sum_of fold_right]. fold (sum_of (map normal_of_facet fs)). unfold pdot, padd in *. cbn [px py pz]. lra. }
    destruct D as [[E _]|(_ & k & K & E)].
    + rewrite E in P. unfold pdot, porigin in P. cbn [px py pz] in P. lra.
    + rewrite E in P. replace (pdot m (pscale k (vertex_normal fs))) with (k * pdot m (vertex_normal fs)) in P by (unfold pdot, pscale; cbn [px py pz]; ring). nra.
Qed.
Print Assumptions vertex_normal_is.
(** Two squares at height 0 that share a side: their common corner has the normal of both. *)
Example vertex_normal_case : let fs := [[Pt 0 0 0; Pt 1 0 0; Pt 1 1 0; Pt 0 1 0]; [Pt 0 0 0; Pt 0 1 0; Pt (-1) 1 0; Pt (-1) 0 0]] in
  fs <> [] /\ pdot (Pt 0 0 1) (Pt 0 0 1) = 1 /\ Forall (fun f => normal_of_facet f = Pt 0 0 1) fs /\ vertex_normal fs = Pt 0 0 1.
Proof.
  intros fs. assert (N : fs <> []) by discriminate. assert (U : pdot (Pt 0 0 1) (Pt 0 0 1) = 1) by (unfold pdot; cbn [px py pz]; ring).
  assert (F : Forall (fun f => normal_of_facet f = Pt 0 0 1) fs).
  { repeat constructor; (eapply direction_unique; [apply facet_normal|]; right; split; [exact U|]; exists 2; split; [lra|];
      unfold cyc, side_sum; cbn [app combine fold_right fst snd]; coords; ring). }
  repeat (split; [assumption|]). apply vertex_normal_is; assumption.
Qed.
