(** Proofs about SurfModel. *)
From Coq Require Import Reals List Lia Lra Psatz.
From Verif Require Import SurfModel.
Import ListNotations.
Open Scope R_scope.

Lemma pdot_nonneg v : 0 <= pdot v v.
Proof. unfold pdot. pose proof (Rle_0_sqr (px v)); pose proof (Rle_0_sqr (py v)); pose proof (Rle_0_sqr (pz v)). unfold Rsqr in *. lra. Qed.
Lemma plen_sqr v : plen v * plen v = pdot v v.
Proof. unfold plen. apply sqrt_sqrt, pdot_nonneg. Qed.
Lemma plen_nonneg v : 0 <= plen v.
Proof. apply sqrt_pos. Qed.
Lemma plen_unique v x : 0 <= x -> pdot v v = x * x -> plen v = x.
Proof. intros H E. unfold plen. rewrite E. apply sqrt_square. exact H. Qed.
Lemma pdot_zero v : pdot v v = 0 -> v = porigin.
Proof.
  destruct v as [x y z]. unfold pdot. cbn [px py pz]. intros H.
  pose proof (Rle_0_sqr x) as A; pose proof (Rle_0_sqr y) as B; pose proof (Rle_0_sqr z) as C. unfold Rsqr in *.
  assert (X : x * x = 0) by lra. assert (Y : y * y = 0) by lra. assert (Z : z * z = 0) by lra.
  unfold porigin. f_equal; [apply Rmult_integral in X; lra|apply Rmult_integral in Y; lra|apply Rmult_integral in Z; lra].
Qed.

(** Heron's formula gives half the length of the cross product. *)
Lemma heron_sqr p0 p1 p2 :
  let a := plen (psub p0 p1) in let b := plen (psub p1 p2) in let c := plen (psub p2 p0) in
  let s := (a + b + c) / 2 in
  s * (s - a) * (s - b) * (s - c) = (plen (pcross (psub p1 p0) (psub p2 p0)) / 2) * (plen (pcross (psub p1 p0) (psub p2 p0)) / 2).
Proof.
  intros a b c s.
  replace (plen (pcross (psub p1 p0) (psub p2 p0)) / 2 * (plen (pcross (psub p1 p0) (psub p2 p0)) / 2))
    with (plen (pcross (psub p1 p0) (psub p2 p0)) * plen (pcross (psub p1 p0) (psub p2 p0)) / 4) by field.
  rewrite plen_sqr.
  replace (s * (s - a) * (s - b) * (s - c))
    with ((2 * (a * a) * (b * b) + 2 * (b * b) * (c * c) + 2 * (c * c) * (a * a) - (a * a) * (a * a) - (b * b) * (b * b) - (c * c) * (c * c)) / 16)
    by (unfold s; field).
  unfold a, b, c. rewrite !plen_sqr. unfold pdot, pcross, psub. cbn [px py pz]. field.
Qed.
Lemma heron p0 p1 p2 : triangleSurface p0 p1 p2 = plen (pcross (psub p1 p0) (psub p2 p0)) / 2.
Proof.
  unfold triangleSurface. pose proof (heron_sqr p0 p1 p2) as H. cbv zeta in *. rewrite H.
  set (h := plen (pcross (psub p1 p0) (psub p2 p0)) / 2).
  assert (P : 0 <= h) by (unfold h; pose proof (plen_nonneg (pcross (psub p1 p0) (psub p2 p0))); lra).
  destruct (Rle_dec (h * h) 0) as [L|L].
  - assert (h * h = 0) as E by (pose proof (Rle_0_sqr h) as S; unfold Rsqr in S; lra). apply Rmult_integral in E. lra.
  - apply sqrt_square. exact P.
Qed.

(** Sums. *)
Fixpoint sumn (g : nat -> R) (n : nat) : R := match n with O => 0 | S n => sumn g n + g n end.
Lemma fold_sumn g n x : fold_left (fun f i => f + g i) (seq 0 n) x = x + sumn g n.
Proof.
  induction n as [|n IH]; [cbn [seq fold_left sumn]; ring|].
  rewrite seq_S, fold_left_app, IH. cbn [fold_left sumn]. rewrite Nat.add_0_l. ring.
Qed.
Lemma sumn_ext f g n : (forall i, (i < n)%nat -> f i = g i) -> sumn f n = sumn g n.
Proof. induction n as [|n IH]; intros H; cbn [sumn]; [reflexivity|]. rewrite IH by (intros; apply H; lia). rewrite H by lia. reflexivity. Qed.
Lemma sumn_plus f g n : sumn (fun i => f i + g i) n = sumn f n + sumn g n.
Proof. induction n as [|n IH]; cbn [sumn]; [ring|]. rewrite IH. ring. Qed.
Lemma sumn_scale k f n : sumn (fun i => k * f i) n = k * sumn f n.
Proof. induction n as [|n IH]; cbn [sumn]; [ring|]. rewrite IH. ring. Qed.
Lemma sumn_shift g n : sumn g (S n) = g O + sumn (fun i => g (S i)) n.
Proof. induction n as [|n IH]; [cbn [sumn]; ring|]. change (sumn g (S (S n))) with (sumn g (S n) + g (S n)). rewrite IH. cbn [sumn]. ring. Qed.
(** Going round once more does not change a sum. *)
Lemma sumn_next g n : sumn (fun i => g (Nat.modulo (i + 1) n)) n = sumn g n.
Proof.
  destruct n as [|n]; [reflexivity|]. cbn [sumn].
  replace (Nat.modulo (n + 1) (S n)) with O by (replace (n + 1)%nat with (S n) by lia; symmetry; apply Nat.mod_same; lia).
  rewrite (sumn_ext _ (fun i => g (S i))).
  - pose proof (sumn_shift g n) as H. cbn [sumn] in H. lra.
  - intros i L. f_equal. rewrite Nat.mod_small by lia. lia.
Qed.
Lemma sumn_nonneg g n : (forall i, (i < n)%nat -> 0 <= g i) -> 0 <= sumn g n.
Proof. induction n as [|n IH]; intros H; cbn [sumn]; [lra|]. pose proof (H n ltac:(lia)). pose proof (IH ltac:(intros; apply H; lia)). lra. Qed.

(** Sums of vectors. *)
Definition sump (g : nat -> pt) (n : nat) : pt := Pt (sumn (fun i => px (g i)) n) (sumn (fun i => py (g i)) n) (sumn (fun i => pz (g i)) n).
Lemma pt_eq p q : px p = px q -> py p = py q -> pz p = pz q -> p = q.
Proof. destruct p, q. cbn. intros -> -> ->. reflexivity. Qed.
Lemma fold_sump g n x : fold_left (fun v i => padd v (g i)) (seq 0 n) x = padd x (sump g n).
Proof.
  induction n as [|n IH].
  - cbn [seq fold_left]. apply pt_eq; cbn; ring.
  - rewrite seq_S, fold_left_app, IH. cbn [fold_left]. rewrite Nat.add_0_l. apply pt_eq; cbn; ring.
Qed.
Lemma area_sum poly : area_vector poly = sump (fun i => pcross (corner_at poly i) (next_at poly i)) (length poly).
Proof. unfold area_vector. rewrite fold_sump. apply pt_eq; cbn; ring. Qed.

(** The area vector seen from any point. *)
Lemma area_from poly b :
  area_vector poly = sump (fun i => pcross (psub (corner_at poly i) b) (psub (next_at poly i) b)) (length poly).
Proof.
  rewrite area_sum. set (n := length poly). set (c := corner_at poly). set (d := next_at poly).
  assert (X : sumn (fun i => px (d i)) n = sumn (fun i => px (c i)) n) by apply (sumn_next (fun i => px (c i)) n).
  assert (Y : sumn (fun i => py (d i)) n = sumn (fun i => py (c i)) n) by apply (sumn_next (fun i => py (c i)) n).
  assert (Z : sumn (fun i => pz (d i)) n = sumn (fun i => pz (c i)) n) by apply (sumn_next (fun i => pz (c i)) n).
  apply pt_eq; unfold sump; cbn [px py pz].
  - rewrite (sumn_ext (fun i => px (pcross (psub (c i) b) (psub (d i) b)))
      (fun i => px (pcross (c i) (d i)) + ((- pz b) * py (c i) + pz b * py (d i) + (py b * pz (c i) + (- py b) * pz (d i)))))
      by (intros; cbn; ring).
    rewrite !sumn_plus, !sumn_scale, Y, Z. cbn [pcross px]. ring.
  - rewrite (sumn_ext (fun i => py (pcross (psub (c i) b) (psub (d i) b)))
      (fun i => py (pcross (c i) (d i)) + ((- px b) * pz (c i) + px b * pz (d i) + (pz b * px (c i) + (- pz b) * px (d i)))))
      by (intros; cbn; ring).
    rewrite !sumn_plus, !sumn_scale, X, Z. cbn [pcross py]. ring.
  - rewrite (sumn_ext (fun i => pz (pcross (psub (c i) b) (psub (d i) b)))
      (fun i => pz (pcross (c i) (d i)) + ((- py b) * px (c i) + py b * px (d i) + (px b * py (c i) + (- px b) * py (d i)))))
      by (intros; cbn; ring).
    rewrite !sumn_plus, !sumn_scale, X, Y. cbn [pcross pz]. ring.
Qed.

(** Cauchy and the triangle inequality. *)
Lemma cauchy u v : pdot u v <= plen u * plen v.
Proof.
  destruct (Rle_or_lt (pdot u v) 0) as [H|H].
  { pose proof (Rmult_le_pos _ _ (plen_nonneg u) (plen_nonneg v)). lra. }
  apply Rsqr_incr_0_var; [|apply Rmult_le_pos; apply plen_nonneg].
  unfold Rsqr. replace (plen u * plen v * (plen u * plen v)) with ((plen u * plen u) * (plen v * plen v)) by ring.
  rewrite !plen_sqr. pose proof (pdot_nonneg (pcross u v)) as K.
  assert (E : pdot u u * pdot v v = pdot u v * pdot u v + pdot (pcross u v) (pcross u v)) by (unfold pdot, pcross; cbn [px py pz]; ring).
  rewrite E. lra.
Qed.
Lemma plen_add u v : plen (padd u v) <= plen u + plen v.
Proof.
  apply Rsqr_incr_0_var; [|pose proof (plen_nonneg u); pose proof (plen_nonneg v); lra].
  unfold Rsqr. rewrite plen_sqr.
  replace (pdot (padd u v) (padd u v)) with (pdot u u + pdot v v + 2 * pdot u v) by (unfold pdot, padd; cbn [px py pz]; ring).
  rewrite <- !plen_sqr. pose proof (cauchy u v). lra.
Qed.
Lemma plen_origin : plen porigin = 0.
Proof. apply plen_unique; [lra|]. unfold pdot, porigin. cbn [px py pz]. ring. Qed.
Lemma plen_sum g n : plen (sump g n) <= sumn (fun i => plen (g i)) n.
Proof.
  induction n as [|n IH]; cbn [sumn].
  - change (sump g 0) with porigin. rewrite plen_origin. lra.
  - change (sump g (S n)) with (padd (sump g n) (g n)). pose proof (plen_add (sump g n) (g n)). lra.
Qed.

(** The two barycenters are the same point. *)
Lemma bary_fold l k x : fold_left (fun b p => padd b (pscale k p)) l (pscale k x) = pscale k (fold_left padd l x).
Proof.
  revert x. induction l as [|p l IH]; intros x; cbn [fold_left]; [reflexivity|].
  rewrite <- IH. f_equal. apply pt_eq; cbn; ring.
Qed.
Lemma barycenters_agree poly : barycenter poly = barycenter_gate poly.
Proof.
  unfold barycenter, barycenter_gate. rewrite <- bary_fold. f_equal. apply pt_eq; cbn; ring.
Qed.

(** Areas of fans. *)
Lemma cross_turn c d b : pcross (psub d c) (psub b c) = pcross (psub c b) (psub d b).
Proof. apply pt_eq; cbn; ring. Qed.
Lemma cross_turn' c d b : pcross (psub c b) (psub d b) = pcross (psub d c) (psub b d).
Proof. apply pt_eq; cbn; ring. Qed.
Lemma fan_area_sum poly : fan_area poly = sumn (fun i => plen (pcross (psub (corner_at poly i) (barycenter poly)) (psub (next_at poly i) (barycenter poly))) / 2) (length poly).
Proof. unfold fan_area. rewrite fold_sumn, Rplus_0_l. apply sumn_ext. intros i _. rewrite heron, cross_turn. reflexivity. Qed.
Lemma face_surface_sum poly : faceSurface poly = fan_area poly.
Proof.
  rewrite fan_area_sum. unfold faceSurface. rewrite <- barycenters_agree, fold_sumn, Rplus_0_l. apply sumn_ext. intros i _. rewrite heron. reflexivity.
Qed.
Lemma fan_at_least poly : plen (area_vector poly) / 2 <= fan_area poly.
Proof.
  rewrite fan_area_sum, (area_from poly (barycenter poly)).
  rewrite (sumn_ext _ (fun i => / 2 * plen (pcross (psub (corner_at poly i) (barycenter poly)) (psub (next_at poly i) (barycenter poly)))))
    by (intros; field).
  rewrite sumn_scale. pose proof (plen_sum (fun i => pcross (psub (corner_at poly i) (barycenter poly)) (psub (next_at poly i) (barycenter poly))) (length poly)). lra.
Qed.

(** The direction of a vector times its length is the vector. *)
Lemma unit_len n q : plen n * pdot q (unit_of n) = pdot q n.
Proof.
  unfold unit_of. destruct (Req_EM_T (pdot n n) 0) as [E|E].
  - apply pdot_zero in E. subst n. rewrite plen_origin. unfold pdot, porigin. cbn [px py pz]. ring.
  - change (sqrt (pdot n n)) with (plen n).
    assert (plen n <> 0) as K by (intros K; apply E; rewrite <- plen_sqr, K; ring).
    unfold pdot, pscale. cbn [px py pz]. field. exact K.
Qed.
Lemma pdot_sump b g n : sumn (fun i => pdot b (g i)) n = pdot b (sump g n).
Proof. unfold pdot. rewrite !sumn_plus, !sumn_scale. reflexivity. Qed.

(** What the volume comes to. *)
Lemma volume_value poly :
  removal_volume poly = (plen (area_vector poly) / 2 - fan_area poly) * pdot (barycenter poly) (normal_of_polygon poly) / 3.
Proof.
  unfold removal_volume. rewrite fold_sumn.
  rewrite (sumn_ext _ (fun i => / 6 * pdot (barycenter poly) (pcross (corner_at poly i) (next_at poly i)))).
  - rewrite sumn_scale, pdot_sump, <- area_sum. rewrite <- (unit_len (area_vector poly) (barycenter poly)). fold (normal_of_polygon poly).
    unfold pdot, pscale. cbn [px py pz]. field.
  - intros i _. rewrite heron, cross_turn, cross_turn'. unfold normal_of_triangle.
    set (c := corner_at poly i). set (d := next_at poly i). set (b := barycenter poly).
    replace (1 / 3 * (plen (pcross (psub d c) (psub b d)) / 2) * pdot c (unit_of (pcross (psub d c) (psub b d))))
      with (/ 6 * (plen (pcross (psub d c) (psub b d)) * pdot c (unit_of (pcross (psub d c) (psub b d))))) by field.
    rewrite unit_len. unfold pdot, pcross, psub. cbn [px py pz]. field.
Qed.
