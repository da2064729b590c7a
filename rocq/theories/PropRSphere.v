(** C204, C68: the R-tree with the volume it is compiled with, that of the sphere around a box. *)
From Coq Require Import List Bool Arith ZArith QArith Lia Lqa Permutation Qround.
From Verif Require Import AabModel AabProofs RTreeModel RTreeProofs RTreeIterProofs SphereModel PropRTree PropRRound PropRSingle.
Import ListNotations.
Open Scope nat_scope.

(** ** Specification *)
(** What Insert asks for (RTree.h:499-504, checked only in debug builds): no side is turned inside out. *)
Definition proper (r : Rect) : Prop := Forall (fun p => fst p <= snd p)%Z r.
Definition op_proper {D} (dim : nat) (o : op D) : Prop :=
  match o with Ins r _ => length r = dim /\ proper r | Del _ _ => True end.
(** Roundings and square roots keep the order and send 0 to 0. *)
Definition monotone (f : Q -> Q) : Prop := (forall x y, x <= y -> f x <= f y)%Q /\ (f 0 == 0)%Q.
(** Powers keep the order of what is not negative. *)
Definition monotone_pow (pow : Q -> nat -> Q) : Prop :=
  forall n x y, (0 <= x <= y -> 0 <= pow x n <= pow y n)%Q.

(** ** Volumes that keep the order on some boxes *)
Definition volume_on (P : rpred) (vol : Rect -> Q) : Prop :=
  (forall r, P r -> 0 <= vol r)%Q /\ forall a c, P a -> P c -> within_box a c -> (vol a <= vol c)%Q.
Lemma good_exact_on (P : rpred) (dim : nat) vol : (forall r, P r -> length r = dim) -> volume_on P vol -> good_sub P vol Qminus.
Proof.
  intros Len [Po Mo] a b c La Lb Lc E. destruct (Qltb_spec (- vol c - 1) (vol (combine_rect a b) - vol a - vol b)) as [H|H]; [reflexivity|exfalso].
  assert (A : (vol a <= vol (combine_rect a b))%Q).
  { apply Mo; [exact La|apply kept; assumption|]. apply (absorbed_within dim); [apply Len; exact La|apply combine_length; apply Len; assumption|]. rewrite combine_assoc, combine_idem. reflexivity. }
  assert (B : (vol b <= vol c)%Q).
  { apply Mo; [exact Lb|exact Lc|]. apply (absorbed_within dim); [apply Len; exact Lb|apply Len; exact Lc|]. rewrite <- E at 1. rewrite combine_assoc, (combine_comm b), <- (combine_assoc a), combine_idem. exact E. }
  pose proof (Po c Lc). lra.
Qed.
Lemma good_rounded_on (P : rpred) hull vol rnd : (forall r, P r -> within_box r hull) -> P hull -> volume_on P vol -> rounding rnd ->
  (vol hull <= inject_Z (2 ^ 23 - 1))%Q -> good_sub P vol (rounded rnd).
Proof.
  intros In Ph [Po Mo] R H a b c La Lb Lc E.
  assert (Len : forall r, P r -> length r = length hull) by (intros r Hr; apply within_length, In; exact Hr).
  assert (A : (vol a <= vol (combine_rect a b))%Q).
  { apply Mo; [exact La|apply kept; assumption|]. apply (absorbed_within (length hull)); [apply Len; exact La|apply combine_length; apply Len; assumption|]. rewrite combine_assoc, combine_idem. reflexivity. }
  assert (B : (vol b <= vol c)%Q).
  { apply Mo; [exact Lb|exact Lc|]. apply (absorbed_within (length hull)); [apply Len; exact Lb|apply Len; exact Lc|]. rewrite <- E at 1. rewrite combine_assoc, (combine_comm b), <- (combine_assoc a), combine_idem. exact E. }
  unfold rounded. apply rounded_numbers; [exact R|exact A|exact B|apply Po; exact Lc|].
  eapply Qle_trans; [apply Mo; [exact Lc|exact Ph|apply In; exact Lc]|exact H].
Qed.

(** ** The spheres *)
Section Sphere.
Variables rd sq : Q -> Q.
Variable pow : Q -> nat -> Q.
Variables u unit : Q.
Hypothesis Rd : monotone rd.
Hypothesis Sq : monotone sq.
Hypothesis Pw : monotone_pow pow.
Hypothesis U : (0 <= u)%Q.
Hypothesis Unit : (0 <= unit)%Q.
Lemma mono_between f x y : monotone f -> (0 <= x <= y)%Q -> (0 <= f x <= f y)%Q.
Proof.
  intros [M0 M1] [A B]. split; [|apply M0; exact B]. rewrite <- M1. apply M0. exact A.
Qed.
Lemma mul_between a b x y : (0 <= a <= b)%Q -> (0 <= x <= y)%Q -> (0 <= a * x <= b * y)%Q.
Proof.
  intros [A B] [X Y]. split; [apply Qmult_le_0_compat; assumption|].
  apply Qle_trans with (b * x)%Q; [apply Qmult_le_compat_r; assumption|].
  rewrite (Qmult_comm b x), (Qmult_comm b y). apply Qmult_le_compat_r; [exact Y|lra].
Qed.
Lemma same_between x : (0 <= x)%Q -> (0 <= x <= x)%Q. Proof. lra. Qed.
Lemma half_mono p q : (fst p <= snd p)%Z -> (fst q <= fst p /\ snd p <= snd q)%Z -> (0 <= half_extent rd u p <= half_extent rd u q)%Q.
Proof.
  intros V W. unfold half_extent. apply mono_between; [exact Rd|]. apply mul_between; [|lra]. apply mono_between; [exact Rd|].
  apply mul_between; [lra|]. change 0%Q with (inject_Z 0). rewrite <- !Zle_Qle. lia.
Qed.
Lemma sum_from a c : within_box a c -> proper a -> forall s t, (0 <= s <= t)%Q ->
  (0 <= fold_left (fun s p => rd (s + rd (half_extent rd u p * half_extent rd u p))) a s <=
   fold_left (fun s p => rd (s + rd (half_extent rd u p * half_extent rd u p))) c t)%Q.
Proof.
  induction 1 as [|p q a c B W IH]; intros V s t L; cbn [fold_left]; [exact L|].
  apply Forall_cons_iff in V. destruct V as [V1 V2]. apply IH; [exact V2|].
  pose proof (half_mono p q V1 B) as Hf. pose proof (mono_between rd _ _ Rd (mul_between _ _ _ _ Hf Hf)) as X. apply mono_between; [exact Rd|]. lra.
Qed.
Lemma sum_mono a c : proper a -> within_box a c -> (0 <= sum_of_squares rd u a <= sum_of_squares rd u c)%Q.
Proof. intros V W. apply sum_from; [exact W|exact V|lra]. Qed.
Lemma sphere_mono a c : proper a -> within_box a c ->
  (0 <= RectSphericalVolume rd sq pow u unit a <= RectSphericalVolume rd sq pow u unit c)%Q.
Proof.
  intros V W. pose proof (mono_between sq _ _ Sq (sum_mono a c V W)) as R. unfold RectSphericalVolume. rewrite <- (within_length a c W).
  assert (G : (0 <= rd (pow (sq (sum_of_squares rd u a)) (length a) * unit) <= rd (pow (sq (sum_of_squares rd u c)) (length a) * unit))%Q).
  { apply mono_between; [exact Rd|]. apply mul_between; [apply Pw; exact R|lra]. }
  destruct (length a) as [|[|[|[|k]]]]; try exact G; (apply mono_between; [exact Rd|]; apply mul_between; [|lra]; apply mono_between; [exact Rd|]).
  - apply mul_between; exact R.
  - apply mul_between; [|exact R]. apply mono_between; [exact Rd|]. apply mul_between; exact R.
Qed.
End Sphere.
Lemma proper_combine a : forall b, proper a -> proper b -> proper (combine_rect a b).
Proof.
  induction a as [|[x y] a IH]; intros [|[z w] b] A B; cbn [combine_rect]; try constructor.
  - apply Forall_inv in A, B. cbn [fst snd] in *. lia.
  - apply IH; [exact (Forall_inv_tail A)|exact (Forall_inv_tail B)].
Qed.
Lemma proper_kept dim : forall a b, length a = dim /\ proper a -> length b = dim /\ proper b -> length (combine_rect a b) = dim /\ proper (combine_rect a b).
Proof. intros a b [A1 A2] [B1 B2]. split; [apply combine_length; assumption|apply proper_combine; assumption]. Qed.
Definition proper_box (dim : nat) : rpred := {| holds := fun r => length r = dim /\ proper r; kept := proper_kept dim |}.
Lemma hull_kept hull : forall a b, within_box a hull /\ proper a -> within_box b hull /\ proper b -> within_box (combine_rect a b) hull /\ proper (combine_rect a b).
Proof. intros a b [A1 A2] [B1 B2]. split; [apply within_combine; assumption|apply proper_combine; assumption]. Qed.
Definition proper_hull (hull : Rect) : rpred := {| holds := fun r => within_box r hull /\ proper r; kept := hull_kept hull |}.

Lemma sphere_good (dim : nat) rd sq pow u unit : monotone rd -> monotone sq -> monotone_pow pow -> (0 <= u)%Q -> (0 <= unit)%Q ->
  good_sub (proper_box dim) (RectSphericalVolume rd sq pow u unit) Qminus.
Proof.
  intros Rd Sq Pw U Un. apply (good_exact_on (proper_box dim) dim); [intros r H; exact (proj1 H)|]. split.
  - intros r H. exact (proj1 (sphere_mono rd sq pow u unit Rd Sq Pw U Un r r (proj2 H) (within_refl r))).
  - intros a c Ha _ W. exact (proj2 (sphere_mono rd sq pow u unit Rd Sq Pw U Un a c (proj2 Ha) W)).
Qed.
(** What the volume is, without rounding: that of a ball around the centre through every corner. *)
Definition corner (r : Rect) (c : list Z) : Prop := Forall2 (fun p x => x = fst p \/ x = snd p) r c.
Fixpoint from_centre (u : Q) (r : Rect) (c : list Z) : Q :=
  match r, c with
  | p :: r, x :: c => (let d := u * inject_Z x - (u * inject_Z (fst p) + u * inject_Z (snd p)) / 2 in d * d + from_centre u r c)%Q
  | _, _ => 0%Q
  end.
Lemma corner_sum u r c : corner r c -> forall s,
  (fold_left (fun s p => s + half_extent (fun x => x) u p * half_extent (fun x => x) u p) r s == s + from_centre u r c)%Q.
Proof.
  induction 1 as [|p x r c H F IH]; intros s; cbn [fold_left from_centre]; [ring|]. rewrite IH. unfold half_extent.
  replace (snd p - fst p)%Z with (snd p + - fst p)%Z by lia. rewrite inject_Z_plus, inject_Z_opp. destruct H as [->| ->]; field.
Qed.
Theorem sphere_volume_is : forall sq u unit r c,
  (sq (sum_of_squares (fun x => x) u r) * sq (sum_of_squares (fun x => x) u r) == sum_of_squares (fun x => x) u r)%Q ->
  corner r c ->
  exists radius, (radius * radius == from_centre u r c)%Q /\
    (RectSphericalVolume (fun x => x) sq (fun x n => Nat.iter n (Qmult x) 1) u unit r == Nat.iter (length r) (Qmult radius) 1 * unit)%Q.
Proof.
  intros sq u unit r c E K. exists (sq (sum_of_squares (fun x => x) u r)). split.
  - rewrite E. unfold sum_of_squares. rewrite (corner_sum u r c K 0%Q). ring.
  - unfold RectSphericalVolume. destruct (length r) as [|[|[|[|n]]]]; try reflexivity; cbn [Nat.iter nat_rect]; ring.
Qed.
Print Assumptions sphere_volume_is.
(** C204: with exact differences of volumes, any history of insertions of proper boxes and removals:
    a well shaped tree, right counts and searches.  Every operation in the volume may round. *)
Theorem rtree_sphere : forall D (dim : nat) M m rd sq pow u unit (deqb : D -> D -> bool) ops,
  capacities M m -> 2 <= m -> monotone rd -> monotone sq -> monotone_pow pow -> (0 <= u)%Q -> (0 <= unit)%Q ->
  Forall (op_proper dim) ops ->
  exists root h k L, run M m (RectSphericalVolume rd sq pow u unit) Qminus deqb ops empty = Some root /\
    well_shaped dim M m h root /\ stored deqb ops [] k L /\ Count root = Some (length L) /\
    forall q, exists found, Search (fun _ _ => true) q root = Some found /\ answers q L found.
Proof.
  intros D dim M m rd sq pow u unit deqb ops C C2 Rd Sq Pw U Un K.
  pose proof (sphere_good dim rd sq pow u unit Rd Sq Pw U Un) as G.
  destruct (round_history (proper_box dim) M m _ Qminus deqb C G ops C2 K empty []) as (root & k & L & E & (h & S & _) & St & P).
  { exists 0. split; [apply empty_hull|lia]. } { reflexivity. }
  apply (shaped_weaken _ (len dim) M m (fun r (H : proper_box dim r) => proj1 H)) in S.
  exists root, h, k, L. split; [exact E|]. split; [exact (shaped_well _ M m h root S)|]. split; [exact St|].
  split; [unfold Count; rewrite (CountRec_ok _ M m h root 0 S), (Permutation_length P); reflexivity|].
  intros q. exact (search_answers _ M m h q root _ S P).
Qed.
Print Assumptions rtree_sphere.
(** Insertions alone, for every minimal fill. *)
Theorem rtree_sphere_inserts : forall D (dim : nat) M m rd sq pow u unit (deqb : D -> D -> bool) ops,
  capacities M m -> monotone rd -> monotone sq -> monotone_pow pow -> (0 <= u)%Q -> (0 <= unit)%Q ->
  Forall is_ins ops -> Forall (op_proper dim) ops ->
  exists root h, run M m (RectSphericalVolume rd sq pow u unit) Qminus deqb ops empty = Some root /\
    well_shaped dim M m h root /\ Count root = Some (length (inserted ops)) /\
    forall q, exists found, Search (fun _ _ => true) q root = Some found /\ answers q (inserted ops) found.
Proof.
  intros D dim M m rd sq pow u unit deqb ops C Rd Sq Pw U Un I K. pose proof (sphere_good dim rd sq pow u unit Rd Sq Pw U Un) as G.
  destruct (round_inserts (proper_box dim) M m _ Qminus deqb C G ops I K empty 0 (empty_hull _ M m)) as (root & h & E & S & P).
  cbn in P. rewrite app_nil_r in P. apply (shaped_weaken _ (len dim) M m (fun r (H : proper_box dim r) => proj1 H)) in S.
  exists root, h. split; [exact E|]. split; [exact (shaped_well _ M m h root S)|].
  split; [unfold Count; rewrite (CountRec_ok _ M m h root 0 S), (Permutation_length P); reflexivity|].
  intros q. exact (search_answers _ M m h q root _ S P).
Qed.
Print Assumptions rtree_sphere_inserts.
(** C204, C68: the same when the differences are rounded too, as long as the boxes lie in a box whose
    sphere has a volume of at most 2^23 - 1. *)
Theorem rtree_sphere_rounded_partial : forall D (hull : Rect) M m rd sq pow u unit rnd (deqb : D -> D -> bool) ops,
  capacities M m -> 2 <= m -> monotone rd -> monotone sq -> monotone_pow pow -> (0 <= u)%Q -> (0 <= unit)%Q -> rounding rnd ->
  proper hull -> (RectSphericalVolume rd sq pow u unit hull <= inject_Z (2 ^ 23 - 1))%Q ->
  Forall (op_proper (length hull)) ops -> Forall (op_in hull) ops ->
  exists root h k L, run M m (RectSphericalVolume rd sq pow u unit) (rounded rnd) deqb ops empty = Some root /\
    well_shaped (length hull) M m h root /\ stored deqb ops [] k L /\ Count root = Some (length L) /\
    forall q, exists found, Search (fun _ _ => true) q root = Some found /\ answers q L found.
Proof.
  intros D hull M m rd sq pow u unit rnd deqb ops C C2 Rd Sq Pw U Un R Ph B K1 K2.
  assert (G : good_sub (proper_hull hull) (RectSphericalVolume rd sq pow u unit) (rounded rnd)).
  { apply (good_rounded_on (proper_hull hull) hull); [intros r H; exact (proj1 H)|split; [apply within_refl|exact Ph]| |exact R|exact B]. split.
    - intros r H. exact (proj1 (sphere_mono rd sq pow u unit Rd Sq Pw U Un r r (proj2 H) (within_refl r))).
    - intros a c Ha _ W. exact (proj2 (sphere_mono rd sq pow u unit Rd Sq Pw U Un a c (proj2 Ha) W)). }
  assert (K : Forall (op_sat (proper_hull hull)) ops).
  { rewrite Forall_forall in *. intros o I. specialize (K1 o I). specialize (K2 o I). destruct o as [r d|q id]; [|exact K2]. split; [exact K2|exact (proj2 K1)]. }
  destruct (round_history (proper_hull hull) M m _ (rounded rnd) deqb C G ops C2 K empty []) as (root & k & L & E & (h & S & _) & St & P).
  { exists 0. split; [apply empty_hull|lia]. } { reflexivity. }
  apply (shaped_weaken _ (len (length hull)) M m (fun r (H : proper_hull hull r) => within_length r hull (proj1 H))) in S.
  exists root, h, k, L. split; [exact E|]. split; [exact (shaped_well _ M m h root S)|]. split; [exact St|].
  split; [unfold Count; rewrite (CountRec_ok _ M m h root 0 S), (Permutation_length P); reflexivity|].
  intros q. exact (search_answers _ M m h q root _ S P).
Qed.
Print Assumptions rtree_sphere_rounded_partial.
(** In single precision. *)
Lemma rnd24_monotone : monotone rnd24.
Proof. split; [exact (proj1 rnd24_rounding)|reflexivity]. Qed.
Theorem rtree_sphere_single_partial : forall D (hull : Rect) M m sq pow u unit (deqb : D -> D -> bool) ops,
  capacities M m -> 2 <= m -> monotone sq -> monotone_pow pow -> (0 <= u)%Q -> (0 <= unit)%Q ->
  proper hull -> (RectSphericalVolume rnd24 sq pow u unit hull <= inject_Z (2 ^ 23 - 1))%Q ->
  Forall (op_proper (length hull)) ops -> Forall (op_in hull) ops ->
  exists root h k L, run M m (RectSphericalVolume rnd24 sq pow u unit) (fun x y => rnd24 (x - y)) deqb ops empty = Some root /\
    well_shaped (length hull) M m h root /\ stored deqb ops [] k L /\ Count root = Some (length L) /\
    forall q, exists found, Search (fun _ _ => true) q root = Some found /\ answers q L found.
Proof.
  intros D hull M m sq pow u unit deqb ops C C2 Sq Pw U Un Ph B K1 K2.
  exact (rtree_sphere_rounded_partial D hull M m rnd24 sq pow u unit rnd24 deqb ops C C2 rnd24_monotone Sq Pw U Un rnd24_rounding Ph B K1 K2).
Qed.
Print Assumptions rtree_sphere_single_partial.

(** ** Witnesses *)
(** A square root, rounded down to 30 binary places; exact where the root has no more. *)
Definition root30 (x : Q) : Q := Z.sqrt (Qfloor (x * inject_Z (2 ^ 60))) # 2 ^ 30.
Definition power (x : Q) (n : nat) : Q := Nat.iter n (Qmult x) 1%Q.
(** RTree.h:467: the volume of the unit circle, in single precision. *)
Definition circle : Q := rnd24 (3141593 # 1000000).
Lemma root30_monotone : monotone root30.
Proof.
  split; [|reflexivity]. intros x y H. unfold root30, Qle. cbn [Qnum Qden]. apply Z.mul_le_mono_nonneg_r; [lia|]. apply Z.sqrt_le_mono, Qfloor_resp_le.
  apply Qmult_le_compat_r; [exact H|discriminate].
Qed.
Lemma power_monotone : monotone_pow power.
Proof.
  intros n x y H. unfold power. induction n as [|n IH]; [cbn; lra|]. cbn [Nat.iter nat_rect]. apply mul_between; assumption.
Qed.
(** Four equal boxes of 6144 by 8192, whose circles have the radius 5120 and an area above 2^26:
    -area - 1 rounds to -area and no pair of seeds is found. *)
Definition large : Rect := [(0, 6144); (0, 8192)]%Z.
Theorem rtree_sphere_single_refuted : exists M m ops,
  m = M / 2 /\ capacities M m /\ Forall (op_proper 2) ops /\ Forall is_ins ops /\
  run M m (RectSphericalVolume rnd24 root30 power 1 circle) (fun x y => rnd24 (x - y)) Z.eqb ops empty = None.
Proof.
  exists 3, 1, (map (Ins large) [1; 2; 3; 4]%Z). split; [reflexivity|]. split; [unfold capacities; lia|].
  split; [repeat (constructor; [split; [reflexivity|repeat constructor; cbn; lia]|]); constructor|]. split; [repeat constructor|]. vm_compute. reflexivity.
Qed.
Print Assumptions rtree_sphere_single_refuted.
(** The condition of Insert is needed, and not checked in a release build: with exact numbers, boxes
    turned inside out leave no seeds either. *)
Definition identity (x : Q) : Q := x.
Theorem rtree_sphere_improper_refuted : exists M m ops,
  m = M / 2 /\ capacities M m /\ Forall (op_dim 2) ops /\ Forall is_ins ops /\
  run M m (RectSphericalVolume identity root30 power 1 1) Qminus Z.eqb ops empty = None.
Proof.
  exists 3, 1, (map (fun d => Ins (if (d =? 0)%Z then [(10, 0); (0, 0)]%Z else [(12, -2); (0, 0)]%Z) d) [0; 1; 2; 3]%Z).
  split; [reflexivity|]. split; [unfold capacities; lia|].
  split; [repeat constructor|]. split; [repeat constructor|]. vm_compute. reflexivity.
Qed.
Print Assumptions rtree_sphere_improper_refuted.

(** ** Examples *)
Example rtree_sphere_nonvacuous :
  capacities 8 4 /\ monotone rnd24 /\ monotone root30 /\ monotone_pow power /\ (0 <= circle)%Q /\ proper strip_hull /\
  (RectSphericalVolume rnd24 root30 power 1 circle strip_hull <= inject_Z (2 ^ 23 - 1))%Q /\
  Forall (op_proper 2) (ins_all (strip 20) ++ del_all (firstn 12 (strip 20))) /\
  Forall (op_in strip_hull) (ins_all (strip 20) ++ del_all (firstn 12 (strip 20))).
Proof.
  split; [unfold capacities; lia|]. split; [exact rnd24_monotone|]. split; [exact root30_monotone|]. split; [exact power_monotone|].
  split; [vm_compute; discriminate|]. split; [repeat constructor; cbn; lia|]. split; [vm_compute; discriminate|].
  split; repeat (constructor; [cbn; try exact I; unfold within_box, proper; repeat constructor; cbn; lia|]); constructor.
Qed.
Example rtree_sphere_run : exists root,
  run 8 4 (RectSphericalVolume rnd24 root30 power 1 circle) (fun x y => rnd24 (x - y)) Z.eqb (ins_all (strip 20) ++ del_all (firstn 12 (strip 20))) empty = Some root /\
  Count root = Some 8.
Proof. eexists. split; vm_compute; reflexivity. Qed.
(** The cube of side 2: a sphere of radius about 1.732. *)
Example sphere_of_cube :
  (RectSphericalVolume rnd24 root30 power 1 (rnd24 (4188790 # 1000000)) [(0, 2); (0, 2); (0, 2)]%Z == 11411437 # 524288)%Q.
Proof. vm_compute. reflexivity. Qed.
(** A box of 6 by 8 around a circle of radius 5. *)
Example sphere_value_nonvacuous : corner [(0, 6); (1, 9)]%Z [6; 1]%Z /\
  (root30 (sum_of_squares (fun x => x) 1 [(0, 6); (1, 9)]%Z) == 5)%Q /\ (from_centre 1 [(0, 6); (1, 9)]%Z [6; 1]%Z == 25)%Q.
Proof. split; [constructor; [right; reflexivity|constructor; [left; reflexivity|constructor]]|]. split; vm_compute; reflexivity. Qed.
