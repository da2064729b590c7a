(** Proofs about the distance of line segments. *)
From Coq Require Import QArith List Bool Arith Lia Lqa Setoid.
From Verif Require Import AabModel AabProofs SegDistModel.
Import ListNotations.
Open Scope Q_scope.

(** The point at parameter [t] of the segment from [P] to [P + A], and the squared distance of two
    points of two segments. *)
Definition at_ (P A : vec) (t : Q) : vec := fun i => P i + t * A i.
Definition gap (P A Q0 B : vec) (t u : Q) : Q := dist2 (at_ P A t) (at_ Q0 B u).
Definition unit (t : Q) : Prop := 0 <= t <= 1.

Ltac flat := unfold gap, dist2, at_, vdot, vsub, vadd, vaxpy, sum3 in *; cbv beta in *.

Lemma gap_form P A Q0 B t u : gap P A Q0 B t u ==
  vdot A A * t * t - 2 * vdot A B * t * u + vdot B B * u * u - 2 * vdot A (vsub Q0 P) * t + 2 * vdot B (vsub Q0 P) * u
  + vdot (vsub Q0 P) (vsub Q0 P).
Proof. flat; ring. Qed.

Lemma quad_nonneg A B s v : 0 <= vdot A A * s * s - 2 * vdot A B * s * v + vdot B B * v * v.
Proof.
  assert (E : vdot A A * s * s - 2 * vdot A B * s * v + vdot B B * v * v ==
    sum3 (fun i => (s * A i - v * B i) * (s * A i - v * B i))) by (flat; ring).
  rewrite E; unfold sum3. pose proof (sq_nonneg (s * A AX - v * B AX)).
  pose proof (sq_nonneg (s * A AY - v * B AY)); pose proof (sq_nonneg (s * A AZ - v * B AZ)); lra.
Qed.
Lemma dot_nonneg A : 0 <= vdot A A.
Proof. flat. pose proof (sq_nonneg (A AX)); pose proof (sq_nonneg (A AY)); pose proof (sq_nonneg (A AZ)); lra. Qed.
Lemma dot_zero A : vdot A A == 0 -> forall i, A i == 0.
Proof.
  flat; intros H i. pose proof (sq_nonneg (A AX)); pose proof (sq_nonneg (A AY)); pose proof (sq_nonneg (A AZ)).
  assert (K : A i * A i == 0) by (destruct i; lra). destruct (Qmult_integral _ _ K); assumption.
Qed.
Lemma cauchy A B : vdot A B * vdot A B <= vdot A A * vdot B B.
Proof.
  assert (E : vdot A A * vdot B B - vdot A B * vdot A B ==
    (A AX * B AY - A AY * B AX) * (A AX * B AY - A AY * B AX) + (A AX * B AZ - A AZ * B AX) * (A AX * B AZ - A AZ * B AX)
    + (A AY * B AZ - A AZ * B AY) * (A AY * B AZ - A AZ * B AY)) by (flat; ring).
  pose proof (sq_nonneg (A AX * B AY - A AY * B AX)); pose proof (sq_nonneg (A AX * B AZ - A AZ * B AX)).
  pose proof (sq_nonneg (A AY * B AZ - A AZ * B AY)); lra.
Qed.

(** Parallel directions. *)
Lemma parallel A B T : vdot A A * vdot B B - vdot A B * vdot A B == 0 -> vdot A B * vdot B T == vdot B B * vdot A T.
Proof.
  intros H. pose (C := fun i => vdot B B * A i - vdot A B * B i).
  assert (E : vdot C C == vdot B B * (vdot A A * vdot B B - vdot A B * vdot A B)) by (unfold C; flat; ring).
  rewrite H, Qmult_0_r in E. pose proof (dot_zero C E) as Z.
  assert (K : vdot C T == vdot B B * vdot A T - vdot A B * vdot B T) by (unfold C; flat; ring).
  assert (K0 : vdot C T == 0). { unfold vdot at 1, sum3. rewrite (Z AX), (Z AY), (Z AZ); ring. }
  lra.
Qed.

(** What both programs compute before clamping: the foot on the first line, then on the second. *)
Definition foot_t (P Q0 A B : vec) : Q :=
  let T := vsub Q0 P in
  let denom := vdot A A * vdot B B - vdot A B * vdot A B in
  if Qeq_bool denom 0 then 0 else (vdot A T * vdot B B - vdot B T * vdot A B) / denom.
Definition foot_u (P Q0 A B : vec) : Q := (foot_t P Q0 A B * vdot A B - vdot B (vsub Q0 P)) / vdot B B.
Definition clamp01 (x : Q) : Q := if Qle_bool x 0 then 0 else if Qle_bool 1 x then 1 else x.

Lemma clamp01_unit x : unit (clamp01 x).
Proof. unfold clamp01, unit. destruct (Qleb_spec x 0), (Qleb_spec 1 x); lra. Qed.

Lemma clamp01_comp x y : x == y -> clamp01 x == clamp01 y.
Proof.
  unfold clamp01; intros E. destruct (Qleb_spec x 0), (Qleb_spec y 0), (Qleb_spec 1 x), (Qleb_spec 1 y); lra.
Qed.
Lemma gap_comp P A Q0 B t u t' u' : t == t' -> u == u' -> gap P A Q0 B t u == gap P A Q0 B t' u'.
Proof. intros E F. rewrite !gap_form, E, F. reflexivity. Qed.

(** The parameters of the answer. *)
Definition ans_u (P Q0 A B : vec) : Q := clamp01 (foot_u P Q0 A B).
Definition ans_t (P Q0 A B : vec) : Q := clamp01 ((vdot A B * ans_u P Q0 A B + vdot A (vsub Q0 P)) / vdot A A).

Lemma feet P Q0 A B : ~ vdot A A == 0 -> ~ vdot B B == 0 ->
  vdot A A * foot_t P Q0 A B == vdot A B * foot_u P Q0 A B + vdot A (vsub Q0 P) /\
  vdot B B * foot_u P Q0 A B == vdot A B * foot_t P Q0 A B - vdot B (vsub Q0 P).
Proof.
  intros Ha Hb.
  assert (U : vdot B B * foot_u P Q0 A B == vdot A B * foot_t P Q0 A B - vdot B (vsub Q0 P)).
  { unfold foot_u. field; assumption. }
  split; [|exact U].
  assert (K : vdot B B * (vdot A A * foot_t P Q0 A B) == vdot B B * (vdot A B * foot_u P Q0 A B + vdot A (vsub Q0 P))).
  2: { apply (Qmult_inj_l _ _ _ Hb); exact K. }
  assert (V : vdot B B * (vdot A B * foot_u P Q0 A B + vdot A (vsub Q0 P)) ==
    vdot A B * (vdot A B * foot_t P Q0 A B - vdot B (vsub Q0 P)) + vdot B B * vdot A (vsub Q0 P)) by (rewrite <- U; ring).
  rewrite V. clear V U. unfold foot_t. destruct (Qeq_bool _ 0) eqn:E.
  - apply Qeq_bool_iff in E. pose proof (parallel A B (vsub Q0 P) E). lra.
  - apply Qeq_bool_neq in E. field; assumption.
Qed.

Lemma SegDist_value P Q0 A B : ~ vdot A A == 0 -> ~ vdot B B == 0 ->
  exists d, SegDist P Q0 A B (vdot A A) (vdot B B) = Some d /\ d == gap P A Q0 B (ans_t P Q0 A B) (ans_u P Q0 A B).
Proof.
  intros Ha Hb. unfold SegDist.
  destruct (Qeq_bool (vdot A A) 0) eqn:E1; [apply Qeq_bool_iff in E1; contradiction|].
  destruct (Qeq_bool (vdot B B) 0) eqn:E2; [apply Qeq_bool_iff in E2; contradiction|]. cbn [orb].
  change (if Qeq_bool (vdot A A * vdot B B - vdot A B * vdot A B) 0 then 0 else
    (vdot A (vsub Q0 P) * vdot B B - vdot B (vsub Q0 P) * vdot A B) / (vdot A A * vdot B B - vdot A B * vdot A B))
    with (foot_t P Q0 A B).
  change ((foot_t P Q0 A B * vdot A B - vdot B (vsub Q0 P)) / vdot B B) with (foot_u P Q0 A B).
  destruct (feet P Q0 A B Ha Hb) as [F G].
  assert (FT : foot_t P Q0 A B == (vdot A B * foot_u P Q0 A B + vdot A (vsub Q0 P)) / vdot A A).
  { rewrite <- F. field; exact Ha. }
  unfold ans_t, ans_u.
  set (u := foot_u P Q0 A B) in *. set (t := foot_t P Q0 A B) in *.
  assert (X : forall t1 t2 Y w, t1 == t2 -> (forall i, Y i == at_ Q0 B w i) ->
    vdot (vsub (if Qle_bool t1 0 then P else if Qle_bool 1 t1 then vadd P A else vaxpy P A t1) Y)
         (vsub (if Qle_bool t1 0 then P else if Qle_bool 1 t1 then vadd P A else vaxpy P A t1) Y)
    == gap P A Q0 B (clamp01 t2) w).
  { intros t1 t2 Y w Et EY.
    rewrite <- (gap_comp P A Q0 B _ w _ w (clamp01_comp _ _ Et) (Qeq_refl w)). unfold gap, dist2, clamp01.
    destruct (Qle_bool t1 0); [|destruct (Qle_bool 1 t1)];
      unfold vdot, vsub, vadd, vaxpy, sum3, at_ in *; rewrite (EY AX), (EY AY), (EY AZ); ring. }
  unfold clamp01 at 2 3. destruct (Qle_bool u 0) eqn:U0; [|destruct (Qle_bool 1 u) eqn:U1].
  - eexists; split; [reflexivity|]. apply X.
    + field; exact Ha.
    + intros i; unfold at_; ring.
  - eexists; split; [reflexivity|]. apply X.
    + field; exact Ha.
    + intros i; unfold at_, vadd; ring.
  - eexists; split; [reflexivity|]. apply X.
    + exact FT.
    + intros i; unfold at_, vaxpy; ring.
Qed.

Lemma kernel_unfold P Q0 A B : SegDist_kernel P Q0 A B =
  if Qeq_bool (vdot A A) 0 || Qeq_bool (vdot B B) 0 then None else
  Some (sum3 (fun i => (A i * ans_t P Q0 A B - vsub Q0 P i - B i * ans_u P Q0 A B) *
                       (A i * ans_t P Q0 A B - vsub Q0 P i - B i * ans_u P Q0 A B))).
Proof.
  unfold SegDist_kernel, ans_t, ans_u, foot_u, foot_t, clamp01.
  destruct (Qeq_bool (vdot A A) 0 || Qeq_bool (vdot B B) 0); reflexivity.
Qed.
Lemma kernel_value P Q0 A B : ~ vdot A A == 0 -> ~ vdot B B == 0 ->
  exists d, SegDist_kernel P Q0 A B = Some d /\ d == gap P A Q0 B (ans_t P Q0 A B) (ans_u P Q0 A B).
Proof.
  intros Ha Hb. rewrite kernel_unfold.
  destruct (Qeq_bool (vdot A A) 0) eqn:E1; [apply Qeq_bool_iff in E1; contradiction|].
  destruct (Qeq_bool (vdot B B) 0) eqn:E2; [apply Qeq_bool_iff in E2; contradiction|]. cbn [orb].
  eexists; split; [reflexivity|]. generalize (ans_t P Q0 A B) (ans_u P Q0 A B). intros t u.
  unfold gap, dist2, at_, sum3, vsub. ring.
Qed.

(** Attained, and equal on both devices. *)
Lemma SegDist_attained P Q0 A B d : SegDist P Q0 A B (vdot A A) (vdot B B) = Some d ->
  exists t u, unit t /\ unit u /\ d == gap P A Q0 B t u.
Proof.
  intros H. destruct (Qeq_dec (vdot A A) 0) as [E|Ha].
  { unfold SegDist in H. apply Qeq_bool_iff in E. rewrite E in H; discriminate. }
  destruct (Qeq_dec (vdot B B) 0) as [E|Hb].
  { unfold SegDist in H. apply Qeq_bool_iff in E. rewrite E, orb_true_r in H; discriminate. }
  destruct (SegDist_value P Q0 A B Ha Hb) as (d' & E & V). rewrite E in H; injection H as <-.
  exists (ans_t P Q0 A B), (ans_u P Q0 A B). split; [apply clamp01_unit|split; [apply clamp01_unit|exact V]].
Qed.

Lemma SegDist_none P Q0 A B :
  SegDist P Q0 A B (vdot A A) (vdot B B) = None <-> (forall i, A i == 0) \/ (forall i, B i == 0).
Proof.
  split.
  - intros H. destruct (Qeq_dec (vdot A A) 0) as [E|Ha]; [left; exact (dot_zero A E)|].
    destruct (Qeq_dec (vdot B B) 0) as [E|Hb]; [right; exact (dot_zero B E)|].
    destruct (SegDist_value P Q0 A B Ha Hb) as (d' & E & _); congruence.
  - intros [Z|Z]; unfold SegDist.
    + assert (E : vdot A A == 0) by (unfold vdot, sum3; rewrite (Z AX), (Z AY), (Z AZ); reflexivity).
      apply Qeq_bool_iff in E; rewrite E; reflexivity.
    + assert (E : vdot B B == 0) by (unfold vdot, sum3; rewrite (Z AX), (Z AY), (Z AZ); reflexivity).
      apply Qeq_bool_iff in E; rewrite E, orb_true_r; reflexivity.
Qed.

Lemma devices_agree P Q0 A B :
  match SegDist P Q0 A B (vdot A A) (vdot B B), SegDist_kernel P Q0 A B with
  | Some x, Some y => x == y | None, None => True | _, _ => False end.
Proof.
  destruct (Qeq_dec (vdot A A) 0) as [E|Ha].
  { unfold SegDist, SegDist_kernel. apply Qeq_bool_iff in E. rewrite E; exact I. }
  destruct (Qeq_dec (vdot B B) 0) as [E|Hb].
  { unfold SegDist, SegDist_kernel. apply Qeq_bool_iff in E. rewrite E, orb_true_r; exact I. }
  destruct (SegDist_value P Q0 A B Ha Hb) as (d & -> & V), (kernel_value P Q0 A B Ha Hb) as (d' & -> & V').
  rewrite V, V'; reflexivity.
Qed.

(** First-order conditions suffice: the squared distance is convex. *)
Lemma convex P A Q0 B t u t' u' :
  0 <= (vdot A A * t - vdot A B * u - vdot A (vsub Q0 P)) * (t' - t) ->
  0 <= (vdot B B * u - vdot A B * t + vdot B (vsub Q0 P)) * (u' - u) ->
  gap P A Q0 B t u <= gap P A Q0 B t' u'.
Proof.
  intros H1 H2. rewrite !gap_form. pose proof (quad_nonneg A B (t' - t) (u' - u)). lra.
Qed.

Lemma clamp_first a w t : 0 < a -> unit t -> 0 <= (a * clamp01 (w / a) - w) * (t - clamp01 (w / a)).
Proof.
  intros Ha [T0 T1]. unfold clamp01. destruct (Qleb_spec (w / a) 0) as [L|L]; [|destruct (Qleb_spec 1 (w / a)) as [M|M]].
  - assert (W : w <= 0). { assert (w == a * (w / a)) by (field; lra). rewrite H. nra. }
    nra.
  - assert (W : a <= w). { assert (w == a * (w / a)) by (field; lra). rewrite H. nra. }
    nra.
  - assert (E : a * (w / a) - w == 0) by (field; lra). rewrite E. lra.
Qed.

Lemma dpos A : ~ vdot A A == 0 -> 0 < vdot A A.
Proof. intros H. pose proof (dot_nonneg A). destruct (Qlt_le_dec 0 (vdot A A)) as [L|L]; [exact L|]. destruct H. lra. Qed.

Lemma clamp01_le s : 0 <= s -> clamp01 s <= s.
Proof. unfold clamp01. destruct (Qleb_spec s 0), (Qleb_spec 1 s); lra. Qed.
Lemma clamp01_ge s : s <= 1 -> s <= clamp01 s.
Proof. unfold clamp01. destruct (Qleb_spec s 0), (Qleb_spec 1 s); lra. Qed.
Lemma cancel_le a x y : 0 < a -> a * x <= a * y -> x <= y.
Proof. intros Ha H. apply (Qmult_lt_0_le_reg_r x y a Ha). lra. Qed.

Lemma low_edge a b c d e s t0 u0 : 0 < a -> b * b <= a * c -> a * t0 == b * u0 + d -> c * u0 == b * t0 - e ->
  a * s == d -> u0 <= 0 -> 0 <= t0 -> t0 <= 1 -> b * clamp01 s <= e.
Proof.
  intros Pa CS F G S L F0 F1.
  assert (B1 : b * (a * s) == b * d) by (rewrite S; reflexivity).
  assert (B2 : b * (a * t0) == b * (b * u0 + d)) by (rewrite F; reflexivity).
  assert (B3 : a * (c * u0) == a * (b * t0 - e)) by (rewrite G; reflexivity).
  assert (B4 : 0 <= (- u0) * (a * c - b * b)) by (apply Qmult_le_0_compat; lra).
  assert (N : b * s <= e) by (apply (cancel_le a _ _ Pa); lra).
  destruct (Qlt_le_dec b 0) as [Hb|Hb].
  - assert (B5 : 0 <= (- b) * (- u0)) by (apply Qmult_le_0_compat; lra).
    assert (s <= t0) by (apply (cancel_le a _ _ Pa); lra).
    assert (B6 : 0 <= (- b) * (clamp01 s - s)) by (apply Qmult_le_0_compat; [lra|]; pose proof (clamp01_ge s); lra). lra.
  - assert (B5 : 0 <= b * (- u0)) by (apply Qmult_le_0_compat; lra).
    assert (t0 <= s) by (apply (cancel_le a _ _ Pa); lra).
    assert (B6 : 0 <= b * (s - clamp01 s)) by (apply Qmult_le_0_compat; [lra|]; pose proof (clamp01_le s); lra). lra.
Qed.
Lemma high_edge a b c d e s t0 u0 : 0 < a -> b * b <= a * c -> a * t0 == b * u0 + d -> c * u0 == b * t0 - e ->
  a * s == b + d -> 1 <= u0 -> 0 <= t0 -> t0 <= 1 -> c + e <= b * clamp01 s.
Proof.
  intros Pa CS F G S L F0 F1.
  assert (B1 : b * (a * s) == b * (b + d)) by (rewrite S; reflexivity).
  assert (B2 : b * (a * t0) == b * (b * u0 + d)) by (rewrite F; reflexivity).
  assert (B3 : a * (c * u0) == a * (b * t0 - e)) by (rewrite G; reflexivity).
  assert (B4 : 0 <= (u0 - 1) * (a * c - b * b)) by (apply Qmult_le_0_compat; lra).
  assert (N : c + e <= b * s) by (apply (cancel_le a _ _ Pa); lra).
  destruct (Qlt_le_dec b 0) as [Hb|Hb].
  - assert (B5 : 0 <= (- b) * (u0 - 1)) by (apply Qmult_le_0_compat; lra).
    assert (t0 <= s) by (apply (cancel_le a _ _ Pa); lra).
    assert (B6 : 0 <= (- b) * (s - clamp01 s)) by (apply Qmult_le_0_compat; [lra|]; pose proof (clamp01_le s); lra). lra.
  - assert (B5 : 0 <= b * (u0 - 1)) by (apply Qmult_le_0_compat; lra).
    assert (s <= t0) by (apply (cancel_le a _ _ Pa); lra).
    assert (B6 : 0 <= b * (clamp01 s - s)) by (apply Qmult_le_0_compat; [lra|]; pose proof (clamp01_ge s); lra). lra.
Qed.

Lemma kkt a b c d e t0 u0 t' u' : 0 < a -> b * b <= a * c -> a * t0 == b * u0 + d -> c * u0 == b * t0 - e ->
  unit t0 -> unit t' -> unit u' ->
  0 <= (a * clamp01 ((b * clamp01 u0 + d) / a) - b * clamp01 u0 - d) * (t' - clamp01 ((b * clamp01 u0 + d) / a)) /\
  0 <= (c * clamp01 u0 - b * clamp01 ((b * clamp01 u0 + d) / a) + e) * (u' - clamp01 u0).
Proof.
  intros Pa CS F G [F0 F1] Ht [U0 U1]. split.
  - set (w := b * clamp01 u0 + d).
    assert (E : a * clamp01 (w / a) - b * clamp01 u0 - d == a * clamp01 (w / a) - w) by (unfold w; ring).
    rewrite E. apply clamp_first; assumption.
  - destruct (Qlt_le_dec 0 u0) as [L|L]; [destruct (Qlt_le_dec u0 1) as [M|M]|].
    + assert (Cu : clamp01 u0 = u0) by (unfold clamp01; destruct (Qleb_spec u0 0), (Qleb_spec 1 u0); reflexivity || lra).
      rewrite Cu. set (s := (b * u0 + d) / a). assert (S : s == t0) by (unfold s; rewrite <- F; field; lra).
      assert (K : clamp01 s == t0).
      { rewrite (clamp01_comp _ _ S). unfold clamp01. destruct (Qleb_spec t0 0), (Qleb_spec 1 t0); lra. }
      rewrite K, G. assert (Z : b * t0 - e - b * t0 + e == 0) by ring. rewrite Z. lra.
    + assert (Cu : clamp01 u0 = 1) by (unfold clamp01; destruct (Qleb_spec u0 0), (Qleb_spec 1 u0); reflexivity || lra).
      rewrite Cu. set (s := (b * 1 + d) / a). assert (S : a * s == b + d) by (unfold s; field; lra).
      pose proof (high_edge a b c d e s t0 u0 Pa CS F G S M F0 F1) as K.
      assert (E : 0 <= (b * clamp01 s - (c + e)) * (1 - u')) by (apply Qmult_le_0_compat; lra). lra.
    + assert (Cu : clamp01 u0 = 0) by (unfold clamp01; destruct (Qleb_spec u0 0); reflexivity || lra).
      rewrite Cu. set (s := (b * 0 + d) / a). assert (S : a * s == d) by (unfold s; field; lra).
      pose proof (low_edge a b c d e s t0 u0 Pa CS F G S L F0 F1) as K.
      assert (E : 0 <= (e - b * clamp01 s) * u') by (apply Qmult_le_0_compat; lra). lra.
Qed.

(** The core: when the foot on the first line lies in the first segment the answer is minimal. *)
Lemma minimal_when P A Q0 B t' u' : ~ vdot A A == 0 -> ~ vdot B B == 0 -> unit (foot_t P Q0 A B) -> unit t' -> unit u' ->
  gap P A Q0 B (ans_t P Q0 A B) (ans_u P Q0 A B) <= gap P A Q0 B t' u'.
Proof.
  intros Ha Hb F0 Ht Hu. destruct (feet P Q0 A B Ha Hb) as [F G].
  destruct (kkt _ _ _ _ _ _ _ t' u' (dpos A Ha) (cauchy A B) F G F0 Ht Hu) as [K1 K2].
  exact (convex P A Q0 B _ _ t' u' K1 K2).
Qed.

(** If some point of the first segment is as close to the second line as the first line gets, the
    foot lies in the segment. *)
Lemma foot_in P A Q0 B t u : ~ vdot A A == 0 -> ~ vdot B B == 0 -> unit t ->
  (forall t' u', gap P A Q0 B t u <= gap P A Q0 B t' u') -> unit (foot_t P Q0 A B).
Proof.
  intros Ha Hb Ht Hm. destruct (feet P Q0 A B Ha Hb) as [F G].
  destruct (Qeq_dec (vdot A A * vdot B B - vdot A B * vdot A B) 0) as [E|E].
  { unfold foot_t. apply Qeq_bool_iff in E. rewrite E. unfold unit; lra. }
  specialize (Hm (foot_t P Q0 A B) (foot_u P Q0 A B)). rewrite !gap_form in Hm.
  pose proof (cauchy A B) as CS. pose proof (dpos B Hb) as Pb.
  set (a := vdot A A) in *. set (b := vdot A B) in *. set (c := vdot B B) in *. set (d := vdot A (vsub Q0 P)) in *.
  set (e := vdot B (vsub Q0 P)) in *. set (t0 := foot_t P Q0 A B) in *. set (u0 := foot_u P Q0 A B) in *.
  assert (B1 : (t - t0) * (a * t0) == (t - t0) * (b * u0 + d)) by (rewrite F; reflexivity).
  assert (B2 : (u - u0) * (c * u0) == (u - u0) * (b * t0 - e)) by (rewrite G; reflexivity).
  assert (B3 : a * (t - t0) * (t - t0) - 2 * b * (t - t0) * (u - u0) + c * (u - u0) * (u - u0) <= 0) by lra.
  assert (B4 : 0 <= c * - (a * (t - t0) * (t - t0) - 2 * b * (t - t0) * (u - u0) + c * (u - u0) * (u - u0)))
    by (apply Qmult_le_0_compat; lra).
  pose proof (sq_nonneg (b * (t - t0) - c * (u - u0))) as B5. pose proof (sq_nonneg (t - t0)) as B6.
  assert (D : 0 < a * c - b * b) by (destruct (Qlt_le_dec 0 (a * c - b * b)) as [X|X]; [exact X|destruct E; lra]).
  assert (B7 : (t - t0) * (t - t0) <= 0) by (apply (cancel_le _ _ _ D); lra).
  assert (B8 : (t - t0) * (t - t0) == 0) by lra.
  destruct Ht. destruct (Qmult_integral _ _ B8); unfold unit; lra.
Qed.

Lemma gap_nonneg P A Q0 B t u : 0 <= gap P A Q0 B t u.
Proof.
  unfold gap, dist2, sum3. match goal with |- 0 <= ?x * ?x + ?y * ?y + ?z * ?z =>
    pose proof (sq_nonneg x); pose proof (sq_nonneg y); pose proof (sq_nonneg z) end. lra.
Qed.

(** Zero exactly when the segments meet. *)
Lemma zero_iff P A Q0 B d : SegDist P Q0 A B (vdot A A) (vdot B B) = Some d ->
  (d == 0 <-> exists t u, unit t /\ unit u /\ forall i, at_ P A t i == at_ Q0 B u i).
Proof.
  intros H. split.
  - intros Z. destruct (SegDist_attained _ _ _ _ _ H) as (t & u & Ht & Hu & E). exists t, u. split; [exact Ht|split; [exact Hu|]].
    rewrite Z in E. assert (K : vdot (vsub (at_ P A t) (at_ Q0 B u)) (vsub (at_ P A t) (at_ Q0 B u)) == 0) by (rewrite E; reflexivity).
    intros i. pose proof (dot_zero _ K i) as W. unfold vsub in W. lra.
  - intros (t & u & Ht & Hu & E).
    assert (G0 : gap P A Q0 B t u == 0) by (unfold gap, dist2, sum3; rewrite (E AX), (E AY), (E AZ); ring).
    assert (Ha : ~ vdot A A == 0).
    { intros X. unfold SegDist in H. apply Qeq_bool_iff in X. rewrite X in H; discriminate. }
    assert (Hb : ~ vdot B B == 0).
    { intros X. unfold SegDist in H. apply Qeq_bool_iff in X. rewrite X, orb_true_r in H; discriminate. }
    destruct (SegDist_value P Q0 A B Ha Hb) as (d' & E' & V). rewrite E' in H; injection H as <-. rewrite V.
    assert (Fi : unit (foot_t P Q0 A B)).
    { apply (foot_in P A Q0 B t u Ha Hb Ht). intros t' u'. rewrite G0. apply gap_nonneg. }
    pose proof (minimal_when P A Q0 B t u Ha Hb Fi Ht Hu). pose proof (gap_nonneg P A Q0 B (ans_t P Q0 A B) (ans_u P Q0 A B)). lra.
Qed.

(** A buffer holding a list of segments, each given by its two end points. *)
Definition point := (Q * Q * Q)%type.
Definition pt (p : point) : vec := let '(x, y, z) := p in v3 x y z.
Definition seg_floats (s : point * point) : list Q :=
  let '((a, b, c), (d, e, f)) := s in [a; b; c; d; e; f].
Definition seg_buffer (l : list (point * point)) : list Q := flat_map seg_floats l.

(** The distance of two segments given by end points. *)
Definition pair_dist (s1 s2 : point * point) : dist_t :=
  let A := vsub (pt (snd s1)) (pt (fst s1)) in
  let B := vsub (pt (snd s2)) (pt (fst s2)) in
  SegDist (pt (fst s1)) (pt (fst s2)) A B (vdot A A) (vdot B B).
Definition all_dists (l1 l2 : list (point * point)) : list dist_t :=
  flat_map (fun s1 => map (pair_dist s1) l2) l1.

Definition none_seg : point * point := ((0, 0, 0), (0, 0, 0)).
Lemma vec_at_seg l : forall i, (i < length l)%nat ->
  vec_at (seg_buffer l) (i * 6) = pt (fst (nth i l none_seg)) /\
  vec_at (seg_buffer l) (i * 6 + 3) = pt (snd (nth i l none_seg)).
Proof.
  induction l as [|[[[a b] c] [[d e] f]] l IH]; intros i Hi; [cbn in Hi; lia|].
  destruct i as [|i]; [split; reflexivity|].
  specialize (IH i ltac:(cbn in Hi; lia)). cbn [nth]. destruct IH as [<- <-]. split; reflexivity.
Qed.
Lemma edge_vecs_nth data n i : (i < n)%nat ->
  nth i (edge_vecs data n) (v3 0 0 0, 0) =
  (let a := vsub (vec_at data (i * 6 + 3)) (vec_at data (i * 6)) in (a, vdot a a)).
Proof.
  intros H. unfold edge_vecs.
  set (f := fun i => let a := vsub (vec_at data (i * 6 + 3)) (vec_at data (i * 6)) in (a, vdot a a)).
  rewrite (nth_indep _ _ (f 0%nat)) by (rewrite map_length, seq_length; exact H).
  rewrite map_nth, seq_nth by exact H. reflexivity.
Qed.

Definition dmin (m d : dist_t) : dist_t := if dlt d m then d else m.

Lemma fold_seq {A} (f : dist_t -> nat -> dist_t) (g : dist_t -> A -> dist_t) (d : A) l : forall (m : dist_t),
  (forall m i, (i < length l)%nat -> f m i = g m (nth i l d)) ->
  fold_left f (seq 0 (length l)) m = fold_left g l m.
Proof.
  intros m H. rewrite <- (map_id (seq 0 (length l))) at 1.
  assert (K : forall k l', (forall i, (i < length l')%nat -> nth i l' d = nth (k + i) l d) -> (k + length l' <= length l)%nat ->
    forall m, fold_left f (seq k (length l')) m = fold_left g l' m).
  { intros k l'; revert k; induction l' as [|x l' IH]; intros k Hn Hl m'; [reflexivity|].
    cbn [length seq fold_left]. cbn in Hl. rewrite H by lia.
    pose proof (Hn 0%nat ltac:(cbn; lia)) as E0. rewrite Nat.add_0_r in E0. cbn [nth] in E0. rewrite <- E0.
    apply IH; [|lia]. intros i Hi. rewrite Nat.add_succ_comm. rewrite <- (Hn (S i)) by (cbn; lia). reflexivity. }
  rewrite map_id. apply K; [intros; reflexivity|lia].
Qed.

Lemma nth_firstn_low {A} (d : A) l : forall n i, (i < n)%nat -> nth i (firstn n l) d = nth i l d.
Proof.
  induction l as [|x l IH]; intros [|n] [|i] H; try lia; try reflexivity. cbn. apply IH; lia.
Qed.
Lemma fold_flat {A} (f : A -> list dist_t) l : forall m,
  fold_left (fun m x => fold_left dmin (f x) m) l m = fold_left dmin (flat_map f l) m.
Proof. induction l as [|x l IH]; intros m; [reflexivity|]. cbn. rewrite fold_left_app. apply IH. Qed.
Lemma fold_map {A} (f : A -> dist_t) l : forall m, fold_left (fun m x => dmin m (f x)) l m = fold_left dmin (map f l) m.
Proof. induction l as [|x l IH]; intros m; [reflexivity|]. cbn. apply IH. Qed.

Lemma cut_length {A} (l : list A) : cut (length l) = length (firstn (N.to_nat 10000%N) l).
Proof. unfold cut. rewrite firstn_length. lia. Qed.
Lemma cut_le n : (cut n <= N.to_nat 10000%N)%nat. Proof. unfold cut; lia. Qed.

Lemma single_fold l1 l2 : SegDist_single (seg_buffer l1) (seg_buffer l2) (length l1) (length l2) =
  fold_left dmin (all_dists (firstn (N.to_nat 10000%N) l1) (firstn (N.to_nat 10000%N) l2)) None.
Proof.
  unfold SegDist_single. pose proof (cut_le (length l1)) as C1. pose proof (cut_le (length l2)) as C2.
  rewrite !cut_length in *. set (n := N.to_nat 10000%N) in *. clearbody n.
  set (l1' := firstn n l1) in *. set (l2' := firstn n l2) in *.
  unfold all_dists. rewrite <- fold_flat.
  apply (fold_seq _ _ none_seg). intros m i Hi. rewrite <- fold_map. apply (fold_seq _ _ none_seg).
  intros m' j Hj. rewrite !edge_vecs_nth by assumption. cbn [fst snd].
  assert (Hi' : (i < length l1)%nat) by (unfold l1' in Hi; rewrite firstn_length in Hi; lia).
  assert (Hj' : (j < length l2)%nat) by (unfold l2' in Hj; rewrite firstn_length in Hj; lia).
  destruct (vec_at_seg l1 i Hi') as [-> ->], (vec_at_seg l2 j Hj') as [-> ->].
  unfold l1', l2'. rewrite !nth_firstn_low by lia. reflexivity.
Qed.

Definition dle (x y : dist_t) : Prop := match x, y with _, None => True | None, Some _ => False | Some x, Some y => x <= y end.
Lemma dmin_spec m d : dle (dmin m d) m /\ dle (dmin m d) d /\ (dmin m d = m \/ dmin m d = d).
Proof.
  unfold dmin, dlt, dle. destruct d as [d|], m as [m|]; try (repeat split; auto; lra).
  destruct (Qltb_spec d m); repeat split; auto; lra.
Qed.
Lemma dle_trans x y z : dle x y -> dle y z -> dle x z.
Proof. destruct x, y, z; cbn; try tauto; lra. Qed.
Lemma dle_refl x : dle x x. Proof. destruct x; cbn; [lra|exact I]. Qed.
Lemma fold_dmin l : forall m, let r := fold_left dmin l m in dle r m /\ (forall d, In d l -> dle r d) /\ (r = m \/ In r l).
Proof.
  induction l as [|x l IH]; intros m; cbn -[dmin].
  - split; [apply dle_refl|]; split; [tauto|auto].
  - destruct (IH (dmin m x)) as (H1 & H2 & H3). destruct (dmin_spec m x) as (D1 & D2 & D3).
    split; [exact (dle_trans _ _ _ H1 D1)|]. split.
    + intros d [<-|Hd]; [exact (dle_trans _ _ _ H1 D2)|auto].
    + destruct H3 as [H3|H3]; [|auto]. destruct D3 as [D3|D3]; [left|right; left]; congruence.
Qed.
