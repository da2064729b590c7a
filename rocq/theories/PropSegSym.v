(** C177: the distance of two segments and the way they are written. *)
From Coq Require Import QArith List Bool Lqa.
From Verif Require Import AabModel AabProofs SegDistModel SegDistProofs.
Open Scope Q_scope.

(** What SegDist is called with for the segment from [p] to [p'] and the segment from [q] to [q']
    (SegDist.cpp:95-115: first points, directions, squared lengths). *)
Definition of_ends (p p' q q' : vec) : dist_t :=
  SegDist p q (vsub p' p) (vsub q' q) (vdot (vsub p' p) (vsub p' p)) (vdot (vsub q' q) (vsub q' q)).
(** The same for the graphics card (SegDist.cu:55-114). *)
Definition of_ends_gpu (p p' q q' : vec) : dist_t := SegDist_kernel p q (vsub p' p) (vsub q' q).
(** Equal answers. *)
Definition same (a b : dist_t) : Prop :=
  match a, b with Some x, Some y => x == y | None, None => True | _, _ => False end.

Lemma clamp01_flip x : clamp01 (1 - x) == 1 - clamp01 x.
Proof. unfold clamp01. destruct (Qleb_spec x 0), (Qleb_spec 1 x), (Qleb_spec (1 - x) 0), (Qleb_spec 1 (1 - x)); lra. Qed.

Definition den (A B : vec) : Q := vdot A A * vdot B B - vdot A B * vdot A B.
Lemma foot_t_par P Q0 A B : den A B == 0 -> foot_t P Q0 A B = 0.
Proof. intros H. unfold foot_t. fold (den A B). apply Qeq_bool_iff in H. rewrite H. reflexivity. Qed.
Lemma foot_t_gen P Q0 A B : ~ den A B == 0 ->
  foot_t P Q0 A B = (vdot A (vsub Q0 P) * vdot B B - vdot B (vsub Q0 P) * vdot A B) / den A B.
Proof.
  intros H. unfold foot_t. cbv zeta. fold (den A B). destruct (Qeq_bool (den A B) 0) eqn:E; [apply Qeq_bool_iff in E; contradiction|reflexivity].
Qed.

Section Reversed.
Variables p p' q q' : vec.
Let A := vsub p' p.  Let A' := vsub p p'.
Let B := vsub q' q.  Let B' := vsub q q'.
Hypothesis Ha : ~ vdot A A == 0.
Hypothesis Hb : ~ vdot B B == 0.

Lemma aa : vdot A' A' == vdot A A. Proof. unfold A', A; flat; ring. Qed.
Lemma bb : vdot B' B' == vdot B B. Proof. unfold B', B; flat; ring. Qed.
Lemma den_a : den A' B == den A B. Proof. unfold den, A', A; flat; ring. Qed.
Lemma den_b : den A B' == den A B. Proof. unfold den, B', B; flat; ring. Qed.

Lemma gap_a t u : gap p' A' q B (1 - t) u == gap p A q B t u.
Proof. unfold A', A; flat; ring. Qed.
Lemma gap_b t u : gap p A q' B' t (1 - u) == gap p A q B t u.
Proof. unfold B', B; flat; ring. Qed.

(** The second segment reversed: the feet do not move. *)
Lemma rev_b_t : foot_t p q' A B' == foot_t p q A B.
Proof.
  destruct (Qeq_dec (den A B) 0) as [E|E].
  - rewrite !foot_t_par; [reflexivity|exact E|rewrite den_b; exact E].
  - rewrite !foot_t_gen; [|exact E|rewrite den_b; exact E]. rewrite den_b.
    apply Qmult_comp; [|reflexivity]. unfold B', B; flat; ring.
Qed.
Lemma rev_b_u : foot_u p q' A B' == 1 - foot_u p q A B.
Proof.
  unfold foot_u. rewrite rev_b_t, bb. set (t := foot_t p q A B). clearbody t.
  assert (E1 : vdot A B' == - vdot A B) by (unfold B', B; flat; ring).
  assert (E2 : vdot B' (vsub q' p) == - vdot B (vsub q p) - vdot B B) by (unfold B', B; flat; ring).
  rewrite E1, E2. field. exact Hb.
Qed.
Lemma rev_b_ans_u : ans_u p q' A B' == 1 - ans_u p q A B.
Proof. unfold ans_u. rewrite (clamp01_comp _ _ rev_b_u). apply clamp01_flip. Qed.
Lemma lin_b u u' : u' == 1 - u -> vdot A B' * u' + vdot A (vsub q' p) == vdot A B * u + vdot A (vsub q p).
Proof. intros H. rewrite H. unfold B', B; flat; ring. Qed.
Lemma rev_b_ans_t : ans_t p q' A B' == ans_t p q A B.
Proof. apply clamp01_comp. apply Qmult_comp; [|reflexivity]. apply lin_b. exact rev_b_ans_u. Qed.

(** The first segment reversed, directions not parallel. *)
Lemma rev_a_t : ~ den A B == 0 -> foot_t p' q A' B == 1 - foot_t p q A B.
Proof.
  intros E. rewrite !foot_t_gen; [|exact E|rewrite den_a; exact E]. rewrite den_a.
  assert (X : vdot A' (vsub q p') * vdot B B - vdot B (vsub q p') * vdot A' B ==
    den A B - (vdot A (vsub q p) * vdot B B - vdot B (vsub q p) * vdot A B)) by (unfold den, A', A; flat; ring).
  rewrite X. field. exact E.
Qed.
Lemma rev_a_u : ~ den A B == 0 -> foot_u p' q A' B == foot_u p q A B.
Proof.
  intros E. unfold foot_u. rewrite (rev_a_t E). apply Qmult_comp; [|reflexivity]. set (t := foot_t p q A B). clearbody t.
  unfold A', A; flat; ring.
Qed.
Lemma rev_a_ans_u : ~ den A B == 0 -> ans_u p' q A' B == ans_u p q A B.
Proof. intros E. unfold ans_u. apply clamp01_comp, (rev_a_u E). Qed.
Lemma lin_a u u' : u' == u ->
  (vdot A' B * u' + vdot A' (vsub q p')) / vdot A' A' == 1 - (vdot A B * u + vdot A (vsub q p)) / vdot A A.
Proof.
  intros H. rewrite H, aa.
  assert (X : vdot A' B * u + vdot A' (vsub q p') == vdot A A - (vdot A B * u + vdot A (vsub q p))) by (unfold A', A; flat; ring).
  rewrite X. field. exact Ha.
Qed.
Lemma rev_a_ans_t : ~ den A B == 0 -> ans_t p' q A' B == 1 - ans_t p q A B.
Proof.
  intros E. etransitivity; [|apply clamp01_flip]. apply clamp01_comp. apply lin_a. exact (rev_a_ans_u E).
Qed.

Lemma par_min t u : den A B == 0 -> unit t -> unit u -> gap p A q B (ans_t p q A B) (ans_u p q A B) <= gap p A q B t u.
Proof. intros E. apply minimal_when; auto. rewrite (foot_t_par _ _ _ _ E). unfold unit; lra. Qed.
Lemma par_min' t u : den A B == 0 -> unit t -> unit u -> gap p' A' q B (ans_t p' q A' B) (ans_u p' q A' B) <= gap p' A' q B t u.
Proof.
  intros E. apply minimal_when; auto. { rewrite aa; exact Ha. } rewrite foot_t_par; [unfold unit; lra|rewrite den_a; exact E].
Qed.

Lemma rev_a : gap p' A' q B (ans_t p' q A' B) (ans_u p' q A' B) == gap p A q B (ans_t p q A B) (ans_u p q A B).
Proof.
  destruct (Qeq_dec (den A B) 0) as [E|E].
  - assert (F : forall t, unit t -> unit (1 - t)) by (unfold unit; intros; lra).
    apply Qle_antisym.
    + rewrite <- gap_a. apply (par_min' _ _ E); [apply F|]; apply clamp01_unit.
    + assert (X : gap p' A' q B (ans_t p' q A' B) (ans_u p' q A' B) == gap p A q B (1 - ans_t p' q A' B) (ans_u p' q A' B)).
      { rewrite <- gap_a. apply gap_comp; [ring|reflexivity]. }
      rewrite X. apply (par_min _ _ E); [apply F|]; apply clamp01_unit.
  - rewrite <- gap_a. apply gap_comp; [apply (rev_a_ans_t E)|apply (rev_a_ans_u E)].
Qed.
Lemma rev_b : gap p A q' B' (ans_t p q' A B') (ans_u p q' A B') == gap p A q B (ans_t p q A B) (ans_u p q A B).
Proof. rewrite <- gap_b. apply gap_comp; [apply rev_b_ans_t|apply rev_b_ans_u]. Qed.
End Reversed.

Lemma of_ends_none p p' q q' : of_ends p p' q q' = None <-> vdot (vsub p' p) (vsub p' p) == 0 \/ vdot (vsub q' q) (vsub q' q) == 0.
Proof.
  unfold of_ends. set (A := vsub p' p). set (B := vsub q' q).
  destruct (Qeq_dec (vdot A A) 0) as [E|E].
  { split; [auto|]. intros _. unfold SegDist. apply Qeq_bool_iff in E. rewrite E. reflexivity. }
  destruct (Qeq_dec (vdot B B) 0) as [F|F].
  { split; [auto|]. intros _. unfold SegDist. apply Qeq_bool_iff in F. rewrite F, orb_true_r. reflexivity. }
  destruct (SegDist_value p q A B E F) as (d & -> & _). split; [discriminate|tauto].
Qed.

(** C177, the part that holds: it does not matter from which end a segment is written. *)
Theorem segdist_reversed : forall p p' q q',
  same (of_ends p' p q q') (of_ends p p' q q') /\ same (of_ends p p' q' q) (of_ends p p' q q').
Proof.
  intros p p' q q'.
  destruct (Qeq_dec (vdot (vsub p' p) (vsub p' p)) 0) as [E|E].
  { assert (E' := E). rewrite <- aa in E'.
    rewrite (proj2 (of_ends_none p' p q q') (or_introl E')), (proj2 (of_ends_none p p' q q') (or_introl E)), (proj2 (of_ends_none p p' q' q) (or_introl E)).
    split; exact I. }
  destruct (Qeq_dec (vdot (vsub q' q) (vsub q' q)) 0) as [F|F].
  { assert (F' := F). rewrite <- bb in F'.
    rewrite (proj2 (of_ends_none p' p q q') (or_intror F)), (proj2 (of_ends_none p p' q q') (or_intror F)), (proj2 (of_ends_none p p' q' q) (or_intror F')).
    split; exact I. }
  assert (E' := E). rewrite <- aa in E'. assert (F' := F). rewrite <- bb in F'. unfold of_ends.
  destruct (SegDist_value p q _ _ E F) as (d & -> & V). destruct (SegDist_value p' q _ _ E' F) as (d1 & -> & V1).
  destruct (SegDist_value p q' _ _ E F') as (d2 & -> & V2). unfold same. rewrite V, V1, V2.
  split; [apply rev_a; assumption|apply rev_b; assumption].
Qed.
Print Assumptions segdist_reversed.
Example segdist_reversed_nonvacuous :
  of_ends (v3 (-1) 2 (-2)) (v3 0 3 (-1)) (v3 0 (-2) 1) (v3 (-1) (-4) 2) <> None /\
  of_ends (v3 0 0 0) (v3 2 0 0) (v3 5 1 0) (v3 3 1 0) <> None /\
  den (vsub (v3 2 0 0) (v3 0 0 0)) (vsub (v3 3 1 0) (v3 5 1 0)) == 0.
Proof.
  split; [|split; [|vm_compute; reflexivity]]; intros H; apply (proj1 (of_ends_none _ _ _ _)) in H;
    destruct H as [H|H]; vm_compute in H; discriminate H.
Qed.

Lemma same_sym a b : same a b -> same b a.
Proof. destruct a, b; cbn; auto. symmetry; assumption. Qed.
Lemma same_trans a b c : same a b -> same b c -> same a c.
Proof. destruct a, b, c; cbn; try tauto. intros H K. rewrite H; exact K. Qed.

(** The same on the graphics card. *)
Theorem segdist_reversed_gpu : forall p p' q q',
  same (of_ends_gpu p' p q q') (of_ends_gpu p p' q q') /\ same (of_ends_gpu p p' q' q) (of_ends_gpu p p' q q').
Proof.
  assert (D : forall p p' q q', same (of_ends p p' q q') (of_ends_gpu p p' q q')).
  { intros p p' q q'. exact (devices_agree p q (vsub p' p) (vsub q' q)). }
  intros p p' q q'. destruct (segdist_reversed p p' q q') as [H1 H2].
  split; (eapply same_trans; [apply same_sym, D|]; eapply same_trans; [|apply D]); assumption.
Qed.
Print Assumptions segdist_reversed_gpu.
Example segdist_reversed_gpu_nonvacuous :
  match of_ends_gpu (v3 (-1) 2 (-2)) (v3 0 3 (-1)) (v3 0 (-2) 1) (v3 (-1) (-4) 2) with Some d => Qeq_bool d 26 | None => false end = true.
Proof. vm_compute. reflexivity. Qed.

(** C177 is false for the order: with the segments exchanged the answer is another. *)
Theorem segdist_order_refuted : exists p p' q q' d e,
  of_ends p p' q q' = Some d /\ of_ends q q' p p' = Some e /\ d + 2 < e.
Proof.
  exists (v3 (-1) 2 (-2)), (v3 0 3 (-1)), (v3 0 (-2) 1), (v3 (-1) (-4) 2).
  assert (K : match of_ends (v3 (-1) 2 (-2)) (v3 0 3 (-1)) (v3 0 (-2) 1) (v3 (-1) (-4) 2),
      of_ends (v3 0 (-2) 1) (v3 (-1) (-4) 2) (v3 (-1) 2 (-2)) (v3 0 3 (-1)) with
    Some d, Some e => Qltb (d + 2) e | _, _ => false end = true) by (vm_compute; reflexivity).
  destruct (of_ends (v3 (-1) 2 (-2)) _ _ _) as [d|]; [|discriminate K]. destruct (of_ends (v3 0 (-2) 1) _ _ _) as [e|]; [|discriminate K].
  exists d, e. split; [reflexivity|split; [reflexivity|]]. destruct (Qltb_spec (d + 2) e); [assumption|discriminate K].
Qed.
Print Assumptions segdist_order_refuted.

(** C177, when the order does not matter: each segment contains a point that is as close to the
    line of the other as its own line gets. *)
Theorem segdist_order_partial : forall p p' q q' t0 u0 t1 u1, unit t0 -> unit u1 ->
  (forall t u, dist2 (at_ p (vsub p' p) t0) (at_ q (vsub q' q) u0) <= dist2 (at_ p (vsub p' p) t) (at_ q (vsub q' q) u)) ->
  (forall t u, dist2 (at_ p (vsub p' p) t1) (at_ q (vsub q' q) u1) <= dist2 (at_ p (vsub p' p) t) (at_ q (vsub q' q) u)) ->
  same (of_ends p p' q q') (of_ends q q' p p').
Proof.
  intros p p' q q' t0 u0 t1 u1 Ht Hu M0 M1.
  destruct (Qeq_dec (vdot (vsub p' p) (vsub p' p)) 0) as [E|E].
  { rewrite (proj2 (of_ends_none p p' q q') (or_introl E)), (proj2 (of_ends_none q q' p p') (or_intror E)). exact I. }
  destruct (Qeq_dec (vdot (vsub q' q) (vsub q' q)) 0) as [F|F].
  { rewrite (proj2 (of_ends_none p p' q q') (or_intror F)), (proj2 (of_ends_none q q' p p') (or_introl F)). exact I. }
  assert (S : forall t u, gap q (vsub q' q) p (vsub p' p) u t == gap p (vsub p' p) q (vsub q' q) t u) by (intros; flat; ring).
  unfold of_ends. destruct (SegDist_value p q _ _ E F) as (d & -> & V). destruct (SegDist_value q p _ _ F E) as (e & -> & W).
  unfold same. rewrite V, W. apply Qle_antisym.
  - rewrite S. apply minimal_when; [exact E|exact F| |apply clamp01_unit|apply clamp01_unit].
    exact (foot_in _ _ _ _ t0 u0 E F Ht M0).
  - rewrite <- S. apply minimal_when; [exact F|exact E| |apply clamp01_unit|apply clamp01_unit].
    apply (foot_in _ _ _ _ u1 t1 F E Hu). intros t u. rewrite !S. apply M1.
Qed.
Print Assumptions segdist_order_partial.
Example segdist_order_nonvacuous : unit (1 # 2) /\ (forall t u,
    dist2 (at_ (v3 0 0 0) (vsub (v3 1 0 0) (v3 0 0 0)) (1 # 2)) (at_ (v3 (1 # 2) 1 3) (vsub (v3 (1 # 2) 3 (-1)) (v3 (1 # 2) 1 3)) (1 # 2)) <=
    dist2 (at_ (v3 0 0 0) (vsub (v3 1 0 0) (v3 0 0 0)) t) (at_ (v3 (1 # 2) 1 3) (vsub (v3 (1 # 2) 3 (-1)) (v3 (1 # 2) 1 3)) u)) /\
  of_ends (v3 0 0 0) (v3 1 0 0) (v3 (1 # 2) 1 3) (v3 (1 # 2) 3 (-1)) <> None.
Proof.
  split; [unfold unit; lra|]. split.
  2: { intros H; apply (proj1 (of_ends_none _ _ _ _)) in H; destruct H as [H|H]; vm_compute in H; discriminate H. }
  intros t u. unfold dist2, sum3, at_, vsub, v3.
  pose proof (sq_nonneg (t - (1 # 2))). pose proof (sq_nonneg (u - (1 # 2))). lra.
Qed.
