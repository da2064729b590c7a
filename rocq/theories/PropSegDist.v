(** C36-C38 and C60-C62: distances of segments. *)
From Coq Require Import QArith List Bool Arith Lia Lqa.
From Verif Require Import AabModel AabProofs SegDistModel SegDistProofs SegGpuModel SegGpuProofs.
Import ListNotations.
Open Scope Q_scope.

(** C36.  The answer is "none" exactly for a segment of length zero; otherwise it is the squared
    distance between a point of the first and a point of the second segment. *)
Theorem segdist_attained : forall P Q0 A B,
  match SegDist P Q0 A B (vdot A A) (vdot B B) with
  | None => (forall i, A i == 0) \/ (forall i, B i == 0)
  | Some d => ~ (forall i, A i == 0) /\ ~ (forall i, B i == 0) /\
      exists t u, unit t /\ unit u /\ d == dist2 (at_ P A t) (at_ Q0 B u)
  end.
Proof.
  intros P Q0 A B. destruct (SegDist P Q0 A B (vdot A A) (vdot B B)) as [d|] eqn:E.
  - assert (N : ~ ((forall i, A i == 0) \/ (forall i, B i == 0))).
    { intros H. apply (proj2 (SegDist_none P Q0 A B)) in H. congruence. }
    split; [tauto|split; [tauto|]]. exact (SegDist_attained P Q0 A B d E).
  - exact (proj1 (SegDist_none P Q0 A B) E).
Qed.
Print Assumptions segdist_attained.
Definition ex_p := v3 0 0 0. Definition ex_a := v3 1 0 0.
Definition ex_q := v3 (1 # 2) 1 3. Definition ex_b := v3 0 2 (-(4)).
Example segdist_attained_nonvacuous :
  match SegDist ex_p ex_q ex_a ex_b (vdot ex_a ex_a) (vdot ex_b ex_b) with Some d => Qeq_bool d 5 | None => false end = true.
Proof. vm_compute; reflexivity. Qed.

(** C37 is false: two non-parallel segments for which a pair of points is closer than the answer. *)
Theorem segdist_minimal_refuted : exists P Q0 A B d t u,
  SegDist P Q0 A B (vdot A A) (vdot B B) = Some d /\ unit t /\ unit u /\ dist2 (at_ P A t) (at_ Q0 B u) < d - 3.
Proof.
  exists (v3 0 0 0), (v3 (9 # 2) (-(1 # 2)) 1), (v3 1 0 0), (v3 1 1 0). eexists. exists 1, 0.
  split; [reflexivity|]. unfold unit. split; [lra|split; [lra|]]. vm_compute; reflexivity.
Qed.
Print Assumptions segdist_minimal_refuted.

(** C37, the part that holds: the answer is the smallest squared distance whenever the first
    segment contains a point that is as close to the line of the second segment as its own line
    gets.  Missing: segments for which that point lies outside the first segment. *)
Theorem segdist_minimal_partial : forall P Q0 A B d t0 u0,
  SegDist P Q0 A B (vdot A A) (vdot B B) = Some d ->
  unit t0 -> (forall t u, dist2 (at_ P A t0) (at_ Q0 B u0) <= dist2 (at_ P A t) (at_ Q0 B u)) ->
  (exists t u, unit t /\ unit u /\ d == dist2 (at_ P A t) (at_ Q0 B u)) /\
  forall t u, unit t -> unit u -> d <= dist2 (at_ P A t) (at_ Q0 B u).
Proof.
  intros P Q0 A B d t0 u0 E Ht Hm. split; [exact (SegDist_attained _ _ _ _ _ E)|].
  assert (Ha : ~ vdot A A == 0).
  { intros X. unfold SegDist in E. apply Qeq_bool_iff in X. rewrite X in E; discriminate. }
  assert (Hb : ~ vdot B B == 0).
  { intros X. unfold SegDist in E. apply Qeq_bool_iff in X. rewrite X, orb_true_r in E; discriminate. }
  intros t u H1 H2. destruct (SegDist_value P Q0 A B Ha Hb) as (d' & E' & V). rewrite E' in E; injection E as <-.
  rewrite V. exact (minimal_when P A Q0 B t u Ha Hb (foot_in P A Q0 B t0 u0 Ha Hb Ht Hm) H1 H2).
Qed.
Print Assumptions segdist_minimal_partial.
Example segdist_minimal_nonvacuous : unit (1 # 2) /\ forall t u,
  dist2 (at_ ex_p ex_a (1 # 2)) (at_ ex_q ex_b (1 # 2)) <= dist2 (at_ ex_p ex_a t) (at_ ex_q ex_b u).
Proof.
  split; [unfold unit; lra|]. intros t u. unfold dist2, sum3, at_, ex_p, ex_a, ex_q, ex_b, v3.
  pose proof (sq_nonneg (t - (1 # 2))). pose proof (sq_nonneg (u - (1 # 2))). lra.
Qed.

(** C38.  The answer for two buffers of segments is the smallest of the pairwise answers over the
    first 10000 segments of each, and "none" only if there is no pair of segments of positive
    length. *)
Theorem segdist_single_minimum : forall l1 l2,
  let n := N.to_nat 10000%N in
  match SegDist_single (seg_buffer l1) (seg_buffer l2) (length l1) (length l2) with
  | Some d =>
      (exists s1 s2, In s1 (firstn n l1) /\ In s2 (firstn n l2) /\ pair_dist s1 s2 = Some d) /\
      (forall s1 s2 e, In s1 (firstn n l1) -> In s2 (firstn n l2) -> pair_dist s1 s2 = Some e -> d <= e)
  | None => forall s1 s2, In s1 (firstn n l1) -> In s2 (firstn n l2) -> pair_dist s1 s2 = None
  end.
Proof.
  intros l1 l2 n. rewrite single_fold. fold n.
  destruct (fold_dmin (all_dists (firstn n l1) (firstn n l2)) None) as (_ & H2 & H3).
  assert (I : forall s1 s2, In s1 (firstn n l1) -> In s2 (firstn n l2) -> In (pair_dist s1 s2) (all_dists (firstn n l1) (firstn n l2))).
  { intros s1 s2 A B. unfold all_dists. apply in_flat_map. exists s1. split; [exact A|]. apply in_map; exact B. }
  destruct (fold_left dmin _ None) as [d|].
  - split.
    + destruct H3 as [H3|H3]; [discriminate|]. unfold all_dists in H3. apply in_flat_map in H3 as (s1 & A & H3).
      apply in_map_iff in H3 as (s2 & E & B). exists s1, s2. auto.
    + intros s1 s2 e A B E. specialize (H2 _ (I s1 s2 A B)). rewrite E in H2. exact H2.
  - intros s1 s2 A B. specialize (H2 _ (I s1 s2 A B)). destruct (pair_dist s1 s2); [destruct H2|reflexivity].
Qed.
Print Assumptions segdist_single_minimum.
Definition ex_segs1 : list (point * point) := [((0, 0, 0), (1, 0, 0)); ((0, 0, 0), (0, 0, 0)); ((0, 5, 0), (1, 5, 0))].
Definition ex_segs2 : list (point * point) := [((0, 9, 0), (1, 9, 1)); ((0, 7, 0), (1, 7, 0))].
Example segdist_single_nonvacuous :
  match SegDist_single (seg_buffer ex_segs1) (seg_buffer ex_segs2) 3 2 with Some d => Qeq_bool d 4 | None => false end = true.
Proof. vm_compute; reflexivity. Qed.

(** C60.  The program of the graphics card and the one of the processor give the same distance. *)
Theorem segdist_devices_agree : forall P Q0 A B,
  match SegDist P Q0 A B (vdot A A) (vdot B B), SegDist_kernel P Q0 A B with
  | Some x, Some y => x == y
  | None, None => True
  | _, _ => False
  end.
Proof. exact devices_agree. Qed.
Print Assumptions segdist_devices_agree.
Example segdist_devices_nonvacuous :
  match SegDist_kernel ex_p ex_q ex_a ex_b with Some d => Qeq_bool d 5 | None => false end = true.
Proof. vm_compute; reflexivity. Qed.

(** C61.  The answer is zero exactly when the segments have a point in common. *)
Theorem segdist_zero_iff_meet : forall P Q0 A B d, SegDist P Q0 A B (vdot A A) (vdot B B) = Some d ->
  (d == 0 <-> exists t u, unit t /\ unit u /\ forall i, at_ P A t i == at_ Q0 B u i).
Proof. exact (fun P Q0 A B d => zero_iff P A Q0 B d). Qed.
Print Assumptions segdist_zero_iff_meet.
Example segdist_zero_nonvacuous :
  match SegDist (v3 0 0 0) (v3 1 0 0) (v3 2 2 2) (v3 0 2 2) 12 8 with Some d => Qeq_bool d 0 | None => false end = true /\
  vdot (v3 2 2 2) (v3 2 2 2) = 12 /\ vdot (v3 0 2 2) (v3 0 2 2) = 8.
Proof. vm_compute; repeat split. Qed.

(** C62 is false: the threads of a block share the result cell without synchronisation, and in some
    schedule a larger distance overwrites the smallest. *)
Theorem gpu_batch_minimum_refuted : exists l1 l2 garbage result d,
  gpu_batch (seg_buffer l1) (seg_buffer l2) (length l1) (length l2) (length l1) (length l2) garbage (Some result) /\
  (exists s1 s2, In s1 l1 /\ In s2 l2 /\ pair_dist s1 s2 = Some d) /\ d < result.
Proof.
  exists [((0, 0, 0), (1, 0, 0))], [((0, 3, 0), (1, 3, 0)); ((0, 1, 0), (1, 1, 0))], None, 9, 1.
  split; [|split; [|reflexivity]].
  - unfold gpu_batch.
    assert (E : launches 1 2 = [(0, 0, 2)%nat]) by (vm_compute; reflexivity). cbn [length]. rewrite E.
    assert (T : threads 1 2 (0, 0, 2)%nat = [(0, 0); (0, 1)]%nat) by reflexivity.
    eapply br_cons; [|apply br_nil]. rewrite T. unfold launch_run. cbn [length repeat].
    eapply tss_cons. { apply (ts_load _ _ 1%nat (0, 1)%nat); [reflexivity|discriminate|reflexivity]. }
    cbn [set_at]. eapply tss_cons. { eapply (ts_store _ _ 1%nat (0, 1)%nat); reflexivity. }
    cbn [set_at]. eapply tss_cons. { eapply (ts_first _ _ 0%nat); reflexivity. }
    cbn [set_at].
    match goal with |- tsteps ?d _ (?x, _) _ => assert (X : x = Some 9) by (vm_compute; reflexivity); rewrite X end.
    apply tss_nil.
  - exists ((0, 0, 0), (1, 0, 0)), ((0, 1, 0), (1, 1, 0)). split; [left; reflexivity|split; [right; left; reflexivity|]].
    vm_compute; reflexivity.
Qed.
Print Assumptions gpu_batch_minimum_refuted.

(** C62, the part that holds for every schedule and whatever the memory held before: the result is
    the distance of one of the pairs, hence never too small, and it is the minimum when the second
    voxel holds one segment.  Missing: two or more segments in the second voxel. *)
Theorem gpu_batch_minimum_partial : forall data1 data2 size1 size2 max1 max2 garbage result,
  (0 < size1 <= max1)%nat -> (0 < size2 <= max2)%nat ->
  gpu_batch data1 data2 size1 size2 max1 max2 garbage result ->
  (exists i j, (i < size1 /\ j < size2)%nat /\ result = kernel_dist data1 data2 (i, j)) /\
  (size2 = 1%nat -> forall i e, (i < size1)%nat -> kernel_dist data1 data2 (i, 0%nat) = Some e ->
                    exists d, result = Some d /\ d <= e).
Proof.
  intros data1 data2 size1 size2 max1 max2 g r H1 H2 R. split; [exact (batch_attained _ _ _ _ _ _ _ H1 H2 R)|].
  intros -> i e Hi E. pose proof (batch_column _ size1 max1 max2 g r H1 ltac:(lia) R i Hi) as D. rewrite E in D.
  destruct r as [d|]; [exists d; auto|destruct D].
Qed.
Print Assumptions gpu_batch_minimum_partial.
Definition ex_buf1 := seg_buffer [((0, 0, 0), (1, 0, 0)); ((0, 2, 0), (1, 2, 0))].
Definition ex_buf2 := seg_buffer [((0, 3, 0), (1, 3, 0))].
Example gpu_batch_nonvacuous : gpu_batch ex_buf1 ex_buf2 2 1 2 1 None (Some 1).
Proof.
  unfold gpu_batch. assert (E : launches 2 1 = [(0, 0, 1); (1, 0, 1)]%nat) by (vm_compute; reflexivity). rewrite E.
  eapply br_cons with (cell' := Some 9).
  - unfold launch_run; cbn. eapply tss_cons. { eapply (ts_first _ _ 0%nat); reflexivity. }
    cbn [set_at]. match goal with |- tsteps ?d _ (?x, _) _ => assert (X : x = Some 9) by (vm_compute; reflexivity); rewrite X end.
    apply tss_nil.
  - eapply br_cons; [|apply br_nil]. unfold launch_run; cbn.
    eapply tss_cons. { apply (ts_load _ _ 0%nat (1, 0)%nat); [reflexivity|discriminate|reflexivity]. }
    cbn [set_at]. eapply tss_cons. { eapply (ts_store _ _ 0%nat (1, 0)%nat); reflexivity. }
    cbn [set_at]. match goal with |- tsteps ?d _ (?x, _) _ => assert (X : x = Some 1) by (vm_compute; reflexivity); rewrite X end.
    apply tss_nil.
Qed.

(** C62 and C60 in terms of the segments: what a thread computes from the buffers is the distance the
    processor computes for the two segments, given by their end points. *)
Theorem gpu_kernel_of_segments : forall l1 l2 i j, (i < length l1)%nat -> (j < length l2)%nat ->
  match kernel_dist (seg_buffer l1) (seg_buffer l2) (i, j), pair_dist (nth i l1 none_seg) (nth j l2 none_seg) with
  | Some x, Some y => x == y
  | None, None => True
  | _, _ => False
  end.
Proof.
  intros l1 l2 i j Hi Hj. unfold kernel_dist, pair_dist. destruct (vec_at_seg l1 i Hi) as [-> ->], (vec_at_seg l2 j Hj) as [-> ->].
  set (P := pt (fst (nth i l1 none_seg))). set (Q0 := pt (fst (nth j l2 none_seg))). set (A := vsub _ P). set (B := vsub _ Q0).
  pose proof (devices_agree P Q0 A B) as H. destruct (SegDist_kernel P Q0 A B), (SegDist P Q0 A B (vdot A A) (vdot B B)); auto. symmetry; exact H.
Qed.
Print Assumptions gpu_kernel_of_segments.
Example gpu_kernel_nonvacuous : match kernel_dist (seg_buffer ex_segs1) (seg_buffer ex_segs2) (2, 1)%nat with Some d => Qeq_bool d 4 | None => false end = true.
Proof. vm_compute; reflexivity. Qed.

(** C154.  Every launch of the distance kernel has at least one and at most 1024 threads per block, the
    most a device takes, and its threads stay below the largest number of segments; and every pair of
    places below the two largest numbers belongs to exactly one launch. *)
Theorem gpu_launches_fit : forall max1 max2,
  (forall c1 start dim2, In (c1, start, dim2) (launches max1 max2) -> (c1 < max1 /\ 1 <= dim2 <= N.to_nat 1024 /\ start + dim2 <= max2)%nat) /\
  NoDup (launches max1 max2) /\
  (forall i j, (i < max1)%nat -> (j < max2)%nat -> exists start dim2, In (i, start, dim2) (launches max1 max2) /\ (start <= j < start + dim2)%nat /\
    forall c1' start' dim2', In (c1', start', dim2') (launches max1 max2) -> c1' = i -> (start' <= j < start' + dim2')%nat -> start' = start /\ dim2' = dim2).
Proof.
  intros max1 max2. change (N.to_nat 1024) with block.
  assert (B : (0 < block)%nat) by (unfold block; lia). unfold launches. generalize dependent block. intros w B.
  assert (G : forall c1 start dim2, In (c1, start, dim2) (flat_map (fun k => map (fun c1 => (c1, k * w, Nat.min (max2 - k * w) w)%nat) (seq 0 max1)) (seq 0 ((max2 + (w - 1)) / w))) <->
    exists k, (k * w < max2 /\ c1 < max1 /\ start = k * w /\ dim2 = Nat.min (max2 - k * w) w)%nat).
  { intros c1 start dim2. rewrite in_flat_map. split.
    - intros (k & Hk & Hc). apply in_seq in Hk. apply in_map_iff in Hc. destruct Hc as (c & E & Hc). apply in_seq in Hc. injection E as -> <- <-. exists k. split; [|split; [lia|split; reflexivity]].
      destruct Hk as [_ Hk]. cbn in Hk. pose proof (Nat.mul_div_le (max2 + (w - 1)) w ltac:(lia)). nia.
    - intros (k & H1 & H2 & -> & ->). exists k. split.
      + apply in_seq. split; [lia|]. cbn. apply Nat.div_le_lower_bound; [lia|]. nia.
      + apply in_map_iff. exists c1. split; [reflexivity|]. apply in_seq. lia. }
  split; [|split].
  - intros c1 start dim2 H. apply G in H. destruct H as (k & H1 & H2 & -> & ->). lia.
  - clear G. assert (D : forall l, NoDup l -> NoDup (flat_map (fun k => map (fun c1 => (c1, k * w, Nat.min (max2 - k * w) w)%nat) (seq 0 max1)) l)).
    { induction 1 as [|k l N _ IH]; cbn [flat_map]; [constructor|]. assert (M : NoDup (map (fun c1 => (c1, k * w, Nat.min (max2 - k * w) w)%nat) (seq 0 max1))).
      { apply FinFun.Injective_map_NoDup; [intros a b E; injection E; auto|apply seq_NoDup]. }
      assert (X : forall p, In p (map (fun c1 => (c1, k * w, Nat.min (max2 - k * w) w)%nat) (seq 0 max1)) -> ~ In p (flat_map (fun k => map (fun c1 => (c1, k * w, Nat.min (max2 - k * w) w)%nat) (seq 0 max1)) l)).
      { intros p Hp Hq. apply in_map_iff in Hp. destruct Hp as (a & <- & _). apply in_flat_map in Hq. destruct Hq as (k' & Hk & Hq). apply in_map_iff in Hq. destruct Hq as (b & E & _).
        assert (k' = k) by (injection E; intros; nia). subst. contradiction. }
      revert M X. generalize (map (fun c1 => (c1, k * w, Nat.min (max2 - k * w) w)%nat) (seq 0 max1)). induction 1 as [|p q Np _ IHq]; intro X; [exact IH|]. cbn [app]. constructor.
      - intro H. apply in_app_or in H. destruct H as [H|H]; [contradiction|]. exact (X p (or_introl eq_refl) H).
      - apply IHq. intros p' Hp'. apply X. right. exact Hp'. }
    apply D, seq_NoDup.
  - intros i j Hi Hj. pose proof (Nat.div_mod j w ltac:(lia)) as DM. pose proof (Nat.mod_upper_bound j w ltac:(lia)) as MB.
    exists (j / w * w)%nat, (Nat.min (max2 - j / w * w) w). split; [apply G; exists (j / w)%nat; nia|]. split; [nia|].
    intros c1' start' dim2' H _ R. apply G in H. destruct H as (k & H1 & _ & -> & ->). assert (k = j / w)%nat by nia. subst k. auto.
Qed.
Print Assumptions gpu_launches_fit.
Example gpu_launches_sample : launches 2 (N.to_nat 1030) = [(0, 0, N.to_nat 1024); (1, 0, N.to_nat 1024); (0, N.to_nat 1024, 6); (1, N.to_nat 1024, 6)]%nat.
Proof. vm_compute. reflexivity. Qed.
