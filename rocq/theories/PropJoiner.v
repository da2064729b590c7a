(** C100-C102: the levels a join goes through, the times and the distance it reports. *)
From Coq Require Import ZArith QArith List Bool Lia Lqa Sorting.Sorted Permutation.
From Verif Require Import Arr AabModel AabProofs OctreeModel OctreeProofs JoinModel JoinProofs NnExactProofs JoinerModel JoinerProofs PropJoin PropTreeDist.
Import ListNotations.
Open Scope Z_scope.

(** C100.  From base_lod, top_lod and lod_gap the joiner makes the increasing list of the levels base,
    base + gap, ... up to top and top itself, so that the highest level is top. *)
Theorem lods_list_partial : forall base top gap, -2147483648 <= base -> 0 < gap -> base <= top -> top + gap <= 2147483647 ->
  exists steps, forall fuel, (steps <= fuel)%nat -> exists l, make_lods fuel base top gap = Lods l /\ StronglySorted Z.lt l /\ highest_lod l = top /\
  forall x, In x l <-> x = top \/ exists k, 0 <= k /\ x = base + k * gap /\ x <= top.
Proof. intros base top gap B G L O. exists (Z.to_nat (top - base + 1)). intros fuel F. now apply make_lods_ok. Qed.
Print Assumptions lods_list_partial.
Example lods_list_sample : make_lods 200 0 100 50 = Lods [0; 50; 100] /\ make_lods 200 20 95 30 = Lods [20; 50; 80; 95] /\ 100 + 50 <= 2147483647.
Proof. split; [vm_compute; reflexivity|]. split; [vm_compute; reflexivity|vm_compute; discriminate]. Qed.

(** C100 does not hold for all options: without a positive gap the loop never ends properly, with a
    base above the top the last element of an empty list is read, and near the largest int the
    counter overflows. *)
Theorem lods_list_refuted :
  (forall base top gap, gap <= 0 -> base <= top -> forall fuel l, make_lods fuel base top gap <> Lods l) /\
  (forall base top gap fuel, top < base -> make_lods fuel base top gap = BadIndex) /\
  (exists base top gap fuel, 0 < gap <= 2147483647 /\ base <= top /\ top <= 100 /\ make_lods fuel base top gap = Overflow).
Proof.
  split; [|split].
  - intros base top gap G L fuel l. unfold make_lods. pose proof (lod_loop_never top gap G fuel base [] ) as H.
    destruct (lod_loop fuel base top gap []) as [r| | |] eqn:E; try discriminate. exfalso. exact (H r L eq_refl).
  - intros base top gap fuel H. unfold make_lods. assert (E : lod_loop fuel base top gap [] = Lods []).
    { destruct fuel; cbn [lod_loop]; destruct (Z.ltb_spec top base); try lia; reflexivity. }
    now rewrite E.
  - exists 50, 100, 2147483647, 10%nat. split; [vm_compute; split; [reflexivity|discriminate]|]. split; [lia|]. split; [lia|]. vm_compute. reflexivity.
Qed.
Print Assumptions lods_list_refuted.

Open Scope Q_scope.
(** C101.  The times and the distance reported do not depend on the order in which the tile pairs
    are finished. *)
Theorem reports_any_order : forall l l' g, Permutation l l' ->
  Forall2 Qeq (x_times (fold_left merge l g)) (x_times (fold_left merge l' g)) /\
  match x_nearest (fold_left merge l g), x_nearest (fold_left merge l' g) with Some a, Some b => a == b | None, None => True | _, _ => False end.
Proof. intros l l' g P. exact (fold_merge_perm l l' P g). Qed.
Print Assumptions reports_any_order.
Example reports_sample : fold_left merge [Context [1; 2] (Some 3); Context [4; 5] (Some 2)] (Context [0; 0] (Some 0)) = Context [5; 7] (Some 3) /\
  Permutation [1; 2] [2; 1].
Proof. split; [vm_compute; reflexivity|constructor]. Qed.

(** C102.  The "max min distance" reported by a nearest-neighbour join, if finite, is at least the
    nearest distance of every object that has to be refined, when the first level has data for all
    pairs; with a single level, the highest, it is the largest of these distances. *)
Lemma entries_far N tv cs (g : vpair -> Q) : Forall (entry_ok N) cs -> Forall (pairs_far N tv) cs ->
  (forall vp, tv (vp_v1 vp) (vp_v2 vp) <= g vp) ->
  forall e, In e cs -> Forall (fun vp => n_dist (N (fst e)) <= maxdist (vp_dist vp) /\ n_dist (N (fst e)) <= g vp) (flat_map c_pairs (snd e)).
Proof.
  intros O P G e He. rewrite Forall_forall in O, P. destruct (O e He) as [Gd _]. specialize (P e He). unfold pairs_far in P. unfold good in Gd.
  rewrite Forall_forall in *. intros vp Hv. specialize (P vp Hv). apply in_flat_map in Hv as [c [Hc Hv]]. destruct (Gd c Hc) as [_ Fp].
  unfold far_pairs in Fp. rewrite Forall_forall in Fp. specialize (Fp vp Hv). unfold far in Fp. specialize (G vp). split; [exact Fp|lra].
Qed.
Theorem reported_distance_partial : forall fuel t1 t2 cs tv dist N r rounds x, tile_ok t2 -> Forall (fun w => wf (o_box (w_obj w))) (t_objs t1) ->
  nn_truth t1 t2 tv dist N -> mbb_nn fuel t1 t2 = Some cs ->
  (forall vp, tv (vp_v1 vp) (vp_v2 vp) <= r_compute r vp) -> (forall vp, r_filled r vp = true) ->
  snd (nn_refine_nearest (r :: rounds) cs) = Some x ->
  (forall w1 cl, In (w1, cl) cs -> (2 <= length cl)%nat -> n_dist (N w1) <= x) /\
  (rounds = [] -> r_highest r = true -> (forall vp, r_compute r vp == tv (vp_v1 vp) (vp_v2 vp)) -> (forall w, tv (n_a (N w)) (n_b (N w)) == n_dist (N w)) ->
     x == 0 \/ exists w1 cl, In (w1, cl) cs /\ (2 <= length cl)%nat /\ n_dist (N w1) == x).
Proof.
  intros fuel t1 t2 cs tv dist N r rounds x O W T E G Fi Ex. destruct (mbb_nn_ok fuel t1 t2 cs tv dist N O W T E) as [A [F _]].
  unfold nn_refine_nearest in Ex. cbn [fold_left fst snd] in Ex.
  set (cs0 := fst (drop_settled cs)) in *.
  assert (A0 : Forall (entry_ok N) cs0) by (unfold cs0, drop_settled; cbn [fst]; now apply Forall_filter).
  assert (F0 : Forall (pairs_far N tv) cs0) by (unfold cs0, drop_settled; cbn [fst]; now apply Forall_filter).
  assert (In0 : forall w1 cl, In (w1, cl) cs -> (2 <= length cl)%nat -> In (w1, cl) cs0).
  { intros w1 cl H L. unfold cs0, drop_settled. cbn [fst]. apply filter_In. split; [exact H|]. cbn [snd]. apply negb_true_iff, Nat.leb_gt. lia. }
  assert (Out0 : forall e, In e cs0 -> In e cs /\ (2 <= length (snd e))%nat).
  { intros e H. unfold cs0, drop_settled in H. cbn [fst] in H. apply filter_In in H as [H1 H2]. apply negb_true_iff, Nat.leb_gt in H2. auto. }
  assert (Dat : cs0 = [] \/ existsb (r_filled r) (all_pairs cs0) = true).
  { destruct cs0 as [|e es] eqn:Ec; [now left|right]. inversion A0 as [|? ? [_ H] _]; subst.
    destruct H as [c [Hc [Wc [Nc [vp [Hv _]]]]]]. apply existsb_exists. exists vp. split; [|apply Fi].
    unfold all_pairs. cbn [flat_map]. apply in_or_app. left. apply in_flat_map. eauto. }
  split.
  - intros w1 cl H L. pose proof (In0 w1 cl H L) as H0. apply nearest_mono in Ex as (p & Ep & Lp). unfold nn_round_nearest in Ep.
    destruct Dat as [Dat|Dat]; [rewrite Dat in H0; destruct H0|]. rewrite Dat in Ep. cbn [negb] in Ep.
    destruct (round_nearest_ge (r_highest r) (r_filled r) _ (r_compute r) cs0 0 _ _ (reads_nth (all_pairs cs0) (r_compute r) 0) Ep) as (_ & K & _).
    specialize (K N (entries_far N tv cs0 _ A0 F0 G) _ H0). cbn [fst] in K. lra.
  - intros -> Hh Gx Nx. cbn [fold_left snd] in Ex. unfold nn_round_nearest in Ex.
    destruct Dat as [Dat|Dat]; [rewrite Dat in Ex; injection Ex as <-; left; reflexivity|]. rewrite Dat in Ex. cbn [negb] in Ex.
    destruct (round_nearest_ge (r_highest r) (r_filled r) _ (r_compute r) cs0 0 _ _ (reads_nth (all_pairs cs0) (r_compute r) 0) Ex) as (_ & _ & K).
    destruct K as [K|(e & d & He & -> & idx & mc & Emc & Ed & Rd)]; [injection K as <-; left; reflexivity|right].
    destruct (Out0 e He) as [He1 He2]. exists (fst e), (snd e). rewrite <- surjective_pairing. split; [exact He1|]. split; [exact He2|].
    pose proof (round_info_min (r_highest r) (r_filled r) _ (r_compute r) (snd e) idx None Rd) as M. rewrite Emc, Ed in M. destruct M as (_ & M2 & M3).
    pose proof (entries_far N tv cs0 _ A0 F0 G e He) as Fe. rewrite Forall_forall in Fe.
    rewrite Forall_forall in A0. destruct (A0 e He) as [_ [c [Hc [_ [_ [vp [Hv [[P1 P2] _]]]]]]]].
    assert (Hin : In vp (flat_map c_pairs (snd e))) by (apply in_flat_map; eauto).
    destruct (M2 vp Hin (Fi vp)) as [d' [E' L']]. injection E' as <-. rewrite Hh in *. cbn [refine_range maxdist] in L'. rewrite Gx, P1, P2, Nx in L'.
    destruct (M3 d eq_refl) as [X|(vp0 & H0 & _ & ->)]; [discriminate X|]. cbn [refine_range maxdist] in *. destruct (Fe vp0 H0) as [_ L0]. lra.
Qed.
Print Assumptions reported_distance_partial.
(** The sample tiles settle in the filter; two candidates at distances 4 and 7 give the report 4. *)
Example reported_distance_sample : tile_ok tile2 /\ nn_truth tile1 tile2 tv odist nearest_of /\
  snd (nn_refine_nearest [Round true (fun _ => true) (fun vp => maxdist (vp_dist vp)) (fun _ => true)] [(w1a, [cand2 w2a 4; cand2 w2b 7])]) = Some 4.
Proof. split; [exact tile2_ok|]. split; [exact sample_truth|vm_compute; reflexivity]. Qed.

(** C102 does not hold in general: a level before the highest leaves its coarse distance in the
    report, and an object without data at a level makes it infinite. *)
Theorem reported_distance_refuted :
  (exists r1 r2 cs (true_dist : vpair -> Q) x, (forall vp, true_dist vp <= r_compute r1 vp) /\ r_highest r2 = true /\ (forall vp, r_compute r2 vp = true_dist vp) /\
     (forall vp, r_filled r1 vp = true /\ r_filled r2 vp = true) /\ snd (nn_refine_nearest [r1; r2] cs) = Some x /\
     Forall (fun e => Forall (fun vp => true_dist vp < x) (flat_map c_pairs (snd e))) cs /\ cs <> []) /\
  (exists r cs, snd (nn_refine_nearest [r] cs) = None).
Proof.
  split.
  - exists (Round false (fun _ => true) (fun _ => 5) (fun _ => true)), (Round true (fun _ => true) (fun _ => 1) (fun _ => true)),
      [(w1a, [cand2 w2a 9; cand2 w2b 9])], (fun _ => 1), 5.
    split; [intros; cbn; lra|]. split; [reflexivity|]. split; [reflexivity|]. split; [auto|]. split; [vm_compute; reflexivity|].
    split; [repeat constructor|discriminate].
  - exists (Round false (fun vp => Nat.eqb (v_ptr (vp_v1 vp)) 1) (fun _ => 5) (fun _ => true)),
      [(w1a, [cand2 w2a 9; cand2 w2b 9]);
       (w1b, [CInfo w2a (Range 0 9) [VPair (Voxel 3 inner) (Voxel 2 inner) (Range 0 9) false]; CInfo w2b (Range 0 9) [VPair (Voxel 3 inner) (Voxel 2 inner) (Range 0 9) false]])].
    vm_compute. reflexivity.
Qed.
Print Assumptions reported_distance_refuted.
