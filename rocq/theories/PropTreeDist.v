(** C96-C99: the last round of the nearest-neighbour join and the distances of the option --aabb. *)
From Coq Require Import QArith List Bool Arith ZArith Lia Lqa.
From Verif Require Import Arr AabModel AabProofs OctreeModel OctreeProofs JoinModel JoinProofs NnExactProofs.
From Verif Require Import SegDistModel SegDistProofs TreeDistModel TreeDistProofs PropJoin.
Import ListNotations.
Open Scope Q_scope.

(** C96.  After a last round at the highest level, with the true distances, every candidate left for
    an object is at the distance of its nearest object. *)
Theorem nn_last_round_only_nearest : forall fuel t1 t2 cs tv dist N rounds (data : voxel -> voxel -> bool),
  tile_ok t2 -> Forall (fun w => wf (o_box (w_obj w))) (t_objs t1) ->
  nn_truth t1 t2 tv dist N -> mbb_nn fuel t1 t2 = Some cs ->
  (forall w, tv (n_a (N w)) (n_b (N w)) == n_dist (N w)) -> (forall w, In w (t_objs t1) -> data (n_a (N w)) (n_b (N w)) = true) ->
  Forall (fun r => forall vp, tv (vp_v1 vp) (vp_v2 vp) <= r_compute r vp /\ (r_highest r = true -> r_compute r vp == tv (vp_v1 vp) (vp_v2 vp))) rounds ->
  forall w1 cl c, In (w1, cl) (fst (nn_refine (rounds ++ [Round true (fun vp => data (vp_v1 vp) (vp_v2 vp)) (fun vp => tv (vp_v1 vp) (vp_v2 vp)) (fun _ => true)]) cs)) ->
  In c cl -> c_pairs c <> [] /\
  forall vp, In vp (c_pairs c) -> data (vp_v1 vp) (vp_v2 vp) = true -> tv (vp_v1 vp) (vp_v2 vp) == n_dist (N w1).
Proof.
  intros fuel t1 t2 cs tv dist N rounds data O W T E X S R w1 cl c He Hc.
  destruct (mbb_nn_ok fuel t1 t2 cs tv dist N O W T E) as [A [F M]].
  assert (Dm : Forall (fun e => In (fst e) (t_objs t1)) cs) by (apply Forall_forall; intros e Hi; rewrite <- M; now apply in_map).
  pose proof (last_refine N tv data X (fun w => In w (t_objs t1)) S rounds cs R A F Dm) as L. rewrite Forall_forall in L. specialize (L _ He).
  unfold only_nearest in L. cbn [fst snd] in L. rewrite Forall_forall in L. destruct (L c Hc) as [L1 L2].
  split; [exact L1|]. rewrite Forall_forall in L2. exact L2.
Qed.
Print Assumptions nn_last_round_only_nearest.
(** The hypotheses hold of the sample tiles ([nn_filter_sample], [nn_join_sample]); every pair has
    data. *)
Example nn_last_round_sample : tile_ok tile2 /\ Forall (fun w => wf (o_box (w_obj w))) (t_objs tile1) /\ nn_truth tile1 tile2 tv odist nearest_of /\
  (forall w, tv (n_a (nearest_of w)) (n_b (nearest_of w)) == n_dist (nearest_of w)).
Proof. split; [exact tile2_ok|]. split; [apply nn_filter_sample|]. split; [exact sample_truth|apply nn_join_sample]. Qed.
(** Of three candidates the round leaves the two that are equally near. *)
Definition cand2 (w : wrapper) (d : Q) : cinfo := CInfo w (Range 0 d) [VPair (Voxel 1 inner) (Voxel 2 inner) (Range 0 d) false].
Example nn_last_round_ties : map (fun e => map (fun c => o_ptr (w_obj (c_wrapper c))) (snd e))
   (fst (nn_refine [Round true (fun _ => true) (fun vp => maxdist (vp_dist vp)) (fun _ => true)] [(w1a, [cand2 w2a 4; cand2 w2b 7; cand2 w2c 4])])) = [[11; 13]]%nat.
Proof. vm_compute. reflexivity. Qed.

(** C97.  The distance of two meshes with --aabb: the smallest squared distance of a vertex of the
    first to a point of an edge of the second that has a length. *)
Theorem tree_distance_partial : forall edges vertices x, get_segments edges <> [] ->
  mesh_dist (get_segments edges) vertices None = Some x ->
  (exists p a b t, In p vertices /\ In (a, b) edges /\ unit t /\ x == dist2 p (at_ a (vsub b a) t)) /\
  (forall p a b t, In p vertices -> In (a, b) edges -> ~ (forall i, a i == b i) -> unit t -> x <= dist2 p (at_ a (vsub b a) t)).
Proof.
  intros edges vertices x NE E.
  destruct (mesh_dist_min (get_segments edges) NE vertices [] None eq_refl) as (l & M & _ & C & D); [intros ? []|]. rewrite E in M. cbn [min_of] in M.
  destruct M as [M1 M2]. split.
  - destruct (C x M1) as [[]|(p & s & Hp & Hs & ->)]. destruct (pt_seg_at p s) as (t & U & Et & _).
    apply filter_In in Hs as [Hs _]. exists p, (fst s), (snd s), t. rewrite <- surjective_pairing. auto.
  - intros p a b t Hp He Hne U. destruct (D p (a, b) Hp) as (y & Hy & Ly).
    { apply filter_In. split; [exact He|]. destruct (same_point (fst (a, b)) (snd (a, b))) eqn:S; [|reflexivity]. exfalso. exact (Hne (proj1 (same_point_spec a b) S)). }
    destruct (pt_seg_at p (a, b)) as (_ & _ & _ & K). specialize (K t U). specialize (M2 y Hy). cbn [fst snd] in K. lra.
Qed.
Print Assumptions tree_distance_partial.
(** Two tetrahedra with facing edges that cross. *)
Definition all_edges (l : list vec) : list (vec * vec) := match l with [a; b; c; d] => [(a, b); (a, c); (a, d); (b, c); (b, d); (c, d)] | _ => [] end.
Definition tet1 : list vec := [v3 (-2) 0 0; v3 2 0 0; v3 0 (-1) (-3); v3 0 1 (-3)].
Definition tet2 : list vec := [v3 0 (-2) 1; v3 0 2 1; v3 (-1) 0 4; v3 1 0 4].
(** One with an apex next to an edge of the first. *)
Definition tet3 : list vec := [v3 0 0 1; v3 5 0 9; v3 0 5 9; v3 (-5) (-5) 9].
Example tree_distance_sample : get_segments (all_edges tet2) <> [] /\ option_map Qred (mesh_dist (get_segments (all_edges tet2)) tet1 None) = Some 5.
Proof. split; [vm_compute; intro H; discriminate H|vm_compute; reflexivity]. Qed.
(** Edges of no length are left out. *)
Example get_segments_sample : map (fun s => (fst s AX, snd s AX)) (get_segments [(v3 1 2 3, v3 1 2 3); (v3 1 2 3, v3 4 2 3)]) = [(1, 4)].
Proof. vm_compute. reflexivity. Qed.

(** C97, what does not hold: this is not the distance of the meshes, and it depends on which mesh
    comes first. *)
Theorem tree_distance_not_minimal_refuted :
  (exists m1 m2 a b c d t u x, In (a, b) (all_edges m1) /\ In (c, d) (all_edges m2) /\ unit t /\ unit u /\
     mesh_dist (get_segments (all_edges m2)) m1 None = Some x /\ dist2 (at_ a (vsub b a) t) (at_ c (vsub d c) u) < x) /\
  (exists m1 m2 x y, mesh_dist (get_segments (all_edges m2)) m1 None = Some x /\ mesh_dist (get_segments (all_edges m1)) m2 None = Some y /\ ~ x == y).
Proof.
  split.
  - exists tet1, tet2, (v3 (-2) 0 0), (v3 2 0 0), (v3 0 (-2) 1), (v3 0 2 1), (1#2), (1#2). eexists.
    split; [left; reflexivity|]. split; [left; reflexivity|]. split; [split; vm_compute; discriminate|]. split; [split; vm_compute; discriminate|].
    split; [vm_compute; reflexivity|vm_compute; reflexivity].
  - exists tet1, tet3. eexists. eexists. split; [vm_compute; reflexivity|]. split; [vm_compute; reflexivity|]. vm_compute. intro H; discriminate H.
Qed.
Print Assumptions tree_distance_not_minimal_refuted.

(** C98.  With one pair of voxels for each candidate, a round with --aabb reads back for every pair
    the distance of its own two objects: it is the round of the other branch for these distances.
    The entries of the table have several candidates from the start, as the others are settled. *)
Theorem nn_tree_round_own_distances : forall highest filled D (g : vpair -> Q) cs,
  Forall (fun e => Forall (fun c => length (c_pairs c) = 1%nat) (snd e)) cs ->
  (forall e c vp, In e cs -> In c (snd e) -> In vp (c_pairs c) -> g vp = D (fst e) (c_wrapper c)) ->
  nn_round_tree highest filled D (drop_settled cs) = nn_round highest filled g (drop_settled cs).
Proof.
  intros highest filled D g cs P G. apply nn_round_tree_same; unfold drop_settled; cbn [fst].
  - apply Forall_forall. intros e He. apply filter_In in He as [_ He]. apply negb_true_iff, Nat.leb_gt in He. exact He.
  - rewrite Forall_forall in P. apply Forall_forall. intros e He. apply filter_In in He as [He _]. auto.
  - intros e c vp He. apply filter_In in He as [He _]. eauto.
Qed.
Print Assumptions nn_tree_round_own_distances.
Definition Dw (w1 w2 : wrapper) : Q := inject_Z (o_id (w_obj w2)) + 1.
Definition cand_of (w : wrapper) : cinfo := CInfo w (Range 0 9) [VPair (Voxel 1 inner) (Voxel (o_ptr (w_obj w)) inner) (Range 0 9) false].
Example nn_tree_round_sample : let cs := [(w1a, [cand_of w2b; cand_of w2a]); (w1b, [cand_of w2a]); (w1a, [cand_of w2c; cand_of w2b])] in
  Forall (fun e => Forall (fun c => length (c_pairs c) = 1%nat) (snd e)) cs /\
  map (fun e => map (fun c => o_ptr (w_obj (c_wrapper c))) (snd e)) (snd (nn_round_tree true (fun _ => true) Dw (drop_settled cs))) = [[11]; [11]; [12]]%nat.
Proof. cbn zeta. split; [repeat constructor|vm_compute; reflexivity]. Qed.

(** C98, the memory: never more distances are stored than the array has room for. *)
Theorem tree_distances_fit : forall D cs, Forall (fun e => Forall (fun c => c_pairs c <> []) (snd e)) cs ->
  (length (tree_stored D cs) <= get_pair_num cs)%nat.
Proof. exact tree_stored_length. Qed.
Print Assumptions tree_distances_fit.
Example tree_distances_fit_sample : let cs := [(w1a, [cand_of w2b; cand_of w2a]); (w1b, [cand_of w2a])] in
  (length (tree_stored Dw cs), get_pair_num cs) = (2, 3)%nat.
Proof. vm_compute. reflexivity. Qed.

(** C99 is false: the within join with --aabb stores no distance for an object with a single
    candidate but reads one, so an object is reported whose only candidate is far away; and with
    several voxels for each object the nearest-neighbour join reads distances of other candidates
    and settles on one that is not the nearest. *)
Theorem within_tree_reports_far_refuted : exists cs md D w c,
  (forall cl, In (w, cl) cs -> cl = [c]) /\ In (w, [c]) cs /\ md < D w (c_wrapper c) /\ length (c_pairs c) = 1%nat /\
  In w (map fst (snd (within_round_tree md true (fun _ => true) D (cs, [])))).
Proof.
  exists [(w1a, [cand_of w2c])], 1, Dw, w1a, (cand_of w2c). split; [intros cl [H|[]]; now injection H|]. split; [now left|].
  split; [vm_compute; reflexivity|]. split; [reflexivity|]. vm_compute. now left.
Qed.
Print Assumptions within_tree_reports_far_refuted.
Definition cand_two (w : wrapper) : cinfo := CInfo w (Range 0 9)
  [VPair (Voxel 1 inner) (Voxel 2 inner) (Range 0 9) false; VPair (Voxel 1 inner) (Voxel 3 inner) (Range 0 9) false].
Theorem nn_tree_several_voxels_refuted : exists D w c c', D w (c_wrapper c) < D w (c_wrapper c') /\
  (length (c_pairs c) = 2)%nat /\ (length (c_pairs c') = 2)%nat /\
  map (fun e => (fst e, map c_wrapper (snd e))) (snd (nn_round_tree true (fun _ => true) D ([(w, [c; c'])], []))) = [(w, [c_wrapper c'])].
Proof.
  exists Dw, w1a, (cand_two w2a), (cand_two w2b). split; [vm_compute; reflexivity|]. split; [reflexivity|]. split; [reflexivity|]. vm_compute. reflexivity.
Qed.
Print Assumptions nn_tree_several_voxels_refuted.

(** C98 for the within join: where every object has several candidates, each with one pair of voxels, the
    round is again the one of the other branch for the distances of the own two objects. *)
Lemma within_pairs_ext md highest filled f g ps : forall idx det, (forall i, (idx <= i < idx + length ps)%nat -> f i = g i) ->
  within_round_pairs md highest filled f idx det ps = within_round_pairs md highest filled g idx det ps /\
  snd (fst (within_round_pairs md highest filled f idx det ps)) = (idx + length ps)%nat.
Proof.
  induction ps as [|vp r IH]; intros idx det H; cbn [within_round_pairs length]; [cbn; split; [reflexivity|lia]|].
  rewrite (H idx) by (cbn [length]; lia). set (h := if (negb det && filled vp)%bool then _ else _). destruct h as [vp' det'].
  destruct (IH (S idx) det') as [E L]; [intros i Hi; apply H; cbn [length]; lia|]. rewrite E. rewrite E in L.
  destruct (within_round_pairs md highest filled g (S idx) det' r) as [[r' i'] d']. cbn [fst snd] in *. split; [reflexivity|lia].
Qed.
Lemma within_infos_ext md highest filled f g cl : forall idx det, (forall i, (idx <= i < idx + length (flat_map c_pairs cl))%nat -> f i = g i) ->
  within_round_infos md highest filled f idx det cl = within_round_infos md highest filled g idx det cl /\
  (snd (within_round_infos md highest filled f idx det cl) <= idx + length (flat_map c_pairs cl))%nat.
Proof.
  induction cl as [|c r IH]; intros idx det H; cbn [within_round_infos flat_map]; [cbn; split; [reflexivity|lia]|].
  cbn [flat_map] in H. rewrite app_length in *. destruct det.
  - destruct (IH idx true) as [E L]; [intros; apply H; lia|]. rewrite E in *. destruct (within_round_infos md highest filled g idx true r) as [r' i']. cbn [snd] in *. split; [reflexivity|lia].
  - destruct (within_pairs_ext md highest filled f g (c_pairs c) idx false) as [E L]; [intros; apply H; lia|]. rewrite E in *.
    destruct (within_round_pairs md highest filled g idx false (c_pairs c)) as [[ps' i'] d']. cbn [fst snd] in L. subst i'.
    destruct (IH (idx + length (c_pairs c))%nat d') as [E' L']; [intros; apply H; lia|]. rewrite E' in *.
    destruct (within_round_infos md highest filled g _ d' r) as [r' i'']. cbn [snd] in *. split; [reflexivity|lia].
Qed.
Lemma within_entries_ext md highest filled f g cs : forall idx, (forall i, (i < idx + length (all_pairs cs))%nat -> f i = g i) ->
  within_round_entries md highest filled f idx cs = within_round_entries md highest filled g idx cs.
Proof.
  induction cs as [|e r IH]; intros idx H; cbn [within_round_entries]; [reflexivity|].
  unfold all_pairs in H. cbn [flat_map] in H. rewrite app_length in H.
  destruct (within_infos_ext md highest filled f g (snd e) idx false) as [E L]; [intros; apply H; lia|]. rewrite E in *.
  destruct (within_round_infos md highest filled g idx false (snd e)) as [cl' i']. cbn [snd] in L. f_equal.
  apply IH. intros; apply H. unfold all_pairs in *. lia.
Qed.
Theorem within_tree_round_own_distances : forall md highest filled D (g : vpair -> Q) cs found,
  Forall (fun e => (2 <= length (snd e))%nat) cs -> Forall (fun e => Forall (fun c => length (c_pairs c) = 1%nat) (snd e)) cs ->
  (forall e c vp, In e cs -> In c (snd e) -> In vp (c_pairs c) -> g vp = D (fst e) (c_wrapper c)) ->
  within_round_tree md highest filled D (cs, found) = within_round md highest filled g (cs, found).
Proof.
  intros md highest filled D g cs found S P G. unfold within_round_tree, within_round. destruct (negb _); [reflexivity|].
  rewrite (within_entries_ext md highest filled (tree_dists D cs) (fun i => match nth_error (all_pairs cs) i with Some vp => g vp | None => 0 end)); [reflexivity|].
  intros i Hi. unfold tree_dists. rewrite (stored_map D g cs S P G).
  destruct (nth_error (all_pairs cs) i) as [vp|] eqn:E.
  - apply nth_error_nth. now apply map_nth_error.
  - apply nth_error_None in E. apply nth_overflow. now rewrite map_length.
Qed.
Print Assumptions within_tree_round_own_distances.
Example within_tree_round_sample : let cs := [(w1a, [cand_of w2b; cand_of w2a]); (w1b, [cand_of w2c; cand_of w2b])] in
  Forall (fun e => (2 <= length (snd e))%nat) cs /\ Forall (fun e => Forall (fun c => length (c_pairs c) = 1%nat) (snd e)) cs /\
  map (fun e => o_ptr (w_obj (fst e))) (snd (within_round_tree (1 + (1 # 2) + Dw w1a w2a - 1) true (fun _ => true) Dw (cs, []))) = [o_ptr (w_obj w1a)].
Proof. cbn zeta. split; [repeat constructor|]. split; [repeat constructor|]. vm_compute. reflexivity. Qed.
