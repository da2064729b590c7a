(** Proofs about the joins. *)
From Coq Require Import QArith List Bool ZArith Lia Lqa.
From Verif Require Import Arr AabModel AabProofs OctreeModel OctreeProofs JoinModel.
Import ListNotations.
Open Scope Q_scope.

(** * Lists *)
Lemma map_opt_in {A B} (f : A -> option B) l : forall r, map_opt f l = Some r ->
  (forall x, In x l -> exists y, f x = Some y /\ In y r) /\ (forall y, In y r -> exists x, In x l /\ f x = Some y).
Proof.
  induction l as [|x l IH]; intros r E; cbn [map_opt] in E.
  - injection E as <-. split; intros ? [].
  - destruct (f x) as [y|] eqn:Ex; cbn [bind] in E; [|discriminate].
    destruct (map_opt f l) as [s|]; cbn [bind] in E; [|discriminate]. injection E as <-.
    destruct (IH s eq_refl) as [H1 H2]. split.
    + intros z [<-|Hz]; [exists y; split; [exact Ex|now left]|].
      destruct (H1 z Hz) as [w [E1 E2]]. exists w. split; [exact E1|now right].
    + intros z [<-|Hz]; [exists x; split; [now left|exact Ex]|].
      destruct (H2 z Hz) as [w [E1 E2]]. exists w. split; [now right|exact E2].
Qed.
Lemma insert_by_in {A} (key : A -> Z) x y l : In y (insert_by key x l) <-> y = x \/ In y l.
Proof.
  induction l as [|z l IH]; cbn [insert_by]; [cbn; intuition|].
  destruct (key x <=? key z)%Z; cbn [In]; [intuition|]. rewrite IH. intuition.
Qed.
Lemma sort_by_in {A} (key : A -> Z) y l : In y (sort_by key l) <-> In y l.
Proof.
  unfold sort_by. induction l as [|x l IH]; cbn [fold_right]; [reflexivity|].
  rewrite insert_by_in, IH. cbn [In]. intuition.
Qed.
Lemma skip_dups_in {A} (key : A -> Z) l : forall former,
  (forall y, In y (skip_dups key former l) -> In y l) /\
  (forall x, In x l -> key x = former \/ exists y, In y (skip_dups key former l) /\ key y = key x).
Proof.
  induction l as [|x l IH]; intros former; cbn [skip_dups]; [split; intros ? []|].
  destruct (Z.eqb_spec (key x) former) as [E|E].
  - destruct (IH former) as [H1 H2]. split.
    + intros y Hy. right. now apply H1.
    + intros y [<-|Hy]; [now left|now apply H2].
  - destruct (IH (key x)) as [H1 H2]. split.
    + intros y [<-|Hy]; [now left|right; now apply H1].
    + intros y [<-|Hy]; [right; exists x; split; [now left|reflexivity]|].
      destruct (H2 y Hy) as [H|[z [Hz Ez]]]; right.
      * exists x. split; [now left|congruence].
      * exists z. split; [now right|exact Ez].
Qed.

(** * Tiles *)
Record tile_ok (t : tile) : Prop := {
  ok_ids : forall i w, nth_error (t_objs t) i = Some w -> o_id (w_obj w) = Z.of_nat i;
  ok_sizes : sizes_ok (map w_obj (t_objs t));
  ok_thick : Forall (fun w => thick (o_box (w_obj w))) (t_objs t);
  ok_box : Forall (fun w => within (o_box (w_obj w)) (t_box t)) (t_objs t);
  ok_voxels : Forall (fun w => Forall (fun v => within (v_box v) (o_box (w_obj w))) (w_voxels w)) (t_objs t) }.

Lemma tile_wrapper t w : tile_ok t -> In w (t_objs t) -> get_wrapper t (o_id (w_obj w)) = Some w.
Proof.
  intros O H. apply In_nth_error in H as [i E]. unfold get_wrapper. rewrite (ok_ids t O i w E).
  destruct (Z.leb_spec 0 (Z.of_nat i)); [|lia]. now rewrite Nat2Z.id.
Qed.
Lemma get_wrapper_in t id w : get_wrapper t id = Some w -> In w (t_objs t).
Proof. unfold get_wrapper. destruct (0 <=? id)%Z; [|discriminate]. apply nth_error_In. Qed.
Lemma tile_id_nonneg t w : tile_ok t -> In w (t_objs t) -> (0 <= o_id (w_obj w))%Z.
Proof. intros O H. apply In_nth_error in H as [i E]. rewrite (ok_ids t O i w E). lia. Qed.

Lemma tile_tree_facts fuel ls t tree : tile_ok t -> tile_octree fuel ls t = Some tree ->
  inv tree (map w_obj (t_objs t)) /\ node_box tree = t_box t.
Proof.
  intros O E. unfold tile_octree in E.
  exact (insert_all_inv fuel ls _ _ [] tree (inv_leaf (t_box t) 0 true [] eq_refl) (ok_sizes t O) E).
Qed.
Lemma tile_thick t w : tile_ok t -> In w (t_objs t) -> thick (t_box t).
Proof.
  intros O H. pose proof (proj1 (Forall_forall _ _) (ok_thick t O) w H) as T.
  pose proof (proj1 (Forall_forall _ _) (ok_box t O) w H) as B. intros a. specialize (T a). destruct (B a). lra.
Qed.
Lemma within_refl b : within b b.
Proof. intros a; split; apply Qle_refl. Qed.
Lemma inside_within p b c : within b c -> inside p b -> inside p c.
Proof. intros W H a. destruct (W a), (H a). split; eapply Qle_trans; eauto. Qed.

(** * C26, C27: the filter of the within join *)
Lemma within_row_spec md v1 v2s : forall acc ps det, within_row md v1 v2s acc = (ps, det) ->
  (det = false -> forall vp, In vp ps <-> In vp acc \/ exists v2, In v2 v2s /\ mindist (distance (v_box v1) (v_box v2)) <= md /\ vp = VPair v1 v2 (distance (v_box v1) (v_box v2)) false) /\
  (det = true -> exists v2, In v2 v2s /\ mindist (distance (v_box v1) (v_box v2)) <= md /\ maxdist (distance (v_box v1) (v_box v2)) <= md).
Proof.
  induction v2s as [|v2 r IH]; intros acc ps det E; cbn [within_row] in E.
  - injection E as <- <-. split; [|discriminate]. intros _ vp. split; [now left|]. intros [H|[v2 [[] _]]]; exact H.
  - destruct (Qltb_spec md (mindist (distance (v_box v1) (v_box v2)))) as [L|L].
    + destruct (IH acc ps det E) as [H1 H2]. split.
      * intros Hd vp. rewrite (H1 Hd vp). split; (intros [H|[w [Hw [M Ew]]]]; [now left|right; exists w]).
        -- split; [now right|auto].
        -- destruct Hw as [<-|Hw]; [lra|auto].
      * intros Hd. destruct (H2 Hd) as [w [Hw R]]. exists w. split; [now right|exact R].
    + destruct (Qleb_spec (maxdist (distance (v_box v1) (v_box v2))) md) as [L2|L2].
      * injection E as <- <-. split; [discriminate|]. intros _. exists v2. split; [now left|]. split; [lra|exact L2].
      * destruct (IH _ ps det E) as [H1 H2]. split.
        -- intros Hd vp. rewrite (H1 Hd vp). rewrite in_app_iff. cbn [In]. split.
           ++ intros [[H|[<-|[]]]|[w [Hw R]]]; [now left|right; exists v2; split; [now left|split; [lra|reflexivity]]|right; exists w; split; [now right|exact R]].
           ++ intros [H|[w [[<-|Hw] [M Ew]]]]; [now left; left|left; right; left; now rewrite Ew|right; exists w; auto].
        -- intros Hd. destruct (H2 Hd) as [w [Hw R]]. exists w. split; [now right|exact R].
Qed.
Lemma within_pairs_spec md v2s v1s : forall acc ps det, within_pairs md v1s v2s acc = (ps, det) ->
  (det = false -> forall vp, In vp ps <-> In vp acc \/ exists v1 v2, In v1 v1s /\ In v2 v2s /\ mindist (distance (v_box v1) (v_box v2)) <= md /\ vp = VPair v1 v2 (distance (v_box v1) (v_box v2)) false) /\
  (det = true -> ps = [] /\ exists v1 v2, In v1 v1s /\ In v2 v2s /\ mindist (distance (v_box v1) (v_box v2)) <= md /\ maxdist (distance (v_box v1) (v_box v2)) <= md).
Proof.
  induction v1s as [|v1 r IH]; intros acc ps det E; cbn [within_pairs] in E.
  - injection E as <- <-. split; [|discriminate]. intros _ vp. split; [now left|]. intros [H|[v1 [v2 [[] _]]]]; exact H.
  - destruct (within_row md v1 v2s acc) as [acc' det'] eqn:Er. destruct (within_row_spec md v1 v2s acc acc' det' Er) as [R1 R2].
    destruct det'.
    + injection E as <- <-. split; [discriminate|]. intros _. split; [reflexivity|].
      destruct (R2 eq_refl) as [v2 R]. exists v1, v2. split; [now left|exact R].
    + destruct (IH acc' ps det E) as [H1 H2]. split.
      * intros Hd vp. rewrite (H1 Hd vp), (R1 eq_refl vp). split.
        -- intros [[H|[v2 [Hv R]]]|[w1 [w2 [Hw R]]]]; [now left|right; exists v1, v2; split; [now left|auto]|right; exists w1, w2; split; [now right|exact R]].
        -- intros [H|[w1 [w2 [[<-|Hw] [Hv R]]]]]; [now left; left|left; right; exists w2; auto|right; exists w1, w2; auto].
      * intros Hd. destruct (H2 Hd) as [E1 [w1 [w2 [Hw R]]]]. split; [exact E1|]. exists w1, w2. split; [now right|exact R].
Qed.

Definition is_pair (v1 v2 : voxel) (vp : vpair) : Prop := vp_v1 vp = v1 /\ vp_v2 vp = v2.

Lemma mbb_within_complete fuel t1 t2 md cs det w1 w2 v1 v2 p p' :
  tile_ok t2 -> Forall (fun w => Forall (fun v => within (v_box v) (o_box (w_obj w))) (w_voxels w)) (t_objs t1) ->
  mbb_within fuel t1 t2 md = Some (cs, det) ->
  In w1 (t_objs t1) -> In w2 (t_objs t2) -> o_ptr (w_obj w2) <> o_ptr (w_obj w1) -> In v1 (w_voxels w1) -> In v2 (w_voxels w2) ->
  inside p (v_box v1) -> inside p' (v_box v2) -> dist2 p p' <= md ->
  In (w1, w2) det \/ exists cl c vp, In (w1, cl) cs /\ In c cl /\ c_wrapper c = w2 /\ In vp (c_pairs c) /\ is_pair v1 v2 vp.
Proof.
  intros O V1 E H1 H2 D Hv1 Hv2 P1 P2 Hd. unfold mbb_within in E.
  destruct (tile_octree fuel 400 t2) as [tree|] eqn:Et; cbn [bind] in E; [|discriminate].
  destruct (tile_tree_facts fuel 400 t2 tree O Et) as [I B].
  destruct (map_opt _ (t_objs t1)) as [l|] eqn:El in E; cbn [bind] in E; [|discriminate]. injection E as <- <-.
  destruct (map_opt_in _ _ _ El) as [L1 _]. destruct (L1 w1 H1) as [[w1' e] [Ee He]]. clear L1.
  destruct (within_entry tree t2 md w1) as [[cl dl]|] eqn:Ew; cbn [bind] in Ee; [|discriminate]. injection Ee as <- <-.
  unfold within_entry in Ew.
  destruct (map_opt _ (skip_dups _ _ _)) as [m|] eqn:Em in Ew; cbn [bind] in Ew; [|discriminate]. injection Ew as <- <-.
  set (q := w_obj w1) in *. set (o := w_obj w2) in *.
  pose proof (proj1 (Forall_forall _ _) (ok_thick t2 O) w2 H2) as To. pose proof (proj1 (Forall_forall _ _) (ok_box t2 O) w2 H2) as Wo.
  assert (Po : inside p' (o_box o)).
  { apply (inside_within p' (v_box v2)); [|exact P2]. pose proof (proj1 (Forall_forall _ _) (ok_voxels t2 O) w2 H2) as F.
    exact (proj1 (Forall_forall _ _) F v2 Hv2). }
  assert (Pq : inside p (o_box q)).
  { apply (inside_within p (v_box v1)); [|exact P1]. pose proof (proj1 (Forall_forall _ _) V1 w1 H1) as F.
    exact (proj1 (Forall_forall _ _) F v1 Hv1). }
  assert (Qr : In (o_id o, distance (o_box o) (o_box q)) (query_within tree q md)).
  { apply (query_within_complete tree (map w_obj (t_objs t2)) q md o p' p); auto.
    - rewrite B. now apply (tile_thick t2 w2).
    - unfold dist2 in *. eapply Qle_trans; [|exact Hd]. apply sum3_le. intros a.
      assert (X : (p' a - p a) * (p' a - p a) == (p a - p' a) * (p a - p' a)) by ring. rewrite X. apply Qle_refl.
    - now apply in_map.
    - rewrite B. now apply (inside_within p' (o_box o)).
    - rewrite B. now apply intersect_container. }
  apply (proj2 (sort_by_in fst _ _)) in Qr.
  destruct (proj2 (skip_dups_in fst _ (-1)) _ Qr) as [X|[y [Hy Ey]]]; [cbn [fst] in X; pose proof (tile_id_nonneg t2 w2 O H2); fold o in H; lia|].
  cbn [fst] in Ey.
  destruct (map_opt_in _ _ _ Em) as [M1 _]. destruct (M1 y Hy) as [[w2' r] [Er Hr]]. clear M1.
  rewrite Ey in Er. unfold o in Er. rewrite (tile_wrapper t2 w2 O H2) in Er. cbn [bind] in Er. injection Er as <- <-.
  destruct (within_pairs md (w_voxels w1) (w_voxels w2) []) as [ps d] eqn:Ep.
  destruct (within_pairs_spec md _ _ _ _ _ Ep) as [S1 S2].
  destruct d.
  - left. apply in_flat_map. exists (w1, (flat_map (fun x : wrapper * (list vpair * bool) =>
                    match fst (snd x) with [] => [] | ps => [CInfo (fst x) (Range 0 0) ps] end) m,
        map fst (filter (fun x : wrapper * (list vpair * bool) => snd (snd x)) m))). split; [exact He|].
    cbn [fst snd]. apply in_map. apply in_map_iff. exists (w2, (ps, true)). split; [reflexivity|]. apply filter_In. auto.
  - right.
    assert (Hp : In (VPair v1 v2 (distance (v_box v1) (v_box v2)) false) ps).
    { apply (S1 eq_refl). right. exists v1, v2. repeat split; auto. eapply Qle_trans; [now apply mindist_lower|exact Hd]. }
    set (cl := flat_map (fun x : wrapper * (list vpair * bool) =>
                    match fst (snd x) with [] => [] | ps => [CInfo (fst x) (Range 0 0) ps] end) m) in *.
    assert (Hc : In (CInfo w2 (Range 0 0) ps) cl).
    { apply in_flat_map. exists (w2, (ps, false)). split; [exact Hr|]. cbn [fst snd]. destruct ps; [destruct Hp|now left]. }
    exists cl, (CInfo w2 (Range 0 0) ps), (VPair v1 v2 (distance (v_box v1) (v_box v2)) false).
    split; [|split; [exact Hc|split; [reflexivity|split; [exact Hp|split; reflexivity]]]].
    apply in_flat_map. eexists. split; [exact He|]. cbn [fst snd]. destruct cl; [destruct Hc|now left].
Qed.

(** Every determined pair has two voxels with both box distances within the limit. *)
Lemma mbb_within_determined fuel t1 t2 md cs det w1 w2 : mbb_within fuel t1 t2 md = Some (cs, det) -> In (w1, w2) det ->
  In w1 (t_objs t1) /\ In w2 (t_objs t2) /\
  exists v1 v2, In v1 (w_voxels w1) /\ In v2 (w_voxels w2) /\ maxdist (distance (v_box v1) (v_box v2)) <= md.
Proof.
  intros E H. unfold mbb_within in E.
  destruct (tile_octree fuel 400 t2) as [tree|]; cbn [bind] in E; [|discriminate].
  destruct (map_opt _ (t_objs t1)) as [l|] eqn:El in E; cbn [bind] in E; [|discriminate]. injection E as <- <-.
  apply in_flat_map in H as [[w1' [cl dl]] [Hl H]]. cbn [fst snd] in H. apply in_map_iff in H as [w2' [Ew Hd]]. injection Ew as -> ->.
  destruct (map_opt_in _ _ _ El) as [_ L2]. destruct (L2 _ Hl) as [w1' [Hw Ee]].
  destruct (within_entry tree t2 md w1') as [[cl' dl']|] eqn:Ew; cbn [bind] in Ee; [|discriminate]. injection Ee as -> -> ->.
  split; [exact Hw|]. unfold within_entry in Ew.
  destruct (map_opt _ (skip_dups _ _ _)) as [m|] eqn:Em in Ew; cbn [bind] in Ew; [|discriminate]. injection Ew as <- <-.
  apply in_map_iff in Hd as [[w2' [ps d]] [Ew Hd]]. cbn [fst] in Ew. subst w2'. apply filter_In in Hd as [Hm Hd]. cbn [snd] in Hd. subst d.
  destruct (map_opt_in _ _ _ Em) as [_ M2]. destruct (M2 _ Hm) as [x [_ Ex]].
  destruct (get_wrapper t2 (fst x)) as [w|] eqn:Eg; cbn [bind] in Ex; [|discriminate]. injection Ex as -> Ep.
  split; [exact (get_wrapper_in _ _ _ Eg)|].
  destruct (within_pairs_spec md _ _ _ _ _ Ep) as [_ S2]. destruct (S2 eq_refl) as [_ [v1 [v2 [A [B [_ C]]]]]]. eauto.
Qed.

(** * C29, C30: the nearest-neighbour join *)
Section Nn.
  (** Distance to the nearest object. *)
  Variable m : Q.
  Definition far (d : range) : Prop := m <= maxdist d.
  Definition near (d : range) : Prop := mindist d <= m.

  Definition far_pairs (ps : list vpair) : Prop := Forall (fun vp => far (vp_dist vp)) ps.
  Definition near_pair (a b : voxel) (ps : list vpair) : Prop := exists vp, In vp ps /\ is_pair a b vp /\ near (vp_dist vp).

  Lemma gt_false d e : near d -> far e -> range_gt d e = false.
  Proof. unfold near, far, range_gt. intros H1 H2. destruct (Qltb_spec (maxdist e) (mindist d)); [lra|reflexivity]. Qed.
  Lemma lt_false d e : far d -> near e -> range_lt d e = false.
  Proof. unfold near, far, range_lt. intros H1 H2. destruct (Qltb_spec (maxdist d) (mindist e)); [lra|reflexivity]. Qed.

  Lemma upd_pairs_sub ps d : forall vp, In vp (fst (update_voxel_pair_list ps d)) -> In vp ps.
  Proof.
    induction ps as [|x r IH]; cbn [update_voxel_pair_list]; [intros vp []|].
    destruct (range_gt _ _); [auto|]. destruct (range_lt _ _).
    - intros vp H. right. auto.
    - destruct (update_voxel_pair_list r d) as [r' b]. intros vp [<-|H]; [now left|right; now apply IH].
  Qed.
  Lemma upd_pairs_far ps d : far_pairs ps -> far_pairs (fst (update_voxel_pair_list ps d)).
  Proof. unfold far_pairs. rewrite !Forall_forall. intros H vp Hv. apply H. now apply upd_pairs_sub in Hv. Qed.
  Lemma upd_pairs_near a b ps d : far d -> near_pair a b ps -> near_pair a b (fst (update_voxel_pair_list ps d)).
  Proof.
    intros F. induction ps as [|x r IH]; cbn [update_voxel_pair_list]; [intros [vp [[] _]]|].
    intros [vp [Hv [Pv Nv]]]. destruct (range_gt _ _); [exists vp; auto|].
    destruct Hv as [->|Hv].
    - rewrite (lt_false d (vp_dist vp) F Nv). destruct (update_voxel_pair_list r d). exists vp. split; [now left|auto].
    - destruct IH as [w [Hw Rw]]; [exists vp; auto|]. destruct (range_lt _ _); [exists w; auto|].
      destruct (update_voxel_pair_list r d). exists w. split; [now right|exact Rw].
  Qed.
  Lemma upd_pairs_ok ps d : near d -> far_pairs ps -> snd (update_voxel_pair_list ps d) = true.
  Proof.
    intros N F. induction F as [|x r Fx F IH]; cbn [update_voxel_pair_list]; [reflexivity|].
    rewrite (gt_false d _ N Fx). destruct (range_lt _ _); [exact IH|]. now destruct (update_voxel_pair_list r d).
  Qed.

  Definition good (cl : list cinfo) : Prop := Forall (fun c => far (c_distance c) /\ far_pairs (c_pairs c)) cl.
  (** The nearest object [n] is a candidate, with the voxels [a] and [b] realising its distance. *)
  Definition holds (n : wrapper) (a b : voxel) (cl : list cinfo) : Prop :=
    exists c, In c cl /\ c_wrapper c = n /\ near (c_distance c) /\ near_pair a b (c_pairs c).

  Lemma upd_cands_good cl d : good cl -> good (fst (update_candidate_list cl d)).
  Proof.
    intros G. induction G as [|c r [Fc Fp] G IH]; cbn [update_candidate_list]; [constructor|].
    destruct (range_gt _ _); [constructor; auto|]. destruct (range_lt _ _); [exact IH|].
    pose proof (upd_pairs_far _ d Fp) as Fp'. destruct (update_voxel_pair_list (c_pairs c) d) as [ps ok]. cbn [fst] in Fp'.
    destruct ok.
    - destruct ps as [|p ps]; [exact IH|]. destruct (update_candidate_list r d) as [r' b]. constructor; [split; assumption|exact IH].
    - constructor; [split; assumption|exact G].
  Qed.
  Lemma upd_cands_holds n a b cl d : far d -> holds n a b cl -> holds n a b (fst (update_candidate_list cl d)).
  Proof.
    intros F. induction cl as [|c r IH]; cbn [update_candidate_list]; [intros [c [[] _]]|].
    intros [x [Hx [Wx [Nx Px]]]]. destruct (range_gt _ _); [exists x; auto|].
    destruct Hx as [->|Hx].
    - rewrite (lt_false d _ F Nx).
      pose proof (upd_pairs_near a b _ d F Px) as Px'.
      destruct (update_voxel_pair_list (c_pairs x) d) as [ps ok]. cbn [fst] in Px'.
      assert (Q : near_pair a b (c_pairs (CInfo (c_wrapper x) (c_distance x) ps))) by exact Px'.
      destruct ok; [destruct ps as [|p ps]; [destruct Px' as [? [[] _]]|destruct (update_candidate_list r d)]|];
        (exists (CInfo (c_wrapper x) (c_distance x) (p :: ps)) || eexists); (split; [now left|auto]).
    - destruct IH as [y [Hy Ry]]; [exists x; auto|]. destruct (range_lt _ _); [exists y; auto|].
      destruct (update_voxel_pair_list (c_pairs c) d) as [ps ok]. destruct ok.
      + destruct ps; [exists y; auto|]. destruct (update_candidate_list r d). exists y. split; [now right|exact Ry].
      + exists x. split; [now right|auto].
  Qed.
  Lemma upd_cands_ok cl d : near d -> good cl -> snd (update_candidate_list cl d) = true.
  Proof.
    intros N G. induction G as [|c r [Fc Fp] G IH]; cbn [update_candidate_list]; [reflexivity|].
    rewrite (gt_false d _ N Fc). destruct (range_lt _ _); [exact IH|].
    pose proof (upd_pairs_ok _ d N Fp) as K. destruct (update_voxel_pair_list (c_pairs c) d) as [ps ok]. cbn [snd] in K. subst ok.
    destruct ps; [exact IH|]. now destruct (update_candidate_list r d).
  Qed.

  (** The range of a pair of voxels. *)
  Definition vrange (v1 v2 : voxel) : range := distance (v_box v1) (v_box v2).
  Lemma nn_voxel_pair_good s v1 v2 : far (vrange v1 v2) -> far_pairs (fst s) -> good (snd s) ->
    far_pairs (fst (nn_voxel_pair s v1 v2)) /\ good (snd (nn_voxel_pair s v1 v2)).
  Proof.
    intros F Fp G. destruct s as [ps cl]. cbn [fst snd] in *. unfold nn_voxel_pair. fold (vrange v1 v2).
    pose proof (upd_pairs_far ps (vrange v1 v2) Fp) as Fp'. destruct (update_voxel_pair_list ps (vrange v1 v2)) as [ps' ok1]. cbn [fst] in Fp'.
    destruct ok1; [|split; assumption].
    pose proof (upd_cands_good cl (vrange v1 v2) G) as G'. destruct (update_candidate_list cl (vrange v1 v2)) as [cl' ok2]. cbn [fst] in G'.
    destruct ok2; (split; [|exact G']); cbn [fst]; [|exact Fp']. apply Forall_app. split; [exact Fp'|]. constructor; [exact F|constructor].
  Qed.
  Lemma nn_voxel_pair_holds n a b s v1 v2 : far (vrange v1 v2) -> holds n a b (snd s) -> holds n a b (snd (nn_voxel_pair s v1 v2)).
  Proof.
    intros F H. destruct s as [ps cl]. cbn [snd] in *. unfold nn_voxel_pair. fold (vrange v1 v2).
    destruct (update_voxel_pair_list ps (vrange v1 v2)) as [ps' ok1]. destruct ok1; [|exact H].
    pose proof (upd_cands_holds n a b cl (vrange v1 v2) F H) as H'. destruct (update_candidate_list cl (vrange v1 v2)) as [cl' ok2]. cbn [fst] in H'.
    destruct ok2; exact H'.
  Qed.
  Lemma nn_voxel_pair_near a b s v1 v2 : far (vrange v1 v2) -> near_pair a b (fst s) -> near_pair a b (fst (nn_voxel_pair s v1 v2)).
  Proof.
    intros F H. destruct s as [ps cl]. cbn [fst] in *. unfold nn_voxel_pair. fold (vrange v1 v2).
    pose proof (upd_pairs_near a b ps (vrange v1 v2) F H) as H'. destruct (update_voxel_pair_list ps (vrange v1 v2)) as [ps' ok1]. cbn [fst] in H'.
    destruct ok1; [|exact H']. destruct (update_candidate_list cl (vrange v1 v2)) as [cl' ok2].
    destruct ok2; [|exact H']. destruct H' as [vp [Hv R]]. exists vp. split; [cbn [fst]; apply in_or_app; now left|exact R].
  Qed.
  Lemma nn_voxel_pair_self a b s : near (vrange a b) -> far_pairs (fst s) -> good (snd s) -> near_pair a b (fst (nn_voxel_pair s a b)).
  Proof.
    intros N Fp G. destruct s as [ps cl]. cbn [fst snd] in *. unfold nn_voxel_pair. fold (vrange a b).
    pose proof (upd_pairs_ok ps _ N Fp) as K. destruct (update_voxel_pair_list ps (vrange a b)) as [ps' ok1]. cbn [snd] in K. subst ok1.
    pose proof (upd_cands_ok cl _ N G) as K. destruct (update_candidate_list cl (vrange a b)) as [cl' ok2]. cbn [snd] in K. subst ok2.
    cbn [fst]. exists (VPair a b (vrange a b) false). split; [apply in_or_app; right; now left|]. split; [split; reflexivity|exact N].
  Qed.

  Definition all_far (w1 w2 : wrapper) : Prop := forall v1 v2, In v1 (w_voxels w1) -> In v2 (w_voxels w2) -> far (vrange v1 v2).
  (** The double loop as one loop over pairs. *)
  Lemma fold_pairs {S} (f : S -> voxel -> voxel -> S) (l1 l2 : list voxel) : forall s,
    fold_left (fun s v1 => fold_left (fun s v2 => f s v1 v2) l2 s) l1 s = fold_left (fun s x => f s (fst x) (snd x)) (list_prod l1 l2) s.
  Proof.
    induction l1 as [|v1 r IH]; intros s; cbn [fold_left list_prod]; [reflexivity|].
    rewrite fold_left_app, IH. f_equal. clear. revert s. induction l2 as [|v2 l2 IH]; intros s; cbn [fold_left map]; [reflexivity|]. apply IH.
  Qed.
  Lemma fold_nn_good l : forall s, (forall x, In x l -> far (vrange (fst x) (snd x))) -> far_pairs (fst s) -> good (snd s) ->
    let s' := fold_left (fun s x => nn_voxel_pair s (fst x) (snd x)) l s in far_pairs (fst s') /\ good (snd s').
  Proof.
    induction l as [|x r IH]; intros s F Fp G; cbn [fold_left]; [auto|].
    destruct (nn_voxel_pair_good s _ _ (F x (or_introl eq_refl)) Fp G) as [Fp' G'].
    apply IH; auto. intros y Hy. apply F. now right.
  Qed.
  Lemma fold_nn_holds n a b l : forall s, (forall x, In x l -> far (vrange (fst x) (snd x))) -> holds n a b (snd s) ->
    holds n a b (snd (fold_left (fun s x => nn_voxel_pair s (fst x) (snd x)) l s)).
  Proof.
    induction l as [|x r IH]; intros s F H; cbn [fold_left]; [auto|].
    apply IH; [intros y Hy; apply F; now right|]. apply nn_voxel_pair_holds; [apply F; now left|exact H].
  Qed.
  Lemma fold_nn_near a b l : forall s, (forall x, In x l -> far (vrange (fst x) (snd x))) -> far_pairs (fst s) -> good (snd s) ->
    near (vrange a b) -> near_pair a b (fst s) \/ In (a, b) l -> near_pair a b (fst (fold_left (fun s x => nn_voxel_pair s (fst x) (snd x)) l s)).
  Proof.
    induction l as [|x r IH]; intros s F Fp G N H; cbn [fold_left]; [destruct H as [H|[]]; exact H|].
    destruct (nn_voxel_pair_good s _ _ (F x (or_introl eq_refl)) Fp G) as [Fp' G'].
    apply IH; auto; [intros y Hy; apply F; now right|].
    destruct H as [H|[->|H]]; [left|left|now right].
    - apply nn_voxel_pair_near; [apply F; now left|exact H].
    - now apply nn_voxel_pair_self.
  Qed.

  Lemma fold_update_spec ps : forall d, let e := fold_left (fun d p => range_update d (vp_dist p)) ps d in
    mindist e <= mindist d /\ (forall p, In p ps -> mindist e <= mindist (vp_dist p)) /\ (far d -> far_pairs ps -> far e).
  Proof.
    induction ps as [|p r IH]; intros d; cbn [fold_left]; [split; [apply Qle_refl|split; [intros p []|auto]]|].
    destruct (IH (range_update d (vp_dist p))) as [A [B C]].
    assert (U : mindist (range_update d (vp_dist p)) <= mindist d /\ mindist (range_update d (vp_dist p)) <= mindist (vp_dist p) /\
                (maxdist (range_update d (vp_dist p)) = maxdist d \/ maxdist (range_update d (vp_dist p)) = maxdist (vp_dist p))).
    { unfold range_update. cbn [mindist maxdist]. destruct (Qltb_spec (mindist (vp_dist p)) (mindist d)), (Qltb (maxdist (vp_dist p)) (maxdist d)); repeat split; auto; lra. }
    destruct U as [U1 [U2 U3]]. split; [|split].
    - eapply Qle_trans; [exact A|exact U1].
    - intros q [<-|Hq]; [eapply Qle_trans; [exact A|exact U2]|now apply B].
    - intros Fd Fp. inversion Fp; subst. apply C; [|assumption]. unfold far in *. destruct U3 as [-> | ->]; assumption.
  Qed.

  Lemma nn_candidate_good w1 cl x : far (snd x) -> all_far w1 (fst x) -> good cl -> good (nn_candidate w1 cl x).
  Proof.
    intros F A G. unfold nn_candidate. pose proof (upd_cands_good cl (snd x) G) as G1.
    destruct (update_candidate_list cl (snd x)) as [cl1 ok]. cbn [fst] in G1. destruct ok; [|exact G1].
    unfold nn_voxels. rewrite (fold_pairs nn_voxel_pair).
    destruct (fold_nn_good (list_prod (w_voxels w1) (w_voxels (fst x))) ([], cl1)) as [Fp G2]; [|constructor|exact G1|].
    { intros [v1 v2] H. apply in_prod_iff in H as [? ?]. now apply A. }
    destruct (fold_left _ _ _) as [ps cl2]. cbn [fst snd] in *. destruct ps as [|p0 ps]; [exact G2|].
    apply Forall_app. split; [exact G2|]. constructor; [|constructor]. split; [|exact Fp]. cbn [c_distance].
    apply fold_update_spec; [|exact Fp]. now inversion Fp.
  Qed.
  Lemma nn_candidate_holds n a b w1 cl x : far (snd x) -> all_far w1 (fst x) -> holds n a b cl -> holds n a b (nn_candidate w1 cl x).
  Proof.
    intros F A H. unfold nn_candidate. pose proof (upd_cands_holds n a b cl (snd x) F H) as H1.
    destruct (update_candidate_list cl (snd x)) as [cl1 ok]. cbn [fst] in H1. destruct ok; [|exact H1].
    unfold nn_voxels. rewrite (fold_pairs nn_voxel_pair).
    pose proof (fold_nn_holds n a b (list_prod (w_voxels w1) (w_voxels (fst x))) ([], cl1)) as H2.
    destruct (fold_left _ _ _) as [ps cl2]. cbn [snd] in H2.
    assert (H3 : holds n a b cl2).
    { apply H2; [|exact H1]. intros [v1 v2] Hv. apply in_prod_iff in Hv as [? ?]. now apply A. }
    destruct ps as [|p0 ps]; [exact H3|]. destruct H3 as [c [Hc R]]. exists c. split; [apply in_or_app; now left|exact R].
  Qed.
  Lemma nn_candidate_self a b w1 cl x : near (snd x) -> all_far w1 (fst x) -> good cl ->
    In a (w_voxels w1) -> In b (w_voxels (fst x)) -> near (vrange a b) -> holds (fst x) a b (nn_candidate w1 cl x).
  Proof.
    intros N A G Ha Hb Nab. unfold nn_candidate. pose proof (upd_cands_good cl (snd x) G) as G1. pose proof (upd_cands_ok cl (snd x) N G) as K.
    destruct (update_candidate_list cl (snd x)) as [cl1 ok]. cbn [fst snd] in G1, K. subst ok.
    unfold nn_voxels. rewrite (fold_pairs nn_voxel_pair).
    assert (Fa : forall y, In y (list_prod (w_voxels w1) (w_voxels (fst x))) -> far (vrange (fst y) (snd y))).
    { intros [v1 v2] Hv. apply in_prod_iff in Hv as [? ?]. now apply A. }
    pose proof (fold_nn_near a b (list_prod (w_voxels w1) (w_voxels (fst x))) ([], cl1) Fa (Forall_nil _) G1 Nab (or_intror (proj2 (in_prod_iff _ _ _ _) (conj Ha Hb)))) as P.
    destruct (fold_left _ _ _) as [ps cl2]. cbn [fst] in P. destruct ps as [|p0 ps]; [destruct P as [? [[] _]]|].
    eexists. split; [apply in_or_app; right; left; reflexivity|]. split; [reflexivity|]. cbn [c_distance c_pairs]. split; [|exact P].
    destruct P as [vp [Hv [_ Nv]]]. unfold near in *. eapply Qle_trans; [|exact Nv].
    apply (proj1 (proj2 (fold_update_spec (p0 :: ps) (vp_dist p0)))). exact Hv.
  Qed.

  (** All candidates of one object, in any order. *)
  Lemma nn_fold n a b w1 l : forall cl, (forall x, In x l -> far (snd x) /\ all_far w1 (fst x)) -> good cl ->
    In a (w_voxels w1) -> In b (w_voxels n) -> near (vrange a b) ->
    holds n a b cl \/ (exists r, In (n, r) l /\ near r) ->
    good (fold_left (nn_candidate w1) l cl) /\ holds n a b (fold_left (nn_candidate w1) l cl).
  Proof.
    induction l as [|x r IH]; intros cl F G Ha Hb N H; cbn [fold_left].
    - destruct H as [H|[r [[] _]]]. auto.
    - destruct (F x (or_introl eq_refl)) as [Fx Ax]. apply IH; auto.
      + intros y Hy. apply F. now right.
      + now apply nn_candidate_good.
      + destruct H as [H|[r' [[->|H] Nr]]].
        * left. now apply nn_candidate_holds.
        * left. apply (nn_candidate_self a b w1 cl (n, r')); auto.
        * right. exists r'. auto.
  Qed.

  (** Refinement. *)
  Definition refined (highest : bool) (filled : vpair -> bool) (g : vpair -> Q) (vp : vpair) : vpair :=
    if filled vp then VPair (vp_v1 vp) (vp_v2 vp) (refine_range highest (vp_dist vp) (g vp)) (vp_intersect vp) else vp.
  Definition far_opt (mc : option range) : Prop := match mc with None => True | Some d => far d end.
  (** What the computed distance must satisfy for the pairs at hand. *)
  Definition sound_at (highest : bool) (g : vpair -> Q) (vp : vpair) : Prop := m <= g vp.

  Lemma refine_far highest d x : far d -> m <= x -> far (refine_range highest d x).
  Proof.
    unfold far, refine_range. intros H1 H2. destruct highest; cbn [maxdist]; [exact H2|]. destruct (Qltb x (maxdist d)); assumption.
  Qed.
End Nn.

(** Reading a stored sequence back by a running index. *)
Definition reads {A B} (f : nat -> B) (idx : nat) (l : list A) (g : A -> B) : Prop :=
  forall j x, nth_error l j = Some x -> f (idx + j)%nat = g x.
Lemma reads_cons {A B} (f : nat -> B) idx (x : A) l g : reads f idx (x :: l) g -> f idx = g x /\ reads f (S idx) l g.
Proof.
  intros H. split.
  - specialize (H 0%nat x eq_refl). now rewrite Nat.add_0_r in H.
  - intros j y E. specialize (H (S j) y E). now replace (S idx + j)%nat with (idx + S j)%nat by lia.
Qed.
Lemma reads_app {A B} (f : nat -> B) (l m : list A) g : forall idx, reads f idx (l ++ m) g -> reads f idx l g /\ reads f (idx + length l) m g.
Proof.
  induction l as [|x l IH]; intros idx H; cbn [app length] in *.
  - split; [intros [|j] x E; discriminate|]. now rewrite Nat.add_0_r.
  - apply reads_cons in H as [H1 H2]. destruct (IH _ H2) as [H3 H4]. split.
    + intros [|j] y E; cbn in E; [injection E as <-; now rewrite Nat.add_0_r|]. specialize (H3 j y E). now replace (idx + S j)%nat with (S idx + j)%nat by lia.
    + now replace (idx + S (length l))%nat with (S idx + length l)%nat by lia.
Qed.
Lemma reads_nth {A B} (l : list A) (g : A -> B) (dflt : B) : reads (fun i => match nth_error l i with Some x => g x | None => dflt end) 0 l g.
Proof. intros j x E. cbn. now rewrite E. Qed.

Section NnRounds.
  Variable m : Q.
  Variables (highest : bool) (filled : vpair -> bool) (g : vpair -> Q).

  Lemma round_pairs f ps : forall idx mc, reads f idx ps g ->
    exists mc', nn_round_pairs highest filled f idx mc ps = (map (refined highest filled g) ps, (idx + length ps)%nat, mc') /\
      (far_pairs m ps -> Forall (fun vp => m <= g vp) ps -> far_opt m mc -> far_opt m mc').
  Proof.
    induction ps as [|vp r IH]; intros idx mc R; cbn [nn_round_pairs].
    - exists mc. split; [cbn; now rewrite Nat.add_0_r|auto].
    - apply reads_cons in R as [R1 R2]. unfold nn_round_pair. rewrite R1. pose proof (eq_refl (refined highest filled g vp)) as Er. unfold refined in Er at 2.
      destruct (filled vp) eqn:Ef.
      + set (d := refine_range highest (vp_dist vp) (g vp)).
        set (mc1 := match mc with None => Some d | Some m0 => if Qltb (maxdist d) (maxdist m0) then Some d else mc end).
        destruct (IH (S idx) mc1 R2) as [mc' [E H]]. rewrite E. exists mc'. split.
        * cbn [map length]. rewrite Er. now replace (S idx + length r)%nat with (idx + S (length r))%nat by lia.
        * intros F S H0. inversion F; inversion S; subst. apply H; auto. unfold mc1.
          assert (Fd : far m d) by now apply refine_far.
          destruct mc as [m0|]; [destruct (Qltb _ _)|]; assumption.
      + destruct (IH (S idx) mc R2) as [mc' [E H]]. rewrite E. exists mc'. split.
        * cbn [map length]. rewrite Er. now replace (S idx + length r)%nat with (idx + S (length r))%nat by lia.
        * intros F S H0. inversion F; inversion S; subst. auto.
  Qed.
  Definition refined_info (c : cinfo) : cinfo := CInfo (c_wrapper c) (c_distance c) (map (refined highest filled g) (c_pairs c)).
  Lemma round_infos f cl : forall idx mc, reads f idx (flat_map c_pairs cl) g ->
    exists mc', nn_round_infos highest filled f idx mc cl = (map refined_info cl, (idx + length (flat_map c_pairs cl))%nat, mc') /\
      (good m cl -> Forall (fun vp => m <= g vp) (flat_map c_pairs cl) -> far_opt m mc -> far_opt m mc').
  Proof.
    induction cl as [|c r IH]; intros idx mc R; cbn [nn_round_infos flat_map] in *.
    - exists mc. split; [cbn; now rewrite Nat.add_0_r|auto].
    - apply reads_app in R as [R1 R2]. destruct (round_pairs f (c_pairs c) idx mc R1) as [mc1 [E1 H1]]. rewrite E1.
      destruct (IH _ mc1 R2) as [mc2 [E2 H2]]. rewrite E2. exists mc2. split.
      + cbn [map]. rewrite app_length. unfold refined_info at 2. now rewrite Nat.add_assoc.
      + intros G S H0. inversion G as [|? ? [Gc Gp] G']; subst. apply Forall_app in S as [S1 S2]. auto.
  Qed.
  Lemma refined_good cl : good m cl -> Forall (fun vp => m <= g vp) (flat_map c_pairs cl) -> good m (map refined_info cl).
  Proof.
    intros G S. induction G as [|c r [Fc Fp] G IH]; cbn [map flat_map] in *; [constructor|].
    apply Forall_app in S as [S1 S2]. constructor; [|now apply IH]. split; [exact Fc|]. cbn [c_pairs refined_info].
    unfold far_pairs in *. rewrite Forall_forall in *. intros vp Hv. apply in_map_iff in Hv as [vp0 [<- H0]].
    unfold refined. destruct (filled vp0); [|now apply Fp]. cbn [vp_dist]. apply refine_far; auto.
  Qed.
  Lemma refined_holds n a b cl : holds m n a b cl -> (forall vp, is_pair a b vp -> highest = true -> g vp == m) -> holds m n a b (map refined_info cl).
  Proof.
    intros [c [Hc [Wc [Nc [vp [Hv [Pv Nv]]]]]]] T. exists (refined_info c). split; [now apply in_map|]. split; [exact Wc|]. split; [exact Nc|].
    exists (refined highest filled g vp). split; [cbn [c_pairs refined_info]; now apply in_map|].
    unfold refined. destruct (filled vp); [|split; assumption]. split; [exact Pv|]. cbn [vp_dist]. unfold near, refine_range in *.
    destruct highest; cbn [mindist]; [|exact Nv]. rewrite (T vp Pv eq_refl). apply Qle_refl.
  Qed.
End NnRounds.

(** The table of the nearest-neighbour join: per query object the nearest object, its distance and
    the voxels that realise it. *)
Record nearest := Nearest { n_obj : wrapper; n_dist : Q; n_a : voxel; n_b : voxel }.
Definition entry_ok (N : wrapper -> nearest) (e : centry) : Prop :=
  good (n_dist (N (fst e))) (snd e) /\ holds (n_dist (N (fst e))) (n_obj (N (fst e))) (n_a (N (fst e))) (n_b (N (fst e))) (snd e).

Lemma round_entries_ok N highest filled g f cs : forall idx, reads f idx (all_pairs cs) g -> Forall (entry_ok N) cs ->
  (forall e, In e cs -> Forall (fun vp => n_dist (N (fst e)) <= g vp) (flat_map c_pairs (snd e))) ->
  (forall e vp, In e cs -> is_pair (n_a (N (fst e))) (n_b (N (fst e))) vp -> highest = true -> g vp == n_dist (N (fst e))) ->
  Forall (entry_ok N) (nn_round_entries highest filled f idx cs) /\ map fst (nn_round_entries highest filled f idx cs) = map fst cs.
Proof.
  induction cs as [|e r IH]; intros idx R O S T; cbn [nn_round_entries map]; [split; [constructor|reflexivity]|].
  unfold all_pairs in R. cbn [flat_map] in R. apply reads_app in R as [R1 R2].
  inversion O as [|? ? [G H] O']; subst.
  destruct (round_infos (n_dist (N (fst e))) highest filled g f (snd e) idx None R1) as [mc [E Hm]]. rewrite E.
  destruct (IH _ R2 O') as [H1 H2]; [intros; apply S; now right|intros; apply T; auto; now right|].
  split; [|cbn [map fst]; now rewrite H2].
  constructor; [|exact H1].
  assert (G' := refined_good _ highest filled g _ G (S e (or_introl eq_refl))).
  assert (H' := refined_holds _ highest filled g _ _ _ _ H (fun vp Pv Hh => T e vp (or_introl eq_refl) Pv Hh)).
  destruct mc as [d|]; (split; cbn [fst snd]); auto.
  - now apply upd_cands_good.
  - apply upd_cands_holds; [|exact H']. now apply Hm; [|apply S; left|].
Qed.

Definition table_ok (N : wrapper -> nearest) (s : list centry * list centry) : Prop :=
  Forall (entry_ok N) (fst s) /\ Forall (entry_ok N) (snd s) /\ Forall (fun e => (length (snd e) <= 1)%nat) (snd s).

Lemma drop_settled_ok N cs settled : Forall (entry_ok N) cs -> Forall (entry_ok N) settled -> Forall (fun e => (length (snd e) <= 1)%nat) settled ->
  table_ok N (fst (drop_settled cs), settled ++ snd (drop_settled cs)).
Proof.
  intros H1 H2 H3. unfold table_ok, drop_settled. cbn [fst snd]. split; [now apply Forall_filter|]. split; apply Forall_app; (split; [assumption|]).
  - now apply Forall_filter.
  - apply Forall_forall. intros e He. apply filter_In in He as [_ He]. now apply Nat.leb_le in He.
Qed.
Lemma drop_settled_in cs e : In e cs -> In e (fst (drop_settled cs)) \/ In e (snd (drop_settled cs)).
Proof.
  intros H. unfold drop_settled. cbn [fst snd]. rewrite !filter_In. destruct (Nat.leb (length (snd e)) 1); [right|left]; auto.
Qed.

(** A round computes sound distances: never below the true distance of the pair, and exactly it at
    the highest level. *)
Definition round_sound (tv : voxel -> voxel -> Q) (r : round) : Prop :=
  forall vp, tv (vp_v1 vp) (vp_v2 vp) <= r_compute r vp /\ (r_highest r = true -> r_compute r vp == tv (vp_v1 vp) (vp_v2 vp)).

Section Table.
  Variable N : wrapper -> nearest.
  Variable tv : voxel -> voxel -> Q.
  (** The pairs of the entry of [w1] are at least as far as its nearest object. *)
  Definition pairs_far (e : centry) : Prop :=
    Forall (fun vp => n_dist (N (fst e)) <= tv (vp_v1 vp) (vp_v2 vp)) (flat_map c_pairs (snd e)).
  Hypothesis exact : forall w, tv (n_a (N w)) (n_b (N w)) == n_dist (N w).

  Lemma round_entries_far highest filled f cs : forall idx, Forall pairs_far cs -> Forall pairs_far (nn_round_entries highest filled f idx cs).
  Proof.
    assert (PP : forall ps idx mc, map (fun vp => (vp_v1 vp, vp_v2 vp)) (fst (fst (nn_round_pairs highest filled f idx mc ps))) = map (fun vp => (vp_v1 vp, vp_v2 vp)) ps).
    { induction ps as [|vp r IH]; intros idx mc; cbn [nn_round_pairs]; [reflexivity|].
      unfold nn_round_pair. destruct (filled vp).
      - match goal with |- context [nn_round_pairs _ _ _ ?i ?x r] => specialize (IH i x); destruct (nn_round_pairs highest filled f i x r) as [[r' i'] x'] end.
        cbn [fst map vp_v1 vp_v2] in *. now rewrite IH.
      - specialize (IH (S idx) mc). destruct (nn_round_pairs highest filled f (S idx) mc r) as [[r' i'] x']. cbn [fst map] in *. now rewrite IH. }
    assert (PI : forall cl idx mc, map (fun vp => (vp_v1 vp, vp_v2 vp)) (flat_map c_pairs (fst (fst (nn_round_infos highest filled f idx mc cl)))) =
                                   map (fun vp => (vp_v1 vp, vp_v2 vp)) (flat_map c_pairs cl)).
    { induction cl as [|c r IH]; intros idx mc; cbn [nn_round_infos]; [reflexivity|].
      specialize (PP (c_pairs c) idx mc). destruct (nn_round_pairs highest filled f idx mc (c_pairs c)) as [[ps' idx'] mc'].
      specialize (IH idx' mc'). destruct (nn_round_infos highest filled f idx' mc' r) as [[r' i'] x'].
      cbn [fst flat_map c_pairs] in *. now rewrite !map_app, PP, IH. }
    assert (US : forall cl d vp, In vp (flat_map c_pairs (fst (update_candidate_list cl d))) -> In vp (flat_map c_pairs cl)).
    { induction cl as [|c r IH]; intros d vp; cbn [update_candidate_list]; [intros []|].
      destruct (range_gt _ _); [auto|]. destruct (range_lt _ _); [cbn [flat_map]; intros H; apply in_or_app; right; eauto|].
      pose proof (upd_pairs_sub (c_pairs c) d) as SU. destruct (update_voxel_pair_list (c_pairs c) d) as [ps ok]. cbn [fst] in SU.
      destruct ok.
      - destruct ps as [|p ps]; [cbn [flat_map]; intros H; apply in_or_app; right; eauto|].
        specialize (IH d vp). destruct (update_candidate_list r d) as [r' b]. cbn [fst flat_map c_pairs] in *.
        intros H. apply in_app_or in H as [H|H]; apply in_or_app; [left; auto|right; auto].
      - cbn [fst flat_map c_pairs]. intros H. apply in_app_or in H as [H|H]; apply in_or_app; auto. }
    induction cs as [|e r IH]; intros idx F; cbn [nn_round_entries]; [constructor|].
    inversion F as [|? ? Fe Fr]; subst. pose proof (PI (snd e) idx None) as E.
    destruct (nn_round_infos highest filled f idx None (snd e)) as [[cl' idx'] mc]. cbn [fst] in E.
    constructor; [|now apply IH].
    assert (P1 : Forall (fun vp => n_dist (N (fst e)) <= tv (vp_v1 vp) (vp_v2 vp)) (flat_map c_pairs cl')).
    { unfold pairs_far in Fe. rewrite Forall_forall in *. intros vp Hv.
      apply (in_map (fun vp => (vp_v1 vp, vp_v2 vp))) in Hv. rewrite E in Hv. apply in_map_iff in Hv as [vp0 [Ev H0]].
      injection Ev as <- <-. now apply Fe. }
    unfold pairs_far. cbn [fst snd]. destruct mc as [d|]; [|exact P1].
    rewrite Forall_forall in *. intros vp Hv. apply P1. eapply US; eauto.
  Qed.

  Lemma nn_round_ok r s : round_sound tv r -> table_ok N s -> Forall pairs_far (fst s) ->
    let s' := nn_round (r_highest r) (r_filled r) (r_compute r) s in
    table_ok N s' /\ Forall pairs_far (fst s') /\
    (forall w, In w (map fst (fst s)) \/ In w (map fst (snd s)) -> In w (map fst (fst s')) \/ In w (map fst (snd s'))).
  Proof.
    intros RS T F. destruct s as [cs settled]. destruct T as [T1 [T2 T3]]. cbn [fst snd] in *. unfold nn_round.
    destruct (negb (existsb (r_filled r) (all_pairs cs))); [split; [split; [exact T1|split; assumption]|split; [exact F|auto]]|].
    set (f := fun i => match nth_error (all_pairs cs) i with Some vp => r_compute r vp | None => 0 end).
    assert (R : reads f 0 (all_pairs cs) (r_compute r)) by apply reads_nth.
    destruct (round_entries_ok N (r_highest r) (r_filled r) (r_compute r) f cs 0 R T1) as [E1 E2].
    - intros e He. pose proof (proj1 (Forall_forall _ _) F e He) as Fe. unfold pairs_far in Fe. apply Forall_forall. intros vp Hv.
      apply Qle_trans with (tv (vp_v1 vp) (vp_v2 vp)); [exact (proj1 (Forall_forall _ _) Fe vp Hv)|]. apply RS.
    - intros e vp He [P1 P2] Hh. destruct (RS vp) as [_ X]. rewrite (X Hh). rewrite P1, P2. apply exact.
    - pose proof (round_entries_far (r_highest r) (r_filled r) f cs 0 F) as F'.
      pose proof (drop_settled_ok N _ settled E1 T2 T3) as D.
      pose proof (drop_settled_in (nn_round_entries (r_highest r) (r_filled r) f 0 cs)) as DI.
      assert (FD : Forall pairs_far (fst (drop_settled (nn_round_entries (r_highest r) (r_filled r) f 0 cs)))) by (unfold drop_settled; cbn [fst]; now apply Forall_filter).
      destruct (drop_settled (nn_round_entries (r_highest r) (r_filled r) f 0 cs)) as [cs' out]. cbn [fst snd] in *.
      split; [exact D|]. split; [exact FD|]. intros w [H|H].
      + rewrite <- E2 in H. apply in_map_iff in H as [e [<- He]]. destruct (DI e He) as [H|H]; [left; now apply in_map|].
        right. rewrite map_app. apply in_or_app. right. now apply in_map.
      + right. rewrite map_app. apply in_or_app. now left.
  Qed.

  Lemma nn_refine_ok rounds cs : Forall (round_sound tv) rounds -> Forall (entry_ok N) cs -> Forall pairs_far cs ->
    table_ok N (nn_refine rounds cs) /\
    (forall w, In w (map fst cs) -> In w (map fst (fst (nn_refine rounds cs))) \/ In w (map fst (snd (nn_refine rounds cs)))).
  Proof.
    intros RS O F. unfold nn_refine.
    assert (Start : table_ok N (drop_settled cs)).
    { pose proof (drop_settled_ok N cs [] O (Forall_nil _) (Forall_nil _)) as D. cbn [app] in D. now rewrite <- surjective_pairing in D. }
    assert (FS : Forall pairs_far (fst (drop_settled cs))) by (unfold drop_settled; cbn [fst]; now apply Forall_filter).
    assert (G : forall s, table_ok N s -> Forall pairs_far (fst s) ->
      table_ok N (fold_left (fun s r => nn_round (r_highest r) (r_filled r) (r_compute r) s) rounds s) /\
      (forall w, In w (map fst (fst s)) \/ In w (map fst (snd s)) ->
        In w (map fst (fst (fold_left (fun s r => nn_round (r_highest r) (r_filled r) (r_compute r) s) rounds s))) \/
        In w (map fst (snd (fold_left (fun s r => nn_round (r_highest r) (r_filled r) (r_compute r) s) rounds s))))).
    { clear O F Start FS. induction RS as [|r rs Hr RS IH]; intros s T F; cbn [fold_left]; [auto|].
      destruct (nn_round_ok r s Hr T F) as [T' [F' K]]. destruct (IH _ T' F') as [T2 K2]. split; [exact T2|]. intros w H. now apply K2, K. }
    destruct (G _ Start FS) as [T K]. split; [exact T|]. intros w H. apply K.
    apply in_map_iff in H as [e [<- He]]. destruct (drop_settled_in cs e He); [left|right]; now apply in_map.
  Qed.
End Table.

(** * The filter of the nearest-neighbour join *)
Lemma nn_voxel_pair_src w1 w2 s v1 v2 : In v1 (w_voxels w1) -> In v2 (w_voxels w2) ->
  let src := fun vp => In (vp_v1 vp) (w_voxels w1) /\ In (vp_v2 vp) (w_voxels w2) in
  Forall src (fst s) -> Forall src (fst (nn_voxel_pair s v1 v2)).
Proof.
  intros H1 H2 src F. destruct s as [ps cl]. cbn [fst] in *. unfold nn_voxel_pair.
  assert (F' : Forall src (fst (update_voxel_pair_list ps (distance (v_box v1) (v_box v2))))).
  { rewrite Forall_forall in *. intros vp Hv. apply F. eapply upd_pairs_sub; eauto. }
  destruct (update_voxel_pair_list _ _) as [ps' ok1]. cbn [fst] in F'. destruct ok1; [|exact F'].
  destruct (update_candidate_list _ _) as [cl' ok2]. destruct ok2; [|exact F'].
  cbn [fst]. apply Forall_app. split; [exact F'|]. constructor; [split; assumption|constructor].
Qed.
(** Every pair of every candidate belongs to the query object and the candidate. *)
Definition from (w1 : wrapper) (c : cinfo) : Prop :=
  Forall (fun vp => In (vp_v1 vp) (w_voxels w1) /\ In (vp_v2 vp) (w_voxels (c_wrapper c))) (c_pairs c).
Lemma upd_cands_from w1 cl d : forall (P : wrapper -> Prop), Forall (fun c => from w1 c /\ P (c_wrapper c)) cl ->
  Forall (fun c => from w1 c /\ P (c_wrapper c)) (fst (update_candidate_list cl d)).
Proof.
  intros P F. induction F as [|c r [Fc Pc] F IH]; cbn [update_candidate_list]; [constructor|].
  destruct (range_gt _ _); [constructor; auto|]. destruct (range_lt _ _); [exact IH|].
  pose proof (upd_pairs_sub (c_pairs c) d) as SU. destruct (update_voxel_pair_list (c_pairs c) d) as [ps ok]. cbn [fst] in SU.
  assert (Q : from w1 (CInfo (c_wrapper c) (c_distance c) ps) /\ P (c_wrapper c)).
  { split; [|exact Pc]. unfold from in *. cbn [c_pairs c_wrapper]. rewrite Forall_forall in *. auto. }
  destruct ok; [|constructor; [exact Q|exact F]]. destruct ps; [exact IH|]. destruct (update_candidate_list r d). constructor; [exact Q|exact IH].
Qed.
Lemma nn_candidate_from w1 cl x (P : wrapper -> Prop) : P (fst x) -> Forall (fun c => from w1 c /\ P (c_wrapper c)) cl ->
  Forall (fun c => from w1 c /\ P (c_wrapper c)) (nn_candidate w1 cl x).
Proof.
  intros Px F. unfold nn_candidate. pose proof (upd_cands_from w1 cl (snd x) P F) as F1.
  destruct (update_candidate_list cl (snd x)) as [cl1 ok]. cbn [fst] in F1. destruct ok; [|exact F1].
  unfold nn_voxels. rewrite (fold_pairs nn_voxel_pair).
  assert (G : forall l s, (forall y, In y l -> In (fst y) (w_voxels w1) /\ In (snd y) (w_voxels (fst x))) ->
     Forall (fun vp => In (vp_v1 vp) (w_voxels w1) /\ In (vp_v2 vp) (w_voxels (fst x))) (fst s) -> Forall (fun c => from w1 c /\ P (c_wrapper c)) (snd s) ->
     let s' := fold_left (fun s y => nn_voxel_pair s (fst y) (snd y)) l s in
     Forall (fun vp => In (vp_v1 vp) (w_voxels w1) /\ In (vp_v2 vp) (w_voxels (fst x))) (fst s') /\ Forall (fun c => from w1 c /\ P (c_wrapper c)) (snd s')).
  { induction l as [|y r IH]; intros s Hy Fp Fc; cbn [fold_left]; [auto|].
    destruct (Hy y (or_introl eq_refl)) as [Y1 Y2].
    apply IH; [intros z Hz; apply Hy; now right|now apply (nn_voxel_pair_src w1 (fst x))|].
    destruct s as [ps cl']. cbn [snd] in *. unfold nn_voxel_pair. destruct (update_voxel_pair_list _ _) as [ps' ok1]. destruct ok1; [|exact Fc].
    pose proof (upd_cands_from w1 cl' (distance (v_box (fst y)) (v_box (snd y))) P Fc) as Fc'.
    destruct (update_candidate_list _ _) as [cl2 ok2]. destruct ok2; exact Fc'. }
  destruct (G (list_prod (w_voxels w1) (w_voxels (fst x))) ([], cl1)) as [Gp Gc]; [|constructor|exact F1|].
  { intros [v1 v2] H. apply in_prod_iff in H. exact H. }
  destruct (fold_left _ _ _) as [ps cl2]. cbn [fst snd] in *. destruct ps as [|p0 ps]; [exact Gc|].
  apply Forall_app. split; [exact Gc|]. constructor; [|constructor]. split; [exact Gp|exact Px].
Qed.

Definition nn_truth (t1 t2 : tile) (tv : voxel -> voxel -> Q) (dist : wrapper -> wrapper -> Q) (N : wrapper -> nearest) : Prop :=
  (** distances lie in the ranges of the boxes, of voxels and of objects *)
  (forall w1 w2 v1 v2, In w1 (t_objs t1) -> In w2 (t_objs t2) -> o_ptr (w_obj w2) <> o_ptr (w_obj w1) ->
     In v1 (w_voxels w1) -> In v2 (w_voxels w2) ->
     mindist (distance (v_box v1) (v_box v2)) <= tv v1 v2 <= maxdist (distance (v_box v1) (v_box v2)) /\ dist w1 w2 <= tv v1 v2) /\
  (forall w1 w2, In w1 (t_objs t1) -> In w2 (t_objs t2) -> o_ptr (w_obj w2) <> o_ptr (w_obj w1) ->
     mindist (distance (o_box (w_obj w2)) (o_box (w_obj w1))) <= dist w1 w2 <= maxdist (distance (o_box (w_obj w2)) (o_box (w_obj w1)))) /\
  (** [N] is the nearest object, realised by two of its voxels *)
  (forall w1, In w1 (t_objs t1) -> In (n_obj (N w1)) (t_objs t2) /\ o_ptr (w_obj (n_obj (N w1))) <> o_ptr (w_obj w1) /\
     In (n_a (N w1)) (w_voxels w1) /\ In (n_b (N w1)) (w_voxels (n_obj (N w1))) /\
     tv (n_a (N w1)) (n_b (N w1)) == n_dist (N w1) /\ dist w1 (n_obj (N w1)) == n_dist (N w1) /\
     forall w2, In w2 (t_objs t2) -> o_ptr (w_obj w2) <> o_ptr (w_obj w1) -> n_dist (N w1) <= dist w1 w2).

Lemma update_stems_all q all d : forall m l, (length l <= m)%nat -> Forall (stems q all) l -> Forall (stems q all) (fst (update_distance_list d l)).
Proof.
  induction m as [|m IH]; intros l L S; destruct l as [|x r]; try (constructor || (cbn in L; lia)).
  cbn [update_distance_list]. inversion S as [|? ? Sx Sr]; subst.
  assert (Q : Forall (stems q all) (fst match r with [] => ([], true) | y :: r' => let (l', k) := update_distance_list d r' in (y :: l', k) end)).
  { destruct r as [|y r']; [constructor|]. inversion Sr as [|? ? H1 H2]; subst. cbn [length] in L.
    assert (L' : (length r' <= m)%nat) by lia. specialize (IH r' L' H2). destruct (update_distance_list d r') as [l' k]. cbn [fst] in *. now constructor. }
  destruct (range_lt (snd x) d); [constructor; assumption|]. destruct (range_gt (snd x) d); [assumption|constructor; assumption].
Qed.
(** Candidates of the tree query come from other objects of the tile. *)
Lemma query_nn_stems q all t l : inv t l -> (forall o, In o l -> In o all) -> forall s, Forall (stems q all) (fst s) -> Forall (stems q all) (fst (query_nn t q s)).
Proof.
  intros I. induction I as [b sz can l E1|b sz can kids l E1 P M F IH]; intros A s G; cbn [query_nn].
  - destruct (le_bound _ _); [|exact G]. clear E1 sz can b. revert s G A. induction l as [|o r IHr]; intros s G A; cbn [fold_left]; [exact G|].
    apply IHr; [|intros; apply A; now right]. destruct s as [cand mm]. unfold nn_object. cbn [fst] in *.
    destruct (Nat.eqb_spec (o_ptr o) (o_ptr q)); [exact G|]. destruct (le_bound _ _); [|exact G].
    pose proof (update_stems_all q all (distance (o_box o) (o_box q)) _ cand (le_n _) G) as U.
    destruct (update_distance_list _ _) as [cand' keep]. cbn [fst] in *. destruct keep; [|exact U].
    cbn [fst]. apply Forall_app. split; [exact U|]. constructor; [|constructor]. exists o. split; [apply A; now left|auto].
  - destruct (le_bound _ _); [|exact G]. clear P M E1. revert s G. induction kids as [|k r IHk]; intros s G; cbn [fold_left]; [exact G|].
    apply IHk; [intros; apply F; now right|intros; apply IH; auto; now right|].
    apply IH; [now left|intros o Ho; apply sees_In in Ho as [Ho _]; auto|exact G].
Qed.

Lemma mbb_nn_ok fuel t1 t2 cs tv dist N : tile_ok t2 -> Forall (fun w => wf (o_box (w_obj w))) (t_objs t1) -> nn_truth t1 t2 tv dist N ->
  mbb_nn fuel t1 t2 = Some cs -> Forall (entry_ok N) cs /\ Forall (pairs_far N tv) cs /\ map fst cs = t_objs t1.
Proof.
  intros O Wf [TV [TD TN]] E. unfold mbb_nn in E.
  destruct (tile_octree fuel 400 t2) as [tree|] eqn:Et; cbn [bind] in E; [|discriminate].
  destruct (tile_tree_facts fuel 400 t2 tree O Et) as [I B].
  destruct (map_opt _ (t_objs t1)) as [l|] eqn:El in E; cbn [bind] in E; [|discriminate]. injection E as <-.
  assert (X : forall w1 cl, In w1 (t_objs t1) -> nn_entry tree t2 w1 = Some cl -> entry_ok N (w1, cl) /\ pairs_far N tv (w1, cl)).
  { intros w1 cl H1 E. unfold nn_entry in E.
    destruct (map_opt _ (skip_dups _ _ _)) as [m|] eqn:Em in E; cbn [bind] in E; [|discriminate]. injection E as <-.
    destruct (TN w1 H1) as [Hn [Dn [Ha [Hb [Eab [Ed Near]]]]]].
    set (n := n_obj (N w1)) in *. set (md := n_dist (N w1)) in *.
    assert (From : forall x, In x m -> exists w2, In w2 (t_objs t2) /\ o_ptr (w_obj w2) <> o_ptr (w_obj w1) /\
       fst x = w2 /\ snd x = distance (o_box (w_obj w2)) (o_box (w_obj w1))).
    { intros x Hx. destruct (map_opt_in _ _ _ Em) as [_ M2]. destruct (M2 x Hx) as [[i r] [Hy Ey]]. cbn [fst snd] in Ey.
      apply (proj1 (skip_dups_in fst _ (-1))) in Hy. apply sort_by_in in Hy.
      assert (S : Forall (stems (w_obj w1) (map w_obj (t_objs t2))) (fst (query_nn tree (w_obj w1) ([], None)))).
      { apply (query_nn_stems (w_obj w1) (map w_obj (t_objs t2)) tree (map w_obj (t_objs t2)) I); [auto|constructor]. }
      rewrite Forall_forall in S. destruct (S _ Hy) as [o [Ho [Do Eo]]]. injection Eo as -> ->.
      apply in_map_iff in Ho as [w2 [<- Hw2]]. rewrite (tile_wrapper t2 w2 O Hw2) in Ey. cbn [bind] in Ey. injection Ey as <-.
      exists w2. auto. }
    assert (Fl : forall x, In x m -> far md (snd x) /\ all_far md w1 (fst x)).
    { intros x Hx. destruct (From x Hx) as [w2 [H2 [D2 [-> ->]]]]. specialize (Near w2 H2 D2). split.
      - unfold far. pose proof (TD w1 w2 H1 H2 D2). lra.
      - intros v1 v2 Hv1 Hv2. unfold far, vrange. pose proof (TV w1 w2 v1 v2 H1 H2 D2 Hv1 Hv2). lra. }
    assert (Nab : near md (vrange (n_a (N w1)) (n_b (N w1)))).
    { unfold near, vrange. pose proof (TV w1 n _ _ H1 Hn Dn Ha Hb). lra. }
    assert (Nm : exists r, In (n, r) m /\ near md r).
    { exists (distance (o_box (w_obj n)) (o_box (w_obj w1))). split; [|unfold near; pose proof (TD w1 n H1 Hn Dn); lra].
      pose proof (proj1 (Forall_forall _ _) (ok_thick t2 O) n Hn) as Tn. pose proof (proj1 (Forall_forall _ _) (ok_box t2 O) n Hn) as Wn.
      pose proof (proj1 (Forall_forall _ _) Wf w1 H1) as W1.
      destruct (mindist_attained (o_box (w_obj n)) (o_box (w_obj w1)) (thick_wf _ Tn) W1) as [p [p' [P1 [P2 P3]]]].
      assert (Inj : forall w w', In w (t_objs t2) -> In w' (t_objs t2) -> w_obj w = w_obj w' -> w = w').
      { intros w w' Hw Hw' Eo. pose proof (tile_wrapper t2 w O Hw) as G1. pose proof (tile_wrapper t2 w' O Hw') as G2. rewrite Eo in G1. congruence. }
      set (dd := fun o => match find (fun w => Nat.eqb (o_ptr (w_obj w)) (o_ptr o) && Z.eqb (o_id (w_obj w)) (o_id o)) (t_objs t2) with Some w => dist w1 w | None => 0 end).
      assert (DD : forall w, In w (t_objs t2) -> dd (w_obj w) = dist w1 w).
      { intros w Hw. unfold dd. destruct (find _ _) as [w'|] eqn:Ef.
        - apply find_some in Ef as [Hw' Ef]. apply andb_prop in Ef as [_ Ei]. apply Z.eqb_eq in Ei.
          pose proof (tile_wrapper t2 w O Hw) as G1. pose proof (tile_wrapper t2 w' O Hw') as G2. rewrite Ei in G2. congruence.
        - pose proof (find_none _ _ Ef w Hw) as Ef'. cbn in Ef'. now rewrite Nat.eqb_refl, Z.eqb_refl in Ef'. }
      assert (Qn : In (o_id (w_obj n), distance (o_box (w_obj n)) (o_box (w_obj w1))) (fst (query_nn tree (w_obj w1) ([], None)))).
      { apply (query_nn_finds (w_obj w1) dd (map w_obj (t_objs t2))) with (l := map w_obj (t_objs t2)) (p := p) (p' := p'); auto.
        - intros o Ho Do. apply in_map_iff in Ho as [w2 [<- Hw2]]. rewrite (DD w2 Hw2). now apply TD.
        - now apply in_map.
        - intros o Ho Do. apply in_map_iff in Ho as [w2 [<- Hw2]]. rewrite (DD w2 Hw2), (DD n Hn), Ed. now apply Near.
        - rewrite B. now apply (tile_thick t2 n).
        - rewrite (DD n Hn), P3. now apply TD.
        - now apply in_map.
        - rewrite B. now apply (inside_within p (o_box (w_obj n))).
        - rewrite B. now apply intersect_container.
        - split; [constructor|exact Logic.I]. }
      apply (proj2 (sort_by_in fst _ _)) in Qn.
      destruct (proj2 (skip_dups_in fst _ (-1)) _ Qn) as [Y|[y [Hy Ey]]]; [cbn [fst] in Y; pose proof (tile_id_nonneg t2 n O Hn); lia|].
      cbn [fst] in Ey. destruct (map_opt_in _ _ _ Em) as [M1 _]. destruct (M1 y Hy) as [[w' r'] [Er Hr]].
      rewrite Ey, (tile_wrapper t2 n O Hn) in Er. cbn [bind] in Er. injection Er as <- <-.
      destruct (From _ Hr) as [w2 [_ [_ [Ew Er]]]]. cbn [fst snd] in Ew, Er. subst w2. now rewrite <- Er. }
    destruct (nn_fold md n (n_a (N w1)) (n_b (N w1)) w1 m [] Fl (Forall_nil _) Ha Hb Nab (or_intror Nm)) as [G H].
    split; [split; assumption|].
    assert (FR : forall l cl, (forall x, In x l -> In (fst x) (t_objs t2) /\ o_ptr (w_obj (fst x)) <> o_ptr (w_obj w1)) ->
      Forall (fun c => from w1 c /\ (In (c_wrapper c) (t_objs t2) /\ o_ptr (w_obj (c_wrapper c)) <> o_ptr (w_obj w1))) cl ->
      Forall (fun c => from w1 c /\ (In (c_wrapper c) (t_objs t2) /\ o_ptr (w_obj (c_wrapper c)) <> o_ptr (w_obj w1))) (fold_left (nn_candidate w1) l cl)).
    { induction l0 as [|x r IH]; intros cl Hx F; cbn [fold_left]; [exact F|]. apply IH; [intros; apply Hx; now right|].
      apply (nn_candidate_from w1 cl x (fun w => In w (t_objs t2) /\ o_ptr (w_obj w) <> o_ptr (w_obj w1))); [apply Hx; now left|exact F]. }
    assert (FR' := FR m [] (fun x Hx => match From x Hx with ex_intro _ w2 (conj A (conj C (conj D _))) => eq_ind_r (fun z => In z (t_objs t2) /\ o_ptr (w_obj z) <> o_ptr (w_obj w1)) (conj A C) D end) (Forall_nil _)).
    unfold pairs_far. cbn [fst snd]. rewrite Forall_forall. intros vp Hv. apply in_flat_map in Hv as [c [Hc Hv]].
    rewrite Forall_forall in FR'. destruct (FR' c Hc) as [Fc [C1 C2]]. unfold from in Fc. rewrite Forall_forall in Fc. destruct (Fc vp Hv) as [V1 V2].
    pose proof (TV w1 (c_wrapper c) _ _ H1 C1 C2 V1 V2). specialize (Near _ C1 C2). unfold md in Near. lra. }
  destruct (map_opt_in _ _ _ El) as [_ L2].
  assert (Y : forall e, In e l -> entry_ok N e /\ pairs_far N tv e).
  { intros e He. destruct (L2 e He) as [w1 [Hw Ew]]. destruct (nn_entry tree t2 w1) as [cl|] eqn:En; cbn [bind] in Ew; [|discriminate].
    injection Ew as <-. now apply X. }
  match goal with |- context [filter ?f l] => assert (Z : filter f l = l) end.
  { clear - Y. induction l as [|e r IH]; cbn [filter]; [reflexivity|]. destruct (Y e (or_introl eq_refl)) as [[_ [c [Hc _]]] _].
    destruct (snd e) as [|c0 cl]; [destruct Hc|]. cbn [length Nat.eqb negb]. f_equal. apply IH. intros; apply Y; now right. }
  rewrite Z. split; [|split].
  - apply Forall_forall. intros e He. now apply Y.
  - apply Forall_forall. intros e He. now apply Y.
  - clear - El. revert l El. generalize (t_objs t1). induction l as [|w r IH]; intros l' E; cbn [map_opt] in E; [injection E as <-; reflexivity|].
    destruct (nn_entry tree t2 w) as [cl|]; cbn [bind] in E; [|discriminate].
    destruct (map_opt _ r) as [s|] eqn:Es; cbn [bind] in E; [|discriminate]. injection E as <-. cbn [map fst]. now rewrite (IH s eq_refl).
Qed.

(** * C31: the intersection join *)
Definition marked (test : vpair -> bool) (vp : vpair) : vpair := VPair (vp_v1 vp) (vp_v2 vp) (vp_dist vp) (vp_intersect vp || test vp).
Lemma mark_pairs_spec f g ps : forall idx, reads f idx ps g -> mark_pairs f idx ps = (map (marked g) ps, (idx + length ps)%nat).
Proof.
  induction ps as [|vp r IH]; intros idx R; cbn [mark_pairs map length]; [now rewrite Nat.add_0_r|].
  apply reads_cons in R as [R1 R2]. rewrite (IH _ R2), R1. unfold marked at 2. now replace (S idx + length r)%nat with (idx + S (length r))%nat by lia.
Qed.
Definition marked_info g (c : cinfo) : cinfo := CInfo (c_wrapper c) (c_distance c) (map (marked g) (c_pairs c)).
Lemma mark_infos_spec f g cl : forall idx, reads f idx (flat_map c_pairs cl) g ->
  mark_infos f idx cl = (map (marked_info g) cl, (idx + length (flat_map c_pairs cl))%nat).
Proof.
  induction cl as [|c r IH]; intros idx R; cbn [mark_infos map flat_map length] in *; [now rewrite Nat.add_0_r|].
  apply reads_app in R as [R1 R2]. rewrite (mark_pairs_spec f g _ _ R1), (IH _ R2), app_length, Nat.add_assoc. reflexivity.
Qed.
Definition marked_entry g (e : centry) : centry := (fst e, map (marked_info g) (snd e)).
Lemma mark_entries_spec f g cs : forall idx, reads f idx (all_pairs cs) g -> mark_entries f idx cs = map (marked_entry g) cs.
Proof.
  induction cs as [|e r IH]; intros idx R; cbn [mark_entries map]; [reflexivity|].
  unfold all_pairs in R. cbn [flat_map] in R. apply reads_app in R as [R1 R2].
  rewrite (mark_infos_spec f g _ _ R1), (IH _ R2). reflexivity.
Qed.
Lemma entry_hit_spec e : entry_hit e = true <-> exists vp, In vp (flat_map c_pairs (snd e)) /\ vp_intersect vp = true.
Proof.
  unfold entry_hit. rewrite existsb_exists. split.
  - intros [c [Hc H]]. apply existsb_exists in H as [vp [Hv H]]. exists vp. split; [apply in_flat_map; eauto|exact H].
  - intros [vp [Hv H]]. apply in_flat_map in Hv as [c [Hc Hv]]. exists c. split; [exact Hc|]. apply existsb_exists. eauto.
Qed.
Definition ends (vp : vpair) : voxel * voxel := (vp_v1 vp, vp_v2 vp).
Definition entry_ends (e : centry) : list (voxel * voxel) := map ends (flat_map c_pairs (snd e)).
Lemma marked_entry_ends g e : entry_ends (marked_entry g e) = entry_ends e.
Proof.
  unfold entry_ends, marked_entry. cbn [snd]. induction (snd e) as [|c r IH]; cbn [map flat_map]; [reflexivity|].
  rewrite !map_app, IH. f_equal. cbn [c_pairs marked_info]. rewrite map_map. reflexivity.
Qed.
Lemma marked_entry_pairs g e : flat_map c_pairs (snd (marked_entry g e)) = map (marked g) (flat_map c_pairs (snd e)).
Proof.
  unfold marked_entry. cbn [snd]. induction (snd e) as [|c r IH]; cbn [map flat_map]; [reflexivity|]. now rewrite map_app, IH.
Qed.

Section Intersections.
  (** Whether the contents of two voxels meet. *)
  Variable hits : voxel -> voxel -> bool.
  Definition truly (e : centry) : Prop := exists x, In x (entry_ends e) /\ hits (fst x) (snd x) = true.
  Definition no_marks (e : centry) : Prop := Forall (fun vp => vp_intersect vp = false) (flat_map c_pairs (snd e)).
  (** Same query object and same voxel pairs, whatever the marks. *)
  Definition like (e e' : centry) : Prop := fst e = fst e' /\ entry_ends e = entry_ends e'.

  Lemma intersect_round_spec test s : (forall vp, test vp = true -> hits (vp_v1 vp) (vp_v2 vp) = true) ->
    Forall no_marks (fst s) -> Forall truly (snd s) ->
    let s' := intersect_round test s in
    Forall no_marks (fst s') /\ Forall truly (snd s') /\
    (forall e, In e (fst s) \/ In e (snd s) -> exists e', like e e' /\ (In e' (fst s') \/ In e' (snd s'))) /\
    (forall e, In e (fst s') \/ In e (snd s') -> exists e', like e' e /\ (In e' (fst s) \/ In e' (snd s))) /\
    ((forall vp, hits (vp_v1 vp) (vp_v2 vp) = true -> test vp = true) -> Forall (fun e => ~ truly e) (fst s')).
  Proof.
    intros Sound F T. destruct s as [cs found]. cbn [fst snd] in *. unfold intersect_round.
    destruct (Nat.eqb_spec (get_pair_num cs) 0) as [Z|Z]; cbn zeta.
    { cbn [fst snd]. split; [exact F|]. split; [exact T|]. split; [intros e He; exists e; split; [split; reflexivity|exact He]|].
      split; [intros e He; exists e; split; [split; reflexivity|exact He]|].
      intros _. apply Forall_forall. intros e He [x [Hx _]]. unfold get_pair_num in Z. apply length_zero_iff_nil in Z.
      unfold entry_ends in Hx. apply in_map_iff in Hx as [vp [_ Hv]].
      assert (In vp (all_pairs cs)) by (apply in_flat_map; eauto). rewrite Z in H. destruct H. }
    set (f := fun i => match nth_error (all_pairs cs) i with Some vp => test vp | None => false end).
    rewrite (mark_entries_spec f test cs 0 (reads_nth _ _ _)). unfold update_candidate_list_intersect. cbn [fst snd].
    split; [|split; [|split; [|split]]].
    - apply Forall_forall. intros e He. apply filter_In in He as [_ He]. apply negb_true_iff in He.
      apply Forall_forall. intros vp Hv. destruct (vp_intersect vp) eqn:Ev; [|reflexivity].
      assert (entry_hit e = true) by (apply entry_hit_spec; eauto). congruence.
    - apply Forall_app. split; [exact T|]. apply Forall_forall. intros e He. apply filter_In in He as [He Hh].
      apply in_map_iff in He as [e0 [<- H0]]. apply entry_hit_spec in Hh as [vp [Hv Ev]]. rewrite marked_entry_pairs in Hv.
      apply in_map_iff in Hv as [vp0 [<- Hv]]. cbn [vp_intersect marked] in Ev. rewrite Forall_forall in F.
      specialize (F e0 H0). unfold no_marks in F. rewrite Forall_forall in F. rewrite (F vp0 Hv) in Ev. cbn [orb] in Ev.
      exists (ends vp0). split; [|now apply Sound]. rewrite marked_entry_ends. unfold entry_ends. now apply in_map.
    - intros e [He|He].
      + exists (marked_entry test e). split; [split; [reflexivity|symmetry; apply marked_entry_ends]|].
        rewrite in_app_iff, !filter_In. assert (In (marked_entry test e) (map (marked_entry test) cs)) by now apply in_map.
        destruct (entry_hit (marked_entry test e)) eqn:Eh; [right; right|left]; auto.
      + exists e. split; [split; reflexivity|]. right. apply in_or_app. now left.
    - intros e. rewrite in_app_iff, !filter_In. intros [[He _]|[He|[He _]]].
      + apply in_map_iff in He as [e0 [<- H0]]. exists e0. split; [split; [reflexivity|symmetry; apply marked_entry_ends]|now left].
      + exists e. split; [split; reflexivity|now right].
      + apply in_map_iff in He as [e0 [<- H0]]. exists e0. split; [split; [reflexivity|symmetry; apply marked_entry_ends]|now left].
    - intros Comp. apply Forall_forall. intros e He [x [Hx Hh]]. apply filter_In in He as [He Hn]. apply negb_true_iff in Hn.
      apply in_map_iff in He as [e0 [<- H0]]. rewrite marked_entry_ends in Hx. unfold entry_ends in Hx. apply in_map_iff in Hx as [vp [<- Hv]].
      assert (entry_hit (marked_entry test e0) = true); [|congruence].
      apply entry_hit_spec. exists (marked test vp). rewrite marked_entry_pairs. split; [now apply in_map|].
      cbn [vp_intersect marked]. rewrite (Comp vp Hh). apply orb_true_r.
  Qed.

  Lemma like_truly e e' : like e e' -> truly e -> truly e'.
  Proof. intros [_ L] [x [Hx Hh]]. exists x. split; [now rewrite <- L|exact Hh]. Qed.
  Lemma like_trans a b c : like a b -> like b c -> like a c.
  Proof. intros [H1 H2] [H3 H4]. split; congruence. Qed.
  Lemma like_sym a b : like a b -> like b a.
  Proof. intros [H1 H2]. split; congruence. Qed.

  Lemma intersect_rounds tests last cs : Forall (fun test : vpair -> bool => forall vp, test vp = true -> hits (vp_v1 vp) (vp_v2 vp) = true) (tests ++ [last]) ->
    (forall vp, hits (vp_v1 vp) (vp_v2 vp) = true -> last vp = true) -> Forall no_marks cs ->
    forall w, In w (map fst (snd (fold_left (fun s test => intersect_round test s) (tests ++ [last]) (cs, [])))) <-> exists e, In e cs /\ fst e = w /\ truly e.
  Proof.
    intros Sound Comp F.
    assert (G : forall ts s, Forall (fun test : vpair -> bool => forall vp, test vp = true -> hits (vp_v1 vp) (vp_v2 vp) = true) ts ->
      Forall no_marks (fst s) -> Forall truly (snd s) ->
      let s' := fold_left (fun s test => intersect_round test s) ts s in
      Forall no_marks (fst s') /\ Forall truly (snd s') /\
      (forall e, In e (fst s) \/ In e (snd s) -> exists e', like e e' /\ (In e' (fst s') \/ In e' (snd s'))) /\
      (forall e, In e (fst s') \/ In e (snd s') -> exists e', like e' e /\ (In e' (fst s) \/ In e' (snd s)))).
    { induction ts as [|t ts IH]; intros s S Fs Ts; cbn [fold_left].
      - split; [exact Fs|]. split; [exact Ts|]. split; intros e He; exists e; (split; [split; reflexivity|exact He]).
      - inversion S as [|? ? S1 S2]; subst.
        destruct (intersect_round_spec t s S1 Fs Ts) as [A [B [C [D _]]]].
        destruct (IH _ S2 A B) as [A' [B' [C' D']]]. split; [exact A'|]. split; [exact B'|]. split.
        + intros e He. destruct (C e He) as [e1 [L1 H1]]. destruct (C' e1 H1) as [e2 [L2 H2]]. exists e2. split; [eapply like_trans; eauto|exact H2].
        + intros e He. destruct (D' e He) as [e1 [L1 H1]]. destruct (D e1 H1) as [e2 [L2 H2]]. exists e2. split; [eapply like_trans; eauto|exact H2]. }
    apply Forall_app in Sound as [S1 S2]. inversion S2 as [|? ? SL _]; subst.
    destruct (G tests (cs, []) S1 F (Forall_nil _)) as [A [B [C D]]]. cbn [fst snd] in C, D.
    rewrite fold_left_app. cbn [fold_left].
    set (s1 := fold_left (fun s test => intersect_round test s) tests (cs, [])) in *.
    destruct (intersect_round_spec last s1 SL A B) as [A' [B' [C' [D' E']]]].
    intros w. split.
    - intros H. apply in_map_iff in H as [e [<- He]]. rewrite Forall_forall in B'.
      destruct (D' e (or_intror He)) as [e1 [L1 H1]]. destruct (D e1 H1) as [e2 [L2 [H2|[]]]].
      exists e2. split; [exact H2|]. pose proof (like_trans _ _ _ L2 L1) as L. split; [apply L|].
      apply (like_truly e); [now apply like_sym|now apply B'].
    - intros [e [He [<- T]]]. destruct (C e (or_introl He)) as [e1 [L1 H1]]. destruct (C' e1 H1) as [e2 [L2 H2]].
      pose proof (like_trans _ _ _ L1 L2) as L. pose proof (like_truly _ _ L T) as T2.
      destruct H2 as [H2|H2].
      + specialize (E' Comp). rewrite Forall_forall in E'. destruct (E' e2 H2 T2).
      + apply in_map_iff. exists e2. split; [symmetry; apply L|exact H2].
  Qed.

  Lemma overlap_pairs_spec w1 w2 vp : In vp (overlap_pairs w1 w2) <->
    exists v1 v2, In v1 (w_voxels w1) /\ In v2 (w_voxels w2) /\ intersect (v_box v1) (v_box v2) = true /\ vp = VPair v1 v2 (Range 0 0) false.
  Proof.
    unfold overlap_pairs. rewrite in_flat_map. split.
    - intros [v1 [H1 H]]. apply in_flat_map in H as [v2 [H2 H]]. destruct (intersect _ _) eqn:X; [|destruct H].
      destruct H as [<-|[]]. exists v1, v2. auto.
    - intros [v1 [v2 [H1 [H2 [X ->]]]]]. exists v1. split; [exact H1|]. apply in_flat_map. exists v2. split; [exact H2|]. rewrite X. now left.
  Qed.

  Lemma mbb_intersect_spec fuel t1 t2 cs : tile_ok t2 -> Forall (fun w => thick (o_box (w_obj w))) (t_objs t1) ->
    Forall (fun w => Forall (fun v => within (v_box v) (o_box (w_obj w))) (w_voxels w)) (t_objs t1) ->
    (forall w1 w2 v1 v2, In w1 (t_objs t1) -> In w2 (t_objs t2) -> In v1 (w_voxels w1) -> In v2 (w_voxels w2) ->
       hits v1 v2 = true -> intersect (v_box v1) (v_box v2) = true) ->
    mbb_intersect fuel t1 t2 = Some cs ->
    Forall no_marks cs /\
    forall w1, (exists e, In e cs /\ fst e = w1 /\ truly e) <->
      In w1 (t_objs t1) /\ exists w2 v1 v2, In w2 (t_objs t2) /\ o_ptr (w_obj w2) <> o_ptr (w_obj w1) /\
        In v1 (w_voxels w1) /\ In v2 (w_voxels w2) /\ hits v1 v2 = true.
  Proof.
    intros O T1 V1 HB E. unfold mbb_intersect in E.
    destruct (tile_octree fuel 400 t2) as [tree|] eqn:Et; cbn [bind] in E; [|discriminate].
    destruct (tile_tree_facts fuel 400 t2 tree O Et) as [I B].
    destruct (map_opt _ (t_objs t1)) as [l|] eqn:El in E; cbn [bind] in E; [|discriminate]. injection E as <-.
    destruct (map_opt_in _ _ _ El) as [L1 L2].
    (** Shape of an entry. *)
    assert (Sh : forall w1 e, intersect_entry tree t2 w1 = Some (Some e) -> fst e = w1 /\
      forall c, In c (snd e) <-> exists w2, c = CInfo w2 (Range 0 0) (overlap_pairs w1 w2) /\ overlap_pairs w1 w2 <> [] /\
        In w2 (t_objs t2) /\ In (o_id (w_obj w2)) (query_intersect tree (w_obj w1))).
    { intros w1 e Ee. unfold intersect_entry in Ee.
      destruct (sort_by _ (query_intersect tree (w_obj w1))) as [|i0 ids] eqn:Es; [discriminate|].
      destruct (map_opt _ (skip_dups _ _ _)) as [m|] eqn:Em in Ee; cbn [bind] in Ee; [|discriminate]. injection Ee as <-.
      split; [reflexivity|]. cbn [snd]. intros c. rewrite filter_In. destruct (map_opt_in _ _ _ Em) as [M1 M2].
      assert (Qi : forall i, In i (query_intersect tree (w_obj w1)) <-> In i (i0 :: ids)) by (intros i; rewrite <- Es; symmetry; apply sort_by_in).
      assert (Src : forall i, In i (query_intersect tree (w_obj w1)) -> exists w2, In w2 (t_objs t2) /\ o_id (w_obj w2) = i).
      { intros i Hi. destruct (query_intersect_sound tree _ _ _ I Hi) as [o [Ho [Eo _]]]. apply in_map_iff in Ho as [w2 [<- Hw]]. eauto. }
      split.
      - intros [Hc Hl]. destruct (M2 c Hc) as [i [Hi Ei]]. apply (proj1 (skip_dups_in _ _ _)) in Hi. apply Qi in Hi.
        destruct (Src i Hi) as [w2 [Hw2 Ew2]]. rewrite <- Ew2, (tile_wrapper t2 w2 O Hw2) in Ei. cbn [bind] in Ei. injection Ei as <-.
        exists w2. split; [reflexivity|]. split; [intros Z; cbn [c_pairs] in Hl; now rewrite Z in Hl|]. split; [exact Hw2|]. now rewrite Ew2.
      - intros [w2 [-> [Hz [Hw2 Hq]]]]. split; [|cbn [c_pairs]; destruct (overlap_pairs w1 w2); [congruence|reflexivity]].
        apply Qi in Hq. destruct (proj2 (skip_dups_in (fun i => i) (i0 :: ids) (-1)) _ Hq) as [X|[y [Hy Ey]]].
        + pose proof (tile_id_nonneg t2 w2 O Hw2). lia.
        + destruct (M1 y Hy) as [c' [Ec Hc]]. rewrite Ey, (tile_wrapper t2 w2 O Hw2) in Ec. cbn [bind] in Ec. injection Ec as <-. exact Hc. }
    split.
    - apply Forall_forall. intros e He. unfold somes in He. apply in_flat_map in He as [[e'|] [He H0]]; [|destruct H0]. destruct H0 as [->|[]].
      destruct (L2 _ He) as [w1 [_ Ee]]. destruct (Sh w1 e Ee) as [_ Hs]. apply Forall_forall. intros vp Hv. apply in_flat_map in Hv as [c [Hc Hv]].
      apply Hs in Hc as [w2 [-> _]]. cbn [c_pairs] in Hv. apply overlap_pairs_spec in Hv as [v1 [v2 [_ [_ [_ ->]]]]]. reflexivity.
    - intros w1. split.
      + intros [e [He [<- [x [Hx Hh]]]]]. unfold somes in He. apply in_flat_map in He as [[e'|] [He H0]]; [|destruct H0]. destruct H0 as [->|[]].
        destruct (L2 _ He) as [w1 [Hw1 Ee]]. destruct (Sh w1 e Ee) as [-> Hs]. split; [exact Hw1|].
        unfold entry_ends in Hx. apply in_map_iff in Hx as [vp [<- Hv]]. apply in_flat_map in Hv as [c [Hc Hv]].
        apply Hs in Hc as [w2 [-> [_ [Hw2 Hq]]]]. cbn [c_pairs] in Hv. apply overlap_pairs_spec in Hv as [v1 [v2 [Hv1 [Hv2 [_ ->]]]]].
        exists w2, v1, v2. split; [exact Hw2|]. split; [|auto].
        destruct (query_intersect_sound tree _ _ _ I Hq) as [o [Ho [Eo [Do _]]]]. apply in_map_iff in Ho as [w2' [<- Hw2']].
        pose proof (tile_wrapper t2 w2 O Hw2) as G1. pose proof (tile_wrapper t2 w2' O Hw2') as G2. rewrite Eo in G2. assert (w2 = w2') by congruence. now subst.
      + intros [Hw1 [w2 [v1 [v2 [Hw2 [D [Hv1 [Hv2 Hh]]]]]]]].
        pose proof (HB w1 w2 v1 v2 Hw1 Hw2 Hv1 Hv2 Hh) as X.
        assert (Xo : intersect (o_box (w_obj w2)) (o_box (w_obj w1)) = true).
        { rewrite intersect_sym. apply (intersect_mono (v_box v1) _ (v_box v2)); [| |exact X].
          - pose proof (proj1 (Forall_forall _ _) V1 w1 Hw1) as F1. exact (proj1 (Forall_forall _ _) F1 v1 Hv1).
          - pose proof (proj1 (Forall_forall _ _) (ok_voxels t2 O) w2 Hw2) as F2. exact (proj1 (Forall_forall _ _) F2 v2 Hv2). }
        pose proof (proj1 (Forall_forall _ _) (ok_thick t2 O) w2 Hw2) as To. pose proof (proj1 (Forall_forall _ _) (ok_box t2 O) w2 Hw2) as Wo.
        assert (Hq : In (o_id (w_obj w2)) (query_intersect tree (w_obj w1))).
        { apply (query_intersect_complete tree (map w_obj (t_objs t2))); auto.
          - rewrite B. now apply (tile_thick t2 w2).
          - exact (proj1 (Forall_forall _ _) T1 w1 Hw1).
          - now apply in_map.
          - rewrite B. now apply intersect_container.
          - rewrite B. apply (intersect_mono (o_box (w_obj w2)) _ (o_box (w_obj w1)) (o_box (w_obj w1))); [exact Wo|apply within_refl|exact Xo]. }
        destruct (L1 w1 Hw1) as [oe [Ee He]]. destruct oe as [e|].
        * destruct (Sh w1 e Ee) as [Ef Hs]. exists e. split; [unfold somes; apply in_flat_map; exists (Some e); split; [exact He|now left]|]. split; [exact Ef|].
          exists (v1, v2). split; [|exact Hh]. unfold entry_ends. apply in_map_iff. exists (VPair v1 v2 (Range 0 0) false). split; [reflexivity|].
          assert (Hp : In (VPair v1 v2 (Range 0 0) false) (overlap_pairs w1 w2)) by (apply overlap_pairs_spec; exists v1, v2; auto).
          apply in_flat_map. exists (CInfo w2 (Range 0 0) (overlap_pairs w1 w2)). split; [|exact Hp]. apply Hs. exists w2.
          split; [reflexivity|]. split; [intros Z; rewrite Z in Hp; destruct Hp|]. split; assumption.
        * unfold intersect_entry in Ee. apply (proj2 (sort_by_in (fun i => i) _ _)) in Hq.
          destruct (sort_by _ _) as [|i0 ids]; [destruct Hq|]. destruct (map_opt _ _) in Ee; discriminate.
  Qed.
End Intersections.

(** * C28: a refinement round of the within join *)
Section WithinRound.
  Variables (md : Q) (highest : bool) (filled : vpair -> bool) (g : vpair -> Q).
  Definition settles (vp : vpair) : Prop := filled vp = true /\ maxdist (refine_range highest (vp_dist vp) (g vp)) < md.

  Lemma within_pairs_own f ps : forall idx det, reads f idx ps g ->
    exists ps' det', within_round_pairs md highest filled f idx det ps = (ps', (idx + length ps)%nat, det') /\
      existsb vp_intersect ps' = existsb vp_intersect ps || (negb det && det') /\
      (det' = true <-> det = true \/ exists vp, In vp ps /\ settles vp).
  Proof.
    induction ps as [|vp r IH]; intros idx det R; cbn [within_round_pairs].
    - exists [], det. cbn [length existsb]. rewrite Nat.add_0_r. split; [reflexivity|]. split; [now destruct det|].
      split; [auto|]. intros [H|[vp [[] _]]]; exact H.
    - apply reads_cons in R as [R1 R2]. rewrite R1.
      assert (L : (S idx + length r = idx + length (vp :: r))%nat) by (cbn [length]; lia).
      destruct (negb det && filled vp) eqn:Ef.
      + apply andb_prop in Ef as [Ed Ef]. apply negb_true_iff in Ed. subst det.
        set (d := refine_range highest (vp_dist vp) (g vp)) in *.
        destruct (Qltb_spec (maxdist d) md) as [Lt|Ge].
        * destruct (IH (S idx) true R2) as [ps' [det' [E [H1 H2]]]]. rewrite E, L. exists (VPair (vp_v1 vp) (vp_v2 vp) d true :: ps'), det'.
          split; [reflexivity|]. assert (det' = true) by (apply H2; now left). subst det'. cbn [existsb vp_intersect orb andb negb].
          split; [now destruct (vp_intersect vp), (existsb vp_intersect r)|]. split; [|auto]. intros _. right. exists vp. split; [now left|split; assumption].
        * destruct (IH (S idx) false R2) as [ps' [det' [E [H1 H2]]]]. rewrite E, L. eexists. exists det'.
          split; [reflexivity|]. cbn [existsb vp_intersect]. split; [rewrite H1; now rewrite orb_assoc|]. rewrite H2. split.
          -- intros [H|[w [Hw S]]]; [discriminate|]. right. exists w. split; [now right|exact S].
          -- intros [H|[w [[<-|Hw] S]]]; [discriminate|exfalso; destruct S as [_ S]; fold d in S; lra|]. right. exists w. auto.
      + destruct (IH (S idx) det R2) as [ps' [det' [E [H1 H2]]]]. rewrite E, L. exists (vp :: ps'), det'.
        split; [reflexivity|]. cbn [existsb]. split; [rewrite H1; now rewrite orb_assoc|]. rewrite H2. split.
        * intros [H|[w [Hw S]]]; [now left|]. right. exists w. split; [now right|exact S].
        * intros [H|[w [[<-|Hw] S]]]; [now left| |right; exists w; auto].
          destruct det; [now left|]. destruct S as [S _]. rewrite S in Ef. discriminate.
  Qed.

  Lemma within_entries_own f cs : forall idx, reads f idx (all_pairs cs) g -> Forall (fun e => (length (snd e) <= 1)%nat) cs -> Forall no_marks cs ->
    Forall2 (fun e e' : centry => fst e' = fst e /\ (entry_hit e' = true <-> exists vp, In vp (flat_map c_pairs (snd e)) /\ settles vp))
      cs (within_round_entries md highest filled f idx cs).
  Proof.
    induction cs as [|e r IH]; intros idx R F M; cbn [within_round_entries]; [constructor|].
    unfold all_pairs in R. cbn [flat_map] in R. apply reads_app in R as [R1 R2].
    inversion F as [|? ? Fe Fr]; inversion M as [|? ? Me Mr]; subst.
    destruct e as [w cl]. cbn [snd fst] in *. destruct cl as [|c [|c' cl]]; cbn [within_round_infos length] in *; try lia.
    - constructor; [|apply IH; auto; cbn in R2; now rewrite Nat.add_0_r in R2]. split; [reflexivity|]. cbn [flat_map entry_hit snd existsb].
      split; [discriminate|]. intros [vp [[] _]].
    - cbn [flat_map] in *. rewrite app_nil_r in *.
      destruct (within_pairs_own f (c_pairs c) idx false R1) as [ps' [det' [E [H1 H2]]]]. rewrite E.
      assert (Z : existsb vp_intersect (c_pairs c) = false).
      { unfold no_marks in Me. cbn [snd flat_map] in Me. rewrite app_nil_r in Me. destruct (existsb vp_intersect (c_pairs c)) eqn:Eb; [|reflexivity].
        apply existsb_exists in Eb as [vp [Hv Ev]]. rewrite Forall_forall in Me. rewrite (Me vp Hv) in Ev. discriminate. }
      rewrite Z in H1. cbn [orb negb andb] in H1.
      constructor; [|apply IH; auto].
      split; [reflexivity|]. cbn [entry_hit snd existsb c_pairs flat_map]. rewrite orb_false_r, app_nil_r, H1, H2. split.
      + intros [H|H]; [discriminate|exact H].
      + intros H. now right.
  Qed.

  Lemma within_round_own cs found : Forall (fun e => (length (snd e) <= 1)%nat) cs -> Forall no_marks cs -> forall w,
    In w (map fst (snd (within_round md highest filled g (cs, found)))) <->
    In w (map fst found) \/ exists e vp, In e cs /\ fst e = w /\ In vp (flat_map c_pairs (snd e)) /\ settles vp.
  Proof.
    intros F M w. unfold within_round. destruct (negb (existsb filled (all_pairs cs))) eqn:En.
    - apply negb_true_iff in En. cbn [snd]. split; [now left|]. intros [H|[e [vp [He [_ [Hv [S _]]]]]]]; [exact H|].
      assert (existsb filled (all_pairs cs) = true); [|congruence]. apply existsb_exists. exists vp. split; [apply in_flat_map; eauto|exact S].
    - set (f := fun i => match nth_error (all_pairs cs) i with Some vp => g vp | None => 0 end).
      pose proof (within_entries_own f cs 0 (reads_nth _ _ _) F M) as P.
      unfold update_candidate_list_intersect. cbn [snd]. rewrite map_app, in_app_iff.
      assert (X : In w (map fst (filter entry_hit (within_round_entries md highest filled f 0 cs))) <->
                  exists e vp, In e cs /\ fst e = w /\ In vp (flat_map c_pairs (snd e)) /\ settles vp); [|now rewrite X].
      clear F M En. induction P as [|e e' r r' [P1 P2] P IH]; cbn [filter map].
      + split; [intros []|intros [e [vp [[] _]]]].
      + assert (Y : (exists e0 vp, In e0 (e :: r) /\ fst e0 = w /\ In vp (flat_map c_pairs (snd e0)) /\ settles vp) <->
                    (fst e = w /\ entry_hit e' = true) \/ In w (map fst (filter entry_hit r'))).
        { rewrite IH, P2. split.
          - intros [e0 [vp [[<-|He] [E1 [E2 E3]]]]]; [left; split; [exact E1|exists vp; auto]|right; exists e0, vp; auto].
          - intros [[E1 [vp [E2 E3]]]|[e0 [vp [He E]]]]; [exists e, vp; split; [now left|auto]|exists e0, vp; split; [now right|exact E]]. }
        rewrite Y. destruct (entry_hit e'); cbn [map In]; rewrite ?P1; intuition discriminate.
  Qed.
End WithinRound.
