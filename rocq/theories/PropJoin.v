(** C26-C31: the joins. *)
From Coq Require Import QArith List Bool ZArith Lia Lqa.
From Verif Require Import Arr AabModel AabProofs OctreeModel OctreeProofs JoinModel JoinProofs.
Import ListNotations.
Open Scope Q_scope.

(** Sample tiles: objects of one or two voxels, heavy enough for the octree to split. *)
Ltac each := repeat (apply Forall_cons || apply Forall_nil).
Definition slab (x0 x1 y0 y1 : Q) : aab := Aab (v3 x0 y0 0) (v3 x1 y1 2).
Definition solid (ptr : nat) (id : Z) (b : aab) (vs : list voxel) : wrapper := Wrapper (Wobj ptr id b 200) vs.
Definition w1a : wrapper := solid 1 0 (slab 0 2 0 2) [Voxel 101 (slab 0 2 0 2)].
Definition w1b : wrapper := solid 2 1 (slab 10 14 0 2) [Voxel 102 (slab 10 12 0 2); Voxel 103 (slab 12 14 0 2)].
Definition w2a : wrapper := solid 11 0 (slab 1 3 1 3) [Voxel 111 (slab 1 3 1 3)].
Definition w2b : wrapper := solid 12 1 (slab 5 9 0 2) [Voxel 112 (slab 5 7 0 2); Voxel 113 (slab 7 9 0 2)].
Definition w2c : wrapper := solid 13 2 (slab 20 22 8 10) [Voxel 114 (slab 20 22 8 10)].
Definition tile1 : tile := Tile (slab 0 14 0 2) [w1a; w1b].
Definition tile2 : tile := Tile (Aab (v3 1 0 0) (v3 22 10 2)) [w2a; w2b; w2c].

Lemma tile2_ok : tile_ok tile2.
Proof.
  split.
  - intros [|[|[|i]]] w E; cbn in E; try (injection E as <-; reflexivity). destruct i; discriminate.
  - split; [each; vm_compute; discriminate|vm_compute; reflexivity].
  - each; intros []; vm_compute; reflexivity.
  - each; intros []; try split; vm_compute; discriminate.
  - each; intros []; try split; vm_compute; discriminate.
Qed.
Lemma tile1_voxels : Forall (fun w => Forall (fun v => within (v_box v) (o_box (w_obj w))) (w_voxels w)) (t_objs tile1).
Proof. each; intros []; try split; vm_compute; discriminate. Qed.
Lemma tile1_thick : Forall (fun w => thick (o_box (w_obj w))) (t_objs tile1).
Proof. each; intros []; vm_compute; reflexivity. Qed.

(** C26.  Two points of different objects at a squared distance within the limit lie in voxels that
    the filter pairs, unless it settles the pair of objects at once. *)
Theorem within_filter_complete : forall fuel t1 t2 md cs det w1 w2 v1 v2 p p',
  tile_ok t2 -> Forall (fun w => Forall (fun v => within (v_box v) (o_box (w_obj w))) (w_voxels w)) (t_objs t1) ->
  mbb_within fuel t1 t2 md = Some (cs, det) ->
  In w1 (t_objs t1) -> In w2 (t_objs t2) -> o_ptr (w_obj w2) <> o_ptr (w_obj w1) -> In v1 (w_voxels w1) -> In v2 (w_voxels w2) ->
  inside p (v_box v1) -> inside p' (v_box v2) -> dist2 p p' <= md ->
  In (w1, w2) det \/
  exists cl c vp, In (w1, cl) cs /\ In c cl /\ c_wrapper c = w2 /\ In vp (c_pairs c) /\ vp_v1 vp = v1 /\ vp_v2 vp = v2.
Proof. exact mbb_within_complete. Qed.
Print Assumptions within_filter_complete.
Example within_filter_complete_sample : tile_ok tile2 /\
  Forall (fun w => Forall (fun v => within (v_box v) (o_box (w_obj w))) (w_voxels w)) (t_objs tile1) /\
  inside (v3 10 1 1) (slab 10 12 0 2) /\ inside (v3 9 1 1) (slab 7 9 0 2) /\ dist2 (v3 10 1 1) (v3 9 1 1) <= 4.
Proof.
  split; [exact tile2_ok|]. split; [exact tile1_voxels|].
  split; [intros []; split; vm_compute; discriminate|]. split; [intros []; split; vm_compute; discriminate|vm_compute; discriminate].
Qed.
(** One pair is settled by the filter and one is kept with the two voxels. *)
Example within_filter_runs : match mbb_within 10 tile1 tile2 4 with
  | Some (cs, det) =>
    (map (fun e => (v_ptr (hd (Voxel 0 inner) (w_voxels (fst e))), map (fun c => (o_ptr (w_obj (c_wrapper c)), map (fun vp => (v_ptr (vp_v1 vp), v_ptr (vp_v2 vp))) (c_pairs c))) (snd e))) cs,
     map (fun x => (o_ptr (w_obj (fst x)), o_ptr (w_obj (snd x)))) det)
  | None => ([], []) end = ([(102, [(12, [(102, 113)])])], [(1, 11)])%nat.
Proof. vm_compute. reflexivity. Qed.

(** The pairs the filter settles are not in its result: the caller sees no trace of an answer. *)
Theorem within_filter_result_refuted : exists fuel t1 t2 md cs det w1 w2 v1 v2 p p',
  tile_ok t2 /\ Forall (fun w => Forall (fun v => within (v_box v) (o_box (w_obj w))) (w_voxels w)) (t_objs t1) /\
  mbb_within fuel t1 t2 md = Some (cs, det) /\ In w1 (t_objs t1) /\ In w2 (t_objs t2) /\ o_ptr (w_obj w2) <> o_ptr (w_obj w1) /\
  In v1 (w_voxels w1) /\ In v2 (w_voxels w2) /\ inside p (v_box v1) /\ inside p' (v_box v2) /\ dist2 p p' <= md /\
  forall cl, ~ In (w1, cl) cs.
Proof.
  assert (C : match mbb_within 10 tile1 tile2 4 with Some (cs, _) => forallb (fun e => negb (Nat.eqb (o_ptr (w_obj (fst e))) 1)) cs | None => false end = true)
    by (vm_compute; reflexivity).
  destruct (mbb_within 10 tile1 tile2 4) as [[cs det]|] eqn:E; [|discriminate].
  exists 10%nat, tile1, tile2, 4, cs, det, w1a, w2a, (Voxel 101 (slab 0 2 0 2)), (Voxel 111 (slab 1 3 1 3)), (v3 2 2 1), (v3 2 2 1).
  split; [exact tile2_ok|]. split; [exact tile1_voxels|]. split; [exact E|]. split; [now left|]. split; [now left|]. split; [discriminate|].
  split; [now left|]. split; [now left|].
  split; [intros []; split; vm_compute; discriminate|]. split; [intros []; split; vm_compute; discriminate|]. split; [vm_compute; discriminate|].
  intros cl H. rewrite forallb_forall in C. specialize (C _ H). discriminate.
Qed.
Print Assumptions within_filter_result_refuted.

(** C27 is false: of two nested closed surfaces, everywhere at least 1 apart, the filter says that
    they are within distance 0. *)
Definition nested1 : tile := Tile outer [Wrapper (Wobj 1 0 outer 10) [Voxel 101 outer]].
Definition nested2 : tile := Tile inner [Wrapper (Wobj 2 0 inner 10) [Voxel 102 inner]].
Theorem within_filter_sound_refuted : exists fuel t1 t2 md cs det w1 w2 (data : voxel -> vec -> Prop),
  tile_ok t2 /\ mbb_within fuel t1 t2 md = Some (cs, det) /\ In (w1, w2) det /\
  (forall v, In v (w_voxels w1) \/ In v (w_voxels w2) -> is_box_of (data v) (v_box v)) /\
  forall v1 v2 p p', In v1 (w_voxels w1) -> In v2 (w_voxels w2) -> data v1 p -> data v2 p' -> md + 1 <= dist2 p p'.
Proof.
  assert (C : match mbb_within 10 nested1 nested2 0 with
              | Some (_, [(x, y)]) => Nat.eqb (o_ptr (w_obj x)) 1 && Nat.eqb (o_ptr (w_obj y)) 2 | _ => false end = true) by (vm_compute; reflexivity).
  destruct (mbb_within 10 nested1 nested2 0) as [[cs det]|] eqn:E; [|discriminate]. destruct det as [|[x y] [|? ?]]; try discriminate.
  apply andb_prop in C as [C1 C2].
  destruct (mbb_within_determined _ _ _ _ _ _ x y E (or_introl eq_refl)) as [[<-|[]] [[<-|[]] _]].
  exists 10%nat, nested1, nested2, 0, cs. eexists. eexists. eexists. exists (fun v => surface (v_box v)).
  split.
  { split.
    - intros [|[|i]] w Ew; cbn in Ew; try discriminate. injection Ew as <-. reflexivity.
    - split; [each; vm_compute; discriminate|vm_compute; reflexivity].
    - each; intros []; vm_compute; reflexivity.
    - each; intros []; try split; vm_compute; discriminate.
    - each; intros []; try split; vm_compute; discriminate. }
  split; [exact E|]. split; [now left|]. split.
  - intros v [[<-|[]]|[<-|[]]]; apply surface_box; intros a; vm_compute; discriminate.
  - intros v1 v2 p p' [<-|[]] [<-|[]] H1 H2. cbn [v_box] in *. pose proof (nested_surfaces p p' H1 H2). lra.
Qed.
Print Assumptions within_filter_sound_refuted.

(** C27, the part that holds: settled objects are within the limit if the upper distance of every
    pair of voxels bounds the distance of their contents.  Missing: contents for which it does not. *)
Theorem within_filter_sound_partial : forall fuel t1 t2 md cs det w1 w2 (data : voxel -> vec -> Prop),
  mbb_within fuel t1 t2 md = Some (cs, det) -> In (w1, w2) det ->
  (forall v1 v2, In v1 (w_voxels w1) -> In v2 (w_voxels w2) ->
     exists p p', data v1 p /\ data v2 p' /\ dist2 p p' <= maxdist (distance (v_box v1) (v_box v2))) ->
  In w1 (t_objs t1) /\ In w2 (t_objs t2) /\
  exists v1 v2 p p', In v1 (w_voxels w1) /\ In v2 (w_voxels w2) /\ data v1 p /\ data v2 p' /\ dist2 p p' <= md.
Proof.
  intros fuel t1 t2 md cs det w1 w2 data E H B. destruct (mbb_within_determined _ _ _ _ _ _ _ _ E H) as [H1 [H2 [v1 [v2 [V1 [V2 M]]]]]].
  split; [exact H1|]. split; [exact H2|]. destruct (B v1 v2 V1 V2) as [p [p' [P1 [P2 D]]]].
  exists v1, v2, p, p'. split; [exact V1|]. split; [exact V2|]. split; [exact P1|]. split; [exact P2|]. eapply Qle_trans; eauto.
Qed.
Print Assumptions within_filter_sound_partial.
(** Solid contents satisfy the hypothesis. *)
Example within_filter_sound_sample : forall v1 v2, In v1 (w_voxels w1a) -> In v2 (w_voxels w2a) ->
  exists p p', inside p (v_box v1) /\ inside p' (v_box v2) /\ dist2 p p' <= maxdist (distance (v_box v1) (v_box v2)).
Proof.
  intros v1 v2 [<-|[]] [<-|[]]. apply (upper_solid (fun p => inside p _) (fun p => inside p _)); intros []; split; vm_compute; discriminate.
Qed.

(** C28 is false.  Once an entry is settled the pairs of its further candidates are passed over
    without advancing the index, so the next entries read distances of other pairs: one object is
    reported although its only pair is at distance 9, another is lost although its pair is at 2,
    with limit 5. *)
Definition one_pair (d : Q) : vpair := VPair (Voxel 1 inner) (Voxel 2 inner) (Range 0 d) false.
Definition own (vp : vpair) : Q := maxdist (vp_dist vp).
Definition cand (d : Q) : cinfo := CInfo w2a (Range 0 0) [one_pair d].
Theorem within_round_misattributes_refuted :
  (exists cs md (compute : vpair -> Q) w,
     In w (map fst (snd (within_round md true (fun _ => true) compute (cs, [])))) /\
     forall cl, In (w, cl) cs -> Forall (fun vp => md < compute vp) (flat_map c_pairs cl)) /\
  (exists cs md (compute : vpair -> Q) w cl,
     In (w, cl) cs /\ Exists (fun vp => compute vp < md) (flat_map c_pairs cl) /\
     ~ In w (map fst (snd (within_round md true (fun _ => true) compute (cs, []))))).
Proof.
  split.
  - exists [(w1a, [cand 1; cand 1]); (w1b, [cand 9])], 5, own, w1b. split; [vm_compute; right; now left|].
    intros cl [H|[H|[]]]; [discriminate|]. injection H as <-. repeat constructor.
  - exists [(w1a, [cand 1; cand 9]); (w1b, [cand 2])], 5, own, w1b, [cand 2]. split; [right; now left|].
    split; [repeat constructor|]. vm_compute. intros [H|[]]. discriminate.
Qed.
Print Assumptions within_round_misattributes_refuted.

(** C28, the part that holds: if every entry has at most one candidate, a round reports exactly the
    objects with a pair whose own computed distance brings it below the limit.  Missing: entries with
    several candidates. *)
Theorem within_round_own_distance_partial : forall md highest filled compute cs found w,
  Forall (fun e => (length (snd e) <= 1)%nat) cs ->
  Forall (fun e => Forall (fun vp => vp_intersect vp = false) (flat_map c_pairs (snd e))) cs ->
  In w (map fst (snd (within_round md highest filled compute (cs, found)))) <->
  In w (map fst found) \/ exists e vp, In e cs /\ fst e = w /\ In vp (flat_map c_pairs (snd e)) /\ filled vp = true /\
    (if highest then compute vp < md else compute vp < md \/ maxdist (vp_dist vp) < md).
Proof.
  intros md highest filled compute cs found w F M. rewrite (within_round_own md highest filled compute cs found F M w).
  assert (X : forall vp, settles md highest filled compute vp <-> filled vp = true /\ (if highest then compute vp < md else compute vp < md \/ maxdist (vp_dist vp) < md)).
  { intros vp. unfold settles, refine_range. destruct highest; cbn [maxdist]; [reflexivity|].
    destruct (Qltb_spec (compute vp) (maxdist (vp_dist vp))); intuition lra. }
  split; (intros [H|[e [vp [H1 [H2 [H3 H4]]]]]]; [now left|right; exists e, vp]);
    (split; [exact H1|split; [exact H2|split; [exact H3|now apply X]]]).
Qed.
Print Assumptions within_round_own_distance_partial.
Example within_round_own_sample : let cs := [(w1a, [cand 1]); (w1b, [cand 9])] in
  Forall (fun e : centry => (length (snd e) <= 1)%nat) cs /\
  Forall (fun e : centry => Forall (fun vp => vp_intersect vp = false) (flat_map c_pairs (snd e))) cs /\
  map fst (snd (within_round 5 true (fun _ => true) own (cs, []))) = [w1a].
Proof. cbn zeta. split; [repeat constructor|]. split; [repeat constructor|vm_compute; reflexivity]. Qed.

(** C29.  Whatever the order in which candidates come in, the nearest object [n], at distance [m],
    stays with the voxels [a], [b] that realise the distance: all ranges reach up to [m] at least,
    those of [n] and of [a], [b] down to [m] at least. *)
Theorem nn_candidates_any_order : forall m n a b w1 l,
  (forall w2 r, In (w2, r) l -> m <= maxdist r /\
     forall v1 v2, In v1 (w_voxels w1) -> In v2 (w_voxels w2) -> m <= maxdist (distance (v_box v1) (v_box v2))) ->
  In a (w_voxels w1) -> In b (w_voxels n) -> mindist (distance (v_box a) (v_box b)) <= m ->
  (exists r, In (n, r) l /\ mindist r <= m) ->
  exists c vp, In c (fold_left (nn_candidate w1) l []) /\ c_wrapper c = n /\ In vp (c_pairs c) /\ vp_v1 vp = a /\ vp_v2 vp = b.
Proof.
  intros m n a b w1 l F Ha Hb N H.
  destruct (nn_fold m n a b w1 l [] (fun x => match x with (w2, r) => F w2 r end) (Forall_nil _) Ha Hb N (or_intror H)) as [_ [c [Hc [Wc [_ [vp [Hv [[P1 P2] _]]]]]]]].
  exists c, vp. auto.
Qed.
Print Assumptions nn_candidates_any_order.

(** True distances of the sample: those of the centres of voxels. *)
Definition tv (v1 v2 : voxel) : Q := maxdist (distance (v_box v1) (v_box v2)).
Definition odist (w1 w2 : wrapper) : Q :=
  fold_right (fun d m => if Qltb d m then d else m) 1000 (flat_map (fun v1 => map (tv v1) (w_voxels w2)) (w_voxels w1)).
Definition nearest_of (w1 : wrapper) : nearest :=
  if Nat.eqb (o_ptr (w_obj w1)) 1 then Nearest w2a 2 (Voxel 101 (slab 0 2 0 2)) (Voxel 111 (slab 1 3 1 3))
  else Nearest w2b 9 (Voxel 102 (slab 10 12 0 2)) (Voxel 113 (slab 7 9 0 2)).
Lemma sample_truth : nn_truth tile1 tile2 tv odist nearest_of.
Proof.
  unfold nn_truth. cbn [t_objs tile1 tile2]. split; [|split].
  - intros w1 w2 v1 v2 H1 H2 _ H3 H4. cbn [In] in H1, H2.
    repeat match goal with H : _ \/ _ |- _ => destruct H as [<-|H] | H : False |- _ => destruct H end;
    cbn [In w_voxels w1a w1b w2a w2b w2c solid] in H3, H4;
    repeat match goal with H : _ \/ _ |- _ => destruct H as [<-|H] | H : False |- _ => destruct H end;
    (split; [split|]; vm_compute; discriminate).
  - intros w1 w2 H1 H2 _. cbn [In] in H1, H2.
    repeat match goal with H : _ \/ _ |- _ => destruct H as [<-|H] | H : False |- _ => destruct H end; (split; vm_compute; discriminate).
  - intros w1 H1. cbn [In] in H1.
    repeat match goal with H : _ \/ _ |- _ => destruct H as [<-|H] | H : False |- _ => destruct H end;
    (split; [vm_compute; auto|]; split; [discriminate|]; split; [vm_compute; auto|]; split; [vm_compute; auto|];
     split; [vm_compute; reflexivity|]; split; [vm_compute; reflexivity|]);
    intros w2 H2 _; cbn [In] in H2;
    repeat match goal with H : _ \/ _ |- _ => destruct H as [<-|H] | H : False |- _ => destruct H end; vm_compute; discriminate.
Qed.
Example nn_candidates_any_order_sample :
  let l := [(w2c, distance (o_box (w_obj w2c)) (o_box (w_obj w1b))); (w2b, distance (o_box (w_obj w2b)) (o_box (w_obj w1b)))] in
  (forall w2 r, In (w2, r) l -> 9 <= maxdist r /\
     forall v1 v2, In v1 (w_voxels w1b) -> In v2 (w_voxels w2) -> 9 <= maxdist (distance (v_box v1) (v_box v2))) /\
  mindist (distance (slab 10 12 0 2) (slab 7 9 0 2)) <= 9 /\ exists r, In (w2b, r) l /\ mindist r <= 9.
Proof.
  cbn zeta. split; [|split; [vm_compute; discriminate|eexists; split; [right; left; reflexivity|vm_compute; discriminate]]].
  intros w2 r [H|[H|[]]]; injection H as <- <-; (split; [vm_compute; discriminate|]); intros v1 v2 H1 H2;
    cbn [In w_voxels w1b w2b w2c solid] in H1, H2;
    repeat match goal with H : _ \/ _ |- _ => destruct H as [<-|H] | H : False |- _ => destruct H end; vm_compute; discriminate.
Qed.

(** The whole filter: every object of the first tile gets an entry that holds its nearest object. *)
Theorem nn_filter_keeps_nearest : forall fuel t1 t2 cs tv dist N, tile_ok t2 -> Forall (fun w => wf (o_box (w_obj w))) (t_objs t1) ->
  nn_truth t1 t2 tv dist N -> mbb_nn fuel t1 t2 = Some cs -> forall w1, In w1 (t_objs t1) ->
  exists cl c vp, In (w1, cl) cs /\ In c cl /\ c_wrapper c = n_obj (N w1) /\ In vp (c_pairs c) /\ vp_v1 vp = n_a (N w1) /\ vp_v2 vp = n_b (N w1).
Proof.
  intros fuel t1 t2 cs tv dist N O W T E w1 H. destruct (mbb_nn_ok fuel t1 t2 cs tv dist N O W T E) as [A [_ M]].
  rewrite <- M in H. apply in_map_iff in H as [[w cl] [<- He]]. cbn [fst] in *. rewrite Forall_forall in A.
  destruct (A _ He) as [_ [c [Hc [Wc [_ [vp [Hv [[P1 P2] _]]]]]]]]. exists cl, c, vp. auto 6.
Qed.
Print Assumptions nn_filter_keeps_nearest.
Example nn_filter_sample : tile_ok tile2 /\ Forall (fun w => wf (o_box (w_obj w))) (t_objs tile1) /\ nn_truth tile1 tile2 tv odist nearest_of.
Proof. split; [exact tile2_ok|]. split; [each; intros []; try split; vm_compute; discriminate|exact sample_truth]. Qed.
Example nn_filter_runs : match mbb_nn 10 tile1 tile2 with
  | Some cs => map (fun e => (o_ptr (w_obj (fst e)), map (fun c => (o_ptr (w_obj (c_wrapper c)), map (fun vp => (v_ptr (vp_v1 vp), v_ptr (vp_v2 vp))) (c_pairs c))) (snd e))) cs
  | None => [] end = [(1, [(11, [(101, 111)])]); (2, [(12, [(102, 112); (102, 113); (103, 113)])])]%nat.
Proof. vm_compute. reflexivity. Qed.

(** C30.  Whatever the schedule, if distances computed are never below the true distance of a pair,
    and equal to it at the highest level, every object of the first tile ends up either settled with
    exactly its nearest object or in the table with its nearest object among the candidates. *)
Theorem nn_join_keeps_nearest : forall fuel t1 t2 cs tv dist N rounds, tile_ok t2 -> Forall (fun w => wf (o_box (w_obj w))) (t_objs t1) ->
  nn_truth t1 t2 tv dist N -> mbb_nn fuel t1 t2 = Some cs ->
  (forall w, tv (n_a (N w)) (n_b (N w)) == n_dist (N w)) ->
  Forall (fun r => forall vp, tv (vp_v1 vp) (vp_v2 vp) <= r_compute r vp /\ (r_highest r = true -> r_compute r vp == tv (vp_v1 vp) (vp_v2 vp))) rounds ->
  forall w1, In w1 (t_objs t1) ->
  (exists cl c vp, In (w1, cl) (fst (nn_refine rounds cs)) /\ In c cl /\ c_wrapper c = n_obj (N w1) /\
     In vp (c_pairs c) /\ vp_v1 vp = n_a (N w1) /\ vp_v2 vp = n_b (N w1)) \/
  (exists c, In (w1, [c]) (snd (nn_refine rounds cs)) /\ c_wrapper c = n_obj (N w1)).
Proof.
  intros fuel t1 t2 cs tv dist N rounds O W T E X R w1 H. destruct (mbb_nn_ok fuel t1 t2 cs tv dist N O W T E) as [A [F M]].
  destruct (nn_refine_ok N tv X rounds cs R A F) as [[T1 [T2 T3]] K]. rewrite <- M in H. specialize (K w1 H). rewrite Forall_forall in T1, T2, T3.
  destruct K as [K|K]; apply in_map_iff in K as [[w cl] [<- He]]; cbn [fst] in *.
  - left. destruct (T1 _ He) as [_ [c [Hc [Wc [_ [vp [Hv [[P1 P2] _]]]]]]]]. exists cl, c, vp. auto 6.
  - right. destruct (T2 _ He) as [_ [c [Hc [Wc _]]]]. specialize (T3 _ He). cbn [snd fst] in *.
    destruct cl as [|c0 [|? ?]]; [destruct Hc| |cbn in T3; lia]. destruct Hc as [->|[]]. exists c. auto.
Qed.
Print Assumptions nn_join_keeps_nearest.
Example nn_join_sample : (forall w, tv (n_a (nearest_of w)) (n_b (nearest_of w)) == n_dist (nearest_of w)) /\
  Forall (fun r => forall vp, tv (vp_v1 vp) (vp_v2 vp) <= r_compute r vp /\ (r_highest r = true -> r_compute r vp == tv (vp_v1 vp) (vp_v2 vp)))
    [Round false (fun _ => true) (fun vp => tv (vp_v1 vp) (vp_v2 vp) + 1) (fun _ => true); Round true (fun _ => true) (fun vp => tv (vp_v1 vp) (vp_v2 vp)) (fun _ => true)].
Proof.
  split.
  - intros w. unfold nearest_of. destruct (Nat.eqb _ _); vm_compute; reflexivity.
  - repeat constructor; cbn [r_compute r_highest]; try lra; try discriminate; intros; reflexivity.
Qed.

(** C31.  If the test of each level is never wrong, that of the last level never misses, and voxels
    whose contents meet have overlapping boxes, exactly the objects of the first tile that meet
    another object of the second are reported. *)
Theorem intersection_join_exact : forall (hits : voxel -> voxel -> bool) fuel t1 t2 tests last out,
  tile_ok t2 -> Forall (fun w => thick (o_box (w_obj w))) (t_objs t1) ->
  Forall (fun w => Forall (fun v => within (v_box v) (o_box (w_obj w))) (w_voxels w)) (t_objs t1) ->
  (forall w1 w2 v1 v2, In w1 (t_objs t1) -> In w2 (t_objs t2) -> In v1 (w_voxels w1) -> In v2 (w_voxels w2) ->
     hits v1 v2 = true -> exists p, strictly_inside p (v_box v1) /\ strictly_inside p (v_box v2)) ->
  Forall (fun test : vpair -> bool => forall vp, test vp = true -> hits (vp_v1 vp) (vp_v2 vp) = true) (tests ++ [last]) ->
  (forall vp, hits (vp_v1 vp) (vp_v2 vp) = true -> last vp = true) ->
  intersect_join fuel (tests ++ [last]) t1 t2 = Some out ->
  forall w1, In w1 out <-> In w1 (t_objs t1) /\ exists w2 v1 v2, In w2 (t_objs t2) /\ o_ptr (w_obj w2) <> o_ptr (w_obj w1) /\
    In v1 (w_voxels w1) /\ In v2 (w_voxels w2) /\ hits v1 v2 = true.
Proof.
  intros hits fuel t1 t2 tests last out O T V HB S C E w1. unfold intersect_join in E.
  destruct (mbb_intersect fuel t1 t2) as [cs|] eqn:Ec; cbn [bind] in E; [|discriminate]. injection E as <-.
  destruct (mbb_intersect_spec hits fuel t1 t2 cs O T V) as [M X]; [|exact Ec|].
  - intros a b v1 v2 H1 H2 H3 H4 Hh. destruct (HB a b v1 v2 H1 H2 H3 H4 Hh) as [p [P1 P2]]. apply intersect_spec. intros x.
    destruct (P1 x), (P2 x). split; lra.
  - rewrite (intersect_rounds hits tests last cs S C M w1). apply X.
Qed.
Print Assumptions intersection_join_exact.
Definition sample_hits (v1 v2 : voxel) : bool := Nat.eqb (v_ptr v1) 101 && Nat.eqb (v_ptr v2) 111.
Definition sample_test (vp : vpair) : bool := sample_hits (vp_v1 vp) (vp_v2 vp).
Example intersection_join_sample : tile_ok tile2 /\ Forall (fun w => thick (o_box (w_obj w))) (t_objs tile1) /\
  (forall w1 w2 v1 v2, In w1 (t_objs tile1) -> In w2 (t_objs tile2) -> In v1 (w_voxels w1) -> In v2 (w_voxels w2) ->
     sample_hits v1 v2 = true -> exists p, strictly_inside p (v_box v1) /\ strictly_inside p (v_box v2)) /\
  Forall (fun test : vpair -> bool => forall vp, test vp = true -> sample_hits (vp_v1 vp) (vp_v2 vp) = true) ([fun _ => false] ++ [sample_test]).
Proof.
  split; [exact tile2_ok|]. split; [exact tile1_thick|]. split.
  - intros w1 w2 v1 v2 H1 H2 H3 H4. cbn [In t_objs tile1 tile2] in H1, H2.
    repeat match goal with H : _ \/ _ |- _ => destruct H as [<-|H] | H : False |- _ => destruct H end;
    cbn [In w_voxels w1a w1b w2a w2b w2c solid] in H3, H4;
    repeat match goal with H : _ \/ _ |- _ => destruct H as [<-|H] | H : False |- _ => destruct H end; intros H; try discriminate.
    exists (v3 (3 # 2) (3 # 2) 1). split; intros []; split; vm_compute; reflexivity.
  - repeat constructor; intros vp H; [discriminate|exact H].
Qed.
Example intersection_join_runs : option_map (map (fun w => o_ptr (w_obj w))) (intersect_join 10 [fun _ => false; sample_test] tile1 tile2) = Some [1%nat].
Proof. vm_compute. reflexivity. Qed.

(** Objects that touch without a common inner point of their boxes are not reported: the filter
    never pairs them. *)
Definition beside : tile := Tile (slab 2 4 0 2) [solid 21 0 (slab 2 4 0 2) [Voxel 121 (slab 2 4 0 2)]].
Theorem intersection_join_touching_refuted : exists (data : voxel -> vec -> Prop) fuel t1 t2 w1 w2 v1 v2 p,
  tile_ok t2 /\ In w1 (t_objs t1) /\ In w2 (t_objs t2) /\ In v1 (w_voxels w1) /\ In v2 (w_voxels w2) /\ o_ptr (w_obj w2) <> o_ptr (w_obj w1) /\
  is_box_of (data v1) (v_box v1) /\ is_box_of (data v2) (v_box v2) /\ data v1 p /\ data v2 p /\
  forall tests out, intersect_join fuel tests t1 t2 = Some out -> ~ In w1 out.
Proof.
  exists (fun v => surface (v_box v)), 10%nat, tile1, beside, w1a, (solid 21 0 (slab 2 4 0 2) [Voxel 121 (slab 2 4 0 2)]), (Voxel 101 (slab 0 2 0 2)), (Voxel 121 (slab 2 4 0 2)), (v3 2 1 1).
  split.
  { split.
    - intros [|[|i]] w Ew; cbn in Ew; try discriminate. injection Ew as <-. reflexivity.
    - split; [each; vm_compute; discriminate|vm_compute; reflexivity].
    - each; intros []; vm_compute; reflexivity.
    - each; intros []; try split; vm_compute; discriminate.
    - each; intros []; try split; vm_compute; discriminate. }
  split; [now left|]. split; [now left|]. split; [now left|]. split; [now left|]. split; [discriminate|].
  split; [apply surface_box; intros []; vm_compute; discriminate|]. split; [apply surface_box; intros []; vm_compute; discriminate|].
  split; [split; [intros []; split; vm_compute; discriminate|exists AX; right; reflexivity]|].
  split; [split; [intros []; split; vm_compute; discriminate|exists AX; left; reflexivity]|].
  intros tests out E. unfold intersect_join in E.
  assert (X : mbb_intersect 10 tile1 beside = Some []) by (vm_compute; reflexivity).
  rewrite X in E. cbn [bind] in E. injection E as <-.
  assert (Y : fold_left (fun s test => intersect_round test s) tests ([], []) = (@nil centry, @nil centry)).
  { induction tests as [|t r IH]; cbn [fold_left]; [reflexivity|]. exact IH. }
  rewrite Y. intros [].
Qed.
Print Assumptions intersection_join_touching_refuted.
