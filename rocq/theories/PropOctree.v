(** C20-C25: the octree. *)
From Coq Require Import QArith List Bool ZArith Lia Lqa.
From Verif Require Import Arr AabModel AabProofs OctreeModel OctreeProofs.
Import ListNotations.
Open Scope Q_scope.

(** A built tree: the objects are thick, their weights are unsigned and add up below 2^32, and the
    recursion of addObject returned (any depth). *)
Definition built (fuel : nat) (leaf_size : Z) (objs : list wobj) (t : onode) : Prop :=
  sizes_ok objs /\ Forall (fun o => thick (o_box o)) objs /\ build_octree fuel leaf_size objs = Some t.

Lemma built_facts fuel ts objs t : built fuel ts objs t ->
  inv t objs /\ Forall (fun o => within (o_box o) (node_box t)) objs /\ thick (node_box t) /\
  Forall (fun o => intersect (node_box t) (o_box o) = true) objs.
Proof.
  intros [W [T E]]. destruct (build_inv fuel ts objs t W E) as [I F]. split; [exact I|]. split; [exact F|].
  assert (A : Forall (fun o => intersect (node_box t) (o_box o) = true) objs).
  { rewrite Forall_forall in *. intros o Ho. apply intersect_container; auto. }
  split; [|exact A].
  destruct objs as [|o r]; [cbn in E; discriminate|].
  inversion F; inversion T; subst. intros a. destruct (H1 a). specialize (H5 a). lra.
Qed.

(** C20.  The overlap query reports exactly the objects, other than the query object itself, that
    share an inner point with the query box. *)
Theorem octree_intersect_exact : forall fuel ts objs t q, built fuel ts objs t -> thick (o_box q) -> forall i,
  In i (query_intersect t q) <->
  exists o, In o objs /\ o_id o = i /\ o_ptr o <> o_ptr q /\ exists p, strictly_inside p (o_box o) /\ strictly_inside p (o_box q).
Proof.
  intros fuel ts objs t q B Tq i. destruct (built_facts _ _ _ _ B) as [I [F [T A]]]. destruct B as [_ [To _]].
  rewrite Forall_forall in *. split.
  - intros H. destruct (query_intersect_sound t objs q i I H) as [o [Ho [Ei [D X]]]].
    exists o. repeat split; auto. apply intersect_exact; auto.
  - intros [o [Ho [<- [D X]]]]. apply intersect_exact in X; auto.
    apply (query_intersect_complete t objs q o I T); auto.
    apply (intersect_mono (o_box o) (node_box t) (o_box q) (o_box q)); auto. intros a; split; apply Qle_refl.
Qed.
Print Assumptions octree_intersect_exact.

(** C21.  The within-distance query reports exactly the objects with a point of their box within the
    limit (squared) of a point of the query box, with the distance range of the two boxes. *)
Theorem octree_within_exact : forall fuel ts objs t q d, built fuel ts objs t -> wf (o_box q) -> forall i r,
  In (i, r) (query_within t q d) <->
  exists o, In o objs /\ o_id o = i /\ o_ptr o <> o_ptr q /\ r = distance (o_box o) (o_box q) /\
    exists p p', inside p (o_box o) /\ inside p' (o_box q) /\ dist2 p p' <= d.
Proof.
  intros fuel ts objs t q d B Wq i r. destruct (built_facts _ _ _ _ B) as [I [F [T A]]]. destruct B as [_ [To _]].
  rewrite Forall_forall in *. split.
  - intros H. destruct (query_within_sound t objs q d i r I H) as [o [Ho [Ei [D [-> X]]]]].
    exists o. split; [exact Ho|]. split; [exact Ei|]. split; [exact D|]. split; [reflexivity|].
    destruct (mindist_attained (o_box o) (o_box q) (thick_wf _ (To o Ho)) Wq) as [p [p' [H1 [H2 H3]]]].
    exists p, p'. split; [exact H1|]. split; [exact H2|]. rewrite H3. exact X.
  - intros [o [Ho [<- [D [-> [p [p' [H1 [H2 H3]]]]]]]]].
    apply (query_within_complete t objs q d o p p'); auto.
    intros a. destruct (F o Ho a), (H1 a). split; eapply Qle_trans; eauto.
Qed.
Print Assumptions octree_within_exact.

(** C22.  If the true distances lie in the box ranges, the nearest objects (all of them, in case of
    a tie) stay in the candidate list, although only every second candidate is compared. *)
Theorem octree_nn_keeps_nearest : forall fuel ts objs t q (dist : wobj -> Q), built fuel ts objs t -> wf (o_box q) ->
  (forall o, In o objs -> o_ptr o <> o_ptr q ->
     mindist (distance (o_box o) (o_box q)) <= dist o <= maxdist (distance (o_box o) (o_box q))) ->
  forall n, In n objs -> o_ptr n <> o_ptr q -> (forall o, In o objs -> o_ptr o <> o_ptr q -> dist n <= dist o) ->
  In (o_id n, distance (o_box n) (o_box q)) (fst (query_nn t q ([], None))).
Proof.
  intros fuel ts objs t q dist B Wq Br n Hn Dn Nn. destruct (built_facts _ _ _ _ B) as [I [F [T A]]]. destruct B as [_ [To _]].
  rewrite Forall_forall in *.
  destruct (mindist_attained (o_box n) (o_box q) (thick_wf _ (To n Hn)) Wq) as [p [p' [H1 [H2 H3]]]].
  apply (query_nn_finds q dist objs Br n Hn Dn Nn t objs p p'); auto.
  - rewrite H3. now apply Br.
  - intros a. destruct (F n Hn a), (H1 a). split; eapply Qle_trans; eauto.
  - split; [constructor|exact Logic.I].
Qed.
Print Assumptions octree_nn_keeps_nearest.

(** C24.  The leaf boxes cover the root box, which holds all objects, and no two have a common inner
    point. *)
Theorem octree_leaves_tile : forall fuel ts objs t, built fuel ts objs t ->
  Forall (fun o => within (o_box o) (node_box t)) objs /\
  (forall p, inside p (node_box t) -> exists c, In c (map fst (leaves t)) /\ inside p c) /\
  Forall (fun c => within c (node_box t)) (map fst (leaves t)) /\
  ForallOrdPairs (fun c d => forall p, strictly_inside p c -> strictly_inside p d -> False) (map fst (leaves t)).
Proof.
  intros fuel ts objs t B. destruct (built_facts _ _ _ _ B) as [I [F [T A]]].
  split; [exact F|]. split; [|split].
  - intros p Hp. destruct (leaves_cover t objs p I (thick_wf _ T) Hp) as [c [H1 H2]]. exists (fst c). split; [now apply in_map|exact H2].
  - apply Forall_forall. intros c Hc. apply in_map_iff in Hc as [c' [<- H]]. exact (leaves_within t objs c' I (thick_wf _ T) H).
  - apply (FOP_map apart fst). exact (leaves_apart t objs I (thick_wf _ T)).
Qed.
Print Assumptions octree_leaves_tile.

(** C25.  A leaf holds exactly the objects sharing an inner point with it, each once and in order of
    insertion, and the tiles generated are the boxes of the leaves that hold something. *)
Theorem octree_leaf_contents : forall fuel ts objs t, built fuel ts objs t ->
  (forall b l, In (b, l) (leaves t) -> NoDup objs -> NoDup l /\
     forall o, In o l <-> In o objs /\ exists p, strictly_inside p b /\ strictly_inside p (o_box o)) /\
  (forall b l, In (b, l) (leaves t) -> exists f, l = filter f objs) /\
  genTiles t = map fst (filter (fun c => match snd c with [] => false | _ => true end) (leaves t)).
Proof.
  intros fuel ts objs t B. destruct (built_facts _ _ _ _ B) as [I [F [T A]]]. destruct B as [_ [To _]].
  split; [|split; [|apply genTiles_leaves]].
  - intros b l H ND. pose proof (leaf_contents t objs (b, l) I (thick_wf _ T) A H) as C. cbn [fst snd] in C. subst l.
    split; [now apply NoDup_filter|].
    assert (Tb : thick b) by exact (leaves_thick t objs (b, _) I T H).
    intros o. rewrite sees_In. rewrite Forall_forall in To. split; intros [Ho X]; (split; [exact Ho|]); apply intersect_exact in X; auto.
  - intros b l H. pose proof (leaf_contents t objs (b, l) I (thick_wf _ T) A H) as C. cbn [fst snd] in C. subst l.
    exists (fun o => intersect b (o_box o)). reflexivity.
Qed.
Print Assumptions octree_leaf_contents.

(** A tree with splits: corner cubes of an 8x8x8 universe, and one object across the middle. *)
Definition cube (n : nat) (x y z e : Q) : wobj := Wobj n (Z.of_nat n + 100) (Aab (v3 x y z) (v3 (x + e) (y + e) (z + e))) 1.
Definition sample_objs : list wobj :=
  [cube 0 0 0 0 1; cube 1 7 0 0 1; cube 2 3 1 1 2; cube 3 0 7 7 1; cube 4 7 7 7 1; cube 5 2 0 0 1; cube 6 1 1 1 1;
   cube 7 3 1 0 (1 # 2); cube 8 6 7 6 1; cube 9 0 6 0 1; cube 10 5 5 0 1; cube 11 5 0 5 1].
Definition sample_tree : option onode := build_octree 20 8 sample_objs.
Definition sample_query : wobj := cube 50 (1 # 2) (1 # 2) (1 # 2) 3.
Example sample_splits : match sample_tree with
  | Some t => (length (leaves t), length (genTiles t)) = (8, 7)%nat
  | None => False end.
Proof. vm_compute. reflexivity. Qed.
Example sample_answers : match sample_tree with
  | Some t => (query_intersect t sample_query, map fst (query_within t sample_query 4), map fst (fst (query_nn t sample_query ([], None)))) =
              ([100; 102; 105; 106], [100; 102; 105; 106; 107; 102], [100; 102; 105; 106; 107; 102])%Z
  | None => False end.
Proof. vm_compute. reflexivity. Qed.
Lemma cube_thick n x y z e : 0 < e -> thick (o_box (cube n x y z e)).
Proof. intros H []; cbn; lra. Qed.
Example sample_hypotheses : sizes_ok sample_objs /\ Forall (fun o => thick (o_box o)) sample_objs /\ NoDup sample_objs.
Proof.
  split; [|split].
  - split; [repeat constructor; vm_compute; discriminate|vm_compute; reflexivity].
  - repeat constructor; apply cube_thick; reflexivity.
  - apply (NoDup_map_inv o_ptr). repeat constructor; cbn; intuition discriminate.
Qed.
Example sample_query_thick : thick (o_box sample_query).
Proof. apply cube_thick. reflexivity. Qed.
Example sample_bracketed : let dist o := (mindist (distance (o_box o) (o_box sample_query)) + maxdist (distance (o_box o) (o_box sample_query))) * (1 # 2) in
  forall o, In o sample_objs ->
  mindist (distance (o_box o) (o_box sample_query)) <= dist o <= maxdist (distance (o_box o) (o_box sample_query)).
Proof.
  intros dist o Ho. pose proof (proj1 (Forall_forall _ _) (proj1 (proj2 sample_hypotheses)) o Ho) as T.
  pose proof (mindist_le_maxdist _ _ (thick_wf _ T) (thick_wf _ sample_query_thick)). unfold dist. lra.
Qed.

(** C23 is false: an object without thickness in x, lying on the plane where the universe is halved,
    is dropped by the split, and no query finds it. *)
Definition flat_obj : wobj := Wobj 77 177 (Aab (v3 4 1 1) (v3 4 3 3)) 1.
Definition flat_objs : list wobj := [cube 0 0 0 0 1; cube 1 7 0 0 1; cube 3 0 7 7 1; cube 4 7 7 7 1; flat_obj; cube 5 2 0 0 1].
Definition flat_query : wobj := Wobj 90 190 (Aab (v3 2 0 0) (v3 6 4 4)) 1.
Lemma flat_computed : match build_octree 20 4 flat_objs with
  | Some t => intersect (o_box flat_obj) (o_box flat_query) && negb (existsb (Z.eqb 177) (query_intersect t flat_query)) &&
              negb (existsb (fun x => Z.eqb 177 (fst x)) (query_within t flat_query 1000)) &&
              forallb (fun c => forallb (fun o => negb (Nat.eqb (o_ptr o) 77)) (snd c)) (leaves t)
  | None => false end = true.
Proof. vm_compute. reflexivity. Qed.
Theorem octree_finds_flat_objects_refuted : exists fuel ts objs t o q,
  sizes_ok objs /\ NoDup objs /\ build_octree fuel ts objs = Some t /\ In o objs /\ wf (o_box o) /\ thick (o_box q) /\ o_ptr o <> o_ptr q /\
  intersect (o_box o) (o_box q) = true /\ within (o_box o) (o_box q) /\
  ~ In (o_id o) (query_intersect t q) /\ ~ In (o_id o) (map fst (query_within t q 1000)) /\
  forall b l, In (b, l) (leaves t) -> ~ In o l.
Proof.
  pose proof flat_computed as C. destruct (build_octree 20 4 flat_objs) as [t|] eqn:E; [|discriminate].
  apply andb_prop in C as [C C4]. apply andb_prop in C as [C C3]. apply andb_prop in C as [C1 C2].
  exists 20%nat, 4%Z, flat_objs, t, flat_obj, flat_query.
  split. { split; [repeat constructor; vm_compute; discriminate|vm_compute; reflexivity]. }
  split. { apply (NoDup_map_inv o_ptr). repeat constructor; cbn; intuition discriminate. }
  split; [exact E|]. split; [unfold flat_objs; cbn; auto 8|].
  split; [intros []; cbn; lra|]. split; [intros []; cbn; lra|]. split; [discriminate|]. split; [exact C1|].
  split; [intros []; cbn; lra|]. split; [|split].
  - intros H. apply negb_true_iff in C2. assert (existsb (Z.eqb 177) (query_intersect t flat_query) = true); [|congruence].
    apply existsb_exists. exists 177%Z. split; [exact H|reflexivity].
  - intros H. apply negb_true_iff in C3. apply in_map_iff in H as [x [Ex H]].
    assert (existsb (fun x => Z.eqb 177 (fst x)) (query_within t flat_query 1000) = true); [|congruence].
    apply existsb_exists. exists x. split; [exact H|]. rewrite Ex. reflexivity.
  - intros b l H Ho. rewrite forallb_forall in C4. specialize (C4 _ H). cbn [snd] in C4. rewrite forallb_forall in C4.
    specialize (C4 _ Ho). discriminate.
Qed.
Print Assumptions octree_finds_flat_objects_refuted.

(** C23, the part that holds: an object with positive thickness is found by every thick query box
    it overlaps.  Missing: objects without thickness on a halving plane. *)
Theorem octree_finds_objects_partial : forall fuel ts objs t o q, built fuel ts objs t -> In o objs -> thick (o_box q) ->
  o_ptr o <> o_ptr q -> intersect (o_box o) (o_box q) = true ->
  In (o_id o) (query_intersect t q) /\ exists b l, In (b, l) (leaves t) /\ In o l /\ intersect b (o_box q) = true.
Proof.
  intros fuel ts objs t o q B Ho Tq D X. destruct (built_facts _ _ _ _ B) as [I [F [T A]]]. destruct B as [_ [To _]].
  rewrite Forall_forall in *.
  assert (X2 : intersect (node_box t) (o_box q) = true).
  { apply (intersect_mono (o_box o) (node_box t) (o_box q) (o_box q)); auto. intros a; split; apply Qle_refl. }
  split; [apply (query_intersect_complete t objs q o I T); auto|].
  destruct (leaf_with t objs q o I T (To o Ho) Tq Ho X (A o Ho) X2) as [c [H1 [H2 H3]]].
  exists (fst c), (snd c). rewrite <- surjective_pairing. auto.
Qed.
Print Assumptions octree_finds_objects_partial.

(** C78 is false: weights are added modulo 2^32.  When the sum in an inner node wraps to 0, the next
    object looks like the first one and is put on the node's own list, which no query reads.  All
    objects here have positive thickness and weights below 2^32. *)
Definition heavy (n : nat) (x y z w : Z) : wobj := Wobj n (Z.of_nat n) (Aab (v3 (inject_Z x) (inject_Z y) (inject_Z z)) (v3 (inject_Z (x + 1)) (inject_Z (y + 1)) (inject_Z (z + 1)))) w.
Definition heavy_objs : list wobj := [heavy 0 0 0 0 (2 ^ 30); heavy 1 7 7 7 (2 ^ 30); heavy 2 7 0 0 (2 ^ 31); heavy 3 1 1 1 5].
Definition heavy_query : wobj := Wobj 9 9 (Aab (v3 0 0 0) (v3 8 8 8)) 1.
Lemma heavy_computed : match build_octree 20 (2 ^ 30) heavy_objs with
  | Some t => intersect (o_box (heavy 3 1 1 1 5)) (o_box heavy_query) && forallb (fun i => negb (Z.eqb i 3)) (query_intersect t heavy_query) &&
              forallb (fun x => negb (Z.eqb (fst x) 3)) (query_within t heavy_query 1000) &&
              forallb (fun c => forallb (fun o => negb (Nat.eqb (o_ptr o) 3)) (snd c)) (leaves t)
  | None => false end = true.
Proof. vm_compute. reflexivity. Qed.
Theorem octree_weight_wrap_refuted : exists fuel ts objs t o q,
  Forall (fun o => 0 <= o_size o < 2 ^ 32)%Z objs /\ Forall (fun o => thick (o_box o)) objs /\ build_octree fuel ts objs = Some t /\
  In o objs /\ thick (o_box q) /\ o_ptr o <> o_ptr q /\ intersect (o_box o) (o_box q) = true /\
  ~ In (o_id o) (query_intersect t q) /\ ~ In (o_id o) (map fst (query_within t q 1000)) /\ forall b l, In (b, l) (leaves t) -> ~ In o l.
Proof.
  pose proof heavy_computed as C. destruct (build_octree 20 (2 ^ 30) heavy_objs) as [t|] eqn:E; [|discriminate].
  apply andb_prop in C as [C C4]. apply andb_prop in C as [C C3]. apply andb_prop in C as [C1 C2].
  rewrite forallb_forall in C2, C3, C4.
  exists 20%nat, (2 ^ 30)%Z, heavy_objs, t, (heavy 3 1 1 1 5), heavy_query.
  split. { repeat constructor; vm_compute; discriminate. }
  split. { unfold heavy_objs. repeat (apply Forall_cons; [intros []; vm_compute; reflexivity|]). apply Forall_nil. }
  split; [exact E|]. split; [cbn; auto|]. split; [intros []; cbn; lra|]. split; [discriminate|]. split; [exact C1|].
  split; [intro H; specialize (C2 _ H); discriminate|]. split.
  - intro H. apply in_map_iff in H as [x [Ex H]]. specialize (C3 _ H). cbn in Ex. rewrite Ex in C3. discriminate.
  - intros b l H Ho. specialize (C4 _ H). cbn [snd] in C4. rewrite forallb_forall in C4. specialize (C4 _ Ho). discriminate.
Qed.
Print Assumptions octree_weight_wrap_refuted.

(** C78, the part that holds also then: the objects already reachable stay reachable, on the same
    leaves.  Missing: the new object. *)
Theorem octree_weight_wrap_partial : forall fuel ts b sz can kids o t',
  u32 (sz + o_size o) = o_size o -> addObject fuel ts (Inner b sz can kids) o = Some t' ->
  leaves t' = leaves (Inner b sz can kids) /\ forall q, query_intersect t' q = query_intersect (Inner b sz can kids) q.
Proof.
  intros fuel ts b sz can kids o t' H E. destruct fuel as [|fuel]; [discriminate|]. cbn [addObject] in E.
  rewrite H, Z.eqb_refl in E. injection E as <-. split; reflexivity.
Qed.
Print Assumptions octree_weight_wrap_partial.
Example octree_weight_wrap_nonvacuous : u32 (0 + 5) = 5%Z.
Proof. reflexivity. Qed.
