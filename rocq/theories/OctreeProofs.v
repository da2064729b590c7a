(** Proofs about the octree. *)
From Coq Require Import QArith List Bool ZArith Lia Lqa Permutation.
From Verif Require Import Arr AabModel AabProofs OctreeModel.
Import ListNotations.
Open Scope Z_scope.

(** Total weight of a list of objects. *)
Definition weight (l : list wobj) : Z := fold_right (fun o n => o_size o + n) 0 l.
Definition sizes_ok (l : list wobj) : Prop := Forall (fun o => 0 <= o_size o) l /\ weight l < 2 ^ 32.

Lemma weight_app l m : weight (l ++ m) = weight l + weight m.
Proof. unfold weight. induction l as [|o l IH]; cbn [app fold_right]; lia. Qed.
Lemma weight_nonneg l : Forall (fun o => 0 <= o_size o) l -> 0 <= weight l.
Proof. unfold weight. induction 1; cbn [fold_right]; lia. Qed.
Lemma weight_filter f l : Forall (fun o => 0 <= o_size o) l -> weight (filter f l) <= weight l.
Proof. unfold weight. induction 1; cbn [filter fold_right]; [lia|]. destruct (f x); cbn [fold_right]; lia. Qed.
Lemma Forall_filter {A} (P : A -> Prop) f l : Forall P l -> Forall P (filter f l).
Proof. induction 1; cbn; [constructor|]. destruct (f x); auto. Qed.
Lemma sizes_filter f l : sizes_ok l -> sizes_ok (filter f l).
Proof.
  intros [H W]. split; [now apply Forall_filter|].
  pose proof (weight_filter f l H). lia.
Qed.
Lemma sizes_prefix l m : sizes_ok (l ++ m) -> sizes_ok l.
Proof.
  intros [H W]. apply Forall_app in H as [H1 H2]. rewrite weight_app in W.
  pose proof (weight_nonneg m H2). split; [assumption|lia].
Qed.

(** What a node that has been given the objects [l], in that order, looks like. *)
Definition sees (b : aab) (l : list wobj) : list wobj := filter (fun o => intersect b (o_box o)) l.
Inductive inv : onode -> list wobj -> Prop :=
| inv_leaf b sz can l : sz = weight l -> inv (Leaf b sz can l) l
| inv_inner b sz can kids l : sz = weight l -> 0 < weight l -> map node_box kids = octants b ->
    (forall k, In k kids -> inv k (sees (node_box k) l)) -> inv (Inner b sz can kids) l.

Definition adds (add : onode -> wobj -> option onode) : Prop :=
  forall t o t' l, inv t l -> sizes_ok (l ++ [o]) -> add t o = Some t' -> inv t' (l ++ [o]) /\ node_box t' = node_box t.

Lemma sees_app b l m : sees b (l ++ m) = sees b l ++ sees b m.
Proof. apply filter_app. Qed.

Lemma add_kids_inv add l o : adds add -> sizes_ok (l ++ [o]) ->
  forall kids kids' n, (forall k, In k kids -> inv k (sees (node_box k) l)) -> add_kids add kids o = Some (kids', n) ->
  map node_box kids' = map node_box kids /\ forall k, In k kids' -> inv k (sees (node_box k) (l ++ [o])).
Proof.
  intros A W kids. induction kids as [|k r IH]; intros kids' n I E; cbn [add_kids] in E.
  - injection E as <- <-. split; [reflexivity|]. intros k [].
  - unfold intersects in E. destruct (intersect (node_box k) (o_box o)) eqn:X; cbn [bind] in E.
    + destruct (add k o) as [k'|] eqn:Ek; cbn [bind] in E; [|discriminate].
      destruct (add_kids add r o) as [[r' m]|] eqn:Er; cbn [bind] in E; [|discriminate].
      injection E as <- <-.
      destruct (IH r' m (fun k0 H => I k0 (or_intror H)) eq_refl) as [M F].
      assert (S1 : sees (node_box k) (l ++ [o]) = sees (node_box k) l ++ [o]).
      { rewrite sees_app. f_equal. unfold sees. cbn [filter]. now rewrite X. }
      assert (W1 : sizes_ok (sees (node_box k) l ++ [o])).
      { rewrite <- S1. now apply sizes_filter. }
      destruct (A k o k' _ (I k (or_introl eq_refl)) W1 Ek) as [I' B'].
      split; [cbn [map]; now rewrite B', M|].
      intros k0 [<-|H0]; [|now apply F]. rewrite B'. rewrite S1. exact I'.
    + destruct (add_kids add r o) as [[r' m]|] eqn:Er; cbn [bind] in E; [|discriminate].
      injection E as <- <-.
      destruct (IH r' m (fun k0 H => I k0 (or_intror H)) eq_refl) as [M F].
      split; [cbn [map]; now rewrite M|].
      intros k0 [<-|H0]; [|now apply F].
      rewrite sees_app. unfold sees at 2. cbn [filter]. rewrite X, app_nil_r. apply I. now left.
Qed.

Lemma add_all_inv add : adds add -> forall objs l kids kids' n, sizes_ok (l ++ objs) ->
  (forall k, In k kids -> inv k (sees (node_box k) l)) -> add_all add kids objs = Some (kids', n) ->
  map node_box kids' = map node_box kids /\ forall k, In k kids' -> inv k (sees (node_box k) (l ++ objs)).
Proof.
  intros A objs. induction objs as [|o r IH]; intros l kids kids' n W I E; cbn [add_all] in E.
  - injection E as <- <-. rewrite app_nil_r. auto.
  - destruct (add_kids add kids o) as [[k1 n1]|] eqn:E1; cbn [bind] in E; [|discriminate].
    destruct (add_all add k1 r) as [[k2 n2]|] eqn:E2; cbn [bind] in E; [|discriminate].
    injection E as <- <-.
    replace (l ++ o :: r) with ((l ++ [o]) ++ r) in * by now rewrite <- app_assoc.
    destruct (add_kids_inv add l o A (sizes_prefix _ _ W) _ _ _ I E1) as [M1 F1].
    destruct (IH _ _ _ _ W F1 E2) as [M2 F2]. split; [congruence|assumption].
Qed.

Lemma new_nodes_inv b : forall k, In k (map new_node (octants b)) -> inv k (sees (node_box k) []).
Proof. intros k H. apply in_map_iff in H as [c [<- _]]. now constructor. Qed.

Lemma weight_snoc l o : sizes_ok (l ++ [o]) -> u32 (weight l + o_size o) = weight (l ++ [o]).
Proof.
  intros [F W]. pose proof (weight_nonneg _ F). rewrite weight_app in *. cbn [weight fold_right] in *.
  unfold u32. rewrite Z.mod_small by lia. lia.
Qed.

Lemma addObject_inv fuel ts : adds (addObject fuel ts).
Proof.
  induction fuel as [|f IH]; intros t o t' l I W E; [discriminate|].
  destruct I as [b sz can l E1|b sz can kids l E1 P M F]; subst sz; cbn [addObject] in E.
  - rewrite (weight_snoc _ _ W) in E.
    destruct (weight (l ++ [o]) =? o_size o) eqn:X.
    { injection E as <-. split; [now constructor|reflexivity]. }
    destruct ((ts <? weight (l ++ [o])) && can)%bool.
    + destruct (add_all (addObject f ts) (map new_node (octants b)) (l ++ [o])) as [[kids total]|] eqn:Ea; cbn [bind] in E; [|discriminate].
      destruct (_ <=? _) in E; injection E as <-; (split; [|reflexivity]); [now constructor|].
      destruct (add_all_inv _ IH (l ++ [o]) [] _ _ _ W (new_nodes_inv b) Ea) as [M F].
      constructor; [reflexivity| | |exact F].
      * apply Z.eqb_neq in X. rewrite weight_app in X |- *. cbn [weight fold_right] in X |- *.
        destruct (sizes_prefix _ _ W) as [Fl _]. pose proof (weight_nonneg l Fl). destruct W as [Fo _].
        apply Forall_app in Fo as [_ Fo]. inversion Fo; subst. lia.
      * rewrite M, map_map. cbn [node_box new_node]. apply map_id.
    + destruct (_ <? _) in E; injection E as <-; (split; [now constructor|reflexivity]).
  - rewrite (weight_snoc _ _ W) in E.
    assert (X : (weight (l ++ [o]) =? o_size o) = false).
    { apply Z.eqb_neq. rewrite weight_app. cbn [weight fold_right]. fold (weight l). lia. }
    rewrite X in E.
    destruct (add_kids (addObject f ts) kids o) as [[kids' n]|] eqn:Ek; cbn [bind] in E; [|discriminate].
    injection E as <-.
    destruct (add_kids_inv _ l o IH W kids _ _ F Ek) as [M' F'].
    split; [|reflexivity]. constructor; [reflexivity| |congruence|exact F'].
    pose proof (weight_nonneg _ (proj1 W)). rewrite weight_app in *. cbn [weight fold_right] in *. fold (weight l) in *.
    destruct W as [Fo _]. apply Forall_app in Fo as [_ Fo]. inversion Fo; subst. lia.
Qed.

Lemma insert_all_inv fuel ts objs : forall t l t', inv t l -> sizes_ok (l ++ objs) -> insert_all fuel ts t objs = Some t' ->
  inv t' (l ++ objs) /\ node_box t' = node_box t.
Proof.
  induction objs as [|o r IH]; intros t l t' I W E; cbn [insert_all] in E.
  - injection E as <-. rewrite app_nil_r. auto.
  - destruct (addObject fuel ts t o) as [t1|] eqn:E1; cbn [bind] in E; [|discriminate].
    replace (l ++ o :: r) with ((l ++ [o]) ++ r) in * by now rewrite <- app_assoc.
    destruct (addObject_inv fuel ts t o t1 l I (sizes_prefix _ _ W) E1) as [I1 B1].
    destruct (IH _ _ _ I1 W E) as [I2 B2]. split; [assumption|congruence].
Qed.

(** The root box of build_octree is the least box around the objects. *)
Lemma build_inv fuel ts objs t : sizes_ok objs -> build_octree fuel ts objs = Some t ->
  inv t objs /\ Forall (fun o => within (o_box o) (node_box t)) objs.
Proof.
  unfold build_octree. intros W E.
  destruct (fold_left _ objs None) as [b|] eqn:Eb; cbn [bind] in E; [|discriminate].
  destruct (insert_all_inv fuel ts objs (new_node b) [] t (inv_leaf b 0 true [] eq_refl) W E) as [I B].
  split; [exact I|]. rewrite B. cbn [node_box new_node].
  assert (Eb' : fold_left acc (map (fun o => IBox (o_box o)) objs) None = Some b).
  { rewrite <- Eb. clear. generalize (@None aab). induction objs as [|o r IH]; intros s; cbn; [reflexivity|]. apply IH. }
  destruct objs as [|o0 r0]; [constructor|].
  destruct (accumulate_least (map (fun o => IBox (o_box o)) (o0 :: r0))) as [b' [E1 [C _]]]; [discriminate|].
  rewrite E1 in Eb'. injection Eb' as <-.
  rewrite Forall_forall in C |- *. intros o Ho. exact (C _ (in_map (fun o => IBox (o_box o)) _ _ Ho)).
Qed.

(** Halving a thick box. *)
Open Scope Q_scope.
Lemma mid_between b a : bmin b a < bmax b a -> bmin b a < mid b a < bmax b a.
Proof.
  intros H. unfold mid. setoid_replace ((bmin b a + bmax b a) / 2) with ((bmin b a + bmax b a) * (1 # 2)) by (field; discriminate). lra.
Qed.
Lemma mid_between_le b a : bmin b a <= bmax b a -> bmin b a <= mid b a <= bmax b a.
Proof.
  intros H. unfold mid. setoid_replace ((bmin b a + bmax b a) / 2) with ((bmin b a + bmax b a) * (1 # 2)) by (field; discriminate). lra.
Qed.

Lemma octant_in b (h : axis -> bool) : exists c, In c (octants b) /\ forall a, bmin c a = bmin (octant b h) a /\ bmax c a = bmax (octant b h) a.
Proof.
  exists (octant b (pick (h AX) (h AY) (h AZ))). split.
  - unfold octants. destruct (h AX), (h AY), (h AZ); cbn [map]; repeat (left; reflexivity) || (right); fail.
  - intros []; cbn; auto.
Qed.
Lemma octant_form b c : In c (octants b) -> exists h, c = octant b h.
Proof. unfold octants. intros H. apply in_map_iff in H as [h [<- _]]. now exists h. Qed.
Lemma octant_thick b c : thick b -> In c (octants b) -> thick c.
Proof.
  intros T H. apply octant_form in H as [h ->]. intros a. pose proof (mid_between b a (T a)). cbn. destruct (h a); apply H.
Qed.
Lemma octant_within b c : wf b -> In c (octants b) -> within c b.
Proof.
  intros T H. apply octant_form in H as [h ->]. intros a. pose proof (mid_between_le b a (T a)) as [? ?]. cbn.
  destruct (h a); split; auto with qarith.
Qed.
Lemma octant_wf b c : wf b -> In c (octants b) -> wf c.
Proof.
  intros T H. apply octant_form in H as [h ->]. intros a. pose proof (mid_between_le b a (T a)). cbn. destruct (h a); apply H.
Qed.

Lemma kid_of b kids c : map node_box kids = octants b -> In c (octants b) -> exists k, In k kids /\ node_box k = c.
Proof. intros M H. rewrite <- M in H. apply in_map_iff in H as [k [E H]]. eauto. Qed.

(** Choosing one of the children: by axis, the half is free. *)
Lemma choose_half (b : aab) (P : axis -> Q -> Q -> Prop) :
  (forall a, P a (bmin b a) (mid b a) \/ P a (mid b a) (bmax b a)) ->
  exists c, In c (octants b) /\ forall a, P a (bmin c a) (bmax c a).
Proof.
  intros H.
  assert (exists h : axis -> bool, forall a, P a (bmin (octant b h) a) (bmax (octant b h) a)) as [h Hh].
  { destruct (H AX) as [X|X], (H AY) as [Y|Y], (H AZ) as [Z|Z].
    1: exists (pick false false false). 2: exists (pick false false true). 3: exists (pick false true false).
    4: exists (pick false true true). 5: exists (pick true false false). 6: exists (pick true false true).
    7: exists (pick true true false). 8: exists (pick true true true).
    all: intros []; assumption. }
  destruct (octant_in b h) as [c [I E]]. exists c. split; [exact I|].
  intros a. destruct (E a) as [-> ->]. apply Hh.
Qed.

(** C20.  Objects found by the overlap query. *)
Definition distinct (o q : wobj) : bool := negb (Nat.eqb (o_ptr o) (o_ptr q)).
Lemma sees_In b l o : In o (sees b l) <-> In o l /\ intersect b (o_box o) = true.
Proof. apply filter_In. Qed.

Lemma query_intersect_sound t l q i : inv t l -> In i (query_intersect t q) ->
  exists o, In o l /\ o_id o = i /\ o_ptr o <> o_ptr q /\ intersect (o_box o) (o_box q) = true.
Proof.
  intros I. induction I as [b sz can l E1|b sz can kids l E1 P M F IH]; intros H; cbn [query_intersect] in H.
  - destruct (intersect _ _); [|destruct H].
    apply in_map_iff in H as [o [<- H]]. apply filter_In in H as [H1 H2]. apply andb_prop in H2 as [H2 H3].
    exists o. repeat split; auto. apply negb_true_iff, Nat.eqb_neq in H2. exact H2.
  - destruct (intersect _ _); [|destruct H].
    apply in_flat_map in H as [k [Hk H]]. destruct (IH k Hk H) as [o [Ho R]]. apply sees_In in Ho as [Ho _]. eauto.
Qed.

Lemma query_intersect_complete t l q o : inv t l -> thick (node_box t) -> thick (o_box o) -> thick (o_box q) ->
  In o l -> o_ptr o <> o_ptr q -> intersect (o_box o) (o_box q) = true ->
  intersect (node_box t) (o_box o) = true -> intersect (node_box t) (o_box q) = true -> In (o_id o) (query_intersect t q).
Proof.
  intros I. induction I as [b sz can l E1|b sz can kids l E1 P M F IH]; intros T To Tq Ho D X X1 X2; cbn [query_intersect]; rewrite X2.
  - apply in_map. apply filter_In. split; [exact Ho|]. apply Nat.eqb_neq in D. now rewrite D.
  - cbn [node_box] in *.
    pose proof (proj1 (intersect_spec _ _) X) as Y. pose proof (proj1 (intersect_spec _ _) X1) as Y1. pose proof (proj1 (intersect_spec _ _) X2) as Y2.
    destruct (choose_half b (fun a lo hi => (bmin (o_box o) a < hi /\ lo < bmax (o_box o) a) /\ (bmin (o_box q) a < hi /\ lo < bmax (o_box q) a))) as [c [Hc Hp]].
    { intros a. pose proof (mid_between b a (T a)). specialize (Y a). specialize (Y1 a). specialize (Y2 a).
      specialize (To a). specialize (Tq a).
      destruct (Qltb_spec (bmin (o_box o) a) (mid b a)), (Qltb_spec (bmin (o_box q) a) (mid b a)); [left|right|right|right]; repeat split; lra. }
    destruct (kid_of b kids c M Hc) as [k [Hk Ek]].
    apply in_flat_map. exists k. split; [exact Hk|].
    assert (C1 : intersect (node_box k) (o_box o) = true) by (rewrite Ek; apply intersect_spec; intros a; apply Hp).
    assert (C2 : intersect (node_box k) (o_box q) = true) by (rewrite Ek; apply intersect_spec; intros a; apply Hp).
    apply (IH k Hk); auto.
    + rewrite Ek. now apply (octant_thick b).
    + now apply sees_In.
Qed.

(** Any leaf reached through nodes whose box overlaps the object and contains a given point of it. *)
Lemma thick_wf b : thick b -> wf b.
Proof. intros H a. apply Qlt_le_weak, H. Qed.
Lemma choose_near b o p : thick b -> thick o -> inside p b -> inside p o -> intersect b o = true ->
  exists c, In c (octants b) /\ inside p c /\ intersect c o = true.
Proof.
  intros T To Pb Po X. pose proof (proj1 (intersect_spec _ _) X) as Y.
  destruct (choose_half b (fun a lo hi => lo <= p a <= hi /\ bmin o a < hi /\ lo < bmax o a)) as [c [Hc Hp]].
  { intros a. pose proof (mid_between b a (T a)). specialize (Y a). specialize (To a). specialize (Pb a). specialize (Po a).
    destruct (Qltb_spec (p a) (mid b a)); [left; repeat split; lra|].
    destruct (Qltb_spec (mid b a) (p a)); [right; repeat split; lra|].
    destruct (Qltb_spec (bmin o a) (mid b a)); [left|right]; repeat split; lra. }
  exists c. split; [exact Hc|]. split; [intros a; apply Hp|]. apply intersect_spec. intros a. split; apply Hp.
Qed.

(** C21. *)
Lemma query_within_sound t l q d i r : inv t l -> In (i, r) (query_within t q d) ->
  exists o, In o l /\ o_id o = i /\ o_ptr o <> o_ptr q /\ r = distance (o_box o) (o_box q) /\ mindist r <= d.
Proof.
  intros I. induction I as [b sz can l E1|b sz can kids l E1 P M F IH]; intros H; cbn [query_within] in H.
  - destruct (Qle_bool _ _); [|destruct H].
    apply in_map_iff in H as [o [E H]]. injection E as <- <-. apply filter_In in H as [H1 H2]. apply andb_prop in H2 as [H2 H3].
    exists o. apply negb_true_iff, Nat.eqb_neq in H2. apply Qle_bool_iff in H3. auto.
  - destruct (Qle_bool _ _); [|destruct H].
    apply in_flat_map in H as [k [Hk H]]. destruct (IH k Hk H) as [o [Ho R]]. apply sees_In in Ho as [Ho _]. eauto.
Qed.
Lemma query_within_complete t l q d o p p' : inv t l -> thick (node_box t) -> thick (o_box o) ->
  inside p (o_box o) -> inside p' (o_box q) -> dist2 p p' <= d ->
  In o l -> o_ptr o <> o_ptr q -> inside p (node_box t) -> intersect (node_box t) (o_box o) = true ->
  In (o_id o, distance (o_box o) (o_box q)) (query_within t q d).
Proof.
  intros I. induction I as [b sz can l E1|b sz can kids l E1 P M F IH]; intros T To Po Pq Hd Ho D Pt X; cbn [query_within].
  - assert (mindist (distance (node_box (Leaf b sz can l)) (o_box q)) <= d) by (eapply Qle_trans; [now apply mindist_lower|exact Hd]).
    apply Qle_bool_iff in H. rewrite H.
    apply in_map_iff. exists o. split; [reflexivity|]. apply filter_In. split; [exact Ho|].
    apply Nat.eqb_neq in D. rewrite D. apply Qle_bool_iff. eapply Qle_trans; [now apply mindist_lower|exact Hd].
  - assert (mindist (distance (node_box (Inner b sz can kids)) (o_box q)) <= d) by (eapply Qle_trans; [now apply mindist_lower|exact Hd]).
    apply Qle_bool_iff in H. rewrite H. cbn [node_box] in *.
    destruct (choose_near b (o_box o) p T To Pt Po X) as [c [Hc [Pc Xc]]].
    destruct (kid_of b kids c M Hc) as [k [Hk Ek]].
    apply in_flat_map. exists k. split; [exact Hk|]. apply (IH k Hk); auto; try (rewrite Ek; auto).
    + now apply (octant_thick b).
    + apply sees_In. auto.
Qed.

(** C22. *)
Section Nearest.
  Variable q : wobj.
  Variable dist : wobj -> Q.
  (** The objects of the tree. *)
  Variable all : list wobj.
  Hypothesis bracket : forall o, In o all -> o_ptr o <> o_ptr q ->
    mindist (distance (o_box o) (o_box q)) <= dist o <= maxdist (distance (o_box o) (o_box q)).
  Variable n : wobj.
  Hypothesis n_in : In n all.
  Hypothesis n_other : o_ptr n <> o_ptr q.
  Hypothesis n_nearest : forall o, In o all -> o_ptr o <> o_ptr q -> dist n <= dist o.
  Let entry := (o_id n, distance (o_box n) (o_box q)).
  Definition stems (x : Z * range) : Prop :=
    exists o, In o all /\ o_ptr o <> o_ptr q /\ x = (o_id o, distance (o_box o) (o_box q)).
  Definition nn_good (s : nn_state) : Prop :=
    Forall stems (fst s) /\ match snd s with None => True | Some m => dist n <= m end.

  Lemma update_stems d : forall m l, (length l <= m)%nat -> Forall stems l -> Forall stems (fst (update_distance_list d l)).
  Proof.
    induction m as [|m IH]; intros l L S; destruct l as [|x r]; cbn [length] in L; try lia; try constructor.
    cbn [update_distance_list]. inversion S as [|? ? Sx Sr]; subst.
    assert (Q : Forall stems (fst match r with [] => ([], true) | y :: r' => let (l', k) := update_distance_list d r' in (y :: l', k) end)).
    { destruct r as [|y r']; [constructor|]. cbn [length] in L. inversion Sr; subst.
      specialize (IH r' ltac:(lia) H2). destruct (update_distance_list d r') as [l' k]. cbn [fst] in *. now constructor. }
    destruct (range_lt (snd x) d); [constructor; assumption|]. destruct (range_gt (snd x) d); [assumption|constructor; assumption].
  Qed.
  Lemma update_keeps o : In o all -> o_ptr o <> o_ptr q -> forall m l, (length l <= m)%nat ->
    In entry l -> In entry (fst (update_distance_list (distance (o_box o) (o_box q)) l)).
  Proof.
    intros Ho Do. induction m as [|m IH]; intros l L S; destruct l as [|x r]; cbn [length] in L; try lia; try (now destruct S).
    cbn [update_distance_list].
    assert (Q : In entry r -> In entry (fst match r with [] => ([], true) | y :: r' => let (l', k) := update_distance_list (distance (o_box o) (o_box q)) r' in (y :: l', k) end)).
    { intros H. destruct r as [|y r']; [destruct H|]. cbn [length] in L.
      specialize (IH r' ltac:(lia)). destruct (update_distance_list _ r') as [l' k]. cbn [fst] in *.
      destruct H as [->|H]; [now left|right; now apply IH]. }
    destruct S as [->|S].
    - assert (X : range_gt (snd entry) (distance (o_box o) (o_box q)) = false).
      { unfold range_gt. cbn [snd entry]. destruct (Qltb_spec (maxdist (distance (o_box o) (o_box q))) (mindist (distance (o_box n) (o_box q)))); [|reflexivity].
        pose proof (bracket o Ho Do). pose proof (bracket n n_in n_other). pose proof (n_nearest o Ho Do). lra. }
      rewrite X. destruct (range_lt _ _); cbn [fst]; now left.
    - destruct (range_lt _ _); [right; auto|]. destruct (range_gt _ _); [cbn [fst]; auto|right; auto].
  Qed.
  Lemma update_accepts : forall m l, (length l <= m)%nat -> Forall stems l ->
    snd (update_distance_list (distance (o_box n) (o_box q)) l) = true.
  Proof.
    induction m as [|m IH]; intros l L S; destruct l as [|x r]; cbn [length] in L; try lia; try reflexivity.
    cbn [update_distance_list]. inversion S as [|? ? Sx Sr]; subst.
    assert (X : range_lt (snd x) (distance (o_box n) (o_box q)) = false).
    { destruct Sx as [o [Ho [Do ->]]]. unfold range_lt. cbn [snd].
      destruct (Qltb_spec (maxdist (distance (o_box o) (o_box q))) (mindist (distance (o_box n) (o_box q)))); [|reflexivity].
      pose proof (bracket o Ho Do). pose proof (bracket n n_in n_other). pose proof (n_nearest o Ho Do). lra. }
    rewrite X.
    assert (Q : snd match r with [] => ([], true) | y :: r' => let (l', k) := update_distance_list (distance (o_box n) (o_box q)) r' in (y :: l', k) end = true).
    { destruct r as [|y r']; [reflexivity|]. cbn [length] in L. inversion Sr; subst.
      specialize (IH r' ltac:(lia) H2). destruct (update_distance_list _ r') as [l' k]. exact IH. }
    destruct (range_gt _ _); exact Q.
  Qed.

  Lemma le_bound_good x m : x <= dist n -> match m with None => True | Some y => dist n <= y end -> le_bound x m = true.
  Proof. intros H B. destruct m; cbn; [|reflexivity]. apply Qle_bool_iff. eapply Qle_trans; eauto. Qed.

  Lemma nn_object_good s o : In o all -> nn_good s ->
    nn_good (nn_object q s o) /\ (In entry (fst s) \/ o = n -> In entry (fst (nn_object q s o))).
  Proof.
    intros Ho G. destruct s as [cand mm]. destruct G as [S B]. cbn [fst snd] in *. unfold nn_object.
    destruct (Nat.eqb_spec (o_ptr o) (o_ptr q)) as [E|Do].
    { split; [now split|]. intros [H| ->]; [exact H|contradiction]. }
    assert (BO := bracket o Ho Do). assert (NO := n_nearest o Ho Do).
    destruct (le_bound (mindist (distance (o_box o) (o_box q))) mm) eqn:L.
    - pose proof (update_stems (distance (o_box o) (o_box q)) _ cand (le_n _) S) as S'.
      pose proof (update_keeps o Ho Do _ cand (le_n _)) as K'.
      assert (A' : o = n -> snd (update_distance_list (distance (o_box o) (o_box q)) cand) = true).
      { intros ->. now apply (update_accepts _ cand (le_n _)). }
      destruct (update_distance_list (distance (o_box o) (o_box q)) cand) as [cand' keep]. cbn [fst snd] in *.
      destruct keep.
      + split; [split; cbn [fst snd]|].
        * apply Forall_app. split; [assumption|]. constructor; [|constructor]. exists o. auto.
        * destruct mm as [y|]; [destruct (Qltb _ y)|]; lra.
        * cbn [fst]. intros [H| ->]; apply in_or_app; [left; auto|right; now left].
      + split; [now split|]. intros [H|H]; [cbn; auto|]. specialize (A' H). discriminate.
    - split; [now split|]. intros [H| ->]; [exact H|].
      rewrite le_bound_good in L; [discriminate| |assumption]. apply (bracket n n_in n_other).
  Qed.

  Lemma nn_objects_good objs : forall s, (forall o, In o objs -> In o all) -> nn_good s ->
    nn_good (fold_left (nn_object q) objs s) /\ (In entry (fst s) \/ In n objs -> In entry (fst (fold_left (nn_object q) objs s))).
  Proof.
    induction objs as [|o r IH]; intros s A G; cbn [fold_left].
    - split; [assumption|]. intros [H|[]]; exact H.
    - destruct (nn_object_good s o (A o (or_introl eq_refl)) G) as [G1 K1].
      destruct (IH (nn_object q s o) (fun x H => A x (or_intror H)) G1) as [G2 K2].
      split; [exact G2|]. intros [H|[H|H]]; apply K2; auto.
  Qed.

  Lemma query_nn_good t l : inv t l -> (forall o, In o l -> In o all) -> forall s, nn_good s ->
    nn_good (query_nn t q s) /\ (In entry (fst s) -> In entry (fst (query_nn t q s))).
  Proof.
    intros I. induction I as [b sz can l E1|b sz can kids l E1 P M F IH]; intros A s G; cbn [query_nn].
    - destruct (le_bound _ _); [|auto]. destruct (nn_objects_good l s A G) as [G1 K1]. split; auto.
    - destruct (le_bound _ _); [|auto]. clear P M E1.
      revert s G. induction kids as [|k r IHk]; intros s G; cbn [fold_left]; [auto|].
      assert (Ak : forall o, In o (sees (node_box k) l) -> In o all) by (intros o Ho; apply sees_In in Ho as [Ho _]; auto).
      destruct (IH k (or_introl eq_refl) Ak s G) as [G1 K1].
      destruct (IHk (fun k0 H => F k0 (or_intror H)) (fun k0 H => IH k0 (or_intror H)) _ G1) as [G2 K2]. auto.
  Qed.

  Lemma query_nn_finds t l p p' : inv t l -> (forall o, In o l -> In o all) -> thick (node_box t) -> thick (o_box n) ->
    inside p (o_box n) -> inside p' (o_box q) -> dist2 p p' <= dist n ->
    In n l -> inside p (node_box t) -> intersect (node_box t) (o_box n) = true -> forall s, nn_good s ->
    In entry (fst (query_nn t q s)).
  Proof.
    intros I. induction I as [b sz can l E1|b sz can kids l E1 P M F IH]; intros A T Tn Pn Pq Hd Hn Pt X s G; cbn [query_nn].
    - rewrite le_bound_good; [|eapply Qle_trans; [now apply mindist_lower|exact Hd]|apply G].
      destruct (nn_objects_good l s A G) as [G1 K1]. auto.
    - rewrite le_bound_good; [|eapply Qle_trans; [now apply mindist_lower|exact Hd]|apply G].
      cbn [node_box] in *.
      destruct (choose_near b (o_box n) p T Tn Pt Pn X) as [c [Hc [Pc Xc]]].
      destruct (kid_of b kids c M Hc) as [k [Hk Ek]].
      assert (Ak : forall k o, In o (sees (node_box k) l) -> In o all) by (intros k0 o Ho; apply sees_In in Ho as [Ho _]; auto).
      assert (Q : forall s, nn_good s -> In entry (fst (query_nn k q s))).
      { apply (IH k Hk (Ak k)); try assumption; try (rewrite Ek; assumption); [rewrite Ek; now apply (octant_thick b)|apply sees_In; rewrite Ek; auto]. }
      clear IH P M E1. revert s G. induction kids as [|k0 r IHk]; intros s G; cbn [fold_left]; [destruct Hk|].
      assert (Rest : forall ks s, (forall k, In k ks -> inv k (sees (node_box k) l)) -> nn_good s -> In entry (fst s) ->
        In entry (fst (fold_left (fun s k => query_nn k q s) ks s))).
      { induction ks as [|k1 ks IHs]; intros s' F' G' H'; cbn [fold_left]; [exact H'|].
        destruct (query_nn_good k1 _ (F' k1 (or_introl eq_refl)) (Ak k1) s' G') as [G1 K1].
        apply IHs; [intros; apply F'; now right|assumption|auto]. }
      destruct (query_nn_good k0 _ (F k0 (or_introl eq_refl)) (Ak k0) s G) as [G1 K1].
      destruct Hk as [->|Hk].
      + apply Rest; [intros; apply F; now right|assumption|now apply Q].
      + apply IHk; auto. intros k1 H1. apply F. now right.
  Qed.
End Nearest.

(** C24, C25. *)
Fixpoint leaves (t : onode) : list (aab * list wobj) :=
  match t with Leaf b _ _ objs => [(b, objs)] | Inner _ _ _ kids => flat_map leaves kids end.

Lemma leaves_cover t l p : inv t l -> wf (node_box t) -> inside p (node_box t) -> exists c, In c (leaves t) /\ inside p (fst c).
Proof.
  intros I. induction I as [b sz can l E1|b sz can kids l E1 P M F IH]; intros W Hp; cbn [leaves node_box] in *.
  - exists (b, l). split; [now left|exact Hp].
  - destruct (choose_half b (fun a lo hi => lo <= p a <= hi)) as [c [Hc Pc]].
    { intros a. specialize (Hp a). destruct (Qlt_le_dec (p a) (mid b a)); [left|right]; split; lra. }
    destruct (kid_of b kids c M Hc) as [k [Hk Ek]].
    destruct (IH k Hk) as [c' [H1 H2]]; [rewrite Ek; now apply (octant_wf b)|rewrite Ek; exact Pc|].
    exists c'. split; [apply in_flat_map; eauto|exact H2].
Qed.
Lemma within_trans a b c : within a b -> within b c -> within a c.
Proof. intros H1 H2 x. destruct (H1 x), (H2 x). split; eapply Qle_trans; eauto. Qed.
Lemma leaves_within t l c : inv t l -> wf (node_box t) -> In c (leaves t) -> within (fst c) (node_box t).
Proof.
  intros I. induction I as [b sz can l E1|b sz can kids l E1 P M F IH]; intros W H; cbn [leaves node_box] in *.
  - destruct H as [<-|[]]. intros a. cbn. split; apply Qle_refl.
  - apply in_flat_map in H as [k [Hk H]].
    assert (In (node_box k) (octants b)) by (rewrite <- M; now apply in_map).
    eapply within_trans; [apply (IH k Hk); [now apply (octant_wf b)|exact H]|now apply octant_within].
Qed.
Lemma leaves_thick t l c : inv t l -> thick (node_box t) -> In c (leaves t) -> thick (fst c).
Proof.
  intros I. induction I as [b sz can l E1|b sz can kids l E1 P M F IH]; intros T H; cbn [leaves node_box] in *.
  - now destruct H as [<-|[]].
  - apply in_flat_map in H as [k [Hk H]]. apply (IH k Hk); [|exact H].
    apply (octant_thick b); [exact T|]. rewrite <- M. now apply in_map.
Qed.
Definition apart (c d : aab) : Prop := forall p, strictly_inside p c -> strictly_inside p d -> False.
Lemma octants_apart b : wf b -> ForallOrdPairs apart (octants b).
Proof.
  intros W. unfold octants. cbn [map].
  repeat (constructor; [repeat constructor; intros p H1 H2;
    try (specialize (H1 AX); specialize (H2 AX); cbn in H1, H2; lra);
    try (specialize (H1 AY); specialize (H2 AY); cbn in H1, H2; lra);
    specialize (H1 AZ); specialize (H2 AZ); cbn in H1, H2; lra|]). constructor.
Qed.
Lemma apart_within c c' d d' : within c c' -> within d d' -> apart c' d' -> apart c d.
Proof.
  intros H1 H2 H p Pc Pd. apply (H p); intros a; [specialize (H1 a); specialize (Pc a)|specialize (H2 a); specialize (Pd a)]; lra.
Qed.
Lemma FOP_app {A} (R : A -> A -> Prop) l m : ForallOrdPairs R l -> ForallOrdPairs R m -> (forall x y, In x l -> In y m -> R x y) -> ForallOrdPairs R (l ++ m).
Proof.
  intros Hl Hm H. induction Hl as [|x l F Hl IH]; cbn [app]; [exact Hm|]. constructor.
  - apply Forall_app. split; [exact F|]. apply Forall_forall. intros y Hy. apply H; [now left|exact Hy].
  - apply IH. intros; apply H; [now right|assumption].
Qed.
Lemma FOP_flat_map {A B} (R : B -> B -> Prop) (S : A -> A -> Prop) (f : A -> list B) l :
  (forall x, In x l -> ForallOrdPairs R (f x)) -> ForallOrdPairs S l ->
  (forall x y u v, In x l -> In y l -> S x y -> In u (f x) -> In v (f y) -> R u v) -> ForallOrdPairs R (flat_map f l).
Proof.
  intros H1 H2 H. induction H2 as [|x l F H2 IH]; cbn [flat_map]; [constructor|].
  apply FOP_app; [apply H1; now left|apply IH; [intros; apply H1; now right|intros; eapply H; eauto; now right]|].
  intros u v Hu Hv. apply in_flat_map in Hv as [y [Hy Hv]]. rewrite Forall_forall in F.
  eapply H; eauto; [now left|now right].
Qed.
Lemma FOP_map {A B} (R : B -> B -> Prop) (f : A -> B) l : ForallOrdPairs R (map f l) <-> ForallOrdPairs (fun x y => R (f x) (f y)) l.
Proof.
  induction l as [|x l IH]; cbn [map]; split; intros H; try constructor; inversion H as [|? ? F G]; subst.
  - now apply Forall_map.
  - now apply IH.
  - now apply Forall_map.
  - now apply IH.
Qed.
Lemma leaves_apart t l : inv t l -> wf (node_box t) -> ForallOrdPairs (fun c d => apart (fst c) (fst d)) (leaves t).
Proof.
  intros I. induction I as [b sz can l E1|b sz can kids l E1 P M F IH]; intros W; cbn [leaves node_box] in *.
  - repeat constructor.
  - assert (In_oct : forall k, In k kids -> In (node_box k) (octants b)) by (intros k Hk; rewrite <- M; now apply in_map).
    apply (FOP_flat_map _ (fun k k' => apart (node_box k) (node_box k'))).
    + intros k Hk. apply IH; [exact Hk|]. apply (octant_wf b); auto.
    + apply (FOP_map apart node_box). rewrite M. now apply octants_apart.
    + intros x y u v Hx Hy S Hu Hv. apply (apart_within _ (node_box x) _ (node_box y)); [| |exact S].
      * apply (leaves_within x _ u (F x Hx)); [apply (octant_wf b); auto|exact Hu].
      * apply (leaves_within y _ v (F y Hy)); [apply (octant_wf b); auto|exact Hv].
Qed.

Lemma sees_sees b c l : within c b -> sees c (sees b l) = sees c l.
Proof.
  intros W. unfold sees. induction l as [|o l IH]; cbn [filter]; [reflexivity|].
  destruct (intersect b (o_box o)) eqn:X; cbn [filter]; rewrite IH; [reflexivity|].
  destruct (intersect c (o_box o)) eqn:Y; [|reflexivity].
  rewrite (intersect_mono c b (o_box o) (o_box o)) in X; [discriminate|exact W|intros a; split; apply Qle_refl|exact Y].
Qed.
Lemma sees_all b l : Forall (fun o => intersect b (o_box o) = true) l -> sees b l = l.
Proof. induction 1 as [|o l H F IH]; [reflexivity|]. unfold sees in *. cbn [filter]. now rewrite H, IH. Qed.
(** The contents of every leaf. *)
Lemma leaf_contents t l c : inv t l -> wf (node_box t) -> Forall (fun o => intersect (node_box t) (o_box o) = true) l ->
  In c (leaves t) -> snd c = sees (fst c) l.
Proof.
  intros I. induction I as [b sz can l E1|b sz can kids l E1 P M F IH]; intros W A H; cbn [leaves node_box] in *.
  - destruct H as [<-|[]]. cbn [fst snd]. symmetry. now apply sees_all.
  - apply in_flat_map in H as [k [Hk H]].
    assert (Ok : In (node_box k) (octants b)) by (rewrite <- M; now apply in_map).
    assert (Wk : wf (node_box k)) by now apply (octant_wf b).
    rewrite (IH k Hk Wk); [|apply Forall_forall; intros o Ho; now apply sees_In in Ho as [_ Ho]|exact H].
    apply sees_sees. exact (leaves_within k _ c (F k Hk) Wk H).
Qed.
Lemma genTiles_leaves t : genTiles t = map fst (filter (fun c => match snd c with [] => false | _ => true end) (leaves t)).
Proof.
  assert (G : forall n t, (fix size t := match t with Leaf _ _ _ _ => 1%nat | Inner _ _ _ kids => S (fold_right (fun k m => size k + m)%nat 0%nat kids) end) t = n ->
    genTiles t = map fst (filter (fun c => match snd c with [] => false | _ => true end) (leaves t))); [|eauto].
  induction n as [n IH] using lt_wf_ind. intros [b sz can objs|b sz can kids] E; cbn [genTiles leaves].
  - destruct objs; reflexivity.
  - assert (K : forall k, In k kids -> genTiles k = map fst (filter (fun c => match snd c with [] => false | _ => true end) (leaves k))).
    { intros k Hk. eapply IH; [|reflexivity]. rewrite <- E. cbn. clear - Hk.
      induction kids as [|k0 r IHr]; [destruct Hk|]. destruct Hk as [->|Hk]; cbn [fold_right]; [lia|]. specialize (IHr Hk). lia. }
    clear - K. induction kids as [|k r IHr]; cbn [flat_map]; [reflexivity|].
    rewrite filter_app, map_app, <- (K k (or_introl eq_refl)), <- IHr; [reflexivity|]. intros; apply K; now right.
Qed.

(** A leaf overlapping both an object and a box that overlap. *)
Lemma leaf_with t l q o : inv t l -> thick (node_box t) -> thick (o_box o) -> thick (o_box q) -> In o l ->
  intersect (o_box o) (o_box q) = true -> intersect (node_box t) (o_box o) = true -> intersect (node_box t) (o_box q) = true ->
  exists c, In c (leaves t) /\ In o (snd c) /\ intersect (fst c) (o_box q) = true.
Proof.
  intros I. induction I as [b sz can l E1|b sz can kids l E1 P M F IH]; intros T To Tq Ho X X1 X2; cbn [leaves].
  - exists (b, l). split; [now left|]. split; assumption.
  - cbn [node_box] in *.
    pose proof (proj1 (intersect_spec _ _) X) as Y. pose proof (proj1 (intersect_spec _ _) X1) as Y1. pose proof (proj1 (intersect_spec _ _) X2) as Y2.
    destruct (choose_half b (fun a lo hi => (bmin (o_box o) a < hi /\ lo < bmax (o_box o) a) /\ (bmin (o_box q) a < hi /\ lo < bmax (o_box q) a))) as [c [Hc Hp]].
    { intros a. pose proof (mid_between b a (T a)). specialize (Y a). specialize (Y1 a). specialize (Y2 a).
      specialize (To a). specialize (Tq a).
      destruct (Qltb_spec (bmin (o_box o) a) (mid b a)), (Qltb_spec (bmin (o_box q) a) (mid b a)); [left|right|right|right]; repeat split; lra. }
    destruct (kid_of b kids c M Hc) as [k [Hk Ek]].
    destruct (IH k Hk) as [c' [H1 [H2 H3]]]; auto.
    + rewrite Ek. now apply (octant_thick b).
    + apply sees_In. split; [exact Ho|]. rewrite Ek. apply intersect_spec. intros a; apply Hp.
    + rewrite Ek. apply intersect_spec. intros a; apply Hp.
    + rewrite Ek. apply intersect_spec. intros a; apply Hp.
    + exists c'. split; [apply in_flat_map; eauto|auto].
Qed.
