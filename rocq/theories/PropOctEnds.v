(** Whether building the octree comes to an end, /repo/src/index/octree.cpp:31-102 and 206-218. *)
From Coq Require Import QArith List Bool ZArith Lia Lqa.
From Verif Require Import Arr AabModel AabProofs OctreeModel OctreeProofs PropOctree PropOctSplit.
Import ListNotations.
Open Scope Z_scope.

(** * Splits that never end *)
Fixpoint offer (add : onode -> wobj -> option onode) (t : onode) (l : list wobj) : option onode :=
  match l with [] => Some t | o :: r => do t' <- add t o; offer add t' r end.
Lemma offer_insert fuel ts l : forall t, insert_all fuel ts t l = offer (addObject fuel ts) t l.
Proof. induction l as [|o r IH]; intro t; cbn [insert_all offer]; [reflexivity|]. destruct (addObject fuel ts t o); cbn [bind]; [apply IH|reflexivity]. Qed.
Lemma add_kids_each add o : forall kids kids' n, add_kids add kids o = Some (kids', n) ->
  Forall2 (fun k k' => if intersect (node_box k) (o_box o) then add k o = Some k' else k' = k) kids kids'.
Proof.
  induction kids as [|k r IH]; intros kids' n H; cbn [add_kids] in H; [injection H as <- <-; constructor|]. unfold intersects in H.
  destruct (intersect (node_box k) (o_box o)) eqn:X.
  - destruct (add k o) as [k'|] eqn:E; [|discriminate H]. cbn [bind] in H. destruct (add_kids add r o) as [[r' m]|]; [|discriminate H]. cbn [bind] in H. injection H as <- <-. constructor; [rewrite X; exact E|exact (IH _ _ eq_refl)].
  - destruct (add_kids add r o) as [[r' m]|]; [|discriminate H]. cbn [bind] in H. injection H as <- <-. constructor; [rewrite X; reflexivity|exact (IH _ _ eq_refl)].
Qed.
Lemma add_all_each add : keeps add -> forall objs kids kids' n, add_all add kids objs = Some (kids', n) -> 
  Forall2 (fun k k' => offer add k (filter (fun o => intersect (node_box k) (o_box o)) objs) = Some k') kids kids'.
Proof.
  intro K. induction objs as [|o r IH]; intros kids kids' n H; cbn [add_all] in H.
  - injection H as <- <-. clear. induction kids as [|k l IH]; constructor; [reflexivity|exact IH].
  - destruct (add_kids add kids o) as [[k1 n1]|] eqn:E1; [|discriminate H]. cbn [bind] in H. destruct (add_all add k1 r) as [[k2 n2]|] eqn:E2; [|discriminate H]. cbn [bind] in H. injection H as <- _.
    apply add_kids_each in E1. apply IH in E2. clear IH. revert k2 E2. induction E1 as [|k k' l l' H1 H2 IH2]; intros k2 E2; inversion E2; subst; constructor; [|apply IH2; assumption].
    cbn [filter]. destruct (intersect (node_box k) (o_box o)); [cbn [offer]; rewrite H1; cbn [bind]; rewrite <- (K _ _ _ H1); assumption|subst k'; assumption].
Qed.
Lemma octant_at b p : inside p b -> exists c, In c (octants b) /\ inside p c.
Proof.
  intro H. destruct (octant_in b (fun a => Qle_bool (mid b a) (p a))) as (c & I & E). exists c. split; [exact I|]. intro a. destruct (E a) as [-> ->]. specialize (H a). cbn [octant bmin bmax].
  destruct (Qle_bool (mid b a) (p a)) eqn:Q; [apply Qle_bool_iff in Q; lra|]. assert (X : (p a < mid b a)%Q). { destruct (Qlt_le_dec (p a) (mid b a)) as [Y|Y]; [exact Y|]. apply Qle_bool_iff in Y. congruence. } lra.
Qed.
Lemma sum_app l m : sum_sizes (l ++ m) = sum_sizes l + sum_sizes m.
Proof. unfold sum_sizes. induction l as [|x l IH]; cbn [app fold_right]; lia. Qed.
Lemma sum_pos l : Forall (fun o => 0 < o_size o) l -> 0 <= sum_sizes l /\ (l <> [] -> 0 < sum_sizes l).
Proof. unfold sum_sizes. induction 1 as [|x l H F [IH _]]; cbn [fold_right]; [split; [lia|contradiction]|split; [lia|intros _; lia]]. Qed.
Lemma filter_all {A} (f : A -> bool) l : (forall x, In x l -> f x = true) -> filter f l = l.
Proof. induction l as [|x l IH]; intro H; cbn [filter]; [reflexivity|]. rewrite (H x (or_introl eq_refl)), IH; [reflexivity|]. intros y Hy. apply H. right. exact Hy. Qed.

Lemma never_ends ts p : forall fuel b objs, inside p b -> Forall (fun o => 0 < o_size o) objs -> Forall (fun o => strictly_inside p (o_box o)) objs ->
  sum_sizes objs < 2 ^ 32 -> (2 <= length objs)%nat -> ts < sum_sizes objs -> insert_all fuel ts (new_node b) objs = None.
Proof.
  induction fuel as [|f IH]; intros b objs Hp F S W L T.
  - destruct objs; [cbn [length] in L; lia|]. reflexivity.
  - assert (G : forall rest l, Forall (fun o => 0 < o_size o) (l ++ rest) -> Forall (fun o => strictly_inside p (o_box o)) (l ++ rest) -> sum_sizes (l ++ rest) < 2 ^ 32 -> (2 <= length (l ++ rest))%nat ->
      ts < sum_sizes (l ++ rest) -> (length l <= 1)%nat \/ sum_sizes l <= ts -> insert_all (Datatypes.S f) ts (Leaf b (sum_sizes l) true l) rest = None).
    { clear objs F S W L T. induction rest as [|o r IHr]; intros l F S W L T H.
      - exfalso. rewrite app_nil_r in *. lia.
      - assert (AP : l ++ o :: r = (l ++ [o]) ++ r) by (rewrite <- app_assoc; reflexivity). rewrite AP in *. cbn [insert_all addObject].
        assert (S1 : sum_sizes (l ++ [o]) = sum_sizes l + o_size o) by (rewrite sum_app; unfold sum_sizes; cbn [fold_right]; lia).
        pose proof F as F'. apply Forall_app in F'. destruct F' as [F1 F2]. pose proof F1 as F1'. apply Forall_app in F1'. destruct F1' as [F3 F4]. inversion F4 as [|? ? PO _]; subst.
        destruct (sum_pos _ F2) as [P2 _]. destruct (sum_pos _ F3) as [P3 P3']. rewrite <- S1. assert (U : u32 (sum_sizes (l ++ [o])) = sum_sizes (l ++ [o])) by (unfold u32; apply Z.mod_small; rewrite sum_app in W; lia).
        rewrite U. destruct (Z.eqb_spec (sum_sizes (l ++ [o])) (o_size o)) as [E|E].
        + cbn [bind]. assert (l = []) by (destruct l; [reflexivity|]; assert (0 < sum_sizes (w :: l)) by (apply P3'; discriminate); lia). subst l. cbn [app] in *. apply IHr; auto.
        + assert (NE : l <> []). { intros ->. apply E. unfold sum_sizes. cbn [app fold_right]. lia. }
          assert (LL : (2 <= length (l ++ [o]))%nat) by (rewrite app_length; destruct l; [contradiction|cbn [length]; lia]).
          destruct (Z.ltb_spec ts (sum_sizes (l ++ [o]))) as [G|G]; cbn [andb].
          * destruct (add_all (addObject f ts) (map new_node (octants b)) (l ++ [o])) as [[kids total]|] eqn:A; [|reflexivity]. exfalso.
            apply add_all_each in A; [|apply addObject_box]. destruct (octant_at b p Hp) as (c & Ic & Hc).
            assert (Ik : In (new_node c) (map new_node (octants b))) by (apply in_map; exact Ic). clear - A Ik Hc IH F1 S W LL G F2 P2.
            assert (S' : Forall (fun o => strictly_inside p (o_box o)) (l ++ [o])) by (apply Forall_app in S; apply S).
            assert (FA : filter (fun o0 => intersect c (o_box o0)) (l ++ [o]) = l ++ [o]).
            { apply filter_all. intros x Hx. rewrite Forall_forall in S'. specialize (S' x Hx). apply intersect_spec. intro a. specialize (S' a). specialize (Hc a). lra. }
            assert (X : exists k', offer (addObject f ts) (new_node c) (filter (fun o0 => intersect (node_box (new_node c)) (o_box o0)) (l ++ [o])) = Some k').
            { induction A as [|k k' ks ks' H1 H2 IH2]; [destruct Ik|]. destruct Ik as [->|Ik]; [exists k'; exact H1|exact (IH2 Ik)]. }
            destruct X as (k' & X). cbn [new_node node_box] in X. rewrite FA, <- offer_insert in X. change (Leaf c 0 true []) with (new_node c) in X. rewrite IH in X; [discriminate X| | | | | |]; auto. rewrite sum_app in W. lia.
          * assert (X : (if 3 * ts <? 2 * sum_sizes (l ++ [o]) then Some (Leaf b (sum_sizes (l ++ [o])) true (l ++ [o])) else Some (Leaf b (sum_sizes (l ++ [o])) true (l ++ [o]))) = Some (Leaf b (sum_sizes (l ++ [o])) true (l ++ [o]))) by (destruct (_ <? _); reflexivity).
            rewrite X. cbn [bind]. apply IHr; auto. }
    exact (G objs [] F S W L T (or_introl (Nat.le_0_l 1))).
Qed.

(** C161: two or more objects with a common inner point and together heavier than a leaf may be:
    the octants are split without end, whatever stands behind them in the list. *)
Theorem octree_build_ends_refuted : forall ts p objs others, Forall (fun o => 0 < o_size o) objs -> Forall (fun o => strictly_inside p (o_box o)) objs ->
  sizes_ok (objs ++ others) -> (2 <= length objs)%nat -> ts < sum_sizes objs -> forall fuel, build_octree fuel ts (objs ++ others) = None.
Proof.
  intros ts p objs others F S W L T fuel. destruct (build_octree fuel ts (objs ++ others)) as [t|] eqn:E; [|reflexivity]. exfalso.
  destruct (build_inv fuel ts _ t W E) as [_ FW]. unfold build_octree in E. destruct (fold_left _ (objs ++ others) None) as [b|]; [|discriminate E]. cbn [bind] in E.
  destruct (insert_all_inv fuel ts (objs ++ others) (new_node b) [] t) as [_ B]; [constructor; reflexivity|exact W|exact E|]. cbn [new_node node_box] in B. rewrite B in FW.
  assert (WO : sizes_ok objs) by (apply sizes_prefix in W; exact W).
  assert (Hp : inside p b). { destruct objs as [|o r]; [cbn [length] in L; lia|]. inversion S as [|? ? So _]; subst. inversion FW as [|? ? Fo _]; subst. intro a. specialize (So a). specialize (Fo a). lra. }
  assert (X : insert_all fuel ts (new_node b) objs = None) by (apply (never_ends ts p); auto; exact (proj2 WO)).
  assert (Y : forall l1 l2 t, insert_all fuel ts t l1 = None -> insert_all fuel ts t (l1 ++ l2) = None).
  { induction l1 as [|o r IH]; intros l2 t0 H; [discriminate H|]. cbn [app insert_all] in *. destruct (addObject fuel ts t0 o); cbn [bind] in *; [apply IH; exact H|reflexivity]. }
  rewrite (Y _ _ _ X) in E. discriminate E.
Qed.
Print Assumptions octree_build_ends_refuted.
(** The joins build the tree with leaves of 400 objects, each of weight 1 (SpatialJoin.cpp:127, 175,
    240): 401 boxes with a common inner point. *)
Definition stacked (i : nat) : wobj := Wobj i (Z.of_nat i) (Aab (fun _ => inject_Z (- Z.of_nat i)) (fun _ => inject_Z (1 + Z.of_nat i))) 1.
Example octree_build_nonvacuous : forall fuel, build_octree fuel 400 (map stacked (seq 0 401)) = None.
Proof.
  intro fuel. rewrite <- (app_nil_r (map stacked (seq 0 401))). apply (octree_build_ends_refuted 400 (fun _ => 1 # 2)%Q).
  - apply Forall_forall. intros o Ho. apply in_map_iff in Ho. destruct Ho as (i & <- & _). cbn [stacked o_size]. lia.
  - apply Forall_forall. intros o Ho. apply in_map_iff in Ho. destruct Ho as (i & <- & _). intro a. cbn [stacked o_box bmin bmax]. rewrite inject_Z_opp, inject_Z_plus. change (inject_Z 1) with 1%Q.
    assert (X : (0 <= inject_Z (Z.of_nat i))%Q) by (change 0%Q with (inject_Z 0); rewrite <- Zle_Qle; lia). lra.
  - rewrite app_nil_r. split; [apply Forall_forall; intros o Ho; apply in_map_iff in Ho; destruct Ho as (i & <- & _); cbn [stacked o_size]; lia|vm_compute; reflexivity].
  - rewrite map_length, seq_length. lia.
  - vm_compute. reflexivity.
Qed.

(** * Splits that end *)
(** No side of the box is longer than [d]. *)
Definition slim (d : Q) (b : aab) : Prop := forall a, (bmax b a - bmin b a <= d)%Q.
Fixpoint doubled (d : Q) (n : nat) : Q := match n with O => d | S k => (2 * doubled d k)%Q end.
Inductive fine : nat -> onode -> Prop :=
| f_leaf n b sz can l : fine n (Leaf b sz can l)
| f_inner n b sz can kids : (forall k, In k kids -> fine n k) -> fine (S n) (Inner b sz can kids).
Lemma octant_slim d b c : slim (2 * d)%Q b -> In c (octants b) -> slim d c.
Proof.
  intros H I a. apply octant_form in I. destruct I as [h ->]. specialize (H a). cbn [octant bmin bmax]. unfold mid.
  assert (E : ((bmin b a + bmax b a) / 2 == (bmin b a + bmax b a) * (1 # 2))%Q) by (field; discriminate). destruct (h a); lra.
Qed.

Section Ends.
  Variable ts : Z.
  Variable d : Q.
  (** The objects that reach a small box fit into a leaf. *)
  Definition sparse (L : list wobj) : Prop := forall c, slim d c -> weight (sees c L) <= ts.
  Lemma weight_filter2 f (g : wobj -> bool) l : Forall (fun o => 0 <= o_size o) l -> weight (filter f (filter g l)) <= weight (filter f l).
  Proof. unfold weight. induction 1 as [|x l H F IH]; cbn [filter fold_right]; [lia|]. destruct (g x); cbn [filter]; destruct (f x); cbn [fold_right]; lia. Qed.
  Lemma sparse_sees c L : Forall (fun o => 0 <= o_size o) L -> sparse L -> sparse (sees c L).
  Proof. intros F S e He. specialize (S e He). unfold sees in *. pose proof (weight_filter2 (fun o => intersect e (o_box o)) (fun o => intersect c (o_box o)) L F). lia. Qed.
  Lemma sparse_prefix l m : Forall (fun o => 0 <= o_size o) (l ++ m) -> sparse (l ++ m) -> sparse l.
  Proof.
    intros F S e He. specialize (S e He). unfold sees in *. rewrite filter_app, weight_app in S. apply Forall_app in F. destruct F as [_ F].
    pose proof (weight_nonneg (filter (fun o => intersect e (o_box o)) m) (Forall_filter _ _ _ F)). lia.
  Qed.

  Definition ready (n : nat) (add : onode -> wobj -> option onode) : Prop := forall t o l, slim (doubled d n) (node_box t) -> inv t l -> sizes_ok (l ++ [o]) -> sparse (l ++ [o]) ->
    (forall x, In x (l ++ [o]) -> intersect (node_box t) (o_box x) = true) -> fine n t -> exists t', add t o = Some t' /\ fine n t'.
  Lemma kids_end n add l o : ready n add -> adds add -> sizes_ok (l ++ [o]) -> sparse (l ++ [o]) -> forall kids,
    (forall k, In k kids -> inv k (sees (node_box k) l) /\ fine n k /\ slim (doubled d n) (node_box k)) -> exists kids' w, add_kids add kids o = Some (kids', w) /\ forall k, In k kids' -> fine n k.
  Proof.
    intros R AD W S kids. induction kids as [|k r IH]; intro H; cbn [add_kids]; [exists [], 0; split; [reflexivity|intros k []]|].
    destruct (IH (fun k0 H0 => H k0 (or_intror H0))) as (r' & m & E & Fr). destruct (H k (or_introl eq_refl)) as (I & Fk & Sk). unfold intersects. destruct (intersect (node_box k) (o_box o)) eqn:X.
    - assert (S1 : sees (node_box k) (l ++ [o]) = sees (node_box k) l ++ [o]) by (rewrite sees_app; f_equal; unfold sees; cbn [filter]; rewrite X; reflexivity).
      destruct (R k o (sees (node_box k) l) Sk I) as (k' & Ek & Fk').
      + rewrite <- S1. apply sizes_filter. exact W.
      + rewrite <- S1. apply sparse_sees; [exact (proj1 W)|exact S].
      + intros x Hx. rewrite <- S1 in Hx. unfold sees in Hx. apply filter_In in Hx. apply Hx.
      + exact Fk.
      + rewrite Ek, E. cbn [bind]. exists (k' :: r'), (m + o_size o). split; [reflexivity|]. intros k0 [<-|H0]; [exact Fk'|exact (Fr k0 H0)].
    - rewrite E. cbn [bind]. exists (k :: r'), m. split; [reflexivity|]. intros k0 [<-|H0]; [exact Fk|exact (Fr k0 H0)].
  Qed.
  Lemma all_end n add : ready n add -> adds add -> forall objs l kids, sizes_ok (l ++ objs) -> sparse (l ++ objs) ->
    (forall k, In k kids -> inv k (sees (node_box k) l) /\ fine n k /\ slim (doubled d n) (node_box k)) -> exists kids' w, add_all add kids objs = Some (kids', w) /\ forall k, In k kids' -> fine n k.
  Proof.
    intros R AD. induction objs as [|o r IH]; intros l kids W S H; cbn [add_all]; [exists kids, 0; split; [reflexivity|intros k Hk; apply H; exact Hk]|].
    assert (AP : l ++ o :: r = (l ++ [o]) ++ r) by (rewrite <- app_assoc; reflexivity). rewrite AP in *.
    pose proof (sizes_prefix _ _ W) as W1. pose proof (sparse_prefix _ _ (proj1 W) S) as S1.
    destruct (kids_end n add l o R AD W1 S1 kids H) as (k1 & n1 & E & F1). rewrite E. cbn [bind].
    destruct (add_kids_inv add l o AD W1 kids k1 n1 (fun k Hk => proj1 (H k Hk)) E) as [MB IV].
    destruct (IH (l ++ [o]) k1 W S) as (k2 & n2 & E2 & F2).
    - intros k Hk. split; [apply IV; exact Hk|]. split; [apply F1; exact Hk|]. assert (B : In (node_box k) (map node_box kids)) by (rewrite <- MB; apply in_map; exact Hk). apply in_map_iff in B. destruct B as (k0 & <- & B). apply H. exact B.
    - rewrite E2. cbn [bind]. exists k2, (n1 + n2). split; [reflexivity|exact F2].
  Qed.
  Lemma add_ends : forall n fuel, (n < fuel)%nat -> ready n (addObject fuel ts).
  Proof.
    induction n as [|n IH]; intros [|f] LT t o l SL I W S X F; try lia.
    - inversion F as [? b sz can l0|]; subst. inversion I; subst. cbn [addObject node_box] in *.
      rewrite (weight_snoc l o W). assert (WB : weight (l ++ [o]) <= ts). { specialize (S b SL). unfold sees in S. rewrite filter_all in S; [exact S|exact X]. }
      destruct (_ =? _); [eexists; split; [reflexivity|constructor]|]. destruct (Z.ltb_spec ts (weight (l ++ [o]))); [lia|]. cbn [andb]. destruct (_ <? _); eexists; (split; [reflexivity|constructor]).
    - assert (R : ready n (addObject f ts)) by (apply IH; lia). cbn [doubled] in SL. destruct I as [b sz can l E1|b sz can kids l E1 P M FI]; subst sz; cbn [addObject node_box] in *; rewrite (weight_snoc l o W).
      + destruct (_ =? _); [eexists; split; [reflexivity|constructor]|]. destruct ((ts <? _) && can)%bool.
        * destruct (all_end n _ R (addObject_inv f ts) (l ++ [o]) [] (map new_node (octants b)) W S) as (kids & w & E & FK).
          { intros k Hk. split; [exact (new_nodes_inv b k Hk)|]. apply in_map_iff in Hk. destruct Hk as (c & <- & Ic). split; [constructor|]. exact (octant_slim _ b c SL Ic). }
          rewrite E. cbn [bind]. destruct (_ <=? _); eexists; (split; [reflexivity|]); [constructor|constructor; exact FK].
        * destruct (_ <? _); eexists; (split; [reflexivity|constructor]).
      + assert (FKS : forall k, In k kids -> fine n k) by (inversion F; assumption). destruct (_ =? _); [eexists; split; [reflexivity|constructor; exact FKS]|].
        destruct (kids_end n _ l o R (addObject_inv f ts) W S kids) as (kids' & w & E & FK).
        { intros k Hk. split; [apply FI; exact Hk|]. split; [apply FKS; exact Hk|]. apply (octant_slim _ b); [exact SL|]. rewrite <- M. apply in_map. exact Hk. }
        rewrite E. cbn [bind]. eexists. split; [reflexivity|constructor; exact FK].
  Qed.
End Ends.

Lemma acc_box_some objs : forall acc, (acc <> None \/ objs <> []) -> exists b, fold_left (fun acc o => acc_box acc (o_box o)) objs acc = Some b.
Proof.
  induction objs as [|o r IH]; intros acc H; cbn [fold_left]; [destruct acc as [b|]; [exists b; reflexivity|destruct H; contradiction]|].
  apply IH. left. destruct acc; discriminate.
Qed.

Lemma fold_box_from objs : forall b0 b, fold_left (fun acc o => acc_box acc (o_box o)) objs (Some b0) = Some b ->
  within b0 b /\ Forall (fun o => within (o_box o) b) objs /\ forall a, (bmin b a = bmin b0 a \/ exists o, In o objs /\ bmin b a = bmin (o_box o) a) /\ (bmax b a = bmax b0 a \/ exists o, In o objs /\ bmax b a = bmax (o_box o) a).
Proof.
  induction objs as [|o r IH]; intros b0 b H; cbn [fold_left] in H.
  - injection H as <-. split; [intro a; lra|]. split; [constructor|]. intro a. split; left; reflexivity.
  - cbn [acc_box] in H. destruct (IH _ _ H) as (W & F & A). cbn [update_box bmin bmax] in A.
    assert (W0 : within b0 b /\ within (o_box o) b).
    { split; intro a; specialize (W a); cbn [update_box bmin bmax] in W; pose proof (upd_min_spec (bmin b0 a) (bmin (o_box o) a)); pose proof (upd_max_spec (bmax b0 a) (bmax (o_box o) a)); lra. }
    split; [apply W0|]. split; [constructor; [apply W0|exact F]|]. intro a. destruct (A a) as [A1 A2]. clear A. unfold upd_min in A1. unfold upd_max in A2. split.
    + destruct A1 as [A1|(x & Hx & A1)]; [|right; exists x; split; [right; exact Hx|exact A1]]. clear A2. destruct (Qltb _ _); [right; exists o; split; [left; reflexivity|exact A1]|left; exact A1].
    + destruct A2 as [A2|(x & Hx & A2)]; [|right; exists x; split; [right; exact Hx|exact A2]]. clear A1. destruct (Qltb _ _); [right; exists o; split; [left; reflexivity|exact A2]|left; exact A2].
Qed.
Lemma fold_acc_box objs b : fold_left (fun acc o => acc_box acc (o_box o)) objs None = Some b ->
  Forall (fun o => within (o_box o) b) objs /\ forall a, exists o1 o2, In o1 objs /\ In o2 objs /\ bmin b a = bmin (o_box o1) a /\ bmax b a = bmax (o_box o2) a.
Proof.
  destruct objs as [|o r]; cbn [fold_left acc_box]; intro H; [discriminate H|]. destruct (fold_box_from _ _ _ H) as (W & F & A). split; [constructor; assumption|]. intro a. destruct (A a) as [A1 A2].
  assert (X : exists o1, In o1 (o :: r) /\ bmin b a = bmin (o_box o1) a) by (destruct A1 as [A1|(x & Hx & A1)]; [exists o; split; [left; reflexivity|exact A1]|exists x; split; [right; exact Hx|exact A1]]).
  assert (Y : exists o2, In o2 (o :: r) /\ bmax b a = bmax (o_box o2) a) by (destruct A2 as [A2|(x & Hx & A2)]; [exists o; split; [left; reflexivity|exact A2]|exists x; split; [right; exact Hx|exact A2]]).
  destruct X as (o1 & X1 & X2), Y as (o2 & Y1 & Y2). exists o1, o2. auto.
Qed.

(** What does hold of C161: if any box with sides of at most [d] meets objects that fit into a leaf,
    building ends, at a depth at which the boxes have become that small. *)
Theorem octree_build_ends_partial : forall ts d n objs, objs <> [] -> sizes_ok objs -> Forall (fun o => thick (o_box o)) objs ->
  (forall c, slim d c -> sum_sizes (filter (fun o => intersect c (o_box o)) objs) <= ts) ->
  (forall o o' a, In o objs -> In o' objs -> bmax (o_box o') a - bmin (o_box o) a <= doubled d n)%Q ->
  forall fuel, (n < fuel)%nat -> exists t, build_octree fuel ts objs = Some t.
Proof.
  intros ts d n objs NE W T SP B fuel LT. unfold build_octree. destruct (acc_box_some objs None (or_intror NE)) as (b & Eb). rewrite Eb. cbn [bind].
  destruct (fold_acc_box objs b Eb) as (FW & SL). 
  assert (G : forall rest l t, objs = l ++ rest -> node_box t = b -> inv t l -> fine n t -> exists t', insert_all fuel ts t rest = Some t').
  { induction rest as [|o r IH]; intros l t EO NB I F; cbn [insert_all]; [exists t; reflexivity|].
    assert (AP : objs = (l ++ [o]) ++ r) by (rewrite EO, <- app_assoc; reflexivity). assert (W1 : sizes_ok (l ++ [o])) by (rewrite AP in W; exact (sizes_prefix _ _ W)).
    destruct (add_ends ts d n fuel LT t o l) as (t' & E & F').
    - rewrite NB. intro a. destruct (SL a) as (o1 & o2 & H1 & H2 & -> & ->). apply B; assumption.
    - exact I.
    - exact W1.
    - apply (sparse_prefix ts d (l ++ [o]) r); rewrite <- AP; [exact (proj1 W)|exact SP].
    - intros x Hx. assert (Hx' : In x objs) by (rewrite AP; apply in_app_iff; left; exact Hx). rewrite NB. rewrite Forall_forall in FW, T. apply intersect_container; auto.
    - exact F.
    - rewrite E. cbn [bind]. destruct (addObject_inv fuel ts t o t' l I W1 E) as [I' B']. apply (IH (l ++ [o]) t'); auto. congruence. }
  apply (G objs [] (new_node b)); [reflexivity|reflexivity|constructor; reflexivity|constructor].
Qed.
Print Assumptions octree_build_ends_partial.
(** Three unit cubes with gaps: any box of sides up to 1/2 meets at most one of them. *)
Definition spaced (i : nat) : wobj := Wobj i (Z.of_nat i) (Aab (fun _ => inject_Z (2 * Z.of_nat i)) (fun _ => inject_Z (2 * Z.of_nat i + 1))) 1.
Example octree_build_partial_nonvacuous : let objs := map spaced [0; 1; 2]%nat in
  objs <> [] /\ sizes_ok objs /\ Forall (fun o => thick (o_box o)) objs /\ (forall c, slim (1 # 2) c -> sum_sizes (filter (fun o => intersect c (o_box o)) objs) <= 1) /\
  (forall o o' a, In o objs -> In o' objs -> bmax (o_box o') a - bmin (o_box o) a <= doubled (1 # 2) 4)%Q /\ match build_octree 5 1 objs with Some (Leaf _ 3 true l) => l = objs | _ => False end.
Proof.
  cbv zeta. split; [discriminate|]. split; [split; [repeat constructor; discriminate|reflexivity]|]. split; [repeat constructor; intro a; reflexivity|]. split; [|split].
  - intros c Hc. cbn [map filter]. assert (N : forall i j, (i < j)%nat -> intersect c (o_box (spaced i)) = true -> intersect c (o_box (spaced j)) = true -> False).
    { intros i j L H1 H2. rewrite intersect_spec in H1, H2. specialize (H1 AX). specialize (H2 AX). specialize (Hc AX). cbn [spaced o_box bmin bmax] in H1, H2. rewrite inject_Z_plus in H1. change (inject_Z 1) with 1%Q in H1.
      assert (X : (inject_Z (2 * Z.of_nat i) + 2 <= inject_Z (2 * Z.of_nat j))%Q) by (change 2%Q with (inject_Z 2); rewrite <- inject_Z_plus, <- Zle_Qle; lia). lra. }
    pose proof (N 0 1)%nat. pose proof (N 0 2)%nat. pose proof (N 1 2)%nat. destruct (intersect c (o_box (spaced 0))), (intersect c (o_box (spaced 1))), (intersect c (o_box (spaced 2))); cbn [sum_sizes fold_right spaced o_size]; try lia; exfalso; auto.
  - intros o o' a H H'. cbn [map In] in H, H'. destruct H as [<-|[<-|[<-|[]]]], H' as [<-|[<-|[<-|[]]]]; vm_compute; discriminate.
  - vm_compute. reflexivity.
Qed.
