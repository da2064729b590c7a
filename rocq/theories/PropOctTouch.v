(** C161, sharper: which objects make the building of an octree end, /repo/src/index/octree.cpp:31-102, 206-218. *)
From Coq Require Import QArith Qround List Bool ZArith Lia Lqa.
From Verif Require Import Arr AabModel AabProofs OctreeModel OctreeProofs PropOctree PropOctSplit PropOctEnds.
Import ListNotations.
Open Scope Z_scope.

(** * Boxes that only touch *)
(** A chain of octants, each of which meets all the objects. *)
Lemma chain_never_ends ts (R : aab -> Prop) (P : wobj -> Prop) :
  (forall b, R b -> exists c, In c (octants b) /\ R c) -> (forall b o, R b -> P o -> intersect b (o_box o) = true) ->
  forall fuel b objs, R b -> Forall (fun o => 0 < o_size o) objs -> Forall P objs ->
  sum_sizes objs < 2 ^ 32 -> (2 <= length objs)%nat -> ts < sum_sizes objs -> insert_all fuel ts (new_node b) objs = None.
Proof.
  intros RC RP. induction fuel as [|f IH]; intros b objs Hp F S W L T.
  - destruct objs; [cbn [length] in L; lia|]. reflexivity.
  - assert (G : forall rest l, Forall (fun o => 0 < o_size o) (l ++ rest) -> Forall P (l ++ rest) -> sum_sizes (l ++ rest) < 2 ^ 32 -> (2 <= length (l ++ rest))%nat ->
      ts < sum_sizes (l ++ rest) -> (length l <= 1)%nat \/ sum_sizes l <= ts -> insert_all (Datatypes.S f) ts (Leaf b (sum_sizes l) true l) rest = None).
    { clear objs F S W L T. induction rest as [|o r IHr]; intros l F S W L T H.
      - exfalso. rewrite app_nil_r in *. lia.
      - assert (AP : l ++ o :: r = (l ++ [o]) ++ r) by (rewrite <- app_assoc; reflexivity). rewrite AP in *. cbn [insert_all addObject].
        assert (S1 : sum_sizes (l ++ [o]) = sum_sizes l + o_size o) by (rewrite sum_app; unfold sum_sizes; cbn [fold_right]; lia).
        pose proof F as F'. apply Forall_app in F'. destruct F' as [F1 F2]. pose proof F1 as F1'. apply Forall_app in F1'. destruct F1' as [F3 F4]. inversion F4 as [|? ? PO _]; subst.
        destruct (sum_pos _ F2) as [P2 _]. destruct (sum_pos _ F3) as [P3 P3']. rewrite <- S1. assert (U : u32 (sum_sizes (l ++ [o])) = sum_sizes (l ++ [o])) by (unfold u32; apply Z.mod_small; rewrite sum_app in W; lia).
        rewrite U. destruct (Z.eqb_spec (sum_sizes (l ++ [o])) (o_size o)) as [E|E].
        + cbn [bind]. assert (l = []) by (destruct l; [reflexivity|]; assert (0 < sum_sizes (w :: l)) by (apply P3'; discriminate); lia). subst l. cbn [app] in *. apply IHr; auto.
        + assert (NE : l <> []). { intros ->. apply E. unfold sum_sizes. cbn [app fold_right]. lia. }
          assert (LL : (2 <= length (l ++ [o]))%nat) by (rewrite app_length; destruct l; [contradiction|cbn [length]; lia]).
          destruct (Z.ltb_spec ts (sum_sizes (l ++ [o]))) as [G|G]; cbn [andb].
          * destruct (add_all (addObject f ts) (map new_node (octants b)) (l ++ [o])) as [[kids total]|] eqn:A; [|reflexivity]. exfalso.
            apply add_all_each in A; [|apply addObject_box]. destruct (RC b Hp) as (c & Ic & Hc).
            assert (Ik : In (new_node c) (map new_node (octants b))) by (apply in_map; exact Ic). clear - A Ik Hc IH F1 S W LL G F2 P2 RP.
            assert (S' : Forall P (l ++ [o])) by (apply Forall_app in S; apply S).
            assert (FA : filter (fun o0 => intersect c (o_box o0)) (l ++ [o]) = l ++ [o]).
            { apply filter_all. intros x Hx. rewrite Forall_forall in S'. exact (RP c x Hc (S' x Hx)). }
            assert (X : exists k', offer (addObject f ts) (new_node c) (filter (fun o0 => intersect (node_box (new_node c)) (o_box o0)) (l ++ [o])) = Some k').
            { induction A as [|k k' ks ks' H1 H2 IH2]; [destruct Ik|]. destruct Ik as [->|Ik]; [exists k'; exact H1|exact (IH2 Ik)]. }
            destruct X as (k' & X). cbn [new_node node_box] in X. rewrite FA, <- offer_insert in X. change (Leaf c 0 true []) with (new_node c) in X. rewrite IH in X; [discriminate X| | | | | |]; auto. rewrite sum_app in W. lia.
          * assert (X : (if 3 * ts <? 2 * sum_sizes (l ++ [o]) then Some (Leaf b (sum_sizes (l ++ [o])) true (l ++ [o])) else Some (Leaf b (sum_sizes (l ++ [o])) true (l ++ [o]))) = Some (Leaf b (sum_sizes (l ++ [o])) true (l ++ [o]))) by (destruct (_ <? _); reflexivity).
            rewrite X. cbn [bind]. apply IHr; auto. }
    exact (G objs [] F S W L T (or_introl (Nat.le_0_l 1))).
Qed.

(** A value at which boxes are cut when the side from [lo] to [hi] is halved again and again, or an end of it. *)
Definition cut (lo hi x : Q) : Prop := exists (m : nat) (k : Z), (x * inject_Z (2 ^ Z.of_nat m) == lo * inject_Z (2 ^ Z.of_nat m) + (hi - lo) * inject_Z k)%Q.

Lemma pow_q m : (inject_Z (2 ^ Z.of_nat (S m)) == 2 * inject_Z (2 ^ Z.of_nat m))%Q.
Proof. rewrite Nat2Z.inj_succ, Z.pow_succ_r by lia. rewrite inject_Z_mult. reflexivity. Qed.
Lemma cut_low lo hi x : cut lo ((lo + hi) / 2) x -> cut lo hi x.
Proof.
  intros (m & k & E). exists (S m), k. rewrite pow_q. set (q := inject_Z (2 ^ Z.of_nat m)) in *. set (z := inject_Z k) in *.
  assert (X : ((lo + hi) / 2 == (lo + hi) * (1 # 2))%Q) by (field; discriminate). rewrite X in E. lra.
Qed.
Lemma cut_high lo hi x : cut ((lo + hi) / 2) hi x -> cut lo hi x.
Proof.
  intros (m & k & E). exists (S m), (k + 2 ^ Z.of_nat m). rewrite pow_q, inject_Z_plus. set (q := inject_Z (2 ^ Z.of_nat m)) in *. set (z := inject_Z k) in *.
  assert (X : ((lo + hi) / 2 == (lo + hi) * (1 # 2))%Q) by (field; discriminate). rewrite X in E. lra.
Qed.

Lemma cut_eq lo lo' hi hi' x : (lo == lo')%Q -> (hi == hi')%Q -> cut lo hi x -> cut lo' hi' x.
Proof. intros A B (m & k & E). exists m, k. rewrite <- A, <- B. exact E. Qed.
Lemma cut_ends lo hi : cut lo hi lo /\ cut lo hi hi /\ cut lo hi ((lo + hi) / 2).
Proof.
  assert (X : ((lo + hi) / 2 == (lo + hi) * (1 # 2))%Q) by (field; discriminate).
  split; [exists 0%nat, 0|split; [exists 0%nat, 1|exists 1%nat, 1]].
  - change (inject_Z (2 ^ Z.of_nat 0)) with 1%Q. change (inject_Z 0) with 0%Q. lra.
  - change (inject_Z (2 ^ Z.of_nat 0)) with 1%Q. change (inject_Z 1) with 1%Q. lra.
  - change (inject_Z (2 ^ Z.of_nat 1)) with 2%Q. change (inject_Z 1) with 1%Q. rewrite X. lra.
Qed.
Lemma cut_x lo hi x y : (x == y)%Q -> cut lo hi x -> cut lo hi y.
Proof. intros A (m & k & E). exists m, k. rewrite <- A. exact E. Qed.

Section Touch.
  Variable p : vec.
  Definition uncut (b : aab) : Prop := forall a, (bmin b a < p a < bmax b a)%Q /\ ~ cut (bmin b a) (bmax b a) (p a).
  Lemma uncut_step b : uncut b -> exists c, In c (octants b) /\ uncut c.
  Proof.
    intros U. destruct (octant_in b (fun a => Qle_bool (mid b a) (p a))) as (c & I & E). exists c. split; [exact I|]. intros a.
    destruct (E a) as [-> ->]. destruct (U a) as [[L H] N]. cbn [octant bmin bmax].
    assert (M : ~ (p a == mid b a)%Q) by (intro X; apply N; apply (cut_x _ _ (mid b a)); [symmetry; exact X|exact (proj2 (proj2 (cut_ends _ _)))]).
    destruct (Qle_bool (mid b a) (p a)) eqn:Q.
    - apply Qle_bool_iff in Q. split; [split; [|exact H]|].
      + destruct (Qlt_le_dec (mid b a) (p a)) as [Y|Y]; [exact Y|]. exfalso. apply M. lra.
      + intro X. apply N. apply cut_high. exact X.
    - split; [split; [exact L|]|].
      + destruct (Qlt_le_dec (p a) (mid b a)) as [Y|Y]; [exact Y|]. apply Qle_bool_iff in Y. congruence.
      + intro X. apply N. apply cut_low. exact X.
  Qed.
  Lemma uncut_meets b o : uncut b -> inside p (o_box o) -> intersect b (o_box o) = true.
  Proof. intros U I. apply intersect_spec. intros a. destruct (U a) as [[L H] _]. specialize (I a). lra. Qed.
End Touch.

(** C161 is false already for boxes that touch: the objects at the head of the list have a point in
    common, on their surfaces perhaps, at which no box is ever cut.  [lo] and [hi] are the corners of
    the box around all objects. *)
Theorem octree_touch_ends_refuted : forall ts (p lo hi : vec) objs others,
  Forall (fun o => 0 < o_size o) objs -> Forall (fun o => inside p (o_box o)) objs ->
  sizes_ok (objs ++ others) -> (2 <= length objs)%nat -> ts < sum_sizes objs ->
  (forall a, (forall o, In o (objs ++ others) -> lo a <= bmin (o_box o) a /\ bmax (o_box o) a <= hi a)%Q /\
             (exists o, In o (objs ++ others) /\ bmin (o_box o) a == lo a)%Q /\ (exists o, In o (objs ++ others) /\ bmax (o_box o) a == hi a)%Q /\
             ~ cut (lo a) (hi a) (p a)) ->
  forall fuel, build_octree fuel ts (objs ++ others) = None.
Proof.
  intros ts p lo hi objs others F S W L T HL fuel. unfold build_octree.
  assert (NE : objs ++ others <> []) by (destruct objs; [cbn [length] in L; lia|discriminate]).
  destruct (acc_box_some (objs ++ others) None (or_intror NE)) as (b & Eb). rewrite Eb. cbn [bind].
  destruct (fold_acc_box _ b Eb) as (FW & SL).
  assert (U : uncut p b).
  { intros a. destruct (HL a) as (B & (o3 & I3 & E3) & (o4 & I4 & E4) & N). destruct (SL a) as (o1 & o2 & I1 & I2 & E1 & E2).
    rewrite Forall_forall in FW. pose proof (FW o3 I3 a) as W3. pose proof (FW o4 I4 a) as W4. pose proof (B o1 I1) as B1. pose proof (B o2 I2) as B2.
    assert (X1 : (bmin b a == lo a)%Q) by (rewrite E1 in *; lra). assert (X2 : (bmax b a == hi a)%Q) by (rewrite E2 in *; lra).
    assert (Nb : ~ cut (bmin b a) (bmax b a) (p a)) by (intro X; apply N; exact (cut_eq _ _ _ _ _ X1 X2 X)). split; [|exact Nb].
    destruct objs as [|o r]; [cbn [length] in L; lia|]. pose proof (Forall_inv S a) as So. pose proof (FW o (or_introl eq_refl) a) as Wo. cbn beta in So.
    destruct (cut_ends (bmin b a) (bmax b a)) as (C1 & C2 & _). split.
    - destruct (Qlt_le_dec (bmin b a) (p a)) as [Y|Y]; [exact Y|]. exfalso. apply Nb. apply (cut_x _ _ (bmin b a)); [lra|exact C1].
    - destruct (Qlt_le_dec (p a) (bmax b a)) as [Y|Y]; [exact Y|]. exfalso. apply Nb. apply (cut_x _ _ (bmax b a)); [lra|exact C2]. }
  assert (X : insert_all fuel ts (new_node b) objs = None).
  { apply (chain_never_ends ts (uncut p) (fun o => inside p (o_box o)) (uncut_step p) (uncut_meets p)); auto. apply sizes_prefix in W. exact (proj2 W). }
  revert X. generalize (new_node b). clear. induction objs as [|o r IH]; intros t H; [discriminate H|]. cbn [app insert_all] in *.
  destruct (addObject fuel ts t o); cbn [bind] in *; [apply IH; exact H|reflexivity].
Qed.
Print Assumptions octree_touch_ends_refuted.

Lemma third_uncut : ~ cut 0 3 1.
Proof.
  intros (m & k & E). assert (X : (inject_Z (2 ^ Z.of_nat m) == inject_Z (3 * k))%Q) by (rewrite inject_Z_mult; change (inject_Z 3) with 3%Q; lra).
  apply (proj1 (inject_Z_injective _ _)) in X. clear E. assert (Y : forall n, (2 ^ Z.of_nat n) mod 3 <> 0).
  { induction n as [|n IH]; [discriminate|]. rewrite Nat2Z.inj_succ, Z.pow_succ_r by lia.
    pose proof (Z.div_mod (2 ^ Z.of_nat n) 3 ltac:(lia)). pose proof (Z.mod_pos_bound (2 ^ Z.of_nat n) 3 ltac:(lia)).
    intro Z0. apply Z.mod_divide in Z0; [|lia]. destruct Z0 as [c Z0]. lia. }
  apply (Y m). rewrite X, Z.mul_comm. apply Z.mod_mul. lia.
Qed.
(** Two boxes side by side, without a common inner point: x from 0 to 1 and from 1 to 3. *)
Definition beside (x0 x1 : Q) (i : nat) : wobj := Wobj i (Z.of_nat i) (Aab (fun a => match a with AX => x0 | _ => 0%Q end) (fun a => match a with AX => x1 | _ => 3%Q end)) 1.
Example octree_touch_case : (forall fuel, build_octree fuel 1 [beside 0 1 0; beside 1 3 1] = None) /\
  intersect (o_box (beside 0 1 0)) (o_box (beside 1 3 1)) = false.
Proof.
  split; [|reflexivity]. intros fuel. change [beside 0 1 0; beside 1 3 1] with ([beside 0 1 0; beside 1 3 1] ++ []).
  apply (octree_touch_ends_refuted 1 (fun _ => 1%Q) (fun _ => 0%Q) (fun _ => 3%Q)).
  - repeat constructor.
  - repeat constructor; destruct a; discriminate.
  - split; [repeat constructor; discriminate|reflexivity].
  - cbn [length]. lia.
  - reflexivity.
  - intros a. split; [|split; [|split; [|exact third_uncut]]].
    + intros o [<-|[<-|[]]]; destruct a; split; discriminate.
    + exists (beside 0 1 0). split; [left; reflexivity|destruct a; reflexivity].
    + exists (beside 1 3 1). split; [right; left; reflexivity|destruct a; reflexivity].
Qed.

(** * Boxes no point of which is in too many others *)
Lemma least_gap (l : list Q) : exists d, (0 < d)%Q /\ forall x, In x l -> (0 < x)%Q -> (d <= x)%Q.
Proof.
  induction l as [|x l (d & D & H)]; [exists 1%Q; split; [reflexivity|intros x []]|].
  destruct (Qlt_le_dec 0 x) as [P|P].
  - destruct (Qlt_le_dec x d) as [Q|Q].
    + exists x. split; [exact P|]. intros y [<-|I] Y; [lra|]. specialize (H y I Y). lra.
    + exists d. split; [exact D|]. intros y [<-|I] Y; [lra|exact (H y I Y)].
  - exists d. split; [exact D|]. intros y [<-|I] Y; [lra|exact (H y I Y)].
Qed.
Lemma most (l : list Q) : exists M, forall x, In x l -> (x <= M)%Q.
Proof.
  induction l as [|x l (M & H)]; [exists 0%Q; intros x []|]. destruct (Qlt_le_dec M x) as [P|P].
  - exists x. intros y [<-|I]; [lra|]. specialize (H y I). lra.
  - exists M. intros y [<-|I]; [exact P|exact (H y I)].
Qed.
Lemma doubled_ge d n : (0 < d)%Q -> (d * inject_Z (Z.of_nat n) <= doubled d n /\ d <= doubled d n)%Q.
Proof.
  intros D. induction n as [|n [IH1 IH2]]; [change (inject_Z (Z.of_nat 0)) with 0%Q; cbn [doubled]; lra|].
  rewrite Nat2Z.inj_succ. unfold Z.succ. rewrite inject_Z_plus. change (inject_Z 1) with 1%Q. cbn [doubled]. lra.
Qed.
Lemma doubled_over d M : (0 < d)%Q -> exists n, (M <= doubled d n)%Q.
Proof.
  intros D. exists (Z.to_nat (Qceiling (M / d))). destruct (doubled_ge d (Z.to_nat (Qceiling (M / d))) D) as [H _].
  pose proof (Qle_ceiling (M / d)) as C. assert (C' : (M / d <= inject_Z (Z.of_nat (Z.to_nat (Qceiling (M / d)))))%Q).
  { apply Qle_trans with (1 := C). rewrite <- Zle_Qle. lia. }
  apply Qle_trans with (2 := H). apply (Qmult_le_l _ _ d D) in C'. assert (E : (d * (M / d) == M)%Q) by (field; lra). lra.
Qed.
(** The corner with the largest of all smallest coordinates. *)
Definition corner (o1 : wobj) (S : list wobj) : vec := fun a => fold_right (fun o m => if Qlt_le_dec m (bmin (o_box o) a) then bmin (o_box o) a else m) (bmin (o_box o1) a) S.
Lemma corner_spec o1 S a : (forall o, In o (o1 :: S) -> (bmin (o_box o) a <= corner o1 S a)%Q) /\ exists o, In o (o1 :: S) /\ corner o1 S a = bmin (o_box o) a.
Proof.
  induction S as [|o S (H & o' & I & E)]; cbn [corner fold_right].
  - split; [intros o [<-|[]]; apply Qle_refl|exists o1; split; [left; reflexivity|reflexivity]].
  - fold (corner o1 S a). destruct (Qlt_le_dec (corner o1 S a) (bmin (o_box o) a)) as [Q|Q].
    + split; [|exists o; split; [right; left; reflexivity|reflexivity]].
      intros x [<-|[<-|X]]; [specialize (H o1 (or_introl eq_refl)); lra|apply Qle_refl|specialize (H x (or_intror X)); lra].
    + split; [intros x [<-|[<-|X]]; [apply H; left; reflexivity|exact Q|apply H; right; exact X]|].
      exists o'. split; [destruct I as [I|I]; [left; exact I|right; right; exact I]|exact E].
Qed.
Definition has (p : vec) (b : aab) : bool := all3 (fun a => Qle_bool (bmin b a) (p a) && Qle_bool (p a) (bmax b a))%bool.
Lemma has_spec p b : has p b = true <-> inside p b.
Proof.
  unfold has, all3. rewrite !andb_true_iff, !Qle_bool_iff. split.
  - intros [[X Y] Z]. intros [| |]; assumption.
  - intros H. split; [split|]; apply H.
Qed.
Lemma sum_more (f g : wobj -> bool) l : Forall (fun o => 0 <= o_size o) l -> (forall o, In o l -> f o = true -> g o = true) -> sum_sizes (filter f l) <= sum_sizes (filter g l).
Proof.
  induction 1 as [|x l H F IH]; intros K; [reflexivity|]. cbn [filter]. specialize (IH (fun o I => K o (or_intror I))). pose proof (K x (or_introl eq_refl)) as Kx.
  unfold sum_sizes in *. destruct (f x).
  - rewrite (Kx eq_refl). cbn [fold_right]. lia.
  - destruct (g x); cbn [fold_right]; lia.
Qed.

(** What holds of C161: if no point is in boxes of a total weight above that of a leaf, building ends. *)
Theorem octree_apart_ends_partial : forall ts objs, objs <> [] -> sizes_ok objs -> Forall (fun o => thick (o_box o)) objs ->
  (forall p, sum_sizes (filter (fun o => has p (o_box o)) objs) <= ts) ->
  exists n, forall fuel, (n < fuel)%nat -> exists t, build_octree fuel ts objs = Some t.
Proof.
  intros ts objs NE W T SP.
  set (pairs f := flat_map (fun o : wobj => flat_map (fun o' : wobj => map (f o o') [AX; AY; AZ]) objs) objs : list Q).
  assert (IP : forall f o o' a, In o objs -> In o' objs -> In (f o o' a) (pairs f)).
  { intros f o o' a I I'. apply in_flat_map. exists o. split; [exact I|]. apply in_flat_map. exists o'. split; [exact I'|].
    apply in_map. destruct a; cbn [In]; auto. }
  destruct (least_gap (pairs (fun o o' a => bmin (o_box o) a - bmax (o_box o') a)%Q)) as (d & D & HD).
  destruct (most (pairs (fun o o' a => bmax (o_box o') a - bmin (o_box o) a)%Q)) as (M & HM).
  destruct (doubled_over d M D) as (n & Hn). exists n.
  apply (octree_build_ends_partial ts d n objs NE W T).
  - intros c SC. set (S := filter (fun o => intersect c (o_box o)) objs).
    assert (TS : 0 <= ts).
    { specialize (SP (fun _ => 0%Q)). assert (0 <= sum_sizes (filter (fun o => has (fun _ => 0%Q) (o_box o)) objs)); [|lia].
      pose proof (weight_nonneg (filter (fun o => has (fun _ => 0%Q) (o_box o)) objs) (Forall_filter _ _ _ (proj1 W))). exact H. }
    destruct S as [|o1 S'] eqn:ES; [exact TS|]. set (p := corner o1 S').
    assert (IS : forall o, In o (o1 :: S') -> In o objs /\ intersect c (o_box o) = true) by (intros o I; rewrite <- ES in I; apply filter_In in I; exact I).
    assert (IN : forall o, In o (o1 :: S') -> inside p (o_box o)).
    { intros o I a. destruct (corner_spec o1 S' a) as [H (o' & I' & E)]. split; [apply H; exact I|]. unfold p. rewrite E.
      destruct (IS o I) as [J X], (IS o' I') as [J' X']. rewrite intersect_spec in X, X'. specialize (X a). specialize (X' a). specialize (SC a).
      destruct (Qlt_le_dec 0 (bmin (o_box o') a - bmax (o_box o) a)) as [P|P]; [|lra].
      pose proof (HD _ (IP (fun o o' a => bmin (o_box o) a - bmax (o_box o') a)%Q o' o a J' J) P). cbn beta in *. lra. }
    rewrite <- ES. unfold S in *. apply Z.le_trans with (2 := SP p). apply sum_more; [exact (proj1 W)|].
    intros o I X. apply has_spec, IN. rewrite <- ES. apply filter_In. split; assumption.
  - intros o o' a I I'. apply Qle_trans with (2 := Hn). exact (HM _ (IP (fun o o' a => bmax (o_box o') a - bmin (o_box o) a)%Q o o' a I I')).
Qed.
Print Assumptions octree_apart_ends_partial.
(** The three cubes with gaps: every point is in at most one of them. *)
Example octree_apart_case : exists n, forall fuel, (n < fuel)%nat -> exists t, build_octree fuel 1 (map spaced [0; 1; 2]%nat) = Some t.
Proof.
  apply octree_apart_ends_partial.
  - discriminate.
  - split; [repeat constructor; discriminate|reflexivity].
  - repeat constructor; intro a; reflexivity.
  - intros p. cbn [map filter]. assert (N : forall i j, (i < j)%nat -> has p (o_box (spaced i)) = true -> has p (o_box (spaced j)) = true -> False).
    { intros i j L H1 H2. apply has_spec in H1, H2. specialize (H1 AX). specialize (H2 AX). cbn [spaced o_box bmin bmax] in H1, H2. rewrite inject_Z_plus in H1. change (inject_Z 1) with 1%Q in H1.
      assert (X : (inject_Z (2 * Z.of_nat i) + 2 <= inject_Z (2 * Z.of_nat j))%Q) by (change 2%Q with (inject_Z 2); rewrite <- inject_Z_plus, <- Zle_Qle; lia). lra. }
    pose proof (N 0 1)%nat. pose proof (N 0 2)%nat. pose proof (N 1 2)%nat.
    destruct (has p (o_box (spaced 0))), (has p (o_box (spaced 1))), (has p (o_box (spaced 2))); cbn [sum_sizes fold_right spaced o_size]; try lia; exfalso; auto.
Qed.
