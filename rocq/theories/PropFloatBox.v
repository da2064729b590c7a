(** C175, C176: distances of boxes in single precision. *)
From Coq Require Import QArith Qabs Qpower ZArith List Bool Lia Lqa.
From Verif Require Import AabModel AabProofs OctreeModel OctreeProofs PropOctree TextModel FloatBoxModel FloatBoxProofs.
Import ListNotations.
Open Scope Q_scope.

Definition tv (t : option Q) : Q := match t with Some x => x | None => 0 end.
Lemma sq_nonneg x : 0 <= x * x.
Proof. destruct (Qlt_le_dec x 0); nra. Qed.
Lemma sq_le_pos a b : 0 <= a -> a <= b -> a * a <= b * b.
Proof. intros. nra. Qed.
Lemma sq_le_neg a b : a <= 0 -> b <= a -> a * a <= b * b.
Proof. intros. nra. Qed.

(** What one axis adds is at most what two points of the boxes add. *)
Lemma min_term_le a b i x y : bmin a i <= x <= bmax a i -> bmin b i <= y <= bmax b i ->
  match min_term a b i with Some t => t | None => 0 end <= fl (fl (x - y) * fl (x - y)).
Proof.
  intros [A1 A2] [B1 B2]. unfold min_term, tmp1_f, tmp2_f.
  destruct (Qltb_spec (fl (bmax a i - bmin b i)) 0) as [L|L].
  - apply fl_mono. apply sq_le_neg; [lra|]. apply fl_mono. lra.
  - destruct (Qltb_spec 0 (fl (bmin a i - bmax b i))) as [P|P].
    + apply fl_mono. apply sq_le_pos; [lra|]. apply fl_mono. lra.
    + apply fl_nonneg, sq_nonneg.
Qed.
Lemma add_term_le acc acc' t x : acc <= acc' -> is_float acc' -> tv t <= x -> 0 <= x -> add_term acc t <= fl (acc' + x).
Proof.
  intros L F T P. destruct t as [t|]; cbn [add_term tv] in *; [apply fl_mono; lra|].
  eapply Qle_trans; [exact L|]. unfold is_float in F. rewrite <- F at 1. apply fl_mono. lra.
Qed.

(** C175.  The box distance computed in single precision is at most the distance that the same
    arithmetic computes for any two points of the boxes. *)
Theorem box_distance_float_lower : forall a b p q, inside p a -> inside q b ->
  mindist (distance_f a b) <= VdistV2_f p q.
Proof.
  intros a b p q Ip Iq. unfold distance_f, VdistV2_f. cbn [mindist map fold_left]. cbv zeta.
  set (X := fl (fl (p AX - q AX) * fl (p AX - q AX))). set (Y := fl (fl (p AY - q AY) * fl (p AY - q AY))). set (Z := fl (fl (p AZ - q AZ) * fl (p AZ - q AZ))).
  assert (HX : tv (min_term a b AX) <= X) by (apply min_term_le; auto).
  assert (HY : tv (min_term a b AY) <= Y) by (apply min_term_le; auto).
  assert (HZ : tv (min_term a b AZ) <= Z) by (apply min_term_le; auto).
  assert (X0 : 0 <= X) by (apply fl_nonneg, sq_nonneg). assert (Y0 : 0 <= Y) by (apply fl_nonneg, sq_nonneg). assert (Z0 : 0 <= Z) by (apply fl_nonneg, sq_nonneg).
  assert (FX : is_float X) by apply fl_idem.
  apply add_term_le; [|apply fl_idem|exact HZ|exact Z0]. apply add_term_le; [|exact FX|exact HY|exact Y0].
  assert (E : X == fl (0 + X)) by (rewrite (Qplus_0_l X); symmetry; exact FX). rewrite E. apply add_term_le; [lra| |exact HX|exact X0].
  unfold is_float. rewrite fl_0; reflexivity.
Qed.
Print Assumptions box_distance_float_lower.

(** C175.  It is within six roundings of the exact one. *)
Notation u24 := (1 # 16777216).
Definition lo (n : nat) : Q := (1 - u24) ^ Z.of_nat n.
Definition hi (n : nat) : Q := (1 + u24) ^ Z.of_nat n.
Lemma lo_S n : lo (S n) == lo n * (1 - u24).
Proof. unfold lo. rewrite Nat2Z.inj_succ, <- Z.add_1_r, Qpower_plus by (intro H; discriminate H). reflexivity. Qed.
Lemma hi_S n : hi (S n) == hi n * (1 + u24).
Proof. unfold hi. rewrite Nat2Z.inj_succ, <- Z.add_1_r, Qpower_plus by (intro H; discriminate H). reflexivity. Qed.
Lemma lo_pos n : 0 < lo n.
Proof. apply Qpower_0_lt. reflexivity. Qed.
Lemma hi_pos n : 0 < hi n.
Proof. apply Qpower_0_lt. reflexivity. Qed.
(** [x] is [y] after at most [n] roundings. *)
Definition near (n : nat) (x y : Q) : Prop := lo n * y <= x /\ x <= hi n * y.
Lemma near_nonneg n x y : 0 <= y -> near n x y -> 0 <= x.
Proof. intros Y [L _]. assert (P := lo_pos n). nra. Qed.
Lemma near_S n x y : 0 <= y -> near n x y -> near (S n) x y.
Proof.
  intros Y [L H]. unfold near. rewrite lo_S, hi_S. assert (P := lo_pos n). assert (R := hi_pos n). assert (A : 0 <= lo n * y) by nra. assert (B : 0 <= hi n * y) by nra.
  assert (E1 : lo n * (1 - u24) * y == (1 - u24) * (lo n * y)) by ring. assert (E2 : hi n * (1 + u24) * y == (1 + u24) * (hi n * y)) by ring. rewrite E1, E2. lra.
Qed.
Lemma near_fl n x y : 0 <= y -> near n x y -> near (S n) (fl x) y.
Proof.
  intros Y H. assert (X := near_nonneg n x y Y H). destruct H as [L H]. destruct (fl_near x X) as [A B]. unfold near. rewrite lo_S, hi_S.
  assert (E1 : lo n * (1 - u24) * y == (1 - u24) * (lo n * y)) by ring. assert (E2 : hi n * (1 + u24) * y == (1 + u24) * (hi n * y)) by ring. rewrite E1, E2. lra.
Qed.
Lemma near_plus n x y x' y' : near n x y -> near n x' y' -> near n (x + x') (y + y').
Proof. intros [A B] [C D]. unfold near. split; lra. Qed.
Lemma near_sq t s : 0 <= t -> near 1 s t -> near 2 (s * s) (t * t).
Proof.
  intros T [A B]. unfold near. change (lo 1) with (lo (S 0)) in A. change (hi 1) with (hi (S 0)) in B. rewrite lo_S in A. rewrite hi_S in B.
  change (lo 0) with 1 in A. change (hi 0) with 1 in B. rewrite !lo_S, !hi_S. change (lo 0) with 1. change (hi 0) with 1.
  assert (P : 0 <= (1 - u24) * t) by lra. split; nra.
Qed.
Lemma fl_near1 x : 0 <= x -> near 1 (fl x) x.
Proof. intro X. apply near_fl; [exact X|]. unfold near. change (lo 0) with 1. change (hi 0) with 1. lra. Qed.

(** The exact term of an axis. *)
Definition exact_term (a b : aab) (i : axis) : Q :=
  let t1 := bmin a i - bmax b i in let t2 := bmax a i - bmin b i in
  if Qltb t2 0 then t2 * t2 else if Qltb 0 t1 then t1 * t1 else 0.
Lemma exact_term_nonneg a b i : 0 <= exact_term a b i.
Proof. unfold exact_term. cbv zeta. destruct (Qltb _ _); [apply sq_nonneg|]. destruct (Qltb _ _); [apply sq_nonneg|lra]. Qed.
Lemma fl_neg_iff x : fl x < 0 <-> x < 0.
Proof.
  split; intro H.
  - destruct (Qlt_le_dec x 0) as [L|L]; [exact L|]. assert (A := fl_nonneg x L). lra.
  - assert (A := fl_pos (- x) ltac:(lra)). rewrite fl_opp in A. lra.
Qed.
Lemma fl_pos_iff x : 0 < fl x <-> 0 < x.
Proof.
  split; intro H.
  - destruct (Qlt_le_dec 0 x) as [L|L]; [exact L|]. assert (A := fl_nonneg (- x) ltac:(lra)). rewrite fl_opp in A. lra.
  - apply fl_pos, H.
Qed.
Lemma min_term_near a b i : match min_term a b i with Some t => near 3 t (exact_term a b i) | None => exact_term a b i == 0 end.
Proof.
  unfold min_term, exact_term, tmp1_f, tmp2_f. cbv zeta. set (t1 := bmin a i - bmax b i). set (t2 := bmax a i - bmin b i).
  destruct (Qltb_spec (fl t2) 0) as [L|L].
  - apply (proj1 (fl_neg_iff _)) in L. destruct (Qltb_spec t2 0) as [L'|L']; [|lra]. apply near_fl; [apply sq_nonneg|].
    assert (N := near_sq (- t2) (fl (- t2)) ltac:(lra) (fl_near1 (- t2) ltac:(lra))). unfold near in *. rewrite !fl_opp in N.
    assert (E1 : - fl t2 * - fl t2 == fl t2 * fl t2) by ring. assert (E2 : - t2 * - t2 == t2 * t2) by ring. rewrite E1, E2 in N. exact N.
  - destruct (Qltb_spec t2 0) as [L'|L']; [apply (proj2 (fl_neg_iff _)) in L'; lra|].
    destruct (Qltb_spec 0 (fl t1)) as [P|P].
    + apply (proj1 (fl_pos_iff _)) in P. destruct (Qltb_spec 0 t1) as [P'|P']; [|lra]. apply near_fl; [apply sq_nonneg|]. apply near_sq; [lra|]. apply fl_near1. lra.
    + destruct (Qltb_spec 0 t1) as [P'|P']; [apply (proj2 (fl_pos_iff _)) in P'; lra|reflexivity].
Qed.
Lemma add_near n a b i acc x : 0 <= x -> (3 <= n)%nat -> near n acc x -> near (S n) (add_term acc (min_term a b i)) (x + exact_term a b i).
Proof.
  intros X N A. assert (P := exact_term_nonneg a b i). assert (M := min_term_near a b i). destruct (min_term a b i) as [t|]; cbn [add_term].
  - apply near_fl; [lra|]. apply near_plus; [exact A|]. clear A. induction N as [|n N IH]; [exact M|]. apply near_S; assumption.
  - apply near_S; [lra|]. unfold near in *. rewrite M. rewrite (Qplus_0_r x). exact A.
Qed.
Theorem box_distance_float_near : forall a b,
  (1 - u24) ^ 6 * mindist (distance a b) <= mindist (distance_f a b) /\
  mindist (distance_f a b) <= (1 + u24) ^ 6 * mindist (distance a b).
Proof.
  intros a b. change (near 6 (mindist (distance_f a b)) (mindist (distance a b))).
  assert (E : mindist (distance a b) == 0 + exact_term a b AX + exact_term a b AY + exact_term a b AZ).
  { unfold distance. cbn [mindist]. unfold sum3, exact_term. cbv zeta. ring. }
  assert (K : near 6 (mindist (distance_f a b)) (0 + exact_term a b AX + exact_term a b AY + exact_term a b AZ)).
  { unfold distance_f. cbn [mindist map fold_left]. assert (PX := exact_term_nonneg a b AX). assert (PY := exact_term_nonneg a b AY).
    apply add_near; [lra|lia|]. apply add_near; [lra|lia|]. apply add_near; [lra|lia|]. unfold near. lra. }
  unfold near in *. rewrite E. exact K.
Qed.
Print Assumptions box_distance_float_near.

(** C175.  A range computed in single precision is not inverted. *)
Theorem box_distance_float_ordered : forall a b, wf a -> wf b -> mindist (distance_f a b) <= maxdist (distance_f a b).
Proof.
  intros a b Wa Wb.
  assert (T : forall i, tv (min_term a b i) <= max_term a b i /\ 0 <= max_term a b i).
  { intro i. specialize (Wa i). specialize (Wb i). unfold min_term, max_term. cbv zeta.
    assert (L : tmp1_f a b i <= tmp2_f a b i) by (apply fl_mono; lra).
    assert (I1 : is_float (tmp1_f a b i)) by apply fl_idem. assert (I2 : is_float (tmp2_f a b i)) by apply fl_idem. unfold is_float in I1, I2.
    set (t1 := tmp1_f a b i) in *. set (t2 := tmp2_f a b i) in *. clearbody t1 t2.
    assert (P : 0 <= fl (fl (t1 + t2) * fl (t1 + t2))) by (apply fl_nonneg, sq_nonneg).
    assert (D : forall t, fl (t * 2) == fl t * 2) by (intro t; exact (fl_scale t 1)).
    assert (Q4 : forall t, fl (t * 4) == fl t * 4) by (intro t; exact (fl_scale t 2)).
    unfold Qdiv. change (/ 4) with (1 # 4). split; [|lra].
    destruct (Qltb_spec t2 0) as [L2|L2]; [|destruct (Qltb_spec 0 t1) as [L1|L1]]; cbn [tv]; [| |lra].
    - assert (S : fl (t1 + t2) <= t2 * 2) by (rewrite <- I2, <- D; apply fl_mono; rewrite I2; lra).
      assert (M : fl (t2 * t2 * 4) <= fl (fl (t1 + t2) * fl (t1 + t2))).
      { apply fl_mono. assert (X := sq_le_neg (t2 * 2) (fl (t1 + t2)) ltac:(lra) S). lra. }
      rewrite Q4 in M. lra.
    - assert (S : t1 * 2 <= fl (t1 + t2)) by (rewrite <- I1, <- D; apply fl_mono; rewrite I1; lra).
      assert (M : fl (t1 * t1 * 4) <= fl (fl (t1 + t2) * fl (t1 + t2))).
      { apply fl_mono. assert (X := sq_le_pos (t1 * 2) (fl (t1 + t2)) ltac:(lra) S). lra. }
      rewrite Q4 in M. lra. }
  unfold distance_f. cbn [mindist maxdist map fold_left].
  apply add_term_le; [|apply fl_idem|apply T|apply T]. apply add_term_le; [|apply fl_idem|apply T|apply T].
  apply add_term_le; [lra| |apply T|apply T]. unfold is_float. rewrite fl_0; reflexivity.
Qed.
Print Assumptions box_distance_float_ordered.

(** C175, refuted as an exact lower bound: two points of two boxes that are closer than the box
    distance computed for them.  All coordinates are floats. *)
Definition box_at (x : Q) : aab := Aab (v3 x 0 0) (v3 (x + 1) 1 1).
Theorem box_distance_float_refuted : exists a b p q,
  (forall i, is_float (bmin a i) /\ is_float (bmax a i) /\ is_float (bmin b i) /\ is_float (bmax b i) /\ is_float (p i) /\ is_float (q i)) /\
  thick a /\ thick b /\ inside p a /\ inside q b /\ dist2 p q < mindist (distance_f a b).
Proof.
  exists (box_at 0), (box_at 11588), (v3 1 0 0), (v3 11588 0 0).
  split; [intro i; destruct i; vm_compute; repeat split; reflexivity|].
  split; [intro i; destruct i; reflexivity|]. split; [intro i; destruct i; reflexivity|].
  split; [intro i; destruct i; split; discriminate|]. split; [intro i; destruct i; split; discriminate|]. vm_compute. reflexivity.
Qed.
Print Assumptions box_distance_float_refuted.
Example box_distance_float_nonvacuous : wf (box_at 0) /\ wf (box_at 11588) /\ inside (v3 1 0 0) (box_at 0) /\ inside (v3 11588 0 0) (box_at 11588) /\
  mindist (distance_f (box_at 0) (box_at 11588)) == 134258576 /\ mindist (distance (box_at 0) (box_at 11588)) == 134258569.
Proof.
  split; [intro i; destruct i; discriminate|]. split; [intro i; destruct i; discriminate|].
  split; [intro i; destruct i; split; discriminate|]. split; [intro i; destruct i; split; discriminate|]. split; vm_compute; reflexivity.
Qed.

(** C176.  The query with single-precision distances still reports exactly the objects whose own
    box distance, computed alike, is within the limit: no cell is skipped wrongly. *)
Lemma near_points a b : wf a -> wf b -> exists p q, inside p a /\ inside q b /\
  forall c d, inside p c -> inside q d -> mindist (distance_f c d) <= mindist (distance_f a b).
Proof.
  intros Wa Wb.
  set (p := (fun i => if Qltb (bmax a i) (bmin b i) then bmax a i else if Qltb (bmax b i) (bmin a i) then bmin a i else if Qltb (bmin a i) (bmin b i) then bmin b i else bmin a i) : vec).
  set (q := (fun i => if Qltb (bmax a i) (bmin b i) then bmin b i else if Qltb (bmax b i) (bmin a i) then bmax b i else if Qltb (bmin a i) (bmin b i) then bmin b i else bmin a i) : vec).
  exists p, q. 
  assert (I : forall i, bmin a i <= p i <= bmax a i /\ bmin b i <= q i <= bmax b i).
  { intro i. specialize (Wa i). specialize (Wb i). unfold p, q.
    destruct (Qltb_spec (bmax a i) (bmin b i)); [lra|]. destruct (Qltb_spec (bmax b i) (bmin a i)); [lra|]. destruct (Qltb_spec (bmin a i) (bmin b i)); lra. }
  split; [intro i; apply I|]. split; [intro i; apply I|]. intros c d Ic Id.
  (* the terms of the cell are at most those of the box *)
  assert (T : forall i, match min_term c d i with Some t => exists t', min_term a b i = Some t' /\ t <= t' | None => match min_term a b i with Some t' => 0 <= t' | None => True end end).
  { intro i. destruct (Ic i) as [C1 C2]. destruct (Id i) as [D1 D2]. specialize (Wa i). specialize (Wb i).
    unfold min_term, tmp1_f, tmp2_f. cbv zeta. unfold p, q in C1, C2, D1, D2. clear p q I Ic Id.
    destruct (Qltb_spec (fl (bmax c i - bmin d i)) 0) as [L|L].
    - apply (proj1 (fl_neg_iff _)) in L.
      destruct (Qltb_spec (bmax a i) (bmin b i)) as [K|K]; [|exfalso; destruct (Qltb_spec (bmax b i) (bmin a i)); [lra|]; destruct (Qltb_spec (bmin a i) (bmin b i)); lra].
      destruct (Qltb_spec (fl (bmax a i - bmin b i)) 0) as [L'|L']; [|exfalso; assert (X := proj2 (fl_neg_iff (bmax a i - bmin b i)) ltac:(lra)); lra].
      eexists. split; [reflexivity|]. apply fl_mono. apply sq_le_neg; [apply Qlt_le_weak, (proj2 (fl_neg_iff _)); exact L|]. apply fl_mono. lra.
    - destruct (Qltb_spec 0 (fl (bmin c i - bmax d i))) as [P|P].
      + apply (proj1 (fl_pos_iff _)) in P.
        destruct (Qltb_spec (bmax a i) (bmin b i)) as [K|K]; [exfalso; lra|].
        destruct (Qltb_spec (bmax b i) (bmin a i)) as [K'|K']; [|exfalso; destruct (Qltb_spec (bmin a i) (bmin b i)); lra].
        destruct (Qltb_spec (fl (bmax a i - bmin b i)) 0) as [L'|L']; [exfalso; apply (proj1 (fl_neg_iff _)) in L'; lra|].
        destruct (Qltb_spec 0 (fl (bmin a i - bmax b i))) as [P'|P']; [|exfalso; assert (X := proj2 (fl_pos_iff (bmin a i - bmax b i)) ltac:(lra)); lra].
        eexists. split; [reflexivity|]. apply fl_mono. apply sq_le_pos; [apply Qlt_le_weak, (proj2 (fl_pos_iff _)); exact P|]. apply fl_mono. lra.
      + destruct (Qltb_spec (fl (bmax a i - bmin b i)) 0); [apply fl_nonneg, sq_nonneg|]. destruct (Qltb_spec 0 (fl (bmin a i - bmax b i))); [apply fl_nonneg, sq_nonneg|constructor]. }
  assert (Step : forall acc acc' i, acc <= acc' -> is_float acc' -> add_term acc (min_term c d i) <= add_term acc' (min_term a b i)).
  { intros acc acc' i L F. specialize (T i). destruct (min_term c d i) as [t|].
    - destruct T as (t' & -> & Lt). cbn [add_term]. apply fl_mono. lra.
    - destruct (min_term a b i) as [t'|]; cbn [add_term]; [|exact L]. unfold is_float in F. rewrite <- F in L. eapply Qle_trans; [exact L|]. apply fl_mono. lra. }
  assert (Fl : forall acc t, is_float acc -> is_float (add_term acc t)) by (intros acc t F; destruct t; cbn [add_term]; [apply fl_idem|exact F]).
  assert (F0 : is_float 0) by (unfold is_float; rewrite fl_0; reflexivity).
  unfold distance_f. cbn [mindist map fold_left]. apply Step; [|apply Fl, Fl, F0]. apply Step; [|apply Fl, F0]. apply Step; [lra|exact F0].
Qed.
Lemma query_within_f_sound t l q d i r : inv t l -> In (i, r) (query_within_f t q d) ->
  exists o, In o l /\ o_id o = i /\ o_ptr o <> o_ptr q /\ r = distance_f (o_box o) (o_box q) /\ mindist r <= d.
Proof.
  intros I. induction I as [b sz can l E1|b sz can kids l E1 P M F IH]; intros H; cbn [query_within_f] in H.
  - destruct (Qle_bool _ _); [|destruct H].
    apply in_map_iff in H as [o [E H]]. injection E as <- <-. apply filter_In in H as [H1 H2]. apply andb_prop in H2 as [H2 H3].
    exists o. apply negb_true_iff, Nat.eqb_neq in H2. apply Qle_bool_iff in H3. auto.
  - destruct (Qle_bool _ _); [|destruct H].
    apply in_flat_map in H as [k [Hk H]]. destruct (IH k Hk H) as [o [Ho R]]. apply sees_In in Ho as [Ho _]. eauto.
Qed.
Lemma query_within_f_complete t l q d o p p' : inv t l -> thick (node_box t) -> thick (o_box o) ->
  inside p (o_box o) -> inside p' (o_box q) -> (forall c e, inside p c -> inside p' e -> mindist (distance_f c e) <= d) ->
  In o l -> o_ptr o <> o_ptr q -> inside p (node_box t) -> intersect (node_box t) (o_box o) = true ->
  In (o_id o, distance_f (o_box o) (o_box q)) (query_within_f t q d).
Proof.
  intros I. induction I as [b sz can l E1|b sz can kids l E1 P M F IH]; intros T To Po Pq Hd Ho D Pt X; cbn [query_within_f].
  - assert (H := Hd _ _ Pt Pq). apply Qle_bool_iff in H. rewrite H.
    apply in_map_iff. exists o. split; [reflexivity|]. apply filter_In. split; [exact Ho|].
    apply Nat.eqb_neq in D. rewrite D. apply Qle_bool_iff. apply Hd; assumption.
  - assert (H := Hd _ _ Pt Pq). apply Qle_bool_iff in H. rewrite H. cbn [node_box] in *.
    destruct (choose_near b (o_box o) p T To Pt Po X) as [c [Hc [Pc Xc]]].
    destruct (kid_of b kids c M Hc) as [k [Hk Ek]].
    apply in_flat_map. exists k. split; [exact Hk|]. apply (IH k Hk); auto; try (rewrite Ek; auto).
    + now apply (octant_thick b).
    + apply sees_In. auto.
Qed.
Theorem octree_within_float_exact : forall fuel ts objs t q d, built fuel ts objs t -> wf (o_box q) -> forall i r,
  In (i, r) (query_within_f t q d) <->
  exists o, In o objs /\ o_id o = i /\ o_ptr o <> o_ptr q /\ r = distance_f (o_box o) (o_box q) /\ mindist r <= d.
Proof.
  intros fuel ts objs t q d B Wq i r. destruct (built_facts _ _ _ _ B) as [I [F [T A]]]. destruct B as [_ [To _]].
  rewrite Forall_forall in *. split.
  - apply query_within_f_sound. exact I.
  - intros [o [Ho [<- [D [-> X]]]]].
    destruct (near_points (o_box o) (o_box q) (thick_wf _ (To o Ho)) Wq) as (p & p' & H1 & H2 & H3).
    apply (query_within_f_complete t objs q d o p p'); auto.
    + intros c e Ic Ie. eapply Qle_trans; [apply H3; assumption|exact X].
    + intros a. destruct (F o Ho a), (H1 a). split; eapply Qle_trans; eauto.
Qed.
Print Assumptions octree_within_float_exact.
Example octree_within_float_nonvacuous : match sample_tree with
  | Some t => map fst (query_within_f t sample_query 4) = [100; 102; 105; 106; 107; 102]%Z
  | None => False end /\ sizes_ok sample_objs /\ Forall (fun o => thick (o_box o)) sample_objs.
Proof. split; [vm_compute; reflexivity|]. destruct sample_hypotheses as (A & B & _). auto. Qed.
