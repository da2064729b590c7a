(** Splitting facets, removing a vertex whose facets are triangles, removing edges. *)
From Coq Require Import List ZArith Bool Arith Lia Relations Permutation.
From Verif Require Import Arr CodecModel PpmcModel PpmcTopo PpmcOps.
Import ListNotations.
Close Scope Z_scope.
Open Scope nat_scope.

Lemma path_last2 m : forall lp d h def, path m d lp h -> 2 <= length lp ->
  let g := nth (length lp - 2) lp def in In g lp /\ exists e, nxt m g = Some e /\ nxt m e = Some h.
Proof.
  induction lp as [|x lp IH]; intros d h def P L; cbn [length] in L; [lia|]. cbn [path] in P. destruct P as [-> (d' & E & P)].
  destruct lp as [|y lp]; [cbn [length] in L; lia|]. destruct lp as [|z lp].
  - cbn [length nth Nat.sub]. split; [left; auto|]. exists d'. split; [auto|]. cbn [path] in P. destruct P as [-> (d2 & E2 & ->)]. auto.
  - specialize (IH d' h def P ltac:(cbn [length]; lia)). cbn zeta in *.
    replace (length (d :: y :: z :: lp) - 2) with (S (length (y :: z :: lp) - 2)) by (cbn [length]; lia). cbn [nth].
    destruct IH as [I1 I2]. split; [right; exact I1|exact I2].
Qed.

(** A facet of at most three half-edges is a triangle. *)
Lemma loop_short m v u lp : wf m -> is_loop m (v, u) lp -> length lp <= 3 ->
  exists x, m v u = Some x /\ m u x = Some v /\ m x v = Some u.
Proof.
  intros W L Hl. assert (P := il_path _ _ _ L). destruct (il_head _ _ _ L) as (r & -> & _). cbn [length] in Hl.
  cbn [path] in P. destruct P as [_ (d1 & E1 & P)]. destruct (nxt_inv _ _ _ E1) as [A1 B1]. destruct d1 as [b1 x]. cbn [fst snd] in *. subst b1.
  destruct r as [|y1 r]; cbn [path] in P.
  { injection P as X1 X2. subst. rewrite (wf_irr m W) in A1. discriminate. }
  destruct P as [-> (d2 & E2 & P)]. destruct (nxt_inv _ _ _ E2) as [A2 B2]. destruct d2 as [b2 z]. cbn [fst snd] in *. subst b2.
  destruct r as [|y2 r]; cbn [path] in P.
  { injection P as X1 X2. subst. exfalso. eapply wf_deg; eauto. }
  destruct P as [-> (d3 & E3 & P)]. destruct (nxt_inv _ _ _ E3) as [A3 B3]. destruct d3 as [b3 z3]. cbn [fst snd] in *. subst b3.
  destruct r as [|y3 r]; [|cbn [length] in Hl; lia]. cbn [path] in P. injection P as X1 X2. subst. exists x. auto.
Qed.

(** The cut of vertexCut is [ins]. *)
Lemma split_ins m v u lp def m' : wf m -> is_loop m (v, u) lp -> 3 < length lp ->
  split_facet m (v, u) (nth (length lp - 2) lp def) = Some m' ->
  exists x, snd (nth (length lp - 2) lp def) = x /\ m x v = Some u /\ m u x = None /\ forb m (v, u) (x, v) /\ meq m' (ins m v u x).
Proof.
  intros W L Hl Hs. destruct (path_last2 m lp _ _ def (il_path _ _ _ L)) as (Ig & e & Eg & Ee); [lia|].
  destruct (nth (length lp - 2) lp def) as [p x] eqn:En. destruct (nxt_inv _ _ _ Eg) as [A1 A2]. destruct e as [x' v']. cbn [fst snd] in *. subst x'.
  destruct (nxt_inv _ _ _ Ee) as [A3 A4]. cbn [fst snd] in *. subst v'. exists x. split; [auto|]. split; [auto|].
  unfold split_facet in Hs. cbn [fst snd] in Hs. rewrite A1 in Hs. destruct (m v u) as [y|] eqn:Ey; [|discriminate]. cbn [bind] in Hs.
  destruct (m u x) eqn:Eux; [discriminate|]. destruct (m x u) eqn:Exu; [discriminate|]. destruct (Nat.eqb_spec u x) as [|Hux]; [discriminate|].
  split; [auto|]. split; [eapply (proj1 (path_forb _ _ _ _ _ (il_path _ _ _ L) (il_closed _ _ _ _ _ L Ig Eg)))|].
  injection Hs as <-. intros a b.
  assert (Hvu : v <> u) by (eapply wf_tgt_ne; eauto). assert (Hxv : x <> v) by (eapply wf_ne; eauto).
  unfold set_next, ins.
  destruct (Nat.eqb_spec b u) as [->|Hbu]; [destruct (Nat.eqb_spec u x); [congruence|]|destruct (Nat.eqb_spec b x) as [->|Hbx]]; rewrite ?andb_false_r, ?andb_true_r.
  - destruct (Nat.eqb_spec a x) as [->|]; [|auto]. destruct (Nat.eqb_spec x v); [congruence|]. auto.
  - destruct (Nat.eqb_spec a u) as [->|Hau]; [auto|]. destruct (Nat.eqb_spec a p) as [->|Hap].
    + rewrite A1, Nat.eqb_refl. auto.
    + destruct (m a x) as [w|] eqn:E; [|auto]. destruct (Nat.eqb_spec w v) as [->|]; [|auto]. exfalso. apply Hap. eapply wf_inj; eauto.
  - auto.
Qed.

(** *** Removing a vertex *)
Definition rmv (m : mesh) (v : nat) : mesh := fun p q =>
  if (p =? v) || (q =? v) then None else
  match m p q with Some w => if w =? v then m v q else Some w | None => None end.

Lemma del_row m v u p q : q <> v -> q <> u -> del_edge m v u p q = m p q.
Proof.
  intros H1 H2. unfold del_edge. destruct (Nat.eqb_spec q v); [congruence|]. destruct (Nat.eqb_spec q u); [congruence|].
  rewrite !andb_false_r. cbn [orb andb]. destruct (m p q); auto.
Qed.
Lemma del_col m v u p : v <> u -> del_edge m v u p u = if p =? v then None else match m p u with Some w => if w =? v then m v u else Some w | None => None end.
Proof.
  intro H. unfold del_edge. rewrite Nat.eqb_refl. destruct (Nat.eqb_spec u v); [congruence|].
  rewrite andb_true_r, andb_false_r, orb_false_r. cbn [andb]. reflexivity.
Qed.
Lemma del_none m v u p q : m p q = None -> del_edge m v u p q = None.
Proof. intro H. unfold del_edge. rewrite H. destruct (_ || _); auto. Qed.
Lemma fold_none v r : forall m p q, m p q = None -> fold_left (fun m u => del_edge m v u) r m p q = None.
Proof. induction r as [|u r IH]; intros m p q H; cbn [fold_left]; [auto|]. apply IH. apply del_none. auto. Qed.
Lemma fold_row v r : forall m p q, q <> v -> ~ In q r -> fold_left (fun m u => del_edge m v u) r m p q = m p q.
Proof.
  induction r as [|u r IH]; intros m p q H1 H2; cbn [fold_left]; [auto|]. rewrite IH; [|auto|intro; apply H2; right; auto].
  apply del_row; [auto|]. intro; subst. apply H2. left; auto.
Qed.
Lemma fold_col v r : forall m p q, q <> v -> In q r -> NoDup r -> p <> v ->
  fold_left (fun m u => del_edge m v u) r m p q = match m p q with Some w => if w =? v then m v q else Some w | None => None end.
Proof.
  induction r as [|u r IH]; intros m p q H1 H2 H3 H4; cbn [fold_left]; [destruct H2|]. inversion H3; subst. destruct H2 as [->|H2].
  - rewrite fold_row by auto. rewrite del_col by auto. destruct (Nat.eqb_spec p v); [congruence|]. auto.
  - rewrite IH by auto. assert (q <> u) by (intro; subst; auto). rewrite !del_row by auto. auto.
Qed.
Lemma fold_star v r : forall m p, In p r -> ~ In v r -> fold_left (fun m u => del_edge m v u) r m p v = None.
Proof.
  induction r as [|u r IH]; intros m p H1 H2; cbn [fold_left]; [destruct H1|]. destruct H1 as [->|H1].
  - apply fold_none. unfold del_edge. rewrite !Nat.eqb_refl. cbn [andb orb]. rewrite orb_true_r. auto.
  - apply IH; [auto|]. intro; apply H2; right; auto.
Qed.
Lemma erase_fold m v a r : wf m -> is_ring m v a r -> meq (fold_left (fun m u => del_edge m v u) r m) (rmv m v).
Proof.
  intros W R p q. assert (Hv : ~ In v r).
  { intro Hi. apply (ring_nb _ _ _ _ _ R) in Hi. rewrite (wf_irr m W) in Hi. congruence. }
  unfold rmv. destruct (Nat.eqb_spec q v) as [->|Hq].
  - rewrite orb_true_r. destruct (in_dec Nat.eq_dec p r) as [Hp|Hp]; [apply fold_star; auto|]. apply fold_none.
    destruct (m p v) eqn:E; [|auto]. exfalso. apply Hp. apply (ring_all _ _ _ _ _ W R). congruence.
  - rewrite orb_false_r. destruct (in_dec Nat.eq_dec q r) as [Hi|Hi].
    + destruct (Nat.eqb_spec p v) as [->|Hp]; [|apply fold_col; auto; apply (ir_nodup _ _ _ _ R)].
      (* the half-edge v -> q itself *)
      apply in_split in Hi. destruct Hi as (l1 & l2 & ->). rewrite fold_left_app. cbn [fold_left]. apply fold_none.
      unfold del_edge. rewrite !Nat.eqb_refl. auto.
    + rewrite fold_row by auto. destruct (Nat.eqb_spec p v) as [->|Hp].
      * destruct (m v q) eqn:E; [|auto]. exfalso. apply Hi. apply (ring_all _ _ _ _ _ W R). apply (wf_sym m W). congruence.
      * destruct (m p q) as [w|] eqn:E; [|auto]. destruct (Nat.eqb_spec w v) as [->|]; [|auto].
        exfalso. apply Hi. apply (ring_all _ _ _ _ _ W R). apply (wf_nxt m W _ _ _ E).
Qed.

Section Rmv.
  Variables (m : mesh) (v : nat).
  Hypothesis W : wf m.
  (** The facets around v are triangles, and v has more than two neighbours. *)
  Hypothesis T0 : forall a b, m v a = Some b -> m a b = Some v /\ m b v = Some a.
  Hypothesis D : forall a b, m a v = Some b -> m b v <> Some a.
  Lemma T1 a b : m b v = Some a -> m v a = Some b /\ m a b = Some v.
  Proof.
    intro E. destruct (m v a) as [c|] eqn:Ec; [|exfalso; eapply wf_nxt; eauto]. destruct (T0 _ _ Ec) as [X Y].
    assert (c = b) by (eapply wf_inj; eauto). subst. auto.
  Qed.
  Lemma T2 a b : m a b = Some v -> m b v = Some a /\ m v a = Some b.
  Proof.
    intro E. destruct (m b v) as [c|] eqn:Ec; [|exfalso; eapply wf_nxt; eauto]. destruct (T1 _ _ Ec) as [X Y].
    assert (c = a) by (eapply wf_inj; eauto). subst. auto.
  Qed.
  Lemma rmv_1 p q w : m p q = Some w -> p <> v -> q <> v -> w <> v -> rmv m v p q = Some w.
  Proof. intros E H1 H2 H3. unfold rmv. rewrite E. eqb; cbn [orb]; congruence. Qed.
  Lemma rmv_2 p q : m p q = Some v -> p <> v -> q <> v -> rmv m v p q = m v q.
  Proof. intros E H1 H2. unfold rmv. rewrite E, Nat.eqb_refl. eqb; cbn [orb]; congruence. Qed.
  Lemma rmv_cases p q w : rmv m v p q = Some w -> p <> v /\ q <> v /\ ((w <> v /\ m p q = Some w) \/ (m p q = Some v /\ m v q = Some w)).
  Proof.
    unfold rmv. destruct (Nat.eqb_spec p v), (Nat.eqb_spec q v); cbn [orb]; try discriminate. destruct (m p q) as [z|]; [|discriminate].
    destruct (Nat.eqb_spec z v) as [->|]; intro E; split; auto; split; auto. left. injection E as <-. auto.
  Qed.
  Lemma rmv_tgt p q w : rmv m v p q = Some w -> w <> v.
  Proof. intro E. destruct (rmv_cases _ _ _ E) as (H1 & H2 & [[H _]|[H1' H2']]); [auto|]. eapply wf_deg; eauto. Qed.
  Lemma rmv_dart p q : rmv m v p q <> None <-> p <> v /\ q <> v /\ m p q <> None.
  Proof.
    split.
    - destruct (rmv m v p q) as [w|] eqn:E; [|congruence]. intros _. destruct (rmv_cases _ _ _ E) as (H1 & H2 & [[_ H]|[H _]]); split; auto; split; auto; congruence.
    - intros (H1 & H2 & H3). destruct (m p q) as [w|] eqn:E; [|congruence]. destruct (Nat.eq_dec w v) as [->|].
      + rewrite rmv_2 by auto. destruct (T2 _ _ E) as [H _]. apply (wf_sym m W). congruence.
      + erewrite rmv_1 by eauto. discriminate.
  Qed.
  Lemma rmv_inj a b q w : rmv m v a q = Some w -> rmv m v b q = Some w -> a = b.
  Proof.
    intros Ea Eb. destruct (rmv_cases _ _ _ Ea) as (H1 & H2 & [[H3 H4]|[H3 H4]]); destruct (rmv_cases _ _ _ Eb) as (K1 & K2 & [[K3 K4]|[K3 K4]]).
    - eapply wf_inj; eauto.
    - exfalso. apply H1. eapply wf_inj; eauto.
    - exfalso. apply K1. eapply wf_inj; eauto.
    - eapply wf_inj; eauto.
  Qed.
  (** A facet of the result is either the new one or one that did not touch v. *)
  Lemma patch_step d d' : nxt (rmv m v) d = Some d' -> (m (fst d) (snd d) = Some v <-> m (fst d') (snd d') = Some v).
  Proof.
    intro E. destruct (nxt_inv _ _ _ E) as [E1 E2]. destruct d as [p q], d' as [q' w]. cbn [fst snd] in *. subst q'.
    destruct (rmv_cases _ _ _ E1) as (H1 & H2 & [[H3 H4]|[H3 H4]]).
    - split; [congruence|]. intro H. exfalso. destruct (T2 _ _ H) as [X Y]. apply H1. eapply wf_inj; eauto.
    - split; [|auto]. intros _. apply T0. auto.
  Qed.
  Lemma patch_forb d d' : forb (rmv m v) d d' -> (m (fst d) (snd d) = Some v <-> m (fst d') (snd d') = Some v).
  Proof. induction 1 as [|d d1 d2 E _ IH]; [tauto|]. rewrite <- IH. apply patch_step. auto. Qed.
  Lemma old_forb d d' : forb (rmv m v) d d' -> m (fst d) (snd d) <> Some v -> forb m d d'.
  Proof.
    induction 1 as [|d d1 d2 E _ IH]; intro H; [constructor|].
    assert (H1 : m (fst d1) (snd d1) <> Some v) by (rewrite <- (patch_step _ _ E); auto).
    econstructor; [|apply IH; auto]. destruct (nxt_inv _ _ _ E) as [E1 E2]. destruct d as [p q], d1 as [q' w]. cbn [fst snd] in *. subst q'.
    destruct (rmv_cases _ _ _ E1) as (K1 & K2 & [[H3 H4]|[H3 H4]]); [apply nxt_some; auto|congruence].
  Qed.
  Lemma vorb_rmv q a b : vorb m q a b -> b <> v -> q <> v ->
    (a <> v -> vorb (rmv m v) q a b) /\ (a = v -> forall c, m v q = Some c -> vorb (rmv m v) q c b).
  Proof.
    intros V Hb Hq. induction V as [a|a a1 b E _ IH].
    - split; [constructor|congruence].
    - specialize (IH Hb). destruct IH as [IH1 IH2]. split.
      + intro Ha. destruct (Nat.eq_dec a1 v) as [->|].
        * destruct (m v q) as [c|] eqn:Ec.
          -- econstructor; [rewrite rmv_2; eauto|]. auto.
          -- exfalso. destruct (T2 _ _ E) as [H _]. apply (wf_sym m W q v); congruence.
        * econstructor; [apply rmv_1; eauto|auto].
      + intros -> c Ec. assert (c = a1) by congruence. subst. apply IH1. eapply wf_deg; eauto.
  Qed.
  Lemma wf_rmv : wf (rmv m v).
  Proof.
    constructor.
    - intros a b. rewrite !rmv_dart. intros (H1 & H2 & H3). split; auto. split; auto. apply (wf_sym m W). auto.
    - intro a. destruct (rmv m v a a) eqn:E; [|auto]. exfalso. assert (H : rmv m v a a <> None) by congruence. apply rmv_dart in H. destruct H as (_ & _ & H). apply H, (wf_irr m W).
    - intros a b w E. assert (Hw := rmv_tgt _ _ _ E). destruct (rmv_cases _ _ _ E) as (H1 & H2 & [[H3 H4]|[H3 H4]]); apply rmv_dart; split; auto; split; auto; eapply wf_nxt; eauto.
    - intros. eapply rmv_inj; eauto.
    - intros q w H. apply rmv_dart in H. destruct H as (H1 & H2 & H3). destruct (wf_sur m W q w H3) as [c Hc].
      destruct (Nat.eq_dec c v) as [->|Hcv].
      + destruct (wf_sur m W q v) as [p Hp]; [apply (wf_sym m W); congruence|]. exists p. rewrite rmv_2; auto.
        intros ->. exfalso. eapply wf_deg; eauto.
      + exists c. apply rmv_1; auto.
    - intros q a b Ha Hb. apply rmv_dart in Ha. apply rmv_dart in Hb. destruct Ha as (A1 & A2 & A3), Hb as (B1 & B2 & B3).
      apply vorb_rmv; auto. apply (wf_man m W); auto.
    - intros d d' Hd F ->. apply rmv_dart in Hd. destruct Hd as (H1 & H2 & H3).
      destruct (m (fst d) (snd d)) as [w|] eqn:E; [|congruence]. destruct (Nat.eq_dec w v) as [->|].
      + assert (Ho := proj1 (patch_forb _ _ F) E). destruct d as [a b]. cbn [opp fst snd] in *.
        destruct (T2 _ _ E) as [X1 _], (T2 _ _ Ho) as [Y1 _]. apply (D _ _ X1 Y1).
      + eapply (wf_nsa m W d (opp d)); [congruence| |reflexivity]. apply old_forb; congruence.
  Qed.
  Definition pr (d : dart) : dart :=
    if fst d =? v then match m v (snd d) with Some x => (snd d, x) | None => d end
    else if snd d =? v then match m (fst d) v with Some w => (w, fst d) | None => d end else d.
  Lemma pr_old d : fst d <> v -> snd d <> v -> pr d = d.
  Proof. intros H1 H2. unfold pr. eqb; congruence. Qed.
  Lemma pr_out u x : m v u = Some x -> pr (v, u) = (u, x).
  Proof. intro E. unfold pr. cbn [fst snd]. rewrite Nat.eqb_refl, E. auto. Qed.
  Lemma pr_in u w : m u v = Some w -> pr (u, v) = (w, u).
  Proof. intro E. unfold pr. cbn [fst snd]. rewrite Nat.eqb_refl, E. destruct (Nat.eqb_spec u v); [subst; rewrite (wf_irr m W) in E; discriminate|auto]. Qed.
  Lemma connected_rmv : connected m -> connected (rmv m v).
  Proof.
    intros CN.
    assert (LN : forall a b w, rmv m v a b = Some w -> clos_refl_sym_trans dart (link (rmv m v)) (a, b) (b, w)).
    { intros. apply rst_step. left. apply nxt_some. auto. }
    assert (LO : forall a b, rmv m v a b <> None -> clos_refl_sym_trans dart (link (rmv m v)) (a, b) (b, a)).
    { intros. apply rst_step. right. auto. }
    assert (OP : forall u, m v u <> None -> clos_refl_sym_trans dart (link (rmv m v)) (pr (v, u)) (pr (u, v))).
    { intros u Hu. destruct (m v u) as [x|] eqn:Ex; [|congruence]. destruct (m u v) as [w|] eqn:Ew; [|exfalso; apply (wf_sym m W v u); congruence].
      rewrite (pr_out _ _ Ex), (pr_in _ _ Ew). apply rst_sym. apply LN. destruct (T1 _ _ Ew) as [X Y].
      rewrite rmv_2; auto; [|eapply wf_ne; eauto]. intro Hw. apply (wf_tgt_ne _ _ _ _ W Ew). auto. }
    assert (ST : forall a b, link m a b -> clos_refl_sym_trans dart (link (rmv m v)) (pr a) (pr b)).
    { intros a b [E|[E ->]].
      - destruct (nxt_inv _ _ _ E) as [E1 E2]. destruct a as [p q], b as [q' w]. cbn [fst snd] in *. subst q'.
        destruct (Nat.eq_dec p v) as [->|Hp].
        + rewrite (pr_out _ _ E1). rewrite pr_old; cbn [fst snd]; [apply rst_refl| |]; [intros ->; rewrite (wf_irr m W) in E1; discriminate|eapply wf_deg; eauto].
        + destruct (Nat.eq_dec q v) as [->|Hq].
          * rewrite (pr_in _ _ E1). destruct (T1 _ _ E1) as [X Y]. rewrite (pr_out _ _ X). apply rst_refl.
          * rewrite (pr_old (p, q)) by auto. destruct (Nat.eq_dec w v) as [->|Hw].
            -- destruct (T2 _ _ E1) as [X Y]. rewrite (pr_in _ _ X). apply rst_refl.
            -- rewrite pr_old by auto. apply LN. apply rmv_1; auto.
      - destruct a as [p q]. cbn [fst snd] in E. unfold opp. cbn [fst snd]. destruct (Nat.eq_dec p v) as [->|Hp]; [apply OP; auto|].
        destruct (Nat.eq_dec q v) as [->|Hq]; [apply rst_sym, OP, (wf_sym m W); auto|]. rewrite !pr_old by auto. apply LO. apply rmv_dart. auto. }
    intros d d' Hd Hd'. apply rmv_dart in Hd. apply rmv_dart in Hd'. destruct Hd as (A1 & A2 & A3), Hd' as (B1 & B2 & B3).
    rewrite <- (pr_old d), <- (pr_old d') by auto.
    assert (G : forall a b, clos_refl_sym_trans dart (link m) a b -> clos_refl_sym_trans dart (link (rmv m v)) (pr a) (pr b)).
    { induction 1; [auto|apply rst_refl|apply rst_sym; auto|eapply rst_trans; eauto]. }
    apply G. apply CN; auto.
  Qed.
End Rmv.

(** *** Removing several vertices at once *)
Definition star (R : nat -> bool) (U : mesh) : mesh := fun p q =>
  if R p || R q then None else match U p q with Some w => if R w then U w q else Some w | None => None end.
Lemma star_cases R U p q w : star R U p q = Some w -> R p = false /\ R q = false /\
  ((R w = false /\ U p q = Some w) \/ (exists z, R z = true /\ U p q = Some z /\ U z q = Some w)).
Proof.
  unfold star. destruct (R p), (R q); cbn [orb]; try discriminate. destruct (U p q) as [z|] eqn:E; [|discriminate].
  destruct (R z) eqn:Ez; intro H; split; auto; split; auto; [right; eauto|left]. injection H as <-. auto.
Qed.
Lemma star_dart R U p q : wf U -> (star R U p q <> None <-> R p = false /\ R q = false /\ U p q <> None).
Proof.
  intro W. split.
  - destruct (star R U p q) as [w|] eqn:E; [|congruence]. intros _. destruct (star_cases _ _ _ _ _ E) as (H1 & H2 & [[_ H]|(z & _ & H & _)]); split; auto; split; auto; congruence.
  - intros (H1 & H2 & H3). unfold star. rewrite H1, H2. cbn [orb]. destruct (U p q) as [w|] eqn:E; [|congruence].
    destruct (R w); [|discriminate]. apply (wf_sym U W). eapply wf_nxt; eauto.
Qed.
Lemma star_keep R U p q w : U p q = Some w -> R p = false -> R q = false -> R w = false -> star R U p q = Some w.
Proof. intros E H1 H2 H3. unfold star. rewrite H1, H2, E, H3. auto. Qed.
Lemma star_skip R U p q z : U p q = Some z -> R p = false -> R q = false -> R z = true -> star R U p q = U z q.
Proof. intros E H1 H2 H3. unfold star. rewrite H1, H2, E, H3. auto. Qed.

(** Cutting a corner away from the removed vertices. *)
Lemma star_ins R U v u x : R v = false -> R u = false -> R x = false -> u <> x ->
  meq (star R (ins U v u x)) (ins (star R U) v u x).
Proof.
  intros Hv Hu Hx Hux p q. unfold star at 1. unfold ins at 3.
  assert (IR : forall w q, R w = true -> ins U v u x w q = if q =? x then (if q =? u then U w q else match U w x with Some z => if z =? v then Some u else Some z | None => None end) else U w q).
  { intros w q' Hw. unfold ins. destruct (Nat.eqb_spec q' u) as [->|].
    - destruct (Nat.eqb_spec w v); [congruence|]. destruct (Nat.eqb_spec w x); [congruence|]. destruct (Nat.eqb_spec u x); congruence.
    - destruct (Nat.eqb_spec q' x) as [->|]; [|auto]. destruct (Nat.eqb_spec w u); [congruence|auto]. }
  destruct (Nat.eqb_spec q u) as [->|Hqu].
  - rewrite Hu, orb_false_r. destruct (Nat.eqb_spec p v) as [->|Hpv].
    + rewrite Hv. unfold ins. rewrite !Nat.eqb_refl, Hx. auto.
    + destruct (Nat.eqb_spec p x) as [->|Hpx].
      * rewrite Hx. unfold ins at 1. rewrite !Nat.eqb_refl. destruct (Nat.eqb_spec x v); [congruence|].
        unfold star. rewrite Hv, Hu. cbn [orb]. destruct (U v u) as [y|]; [|auto]. destruct (R y) eqn:Ey; [|auto].
        rewrite IR by auto. destruct (Nat.eqb_spec u x); [congruence|auto].
      * unfold star. rewrite Hu, orb_false_r. destruct (R p) eqn:Ep; [auto|]. unfold ins at 1. rewrite Nat.eqb_refl.
        destruct (Nat.eqb_spec p v); [congruence|]. destruct (Nat.eqb_spec p x); [congruence|]. destruct (U p u) as [w|]; [|auto].
        destruct (R w) eqn:Ew; [|auto]. rewrite IR by auto. destruct (Nat.eqb_spec u x); [congruence|auto].
  - destruct (Nat.eqb_spec q x) as [->|Hqx].
    + rewrite Hx, orb_false_r. destruct (Nat.eqb_spec p u) as [->|Hpu].
      * rewrite Hu. unfold ins. destruct (Nat.eqb_spec x u); [congruence|]. rewrite !Nat.eqb_refl, Hv. auto.
      * unfold star. rewrite Hx, orb_false_r. destruct (R p) eqn:Ep; [auto|]. unfold ins at 1. destruct (Nat.eqb_spec x u); [congruence|].
        rewrite Nat.eqb_refl. destruct (Nat.eqb_spec p u); [congruence|]. destruct (U p x) as [w|]; [|auto].
        destruct (Nat.eqb_spec w v) as [->|Hwv].
        -- rewrite Hu, Hv, Nat.eqb_refl. auto.
        -- destruct (R w) eqn:Ew.
           ++ rewrite IR by auto. rewrite Nat.eqb_refl. destruct (Nat.eqb_spec x u); [congruence|auto].
           ++ destruct (Nat.eqb_spec w v); [congruence|auto].
    + unfold star. destruct (R p || R q); [auto|]. unfold ins at 1. destruct (Nat.eqb_spec q u); [congruence|]. destruct (Nat.eqb_spec q x); [congruence|].
      destruct (U p q) as [w|]; [|auto]. destruct (R w) eqn:Ew; [|auto]. rewrite IR by auto. destruct (Nat.eqb_spec q x); [congruence|auto].
Qed.

(** One more vertex. *)
Definition addv (R : nat -> bool) (v : nat) : nat -> bool := fun w => (w =? v) || R w.
Lemma star_addv R U v : wf U -> R v = false ->
  (forall w a, R w = true -> U w a <> None -> a <> v /\ R a = false) ->
  (forall w a b, R w = true -> U w a = Some b -> U a b = Some w /\ U b w = Some a) ->
  meq (rmv (star R U) v) (star (addv R v) U).
Proof.
  intros W Hv NB T p q. unfold rmv. unfold addv at 1. unfold star at 3. unfold addv.
  destruct (Nat.eqb_spec p v) as [->|Hp]; cbn [orb]; [auto|]. destruct (Nat.eqb_spec q v) as [->|Hq]; cbn [orb]; [rewrite orb_true_r; auto|].
  unfold star at 1. destruct (R p) eqn:Ep, (R q) eqn:Eq; cbn [orb]; auto.
  destruct (U p q) as [w|] eqn:E; [|auto]. destruct (R w) eqn:Ew.
  - rewrite orb_true_r. destruct (U w q) as [w'|] eqn:E'; [|auto]. destruct (Nat.eqb_spec w' v) as [->|]; [|auto].
    exfalso. destruct (T _ _ _ Ew E') as [_ X]. apply (NB w v Ew); [|auto]. apply (wf_sym U W). congruence.
  - rewrite orb_false_r. destruct (Nat.eqb_spec w v) as [->|]; [|auto].
    unfold star. rewrite Hv, Eq. cbn [orb]. destruct (U v q) as [z|] eqn:Ez; [|auto]. destruct (R z) eqn:Rz; [|auto].
    exfalso. destruct (T2 U z W (fun a b => T z a b Rz) _ _ Ez) as [X Y]. apply (NB z v Rz); [congruence|auto].
Qed.
