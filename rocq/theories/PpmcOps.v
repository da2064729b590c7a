(** The editing operations in terms of the cyclic order around vertices. *)
From Coq Require Import List ZArith Bool Arith Lia Relations Permutation.
From Verif Require Import Arr CodecModel PpmcModel PpmcTopo.
Import ListNotations.
Close Scope Z_scope.
Open Scope nat_scope.

(** *** Cutting the corner x -> v -> u *)
Definition ins (m : mesh) (v u x : nat) : mesh := fun p q =>
  if q =? u then (if p =? v then Some x else if p =? x then m v u else m p u)
  else if q =? x then (if p =? u then Some v else match m p x with Some w => if w =? v then Some u else Some w | None => None end)
  else m p q.
Lemma ins_ext m m' v u x : meq m m' -> meq (ins m v u x) (ins m' v u x).
Proof. intros E p q. unfold ins. rewrite !E. reflexivity. Qed.

Section Ins.
  Variables (m : mesh) (v u x : nat).
  Hypotheses (W : wf m) (C : m x v = Some u) (N : m u x = None).
  Lemma ins_vu : v <> u. Proof. eapply wf_tgt_ne; eauto. Qed.
  Lemma ins_xv : x <> v. Proof. eapply wf_ne; eauto. Qed.
  Lemma ins_ux : u <> x. Proof. eapply wf_deg; eauto. Qed.
  Lemma ins_N' : m x u = None.
  Proof. destruct (m x u) eqn:E; [|auto]. exfalso. apply (wf_sym m W x u); congruence. Qed.
  Lemma ins_y : exists y, m v u = Some y /\ y <> v /\ y <> x.
  Proof.
    destruct (m v u) as [y|] eqn:E; [|exfalso; eapply wf_nxt; eauto]. exists y. split; [auto|]. split; [eapply wf_deg; eauto|].
    intros ->. apply (wf_nxt m W) in E. congruence.
  Qed.
  Lemma ins_p : exists p, m p x = Some v /\ p <> u.
  Proof.
    destruct (wf_sur m W x v) as [p Hp]; [congruence|]. exists p. split; [auto|]. intros ->. congruence.
  Qed.
  Ltac go := pose proof ins_vu as Gvu; pose proof ins_xv as Gxv; pose proof ins_ux as Gux; pose proof ins_N' as GN.
  Lemma ins_old p q w : m p q = Some w -> (p, q) <> (v, u) -> (q = x -> w <> v) -> ins m v u x p q = Some w.
  Proof.
    go. intros E H3 H4. unfold ins. destruct (Nat.eqb_spec q u) as [->|].
    - destruct (Nat.eqb_spec p v) as [->|]; [congruence|]. destruct (Nat.eqb_spec p x) as [->|]; [congruence|auto].
    - destruct (Nat.eqb_spec q x) as [->|]; [|auto]. destruct (Nat.eqb_spec p u) as [->|]; [congruence|].
      rewrite E. destruct (Nat.eqb_spec w v); [exfalso; apply H4; auto|auto].
  Qed.
  Lemma ins_1 : ins m v u x v u = Some x.
  Proof. unfold ins. rewrite !Nat.eqb_refl. auto. Qed.
  Lemma ins_2 : ins m v u x u x = Some v.
  Proof. go. unfold ins. destruct (Nat.eqb_spec x u); [congruence|]. rewrite !Nat.eqb_refl. auto. Qed.
  Lemma ins_3 p : m p x = Some v -> ins m v u x p x = Some u.
  Proof. go. intro E. unfold ins. destruct (Nat.eqb_spec x u); [congruence|]. rewrite Nat.eqb_refl. destruct (Nat.eqb_spec p u); [congruence|]. rewrite E, Nat.eqb_refl. auto. Qed.
  Lemma ins_4 : ins m v u x x u = m v u.
  Proof. go. unfold ins. rewrite Nat.eqb_refl. destruct (Nat.eqb_spec x v); [congruence|]. rewrite Nat.eqb_refl. auto. Qed.
  Lemma ins_5 : ins m v u x x v = Some u.
  Proof. go. apply ins_old; congruence. Qed.
  (** The four changed entries, and the rest. *)
  Lemma ins_cases p q w : ins m v u x p q = Some w ->
    (p = v /\ q = u /\ w = x) \/ (p = u /\ q = x /\ w = v) \/ (q = x /\ w = u /\ m p x = Some v) \/ (p = x /\ q = u /\ m v u = Some w) \/
    (m p q = Some w /\ (p, q) <> (v, u) /\ (q = x -> w <> v)).
  Proof.
    go. unfold ins. destruct (Nat.eqb_spec q u) as [->|].
    - destruct (Nat.eqb_spec p v) as [->|]; [intro E; injection E as <-; auto|]. destruct (Nat.eqb_spec p x) as [->|]; [auto 10|].
      intro E. do 4 right. split; [auto|]. split; congruence.
    - destruct (Nat.eqb_spec q x) as [->|].
      + destruct (Nat.eqb_spec p u) as [->|]; [intro E; injection E as <-; auto|]. destruct (m p x) as [z|] eqn:E; [|discriminate].
        destruct (Nat.eqb_spec z v) as [->|]; intro E'; injection E' as <-; [auto 10|]. do 4 right. split; [auto|]. split; congruence.
      + intro E. do 4 right. split; [auto|]. split; congruence.
  Qed.
  Lemma ins_dart p q : ins m v u x p q <> None <-> m p q <> None \/ (p = u /\ q = x) \/ (p = x /\ q = u).
  Proof.
    go. destruct ins_y as (y & Ey & _). split.
    - destruct (ins m v u x p q) as [w|] eqn:E; [|congruence]. intros _. apply ins_cases in E.
      destruct E as [(-> & -> & ->)|[(-> & -> & ->)|[(-> & -> & E)|[(-> & -> & E)|(E & _)]]]]; auto; left; congruence.
    - intros [H'|[(-> & ->)|(-> & ->)]]; [|rewrite ins_2; discriminate|rewrite ins_4; congruence].
      destruct (m p q) as [w|] eqn:E; [|congruence].
      destruct (Nat.eq_dec q x) as [->|].
      + destruct (Nat.eq_dec w v) as [->|]; [rewrite ins_3; [discriminate|auto]|]. erewrite ins_old; [discriminate|exact E|congruence|auto].
      + destruct (Nat.eq_dec q u) as [->|]; [|erewrite ins_old; [discriminate|exact E|congruence|congruence]].
        destruct (Nat.eq_dec p v) as [->|]; [rewrite ins_1; discriminate|]. erewrite ins_old; [discriminate|exact E|congruence|congruence].
  Qed.
  Lemma ins_inj a b q w : ins m v u x a q = Some w -> ins m v u x b q = Some w -> a = b.
  Proof.
    go. destruct ins_y as (y & Ey & Hy1 & Hy2). intros Ea Eb. apply ins_cases in Ea. apply ins_cases in Eb.
    destruct Ea as [(-> & -> & ->)|[(-> & -> & ->)|[(-> & -> & E)|[(-> & -> & E)|(E & H3 & H4)]]]];
    destruct Eb as [(-> & ? & ?)|[(-> & ? & ?)|[(? & ? & E')|[(-> & ? & E')|(E' & H3' & H4')]]]]; try congruence; try (eapply wf_inj; eauto; congruence).
    - exfalso. apply (wf_nxt m W) in E'. congruence.
    - exfalso. apply (H4' eq_refl). congruence.
    - exfalso. apply (wf_nxt m W) in E'. pose proof ins_N'. congruence.
    - exfalso. assert (b = v) by (eapply wf_inj; [exact W|exact E'|subst; exact E]). subst. congruence.
    - exfalso. subst. apply (wf_nxt m W) in E. congruence.
    - exfalso. subst. apply (H4 eq_refl). auto.
    - exfalso. subst. apply (wf_nxt m W) in E. pose proof ins_N'. congruence.
    - exfalso. subst. assert (a = v) by (eapply wf_inj; [exact W|exact E|exact E']). subst. congruence.
  Qed.
  Lemma vorb_ins w a b : vorb m w a b -> m a w <> None -> vorb (ins m v u x) w a b.
  Proof.
    go. destruct ins_y as (y & Ey & Hy1 & Hy2).
    induction 1 as [a|a b c E _ IH]; intro Ha; [constructor|].
    assert (Hb : m b w <> None) by (apply (wf_sym m W), (wf_nxt m W _ _ _ E)).
    specialize (IH Hb). destruct (Nat.eq_dec w u) as [->|Hwu].
    - destruct (Nat.eq_dec a v) as [->|].
      + apply (vorb_step _ _ v x _); [apply ins_1|]. econstructor; [rewrite ins_4; exact E|exact IH].
      + econstructor; [apply ins_old; [exact E|congruence|congruence]|auto].
    - destruct (Nat.eq_dec w x) as [->|Hwx].
      + destruct (Nat.eq_dec b v) as [->|].
        * apply (vorb_step _ _ a u _); [apply ins_3; auto|]. econstructor; [apply ins_2|auto].
        * econstructor; [apply ins_old; [exact E|congruence|auto]|auto].
      + econstructor; [apply ins_old; [exact E|congruence|congruence]|auto].
  Qed.
  Lemma ins_man w a b : ins m v u x a w <> None -> ins m v u x b w <> None -> vorb (ins m v u x) w a b.
  Proof.
    go. destruct ins_y as (y & Ey & Hy1 & Hy2). destruct ins_p as (p & Ep & Hp). intros Ha Hb. apply ins_dart in Ha. apply ins_dart in Hb.
    assert (Hvx : m v x <> None) by (apply (wf_sym m W); congruence).
    assert (Hyu : m y u <> None) by (apply (wf_sym m W); eapply wf_nxt; eauto).
    assert (G : forall a, m a w <> None \/ a = u /\ w = x \/ a = x /\ w = u -> exists a', vorb (ins m v u x) w a a' /\ m a' w <> None).
    { intros c [Hc|[(-> & ->)|(-> & ->)]]; [exists c; split; [constructor|auto]| |].
      - exists v. split; [econstructor; [apply ins_2|constructor]|auto].
      - exists y. split; [econstructor; [rewrite ins_4; exact Ey|constructor]|auto]. }
    destruct (G a Ha) as (a' & Va & Ha'). eapply vorb_trans; [exact Va|].
    destruct Hb as [Hb|[(-> & ->)|(-> & ->)]].
    - apply vorb_ins; [apply (wf_man m W); auto|auto].
    - apply (vorb_trans _ _ _ p); [apply vorb_ins; [apply (wf_man m W); [auto|congruence]|auto]|]. econstructor; [apply ins_3; auto|constructor].
    - apply (vorb_trans _ _ _ v); [apply vorb_ins; [apply (wf_man m W); [auto|congruence]|auto]|]. econstructor; [apply ins_1|constructor].
  Qed.

  (** Facets: the corner triangle, and the rest. *)
  Hypothesis F : forb m (v, u) (x, v).
  Definition pj (d : dart) : dart := if deq d (u, x) then (x, v) else if deq d (x, u) then match m v u with Some y => (u, y) | None => d end else d.
  Lemma pj_old d : m (fst d) (snd d) <> None -> pj d = d.
  Proof.
    go. intro H'. unfold pj. destruct (deq_spec d (u, x)) as [->|]; [cbn [fst snd] in *; congruence|].
    destruct (deq_spec d (x, u)) as [->|]; [cbn [fst snd] in *; congruence|auto].
  Qed.
  Lemma pj_step d d1 : nxt (ins m v u x) d = Some d1 -> forb m (pj d) (pj d1).
  Proof.
    go. destruct ins_y as (y & Ey & Hy1 & Hy2). intro E. destruct (nxt_inv _ _ _ E) as [E1 E2]. destruct d as [p q], d1 as [q' w]. cbn [fst snd] in *. subst q'.
    assert (P1 : pj (u, x) = (x, v)) by (unfold pj; destruct (deq_spec (u, x) (u, x)); congruence).
    assert (P2 : pj (x, u) = (u, y)).
    { unfold pj. destruct (deq_spec (x, u) (u, x)); [congruence|]. destruct (deq_spec (x, u) (x, u)); [|congruence]. rewrite Ey. auto. }
    assert (P3 : pj (v, u) = (v, u)) by (apply pj_old; cbn [fst snd]; congruence).
    assert (P4 : pj (x, v) = (x, v)) by (apply pj_old; cbn [fst snd]; congruence).
    apply ins_cases in E1. destruct E1 as [(-> & -> & ->)|[(-> & -> & ->)|[(-> & -> & E1)|[(-> & -> & E1)|(E1 & _)]]]].
    - rewrite P1, P3. exact F.
    - rewrite P1, P4. constructor.
    - rewrite P2, pj_old by (cbn [fst snd]; congruence). econstructor; [apply nxt_some; eauto|]. econstructor; [apply nxt_some; eauto|]. apply forb_one, nxt_some. auto.
    - rewrite P2. assert (w = y) by congruence. subst w. rewrite pj_old; [constructor|]. cbn [fst snd]. eapply wf_nxt; eauto.
    - rewrite !pj_old; [apply forb_one, nxt_some; auto|cbn [fst snd]; eapply wf_nxt; eauto|cbn [fst snd]; congruence].
  Qed.
  Lemma pj_forb d d' : forb (ins m v u x) d d' -> forb m (pj d) (pj d').
  Proof. induction 1 as [|d d1 d2 E _ IH]; [constructor|]. eapply forb_trans; [apply pj_step; eauto|auto]. Qed.
  Lemma corner_triangle e e' : forb (ins m v u x) e e' ->
    (In e [(u, x); (x, v); (v, u)] <-> In e' [(u, x); (x, v); (v, u)]).
  Proof.
    go. assert (X1 : nxt (ins m v u x) (u, x) = Some (x, v)) by (apply nxt_some, ins_2).
    assert (X2 : nxt (ins m v u x) (x, v) = Some (v, u)) by (apply nxt_some, ins_5).
    assert (X3 : nxt (ins m v u x) (v, u) = Some (u, x)) by (apply nxt_some, ins_1).
    assert (NI : forall d d' e, nxt (ins m v u x) d = Some e -> nxt (ins m v u x) d' = Some e -> d = d').
    { intros d d' e0 H1 H2. destruct (nxt_inv _ _ _ H1) as [H3 H4], (nxt_inv _ _ _ H2) as [H5 H6]. destruct d, d'. cbn [fst snd] in *. rewrite H4 in H6. subst. f_equal. eapply ins_inj; eauto. }
    induction 1 as [d|d d1 d2 E _ IH]; [tauto|]. rewrite <- IH. cbn [In]. split.
    - intros [<-|[<-|[<-|[]]]]; [rewrite X1 in E|rewrite X2 in E|rewrite X3 in E]; injection E as <-; auto.
    - intros [<-|[<-|[<-|[]]]]; [rewrite (NI _ _ _ E X3)|rewrite (NI _ _ _ E X1)|rewrite (NI _ _ _ E X2)]; auto.
  Qed.
  Lemma wf_ins : wf (ins m v u x).
  Proof.
    go. destruct ins_y as (y & Ey & Hy1 & Hy2). destruct ins_p as (p & Ep & Hp). constructor.
    - intros a b. rewrite !ins_dart. intros [H'|[H'|H']]; [left; apply (wf_sym m W); auto|right; right; tauto|right; left; tauto].
    - intros a. destruct (ins m v u x a a) as [w|] eqn:E; [|auto]. exfalso.
      assert (Hd : ins m v u x a a <> None) by congruence. apply ins_dart in Hd. rewrite (wf_irr m W) in Hd. destruct Hd as [?|[?|?]]; [congruence| |]; intuition congruence.
    - intros a b w E. rewrite ins_dart. apply ins_cases in E. destruct E as [(-> & -> & ->)|[(-> & -> & ->)|[(-> & -> & E)|[(-> & -> & E)|(E & _)]]]]; auto.
      + left. congruence.
      + left. eapply wf_nxt; eauto.
      + left. eapply wf_nxt; eauto.
    - intros a b q w. apply ins_inj.
    - intros a b Hd. apply ins_dart in Hd. destruct Hd as [Hd|[(-> & ->)|(-> & ->)]].
      + destruct (wf_sur m W a b Hd) as [c Hc].
        destruct (Nat.eq_dec a u) as [->|].
        * destruct (Nat.eq_dec c v) as [->|]; [exists x; rewrite ins_4; auto|]. exists c. apply ins_old; congruence.
        * destruct (Nat.eq_dec a x) as [->|]; [|exists c; apply ins_old; congruence].
          destruct (Nat.eq_dec b v) as [->|]; [exists u; apply ins_2|]. exists c. apply ins_old; congruence.
      + exists v. apply ins_1.
      + exists p. apply ins_3. auto.
    - apply ins_man.
    - intros d d' Hd Fo ->. apply ins_dart in Hd. destruct d as [a b]. cbn [fst snd] in *. destruct Hd as [Hd|[(-> & ->)|(-> & ->)]].
      + apply pj_forb in Fo. rewrite !pj_old in Fo; [|unfold opp; cbn [fst snd]; apply (wf_sym m W); auto|auto].
        eapply (wf_nsa m W); [|exact Fo|reflexivity]. auto.
      + apply corner_triangle in Fo. unfold opp in Fo. cbn [fst snd In] in Fo. destruct Fo as [Fo _]. specialize (Fo (or_introl eq_refl)). destruct Fo as [X|[X|[X|[]]]]; congruence.
      + apply corner_triangle in Fo. unfold opp in Fo. cbn [fst snd In] in Fo. destruct Fo as [_ Fo]. specialize (Fo (or_introl eq_refl)). destruct Fo as [X|[X|[X|[]]]]; congruence.
  Qed.
  Lemma connected_ins : connected m -> connected (ins m v u x).
  Proof.
    go. destruct ins_y as (y & Ey & Hy1 & Hy2). destruct ins_p as (p & Ep & Hp). intro CN.
    assert (LN : forall a b w, ins m v u x a b = Some w -> clos_refl_sym_trans dart (link (ins m v u x)) (a, b) (b, w)).
    { intros. apply rst_step. left. apply nxt_some. auto. }
    assert (LO : forall a b, ins m v u x a b <> None -> clos_refl_sym_trans dart (link (ins m v u x)) (a, b) (b, a)).
    { intros. apply rst_step. right. auto. }
    assert (ST : forall a b, link m a b -> clos_refl_sym_trans dart (link (ins m v u x)) a b).
    { intros a b [E|[E ->]].
      - destruct (nxt_inv _ _ _ E) as [E1 E2]. destruct a as [a a'], b as [b b']. cbn [fst snd] in *. subst b.
        destruct (deq_spec (a, a') (v, u)) as [X|X].
        + injection X as -> ->. assert (b' = y) by congruence. subst b'.
          eapply rst_trans; [apply LN, ins_1|]. eapply rst_trans; [apply LO; rewrite ins_2; discriminate|]. apply LN. rewrite ins_4. auto.
        + destruct (Nat.eq_dec a' x) as [->|]; [|apply LN, ins_old; auto; congruence].
          destruct (Nat.eq_dec b' v) as [->|]; [|apply LN, ins_old; auto].
          eapply rst_trans; [apply LN, ins_3; auto|]. eapply rst_trans; [apply LO; rewrite ins_4; congruence|]. apply LN, ins_2.
      - destruct a as [a a']. apply LO. apply ins_dart. auto. }
    assert (G : forall d, ins m v u x (fst d) (snd d) <> None -> exists d', m (fst d') (snd d') <> None /\ clos_refl_sym_trans dart (link (ins m v u x)) d d').
    { intros [a b] Hd. cbn [fst snd] in Hd. apply ins_dart in Hd. destruct Hd as [Hd|[(-> & ->)|(-> & ->)]].
      - exists (a, b). split; [auto|apply rst_refl].
      - exists (v, u). split; [cbn [fst snd]; congruence|]. apply rst_sym, LN, ins_1.
      - exists (u, y). split; [cbn [fst snd]; eapply wf_nxt; eauto|]. apply LN. rewrite ins_4. auto. }
    intros d d' Hd Hd'. destruct (G d Hd) as (e & He & Le), (G d' Hd') as (e' & He' & Le').
    eapply rst_trans; [exact Le|]. eapply rst_trans; [|apply rst_sym; exact Le'].
    eapply rst_mono; [exact ST|]. apply CN; auto.
  Qed.
  Lemma del_ins : meq (del_edge (ins m v u x) u x) m.
  Proof.
    go. destruct ins_y as (y & Ey & Hy1 & Hy2). intros a b. unfold del_edge.
    destruct ((a =? u) && (b =? x) || (a =? x) && (b =? u)) eqn:B.
    { apply orb_true_iff in B. rewrite !andb_true_iff, !Nat.eqb_eq in B. destruct B as [[-> ->]|[-> ->]]; congruence. }
    apply orb_false_iff in B. rewrite !andb_false_iff, !Nat.eqb_neq in B.
    destruct (m a b) as [w|] eqn:E.
    - destruct (deq_spec (a, b) (v, u)) as [X|X].
      { injection X as -> ->. rewrite ins_1, !Nat.eqb_refl, ins_4. cbn [andb]. congruence. }
      destruct (Nat.eq_dec b x) as [->|Hb]; [destruct (Nat.eq_dec w v) as [->|Hw]|].
      + rewrite ins_3 by auto. rewrite !Nat.eqb_refl, ins_2. cbn [andb]. destruct (Nat.eqb_spec x u); [congruence|]. auto.
      + rewrite (ins_old _ _ _ E) by auto. destruct (Nat.eqb_spec x u); [congruence|]. cbn [andb]. rewrite Nat.eqb_refl.
        destruct (Nat.eqb_spec w u) as [->|]; [|auto]. exfalso. apply (wf_nxt m W) in E. congruence.
      + rewrite (ins_old _ _ _ E) by (auto; congruence). destruct (Nat.eqb_spec b x); [congruence|]. cbn [andb]. 
        destruct (Nat.eqb_spec b u) as [->|]; [|auto]. cbn [andb]. destruct (Nat.eqb_spec w x) as [->|]; [|auto]. exfalso. apply (wf_nxt m W) in E. congruence.
    - destruct (ins m v u x a b) as [w|] eqn:E'; [|auto]. exfalso. assert (K : ins m v u x a b <> None) by congruence. apply ins_dart in K. lia || intuition congruence.
  Qed.
End Ins.
