(** The vertices removed in a round: their neighbours passed the convexity test, and these
    neighbours are the corners of a facet of the coarser mesh. *)
From Coq Require Import List ZArith Bool Arith Lia Relations Permutation QArith.
From Verif Require Import Arr AabModel CodecModel PpmcModel PpmcTopo PpmcOps PpmcStar PpmcEnc PpmcTrav PpmcDec PpmcRound ConvexModel.
Import ListNotations.
Close Scope Q_scope.
Close Scope Z_scope.
Open Scope nat_scope.

Lemma dels_col A : forall U p v, (forall d, In d A -> fst d <> v /\ snd d <> v) -> dels A U p v = U p v.
Proof.
  induction A as [|d A IH]; intros U p v H; cbn [dels fold_left]; [reflexivity|].
  fold (dels A (del_edge U (fst d) (snd d))). rewrite IH by (intros d' Hd; apply H; right; exact Hd).
  destruct (H d (or_introl eq_refl)) as [H1 H2]. apply del_row; congruence.
Qed.

(** Around a vertex not conquered yet the mesh is the one before the round. *)
Lemma fresh_col M d0 d1 U R A s v p : inv M d0 d1 U R A s -> e_v s v = false -> R v = false -> e_m s p v = M p v.
Proof.
  intros I Hc Rv. assert (IM := iv_m _ _ _ _ _ _ _ I). assert (WU := mi_wU _ _ _ _ _ _ _ _ IM).
  rewrite <- (mi_un _ _ _ _ _ _ _ _ IM p v), (mi_st _ _ _ _ _ _ _ _ IM p v). rewrite dels_col.
  - unfold star. destruct (U p v) as [w|] eqn:E.
    + destruct (fresh_nr _ _ _ _ _ _ _ _ IM v p v w Hc E (or_intror (or_introl eq_refl)) Rv) as (-> & -> & ->). reflexivity.
    + destruct (_ || _); reflexivity.
  - intros d Hd. assert (S := iv_sp _ _ _ _ _ _ _ I d Hd). apply orb_true_iff in S.
    assert (K : e_v s (fst d) = true /\ e_v s (snd d) = true).
    { destruct d as [x y]. cbn [fst snd]. destruct S as [S|S].
      - apply (mi_fv _ _ _ _ _ _ _ _ IM). destruct (e_f s (x, y)); auto; discriminate S.
      - unfold opp in S; cbn [fst snd] in S. destruct (mi_fv _ _ _ _ _ _ _ _ IM y x); [destruct (e_f s (y, x)); auto; discriminate S|auto]. }
    split; intro E; rewrite E in K; destruct K; congruence.
Qed.

Section Removed.
  Variables (lim : nat) (convex : mesh -> nat -> bool) (d0 d1 : nat) (M : mesh).
  (** What was checked of each removed vertex, in the mesh of the time, which around the vertex is
      the mesh before the round. *)
  Definition checked (v : nat) : Prop :=
    exists m u r, (forall p, m p v = M p v) /\ convex m v = true /\ is_ring m v u r /\ 2 < length r <= 8.

  Lemma candidate_convex m c l : forall hh, candidate lim convex d0 d1 m c l = Some (Some hh) -> convex m (snd hh) = true.
  Proof.
    induction l as [|x l IH]; intros hh H; cbn [candidate] in H; [discriminate H|].
    destruct (isRemovable lim convex d0 d1 m c x) as [[|]|] eqn:E; cbn [bind] in H; [|exact (IH hh H)|discriminate H].
    injection H as <-. unfold isRemovable in E. destruct (_ || _) in E; [discriminate E|].
    destruct (ring lim m (snd x) (fst x)) as [r|] in E; cbn [bind] in E; [|discriminate E].
    destruct (_ || _) in E; [discriminate E|]. destruct (willViolateManifold _ _ _ _) as [b|] in E; cbn [bind] in E; [|discriminate E].
    injection E as E. apply andb_true_iff in E. apply E.
  Qed.

  Lemma step_checked U R A s h s' : inv M d0 d1 U R A s -> cov (e_m s) (e_f s) (h :: e_q s) -> e_m s (fst h) (snd h) <> None ->
    (forall v, R v = true -> checked v) -> decimationStep lim convex d0 d1 s h = Some s' ->
    exists U' R' A', inv M d0 d1 U' R' A' s' /\ cov (e_m s') (e_f s') (e_q s') /\ (forall v, R' v = true -> checked v).
  Proof.
    intros I CV Hd G H. unfold decimationStep in H. assert (IM := iv_m _ _ _ _ _ _ _ I). assert (WM := mi_wm _ _ _ _ _ _ _ _ IM).
    destruct (isConquered (e_f s h)) eqn:Ec.
    - injection H as <-. exists U, R, A. split; [auto|]. split; [|exact G].
      intros d K1 K2 K3. destruct (CV d K1 K2 K3) as (g & [<-|Hg] & F); [|exists g; auto].
      exfalso. rewrite (flag_forb _ _ _ _ _ _ _ _ _ _ IM F) in K3. congruence.
    - assert (Hf : e_f s h = Unknown) by (destruct (e_f s h); auto; discriminate).
      destruct (loop lim (e_m s) h) as [lp|] eqn:EL; [|discriminate]. cbn [bind] in H. apply loop_is_loop in EL.
      destruct (candidate lim convex d0 d1 (e_m s) (e_v s) (tl lp)) as [[hh|]|] eqn:EC; cbn [bind] in H; [| |discriminate].
      + assert (CX := candidate_convex _ _ _ _ EC).
        apply candidate_some in EC. destruct EC as (Hi & N0 & N1 & Hc & r & Hr & Hl & _). destruct hh as [u0 v]. cbn [fst snd] in *.
        assert (Hi' : In (u0, v) lp) by (destruct lp; [destruct Hi|right; auto]).
        assert (Hdv : e_m s u0 v <> None) by apply (il_dart _ _ _ _ EL Hi').
        destruct (vertexCut_inv lim M d0 d1 U R A s s' h u0 v r) as (U' & A' & X & Y & _); auto; try lia.
        * eapply (path_forb _ _ _ _ _ (il_path _ _ _ EL)); auto.
        * exists U', (addv R v), A'. split; [exact X|]. split; [exact Y|]. intros w Hw. unfold addv in Hw. apply orb_true_iff in Hw.
          destruct Hw as [Hw|Hw]; [|apply G; exact Hw]. apply Nat.eqb_eq in Hw. subst w. exists (e_m s), u0, r.
          assert (Rv : R v = false).
          { rewrite (mi_st _ _ _ _ _ _ _ _ IM u0 v) in Hdv. apply (star_dart R U u0 v (mi_wU _ _ _ _ _ _ _ _ IM)) in Hdv. tauto. }
          split; [intro p; exact (fresh_col _ _ _ _ _ _ _ _ p I Hc Rv)|]. auto.
      + injection H as <-. exists U, R, A. destruct (nullPatch_inv M d0 d1 U R A s h lp) as (X & Y & Z); auto.
  Qed.
  Lemma decimate_checked fuel : forall U R A s s', inv M d0 d1 U R A s -> cov (e_m s) (e_f s) (e_q s) ->
    (forall v, R v = true -> checked v) -> decimate lim convex d0 d1 s fuel = Some s' ->
    exists U' R' A', inv M d0 d1 U' R' A' s' /\ (forall v, R' v = true -> checked v).
  Proof.
    induction fuel as [|n IH]; intros U R A s s' I CV EX H; cbn [decimate] in H; [discriminate H|].
    destruct (e_q s) as [|h q] eqn:Eq.
    - injection H as <-. exists U, R, A. auto.
    - destruct (decimationStep lim convex d0 d1 _ h) as [s1|] eqn:ES; [|discriminate H]. cbn [bind] in H.
      assert (Hq := iv_q _ _ _ _ _ _ _ I). rewrite Eq in Hq.
      apply step_checked with (U := U) (R := R) (A := A) in ES; [|..|exact EX].
      + destruct ES as (U' & R' & A' & I' & CV' & EX'). eapply IH; eauto.
      + destruct I as [I1 I2 I3 I4 I5 I6]. constructor; cbn [e_m e_v e_f e_a e_q e_n]; auto. intros g Hg. apply Hq. right; auto.
      + cbn [e_m e_f e_q]. auto.
      + cbn [e_m]. apply Hq. left; auto.
  Qed.
  Lemma decimation_checked h0 fuel s : wf M -> connected M -> M (fst h0) (snd h0) <> None ->
    decimate lim convex d0 d1 (beginDecimation M h0) fuel = Some s ->
    exists U R A, inv M d0 d1 U R A s /\ (forall v, R v = true -> checked v).
  Proof.
    intros W C Hd H. destruct fuel as [|n]; cbn [decimate] in H; [discriminate|]. unfold beginDecimation in H; cbn [e_m e_v e_f e_a e_q e_n] in H.
    destruct (decimationStep lim convex d0 d1 _ h0) as [s1|] eqn:ES; [|discriminate]. cbn [bind] in H.
    eapply step_checked in ES; [|apply begin_inv; auto|cbn [e_m e_f]; intros d _ K; discriminate|auto|intros v K; discriminate K].
    destruct ES as (U' & R' & A' & I' & CV' & EX'). eapply decimate_checked; eauto.
  Qed.
End Removed.

(** ** The facet left by a removed vertex *)
Lemma path_app m l1 : forall d x l2 h, path m d l1 x -> path m x l2 h -> path m d (l1 ++ l2) h.
Proof.
  induction l1 as [|y l1 IH]; intros d x l2 h H1 H2; cbn [path app] in *; [subst; exact H2|].
  destruct H1 as [-> (d' & E & H1)]. split; [reflexivity|]. exists d'. split; [exact E|]. eapply IH; eauto.
Qed.
Lemma last_cons A (x d : A) l : last (x :: l) d = last l x.
Proof. revert x d. induction l as [|y l IH]; intros x d; [reflexivity|]. change (last (x :: y :: l) d) with (last (y :: l) d). rewrite !IH. reflexivity. Qed.

(** The half-edges of the facet left by v, in the order of the neighbours. *)
Definition backs (M : mesh) (v : nat) (r : list nat) : list dart := map (fun y => (match M y v with Some z => z | None => y end, y)) r.

Section Hole.
  Variables (M X : mesh) (v : nat).
  Hypothesis step : forall w x z, M w v = Some x -> M x v = Some z -> X z x = Some w.
  Lemma backs_path r : forall x a w, vpath M v x r a -> M w v = Some x -> path X (a, last r w) (rev (backs M v r)) (x, w).
  Proof.
    induction r as [|y r IH]; intros x a w P Hw; cbn [vpath] in P; [subst; reflexivity|].
    destruct P as [-> (z & E & P)]. rewrite last_cons. cbn [backs map rev]. rewrite E. fold (backs M v r).
    eapply path_app; [apply IH; eauto|]. cbn [path]. split; [reflexivity|]. exists (x, w). split; [|reflexivity].
    unfold nxt. cbn [fst snd]. rewrite (step w x z Hw E). reflexivity.
  Qed.
  Lemma vpath_end r : forall x a w, vpath M v x r a -> M w v = Some x -> M (last r w) v = Some a.
  Proof.
    induction r as [|y r IH]; intros x a w P Hw; cbn [vpath] in P; [subst; exact Hw|].
    destruct P as [-> (z & E & P)]. rewrite last_cons. eapply IH; eauto.
  Qed.
  Lemma hole_loop a r : is_ring M v a r -> exists h lp, is_loop X h lp /\ exists r', r = a :: r' /\ map snd lp = a :: rev r'.
  Proof.
    intros [P (r' & -> & N) _ _]. cbn [vpath] in P. destruct P as [_ (x & E & P)].
    assert (EN := vpath_end r' x a a P E).
    exists (x, a), ((x, a) :: rev (backs M v r')).
    assert (PX : path X (x, a) ((x, a) :: rev (backs M v r')) (x, a)).
    { cbn [path]. split; [reflexivity|]. exists (a, last r' a). split; [|apply backs_path; auto].
      unfold nxt. cbn [fst snd]. rewrite (step (last r' a) a x EN E). reflexivity. }
    split.
    - constructor; [exact PX| | |].
      + exists (rev (backs M v r')). split; [reflexivity|]. intro K. apply in_rev in K. unfold backs in K. apply in_map_iff in K.
        destruct K as (y & Ey & Hy). injection Ey as _ Ey. subst y. exact (N Hy).
      + intros y Hy. destruct (path_closed _ _ _ _ _ PX Hy) as (x' & E' & [Q| ->]); [exists x'; auto|exists (x, a); split; [auto|left; auto]].
      + intros y Hy. eapply path_forb; eauto.
    - exists r'. split; [reflexivity|]. cbn [map snd]. f_equal. rewrite map_rev. f_equal. unfold backs. rewrite map_map. cbn [snd]. apply map_id.
  Qed.
End Hole.

Lemma ring_ext m M v : (forall p, m p v = M p v) -> forall a r, is_ring m v a r -> is_ring M v a r.
Proof.
  intros E a r [P1 P2 P3 P4]. constructor; auto.
  - assert (V : forall r x, vpath m v x r a -> vpath M v x r a).
    { induction r0 as [|y r0 IH]; intros x H; cbn [vpath] in *; [auto|]. destruct H as [-> (z & Ez & H)]. split; [auto|]. exists z. rewrite <- E. auto. }
    auto.
  - intros y Hy. rewrite <- E. auto.
Qed.

(** The whole round. *)
Lemma round_holes (P : Type) (qz : P -> CodecModel.vec) (bary : list P -> P) lim convex d0 d1 (pos : nat -> P) M h0 fuel X res :
  wf M -> connected M -> M (fst h0) (snd h0) <> None ->
  compressRound P qz bary lim convex d0 d1 pos M h0 fuel = Some (X, res) ->
  forall v, vertex M v -> ~ vertex X v ->
  exists m u r, (forall p, m p v = M p v) /\ convex m v = true /\ is_ring M v u r /\ 2 < length r <= 8 /\
  (forall a r, is_ring M v a r -> exists h lp, is_loop X h lp /\ exists r', r = a :: r' /\ map snd lp = a :: rev r').
Proof.
  intros W C Hh H v (w & Hw) Hx. unfold compressRound in H.
  destruct (decimate lim convex d0 d1 (beginDecimation M h0) fuel) as [s|] eqn:ED; cbn [bind] in H; [|discriminate H].
  destruct (decimation_checked _ _ _ _ _ _ _ _ W C Hh ED) as (U & R & A & I & G). assert (IM := iv_m _ _ _ _ _ _ _ I).
  assert (E : X = e_m s).
  { destruct (e_n s =? 0); [injection H as <- _; auto|]. repeat (match type of H with bind ?o _ = _ => destruct o; cbn [bind] in H; [|discriminate H] end). injection H as <- _. auto. }
  subst X. clear H ED. destruct I as [_ _ _ _ _ _]. destruct IM as [WX WU CX ST TRI NB UN ADD ND NO AD FLAG FC F0 FV VX].
  assert (MU : forall p q, M p q <> None -> U p q <> None).
  { intros p q Hm K. apply Hm. rewrite <- (UN p q). apply dels_none. auto. }
  assert (XD : forall p q, e_m s p q <> None <-> R p = false /\ R q = false /\ U p q <> None) by (intros p q; rewrite (ST p q); apply star_dart; auto).
  assert (Rv : R v = true).
  { assert (Hw2 := MU _ _ Hw). destruct (R v) eqn:Rv; [auto|]. exfalso. apply Hx.
    destruct (R w) eqn:Rw; [|exists w; apply XD; auto].
    assert (Hw' : U w v <> None) by (apply (wf_sym U WU); auto). destruct (U w v) as [b|] eqn:E; [|congruence]. destruct (TRI _ _ _ Rw E) as [E1 E2].
    exists b. apply XD. split; [auto|]. split; [|congruence]. apply (NB w b Rw). apply (wf_sym U WU). congruence. }
  destruct (G v Rv) as (m & u & r & E1 & E2 & E3 & E4). exists m, u, r. split; [exact E1|]. split; [exact E2|].
  split; [exact (ring_ext m M v E1 u r E3)|]. split; [exact E4|].
  assert (COL : forall p, M p v = U p v).
  { intro p. rewrite <- (UN p v). apply dels_col. intros d Hd. apply AD in Hd. apply XD in Hd. destruct Hd as (K1 & K2 & _). split; congruence. }
  apply hole_loop. intros p x z Hp Hx'. rewrite COL in Hp, Hx'. rewrite (ST z x).
  destruct (T1 U v WU (fun a b => TRI v a b Rv) _ _ Hp) as [A1 A2]. destruct (T1 U v WU (fun a b => TRI v a b Rv) _ _ Hx') as [B1 B2].
  rewrite (star_skip R U z x v); auto.
  - apply (NB v); [auto|congruence].
  - apply (NB v); [auto|congruence].
Qed.

(** The test looks at the neighbours only. *)
Lemma ringConvex_col n lim pos m m' v : (forall p, m p v = m' p v) -> ringConvex n lim pos m v = ringConvex n lim pos m' v.
Proof.
  intro E. unfold ringConvex.
  assert (F : find (fun a => match m a v with Some _ => true | None => false end) (seq 0 n) = find (fun a => match m' a v with Some _ => true | None => false end) (seq 0 n)).
  { induction (seq 0 n) as [|a l IH]; [reflexivity|]. cbn [find]. rewrite E, IH. reflexivity. }
  rewrite F. clear F. match goal with |- match ?o with Some _ => _ | None => _ end = _ => destruct o as [a|]; [|reflexivity] end.
  assert (T : forall k x, turn m v a x k = turn m' v a x k).
  { induction k as [|k IH]; intro x; cbn [turn]; [reflexivity|]. rewrite E. destruct (m' x v) as [y|]; cbn [bind]; [|reflexivity]. rewrite IH. reflexivity. }
  unfold ring. rewrite T. reflexivity.
Qed.
