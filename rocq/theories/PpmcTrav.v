(** The conquests of the coded mesh: which facets and edges they visit, in which order. *)
From Coq Require Import List ZArith Bool Arith Lia Relations Permutation.
From Verif Require Import Arr CodecModel PpmcModel PpmcTopo PpmcOps PpmcStar PpmcEnc.
Import ListNotations.
Close Scope Z_scope.
Open Scope nat_scope.

(** The facets visited: for each the gate it was entered by and its half-edges from there. *)
Fixpoint fconq (lim : nat) (m : mesh) (q : list dart) (proc : dart -> bool) (fuel : nat) : option (list (dart * list dart)) :=
  match fuel with
  | O => None
  | S n =>
    match q with
    | [] => Some []
    | h :: q' =>
      if proc h then fconq lim m q' proc n else
      do lp <- loop lim m h;
      do r <- fconq lim m (q' ++ gates (set_loop proc lp true) lp) (set_loop proc lp true) n;
      Some ((h, lp) :: r)
    end
  end.

Lemma gates_ext p p' lp : (forall d, In d lp -> p (opp d) = p' (opp d)) -> gates p lp = gates p' lp.
Proof.
  intro E. unfold gates. induction lp as [|d lp IH]; cbn [map filter]; [auto|].
  rewrite (E d) by (left; auto). rewrite IH; [auto|]. intros d' Hd. apply E. right; auto.
Qed.
Lemma set_loop_ext {A} (f g : dart -> A) lp x : (forall d, f d = g d) -> forall d, set_loop f lp x d = set_loop g lp x d.
Proof. intros E d. unfold set_loop. destruct (existsb (deq d) lp); auto. Qed.
Lemma fconq_ext lim m : forall n q p p', (forall d, p d = p' d) -> fconq lim m q p n = fconq lim m q p' n.
Proof.
  induction n as [|n IH]; intros q p p' E; cbn [fconq]; [auto|]. destruct q as [|h q]; [auto|]. rewrite <- E. destruct (p h); [auto|].
  destruct (loop lim m h) as [lp|]; cbn [bind]; [|auto].
  rewrite (gates_ext (set_loop p lp true) (set_loop p' lp true)) by (intros; apply set_loop_ext; auto).
  rewrite (IH _ _ (set_loop p' lp true)); [auto|]. apply set_loop_ext. auto.
Qed.

Definition fclosed (m : mesh) (proc : dart -> bool) : Prop := forall d d', nxt m d = Some d' -> proc d = proc d'.
Lemma fclosed_loop m proc h lp b : wf m -> is_loop m h lp -> fclosed m proc -> fclosed m (set_loop proc lp b).
Proof.
  intros W L F d d' E. destruct (in_dec dart_dec d lp) as [Hi|Hi].
  - rewrite !set_loop_in; auto. eapply il_closed; eauto.
  - rewrite !set_loop_out; auto. intro K. apply Hi. eapply il_pred; eauto.
Qed.
Lemma fclosed_forb m proc d d' : fclosed m proc -> forb m d d' -> proc d = proc d'.
Proof. intros F. induction 1 as [|d d1 d2 E _ IH]; [auto|]. rewrite <- IH. apply F. auto. Qed.
Lemma loop_forb m h lp d : is_loop m h lp -> In d lp -> forb m h d /\ forb m d h.
Proof. intros L Hd. apply (path_forb _ _ _ _ _ (il_path _ _ _ L) Hd). Qed.
Lemma loop_opp m h lp d : wf m -> is_loop m h lp -> In d lp -> ~ In (opp d) lp.
Proof.
  intros W L Hd Ho. destruct (loop_forb _ _ _ _ L Hd) as [_ F1]. destruct (loop_forb _ _ _ _ L Ho) as [F2 _].
  eapply (wf_nsa m W d (opp d)); [eapply il_dart; eauto|eapply forb_trans; eauto|auto].
Qed.

(** What a facet conquest visits. *)
Lemma fconq_spec lim m : wf m -> forall n q proc tr, fclosed m proc -> fconq lim m q proc n = Some tr ->
  (forall x, In x tr -> is_loop m (fst x) (snd x)) /\
  (forall g, In g q -> proc g = true \/ exists x, In x tr /\ In g (snd x)) /\
  (forall x d, In x tr -> In d (snd x) -> proc (opp d) = true \/ exists y, In y tr /\ In (opp d) (snd y)) /\
  (forall x d, In x tr -> In d (snd x) -> proc d = false) /\
  ForallOrdPairs (fun x y => forall d, In d (snd x) -> ~ In d (snd y)) tr.
Proof.
  intro W. induction n as [|n IH]; intros q proc tr FC H; cbn [fconq] in H; [discriminate|]. destruct q as [|h q].
  - injection H as <-. repeat split; try contradiction. constructor.
  - destruct (proc h) eqn:Ep.
    + destruct (IH _ _ _ FC H) as (A1 & A2 & A3 & A4 & A5). split; [auto|]. split; [|auto]. intros g [<-|Hg]; auto.
    + destruct (loop lim m h) as [lp|] eqn:EL; cbn [bind] in H; [|discriminate]. apply loop_is_loop in EL.
      destruct (fconq lim m _ _ n) as [tr'|] eqn:E; cbn [bind] in H; [|discriminate]. injection H as <-.
      apply IH in E; [|eapply fclosed_loop; eauto]. destruct E as (A1 & A2 & A3 & A4 & A5).
      assert (PL : forall d, In d lp -> proc d = false).
      { intros d Hd. rewrite <- Ep. symmetry. apply (fclosed_forb m); [auto|]. apply (loop_forb _ _ _ _ EL Hd). }
      assert (ST : forall d, set_loop proc lp true d = true -> proc d = true \/ In d lp).
      { intros d Hd. unfold set_loop in Hd. destruct (existsb (deq d) lp) eqn:X; [right; apply existsb_deq; auto|auto]. }
      split; [|split; [|split; [|split]]].
      * intros x [<-|Hx]; auto.
      * intros g [<-|Hg].
        -- right. exists (h, lp). split; [left; auto|]. apply (il_in _ _ _ EL).
        -- destruct (A2 g) as [X|(x & X1 & X2)]; [apply in_or_app; auto| |].
           ++ apply ST in X. destruct X as [X|X]; [auto|]. right. exists (h, lp). split; [left; auto|auto].
           ++ right. exists x. split; [right; auto|auto].
      * intros x d [<-|Hx] Hd; cbn [snd] in *.
        -- assert (Ho := loop_opp _ _ _ _ W EL Hd). destruct (proc (opp d)) eqn:Eo; [auto|]. right.
           destruct (A2 (opp d)) as [X|(x & X1 & X2)].
           ++ apply in_or_app. right. apply gates_in. rewrite opp_opp. split; [auto|]. rewrite set_loop_out; auto.
           ++ rewrite set_loop_out in X by auto. congruence.
           ++ exists x. split; [right; auto|auto].
        -- destruct (A3 x d Hx Hd) as [X|(y & Y1 & Y2)].
           ++ apply ST in X. destruct X as [X|X]; [auto|]. right. exists (h, lp). split; [left; auto|auto].
           ++ right. exists y. split; [right; auto|auto].
      * intros x d [<-|Hx] Hd; [auto|]. assert (X := A4 x d Hx Hd). destruct (in_dec dart_dec d lp) as [Hi|Hi].
        -- rewrite set_loop_in in X by auto. discriminate.
        -- rewrite set_loop_out in X by auto. auto.
      * constructor; [|auto]. apply Forall_forall. intros x Hx d Hd Hd'. cbn [snd] in Hd. assert (X := A4 x d Hx Hd'). rewrite set_loop_in in X by auto. discriminate.
Qed.

(** All facets are visited. *)
Lemma fconq_all lim m e n tr : wf m -> connected m -> m (fst e) (snd e) <> None -> fconq lim m [e] (fun _ => false) n = Some tr ->
  forall d, m (fst d) (snd d) <> None -> exists x, In x tr /\ In d (snd x).
Proof.
  intros W C He H d Hd. assert (FC0 : fclosed m (fun _ => false)) by (intros ? ? ?; reflexivity).
  destruct (fconq_spec lim m W _ _ _ _ FC0 H) as (A1 & A2 & A3 & A4 & A5).
  assert (K : forall a b, clos_refl_sym_trans dart (link m) a b ->
    (m (fst a) (snd a) <> None <-> m (fst b) (snd b) <> None) /\ ((exists x, In x tr /\ In a (snd x)) <-> (exists x, In x tr /\ In b (snd x)))).
  { induction 1 as [a b [E|[E ->]]|a|a b _ [IH1 IH2]|a b c _ [IH1 IH2] _ [IH3 IH4]]; try tauto.
    - assert (Ha : m (fst a) (snd a) <> None) by (destruct (nxt_inv _ _ _ E); congruence). assert (Hb := nxt_dart _ _ _ W E).
      split; [tauto|]. split; intros (x & X1 & X2); exists x; split; auto; [eapply il_closed|eapply il_pred]; eauto.
    - assert (Ho : m (fst (opp a)) (snd (opp a)) <> None) by (unfold opp; cbn [fst snd]; apply (wf_sym _ W); auto).
      split; [tauto|]. split; intros (x & X1 & X2).
      + destruct (A3 x a X1 X2) as [X|X]; [discriminate|auto].
      + destruct (A3 x _ X1 X2) as [X|X]; [discriminate|]. rewrite opp_opp in X. auto. }
  destruct (K e d) as [_ K2]; [apply C; auto|]. apply K2. destruct (A2 e) as [X|X]; [left; auto|discriminate|auto].
Qed.

(** *** What the conquests compute, in terms of the facets visited *)
Section FaceCode.
  Variables (P : Type) (qz : P -> vec) (gp : vec -> P) (bary : list P -> P) (lim : nat).
  Variables (fl : dart -> fflag nat) (pos : nat -> P).
  Notation bc lp := (qz (bary (map (fun d : dart => pos (snd d)) lp))).
  Definition resid (v : nat) (lp : list dart) : vec := vsub (qz (pos v)) (bc lp).
  Definition sym (x : dart * list dart) : option vec := match fl (fst x) with Splittable v => Some (resid v (snd x)) | _ => None end.
  Definition resf (tr : list (dart * list dart)) (res : dart -> vec) : dart -> vec :=
    fold_left (fun res x => match fl (fst x) with Splittable v => set_loop res (snd x) (resid v (snd x)) | _ => res end) tr res.
  Lemma residuals_trace m : forall n q proc res res', determineResiduals P qz bary lim m fl pos q proc res n = Some res' ->
    exists tr, fconq lim m q proc n = Some tr /\ res' = resf tr res.
  Proof.
    induction n as [|n IH]; intros q proc res res' H; cbn [determineResiduals] in H; [discriminate|]. cbn [fconq]. destruct q as [|h q].
    - injection H as <-. exists []. auto.
    - destruct (proc h); [eauto|]. destruct (loop lim m h) as [lp|]; cbn [bind] in *; [|discriminate].
      apply IH in H. destruct H as (tr & E & ->). rewrite E. cbn [bind]. exists ((h, lp) :: tr). split; [auto|]. cbn [resf fold_left fst snd]. reflexivity.
  Qed.
  Lemma faces_trace m res : forall n q proc faces, RemovedVertexCoding lim m fl res q proc n = Some faces ->
    exists tr, fconq lim m q proc n = Some tr /\ faces = map (fun x => if isSplittable (fl (fst x)) then Some (res (fst x)) else None) tr.
  Proof.
    induction n as [|n IH]; intros q proc faces H; cbn [RemovedVertexCoding] in H; [discriminate|]. cbn [fconq]. destruct q as [|h q].
    - injection H as <-. exists []. auto.
    - destruct (proc h); [eauto|]. destruct (loop lim m h) as [lp|]; cbn [bind] in *; [|discriminate].
      destruct (RemovedVertexCoding lim m fl res _ _ n) as [r|] eqn:E; cbn [bind] in H; [|discriminate]. injection H as <-.
      apply IH in E. destruct E as (tr & E & ->). rewrite E. cbn [bind]. exists ((h, lp) :: tr). auto.
  Qed.
  Lemma resf_out tr : forall res d, (forall x, In x tr -> ~ In d (snd x)) -> resf tr res d = res d.
  Proof.
    induction tr as [|x tr IH]; intros res d H; cbn [resf fold_left]; [auto|]. fold (resf tr).
    rewrite IH by (intros; apply H; right; auto). destruct (fl (fst x)); auto. apply set_loop_out. apply H. left; auto.
  Qed.
  Lemma resf_in tr : ForallOrdPairs (fun x y => forall d, In d (snd x) -> ~ In d (snd y)) tr ->
    forall res x v d, In x tr -> In d (snd x) -> fl (fst x) = Splittable v -> resf tr res d = resid v (snd x).
  Proof.
    induction 1 as [|y tr Hy _ IH]; intros res x v d Hx Hd E; [destruct Hx|]. cbn [resf fold_left]. fold (resf tr).
    destruct Hx as [->|Hx]; [|eapply IH; eauto]. rewrite E, resf_out.
    - apply set_loop_in. auto.
    - intros z Hz K. rewrite Forall_forall in Hy. eapply Hy; eauto.
  Qed.
  (** Both compressor passes together. *)
  Lemma faces_sym m n q proc res0 res faces tr : wf m -> fclosed m proc ->
    determineResiduals P qz bary lim m fl pos q proc res0 n = Some res -> RemovedVertexCoding lim m fl res q proc n = Some faces ->
    fconq lim m q proc n = Some tr -> faces = map sym tr.
  Proof.
    intros W FC H1 H2 H3. apply residuals_trace in H1. apply faces_trace in H2. destruct H1 as (t1 & E1 & ->), H2 as (t2 & E2 & ->).
    assert (t1 = tr) by congruence. assert (t2 = tr) by congruence. subst t1 t2.
    destruct (fconq_spec lim m W _ _ _ _ FC H3) as (A1 & _ & _ & _ & A5).
    apply map_ext_in. intros x Hx. unfold sym. destruct (fl (fst x)) as [| |v] eqn:E; auto. cbn [isSplittable]. f_equal.
    eapply resf_in; eauto. apply (il_in m). apply A1. auto.
  Qed.

  Definition toflag (s : option vec) : fflag vec := match s with Some r => Splittable r | None => Unsplittable end.
  Definition flagf (l : list ((dart * list dart) * option vec)) (g : dart -> fflag vec) : dart -> fflag vec :=
    fold_left (fun g x => set_loop g (snd (fst x)) (toflag (snd x))) l g.
  Lemma undec_trace m : wf m -> forall n q g tr, fconq lim m q (fun d => isConquered (g d)) n = Some tr -> fclosed m (fun d => isConquered (g d)) ->
    forall syms extra, length syms = length tr ->
    undecimation lim m g q (syms ++ extra) n = Some (flagf (combine tr syms) g, extra).
  Proof.
    intro W. induction n as [|n IH]; intros q g tr H FC syms extra Hl; cbn [fconq] in H; [discriminate|]. cbn [undecimation]. destruct q as [|h q].
    - injection H as <-. destruct syms; [auto|discriminate].
    - destruct (isConquered (g h)) eqn:Eh; [auto|].
      destruct (loop lim m h) as [lp|] eqn:EL; cbn [bind] in H; [|discriminate]. assert (L := loop_is_loop _ _ _ _ EL).
      destruct (fconq lim m _ _ n) as [tr'|] eqn:E; cbn [bind] in H; [|discriminate]. injection H as <-.
      destruct syms as [|s syms]; [discriminate|]. cbn [app bind].
      assert (X : forall d, set_loop (fun d => isConquered (g d)) lp true d = isConquered (set_loop g lp (toflag s) d)).
      { intro d. unfold set_loop. destruct (existsb (deq d) lp); [destruct s; auto|auto]. }
      rewrite (fconq_ext _ _ _ _ _ _ X) in E.
      rewrite (gates_ext (fun d => isConquered (g d)) (set_loop (fun d => isConquered (g d)) lp true)).
      2:{ intros d Hd. rewrite set_loop_out; [auto|]. eapply loop_opp; eauto. }
      fold (toflag s). rewrite (IH _ _ _ E); [reflexivity| |cbn [length] in Hl; lia].
      intros d d' Ed. rewrite <- !X. apply (fclosed_loop m _ _ _ _ W L FC). auto.
  Qed.
  Lemma flagf_out l : forall g d, (forall x, In x l -> ~ In d (snd (fst x))) -> flagf l g d = g d.
  Proof.
    induction l as [|x l IH]; intros g d H; cbn [flagf fold_left]; [auto|]. fold (flagf l).
    rewrite IH by (intros; apply H; right; auto). apply set_loop_out. apply H. left; auto.
  Qed.
  Lemma flagf_in (F : dart * list dart -> option vec) tr : ForallOrdPairs (fun x y => forall d, In d (snd x) -> ~ In d (snd y)) tr ->
    forall g x d, In x tr -> In d (snd x) -> flagf (combine tr (map F tr)) g d = toflag (F x).
  Proof.
    induction 1 as [|y tr Hy _ IH]; intros g x d Hx Hd; [destruct Hx|]. cbn [map combine flagf fold_left]. fold (flagf (combine tr (map F tr))).
    destruct Hx as [->|Hx]; [|eapply IH; eauto]. rewrite flagf_out.
    - apply set_loop_in. auto.
    - intros [z s] Hz K. apply in_combine_l in Hz. rewrite Forall_forall in Hy. eapply Hy; eauto.
  Qed.
End FaceCode.

(** *** Edges *)
Lemma around_spec m h : forall n hIt sp, around m h hIt n = Some sp -> (forall d, In d sp -> m (fst d) (snd d) <> None \/ m (snd d) (fst d) <> None).
Proof.
  induction n as [|n IH]; intros hIt sp H d Hd; cbn [around] in H; [discriminate|].
  destruct (deq (opp hIt) h); [injection H as <-; destruct Hd|].
  destruct (nxt m (opp hIt)) as [h'|] eqn:E; cbn [bind] in H; [|discriminate]. destruct (around m h h' n) as [r|] eqn:Er; cbn [bind] in H; [|discriminate].
  injection H as <-. destruct Hd as [<-|Hd]; [|eauto]. destruct (nxt_inv _ _ _ E) as [E1 _]. unfold opp in E1. cbn [fst snd] in E1. right. congruence.
Qed.
(** All half-edges away from the target of h except its opposite. *)
Lemma around_all m t : wf m -> forall n s w sp, around m (s, t) (t, w) n = Some sp -> m t w <> None -> m s t <> None ->
  (forall d, In d sp -> fst d = t /\ m (fst d) (snd d) <> None /\ snd d <> s) /\ (w = s \/ In (t, w) sp) /\ (forall y z, In (t, y) sp -> m y t = Some z -> z = s \/ In (t, z) sp).
Proof.
  intro W. induction n as [|n IH]; intros s w sp H Hw Hs; cbn [around] in H; [discriminate|]. unfold opp in H; cbn [fst snd] in H.
  destruct (deq_spec (w, t) (s, t)) as [E|E].
  - injection H as <-. injection E as ->. split; [contradiction|]. split; [auto|contradiction].
  - destruct (nxt m (w, t)) as [h'|] eqn:En; cbn [bind] in H; [|discriminate]. destruct (nxt_inv _ _ _ En) as [E1 E2]. destruct h' as [t' w']. cbn [fst snd] in *. subst t'.
    destruct (around m (s, t) (t, w') n) as [r|] eqn:Er; cbn [bind] in H; [|discriminate]. injection H as <-.
    destruct (IH _ _ _ Er) as (B1 & B2 & B3); [eapply (wf_nxt m W); eauto|auto|]. split; [|split].
    + intros d [<-|Hd]; [cbn [fst snd]; split; [auto|split; [auto|congruence]]|auto].
    + right; left; auto.
    + intros y z [Hy|Hy] Ez; cbn [In].
      * injection Hy as <-. assert (z = w') by congruence. subst. tauto.
      * destruct (B3 y z Hy Ez); tauto.
Qed.

Fixpoint econq (lim : nat) (m : mesh) (q : list dart) (proc : dart -> bool) (fuel : nat) : option (list dart) :=
  match fuel with
  | O => None
  | S n =>
    match q with
    | [] => Some []
    | h :: q' =>
      if proc h then econq lim m q' proc n else
      let proc' := set_dart (set_dart proc h true) (opp h) true in
      do h1 <- nxt m h;
      do sp <- around m h h1 lim;
      do r <- econq lim m (q' ++ filter (fun d => negb (proc' d)) sp) proc' n;
      Some (h :: r)
    end
  end.
Lemma edges_trace lim m fl added : forall n q proc edges, InsertedEdgeCoding lim m fl added q proc n = Some edges ->
  exists tr, econq lim m q proc n = Some tr /\
  edges = flat_map (fun h => if isUnsplittable (fl h) && isUnsplittable (fl (opp h)) then [] else [if added h then 1%Z else 0%Z]) tr.
Proof.
  induction n as [|n IH]; intros q proc edges H; cbn [InsertedEdgeCoding] in H; [discriminate|]. cbn [econq]. destruct q as [|h q].
  - injection H as <-. exists []. auto.
  - destruct (proc h); [eauto|]. destruct (nxt m h) as [h1|]; cbn [bind] in *; [|discriminate].
    destruct (around m h h1 lim) as [sp|]; cbn [bind] in *; [|discriminate].
    destruct (InsertedEdgeCoding lim m fl added _ _ n) as [r|] eqn:E; cbn [bind] in H; [|discriminate].
    apply IH in E. destruct E as (tr & E & ->). rewrite E. cbn [bind]. exists (h :: tr). split; [auto|]. cbn [flat_map].
    destruct (isUnsplittable (fl h) && isUnsplittable (fl (opp h))); injection H as <-; auto.
Qed.
Lemma edges_decoded lim m (fl : dart -> fflag nat) (g : dart -> fflag vec) (added : dart -> bool) (extra : list Z) : wf m ->
  (forall d, m (fst d) (snd d) <> None -> isSplittable (g d) = negb (isUnsplittable (fl d))) ->
  forall n q proc tr a0, econq lim m q proc n = Some tr -> (forall d, In d q -> m (fst d) (snd d) <> None) ->
  exists a', InsertedEdgeDecoding lim m g a0 q proc (flat_map (fun h => if isUnsplittable (fl h) && isUnsplittable (fl (opp h)) then [] else [if added h then 1%Z else 0%Z]) tr ++ extra) n
    = Some (a', extra) /\
  forall d, a' d = true <-> a0 d = true \/ (In d tr /\ added d = true /\ isUnsplittable (fl d) && isUnsplittable (fl (opp d)) = false).
Proof.
  intros W G. induction n as [|n IH]; intros q proc tr a0 H Hq; cbn [econq] in H; [discriminate|]. cbn [InsertedEdgeDecoding]. destruct q as [|h q].
  - injection H as <-. exists a0. split; [auto|]. intro d. cbn [In]. tauto.
  - assert (Hd := Hq h (or_introl eq_refl)). destruct (proc h); [apply IH; auto; intros; apply Hq; right; auto|].
    destruct (nxt m h) as [h1|] eqn:En; cbn [bind] in *; [|discriminate].
    destruct (around m h h1 lim) as [sp|] eqn:Ea; cbn [bind] in *; [|discriminate]. cbn zeta in H.
    destruct (econq lim m _ _ n) as [tr'|] eqn:E; cbn [bind] in H; [|discriminate]. injection H as <-.
    assert (Hq' : forall d, In d (q ++ filter (fun d => negb (set_dart (set_dart proc h true) (opp h) true d)) sp) -> m (fst d) (snd d) <> None).
    { intros d Hi. apply in_app_or in Hi. destruct Hi as [Hi|Hi]; [apply Hq; right; auto|]. apply filter_In in Hi. destruct Hi as [Hi _].
      destruct (around_spec _ _ _ _ _ Ea d Hi) as [X|X]; [auto|apply (wf_sym m W); auto]. }
    assert (Ho : m (fst (opp h)) (snd (opp h)) <> None) by (unfold opp; cbn [fst snd]; apply (wf_sym _ W); auto).
    rewrite (G h Hd), (G _ Ho). rewrite <- negb_andb. cbn [flat_map]. destruct (isUnsplittable (fl h) && isUnsplittable (fl (opp h))) eqn:Eu; cbn [negb app].
    + destruct (IH _ _ _ a0 E Hq') as (a' & X & Y). rewrite X. exists a'. split; [auto|]. intro d. rewrite Y. cbn [In]. split; [tauto|].
      intros [?|([<-|?] & ? & ?)]; [tauto|congruence|tauto].
    + destruct (IH _ _ _ (if added h then set_dart a0 h true else a0) E Hq') as (a' & X & Y).
      assert (Z : (if ((if added h then 1%Z else 0%Z) =? 0)%Z then a0 else set_dart a0 h true) = (if added h then set_dart a0 h true else a0)) by (destruct (added h); reflexivity).
      rewrite Z, X. exists a'. split; [auto|]. intro d. rewrite Y. cbn [In]. destruct (added h) eqn:Eh.
      * unfold set_dart. destruct (deq_spec d h) as [->|Hn]; [tauto|]. intuition congruence.
      * intuition congruence.
Qed.

(** What an edge conquest visits. *)
Lemma econq_spec lim m : wf m -> forall n q proc tr, econq lim m q proc n = Some tr -> (forall d, In d q -> m (fst d) (snd d) <> None) ->
  (forall d, proc (opp d) = proc d) ->
  (forall d, In d tr -> m (fst d) (snd d) <> None) /\
  (forall g, In g q -> proc g = true \/ In g tr \/ In (opp g) tr) /\
  (forall h g, In h tr -> fst g = snd h -> m (fst g) (snd g) <> None -> proc g = true \/ In g tr \/ In (opp g) tr) /\
  (forall h, In h tr -> In h q \/ exists h', In h' tr /\ snd h' = fst h) /\
  (forall h, In h tr -> proc h = false) /\ NoDup tr /\ (forall h, In h tr -> ~ In (opp h) tr).
Proof.
  intro W. induction n as [|n IH]; intros q proc tr H Hq Hp; cbn [econq] in H; [discriminate|]. destruct q as [|h q].
  - injection H as <-. repeat split; try contradiction. constructor.
  - assert (Hd := Hq h (or_introl eq_refl)). destruct (proc h) eqn:Eh.
    + destruct (IH _ _ _ H) as (A1 & A2 & A3 & A4 & A5 & A6 & A7); auto; [intros; apply Hq; right; auto|].
      split; [auto|]. split; [intros g [<-|Hg]; auto|]. split; [auto|]. split; [|auto].
      intros h0 H0. destruct (A4 _ H0) as [X|X]; [left; right; auto|auto].
    + destruct (nxt m h) as [h1|] eqn:En; cbn [bind] in *; [|discriminate].
      destruct (around m h h1 lim) as [sp|] eqn:Ea; cbn [bind] in *; [|discriminate]. cbn zeta in H.
      destruct (econq lim m _ _ n) as [tr'|] eqn:E; cbn [bind] in H; [|discriminate]. injection H as <-.
      set (proc' := set_dart (set_dart proc h true) (opp h) true) in *.
      assert (P1 : forall d, proc' d = true <-> proc d = true \/ d = h \/ d = opp h).
      { intro d. unfold proc', set_dart. destruct (deq_spec d (opp h)); [tauto|]. destruct (deq_spec d h); tauto. }
      destruct h as [s t]. destruct h1 as [t' w]. destruct (nxt_inv _ _ _ En) as [E1 E2]. cbn [fst snd] in *. subst t'.
      destruct (around_all m t W _ _ _ _ Ea) as (B1 & B2 & B3); [eapply (wf_nxt m W); eauto|auto|].
      apply IH in E.
      2:{ intros d Hi. apply in_app_or in Hi. destruct Hi as [Hi|Hi]; [apply Hq; right; auto|]. apply filter_In in Hi. apply B1. tauto. }
      2:{ intro d. apply eq_true_iff_eq. rewrite !P1, Hp. clear. destruct d as [a b]. unfold opp; cbn [fst snd]. split; (intros [?|[X|X]]; [auto|injection X as -> ->; auto|injection X as -> ->; auto]). }
      destruct E as (A1 & A2 & A3 & A4 & A5 & A6 & A7).
      assert (PR : forall g, proc' g = true \/ In g tr' \/ In (opp g) tr' -> proc g = true \/ In g ((s, t) :: tr') \/ In (opp g) ((s, t) :: tr')).
      { intros g [X|X]; cbn [In]; [|tauto]. apply P1 in X. destruct X as [X|[X|X]]; [auto|subst; auto|]. right. right. left. subst g. auto. }
      split; [intros d [<-|Hi]; auto|]. split; [|split; [|split; [|split; [|split]]]].
      * intros g [<-|Hg]; [right; left; left; auto|]. apply PR. apply A2. apply in_or_app. auto.
      * intros h0 g [<-|H0] Eg Hg; [|apply PR; eapply A3; eauto]. cbn [snd] in Eg. destruct g as [t' x]. cbn [fst snd] in *. subst t'.
        assert (V : vorb m t w x) by (apply (wf_man m W); apply (wf_sym m W); [eapply (wf_nxt m W); eauto|auto]).
        assert (K : x = s \/ In (t, x) sp).
        { clear - V B2 B3 E1. assert (Q : forall a b, vorb m t a b -> a = s \/ In (t, a) sp -> b = s \/ In (t, b) sp).
          { induction 1 as [|a b c Eb _ IH]; intro Hi; [auto|]. apply IH. destruct Hi as [->|Hi]; [|eauto]. assert (b = w) by congruence. subst. auto. }
          eapply Q; eauto. }
        destruct K as [->|K].
        -- right. right. left. auto.
        -- destruct (proc' (t, x)) eqn:Epx; [apply PR; auto|]. apply PR. apply A2. apply in_or_app. right. apply filter_In. rewrite Epx. auto.
      * intros h0 [<-|H0]; [left; left; auto|]. destruct (A4 _ H0) as [X|(h' & X1 & X2)].
        -- apply in_app_or in X. destruct X as [X|X]; [left; right; auto|]. right. exists (s, t). split; [left; auto|]. apply filter_In in X. cbn [snd]. symmetry. apply B1. tauto.
        -- right. exists h'. split; [right; auto|auto].
      * intros h0 [<-|H0]; [auto|]. assert (X := A5 _ H0). destruct (proc h0) eqn:Y; [|auto]. assert (proc' h0 = true) by (apply P1; auto). congruence.
      * constructor; [|auto]. intro K. apply A5 in K. assert (proc' (s, t) = true) by (apply P1; auto). congruence.
      * intros h0 [<-|H0] [K|K].
        -- unfold opp in K; cbn [fst snd] in K. injection K as -> _. rewrite (wf_irr m W) in Hd. congruence.
        -- apply A5 in K. assert (proc' (opp (s, t)) = true) by (apply P1; auto). congruence.
        -- apply A5 in H0. assert (proc' h0 = true); [|congruence]. apply P1. right. right. rewrite K. rewrite opp_opp. auto.
        -- exact (A7 _ H0 K).
Qed.

(** Every edge is visited exactly once, in one direction. *)
Lemma econq_all lim m d0 d1 n tr lp : wf m -> connected m -> is_loop m (d0, d1) lp -> m d0 d1 <> None -> econq lim m [(d0, d1)] (fun _ => false) n = Some tr ->
  NoDup tr /\ (forall h, In h tr -> ~ In (opp h) tr) /\ (forall d, m (fst d) (snd d) <> None -> In d tr \/ In (opp d) tr) /\
  (forall d, In d tr -> m (fst d) (snd d) <> None).
Proof.
  intros W C Lp Hd H. destruct (econq_spec lim m W _ _ _ _ H) as (A1 & A2 & A3 & A4 & A5 & A6 & A7).
  { intros d [<-|[]]. auto. } { auto. }
  split; [auto|]. split; [auto|]. split; [|auto].
  assert (A3' : forall h g, In h tr -> fst g = snd h -> m (fst g) (snd g) <> None -> In g tr \/ In (opp g) tr).
  { intros h g H1 H2 H3. destruct (A3 h g H1 H2 H3) as [X|X]; [discriminate|auto]. }
  set (S := fun t => exists h, In h tr /\ snd h = t).
  assert (S1 : S d1).
  { destruct (A2 (d0, d1)) as [X|[X|X]]; [left; auto|discriminate|exists (d0, d1); auto|].
    unfold opp in X; cbn [fst snd] in X. destruct (A4 _ X) as [[K|[]]|(h' & K1 & K2)]; [|exists h'; auto].
    injection K as -> _. exfalso. rewrite (wf_irr m W) in Hd. auto. }
  (* neighbours of visited vertices *)
  assert (SN : forall t w, S t -> m t w <> None -> S w \/ (w = d0 /\ t = d1)).
  { intros t w (h & H1 & H2) Hm. destruct (A3' h (t, w) H1) as [X|X]; auto.
    - left. exists (t, w). auto.
    - unfold opp in X; cbn [fst snd] in X. destruct (A4 _ X) as [[K|[]]|(h' & K1 & K2)].
      + injection K as -> ->. auto.
      + left. exists h'. auto. }
  assert (S0 : S d0).
  { (* go around the facet of (d0, d1) *)
    destruct (m d0 d1) as [w|] eqn:Ew; [|congruence].
    assert (Fr : forall e e', forb m e e' -> S d0 \/ (S (fst e) -> fst e <> d0 -> snd e' = d0 -> forb m (d0, d1) e -> m (fst e) (snd e) <> None -> S d0)).
    { induction 1 as [e|e e1 e2 E _ [IH|IH]]; [right|auto|right].
      - intros Q1 Q2 Q3 Q4 Q5. destruct e as [z z']. cbn [fst snd] in *. subst z'.
        destruct (SN z d0 Q1 Q5) as [K|[_ ->]]; [auto|]. exfalso. eapply (wf_nsa m W (d0, d1)); [|exact Q4|]; [cbn [fst snd]; congruence|auto].
      - intros Q1 Q2 Q3 Q4 Q5. assert (Q5' := Q5). destruct (nxt_inv _ _ _ E) as [E1 E2]. destruct e as [z z'], e1 as [z1 z2]. cbn [fst snd] in *. subst z1.
        destruct (Nat.eq_dec z' d0) as [->|Hz].
        + destruct (SN z d0 Q1 Q5) as [K|[_ ->]]; [auto|]. exfalso. eapply (wf_nsa m W (d0, d1)); [|exact Q4|]; [cbn [fst snd]; congruence|auto].
        + apply IH; auto.
          * destruct (SN z z' Q1 Q5) as [K|[K _]]; [auto|congruence].
          * eapply forb_trans; [exact Q4|]. apply forb_one. auto.
          * eapply (wf_nxt m W); eauto. }
    (* the facet closes: some half-edge of it comes back to d0 *)
    destruct (wf_sur m W d0 d1) as [y Hy]; [congruence|].
    assert (FB : forb m (d1, w) (y, d0)).
    { assert (Hi : In (y, d0) lp) by (eapply il_pred; [exact W|exact Lp|eapply il_in; exact Lp|apply nxt_some; auto]).
      destruct (loop_forb _ _ _ _ Lp Hi) as [X _]. inversion X as [|? e1 ? Ee X']; subst.
      - exfalso. rewrite (wf_irr m W) in Ew. discriminate.
      - rewrite (nxt_some _ _ _ _ Ew) in Ee. injection Ee as <-. auto. }
    destruct (Fr _ _ FB) as [K|K]; [auto|]. apply K; auto.
    - cbn [fst]. intros ->. rewrite (wf_irr m W) in Ew. discriminate.
    - apply forb_one, nxt_some. auto.
    - cbn [fst snd]. eapply (wf_nxt m W); eauto. }
  assert (SC : forall t w, S t -> m t w <> None -> S w).
  { intros t w Ht Hm. destruct (SN t w Ht Hm) as [K|[-> ->]]; auto. }
  intros d Hm.
  assert (K : forall a b, clos_refl_sym_trans dart (link m) a b ->
    (m (fst a) (snd a) <> None <-> m (fst b) (snd b) <> None) /\ (m (fst a) (snd a) <> None -> (S (fst a) <-> S (fst b)))).
  { induction 1 as [a b [E|[E ->]]|a|a b _ [IH1 IH2]|a b c _ [IH1 IH2] _ [IH3 IH4]]; try tauto.
    - assert (Ha : m (fst a) (snd a) <> None) by (destruct (nxt_inv _ _ _ E); congruence). assert (Hb := nxt_dart _ _ _ W E).
      split; [tauto|]. intros _. destruct (nxt_inv _ _ _ E) as [_ E2]. rewrite E2. split; intro X; [eapply SC; eauto|]. eapply SC; [exact X|apply (wf_sym m W); auto].
    - assert (Ho : m (fst (opp a)) (snd (opp a)) <> None) by (unfold opp; cbn [fst snd]; apply (wf_sym _ W); auto).
      split; [tauto|]. intros _. unfold opp in *; cbn [fst snd] in *. split; intro X; eapply SC; eauto.
    }
  destruct (K (d0, d1) d) as [_ K2]; [apply C; auto|]. destruct K2 as [K2 _]; [auto|]. destruct (K2 S0) as (h & Hh & Eh).
  apply (A3' h d); auto.
Qed.
