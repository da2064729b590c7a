(** A compression round always finishes, and never asks for an impossible operation. *)
From Coq Require Import List ZArith Bool Arith Lia Relations.
From Verif Require Import Arr CodecModel PpmcModel PpmcTopo PpmcOps PpmcStar PpmcEnc PpmcTrav PpmcRound.
Import ListNotations.
Close Scope Z_scope.
Open Scope nat_scope.

Lemma nodup_map {A B} (g : A -> B) l : NoDup l -> (forall x y, In x l -> In y l -> g x = g y -> x = y) -> NoDup (map g l).
Proof.
  induction 1 as [|x l Hx Hn IH]; intro Hi; cbn [map]; constructor.
  - intro K. apply in_map_iff in K. destruct K as (y & E & Hy). apply Hx. rewrite (Hi x y); [auto|left; auto|right; auto|auto].
  - apply IH. intros a b Ha Hb. apply Hi; right; auto.
Qed.
Lemma nodup_app {A} (l l' : list A) : NoDup l -> NoDup l' -> (forall x, In x l -> ~ In x l') -> NoDup (l ++ l').
Proof.
  induction 1 as [|x l Hx Hn IH]; intros H' D; cbn [app]; [auto|]. constructor.
  - intro K. apply in_app_or in K. destruct K as [K|K]; [auto|]. apply (D x); [left; auto|auto].
  - apply IH; auto. intros y Hy. apply D. right; auto.
Qed.

Section Fin.
  Variable all : list dart.
  Hypothesis AN : NoDup all.
  Definition bnd (m : mesh) : Prop := forall p q, m p q <> None -> In (p, q) all.

  Lemma walk_total m h : wf m -> bnd m -> forall n d seen, NoDup (d :: seen) ->
    (forall x, In x (d :: seen) -> m (fst x) (snd x) <> None) ->
    (forall x, In x (d :: seen) -> x = h \/ exists y, In y seen /\ nxt m y = Some x) ->
    length all <= length seen + n -> exists lp, walk m h d n = Some lp.
  Proof.
    intros W B. induction n as [|n IH]; intros d seen ND HD HP HL.
    - exfalso. assert (length (d :: seen) <= length all); [|cbn [length] in *; lia]. apply NoDup_incl_length; [auto|].
      intros [p q] Hx. apply B. apply (HD _ Hx).
    - cbn [walk]. destruct (nxt_exists m d) as [d' E]; [apply HD; left; auto|]. rewrite E. cbn [bind].
      destruct (deq_spec d' h) as [|Hh]; [eauto|]. destruct (IH d' (d :: seen)) as [lp El].
      + constructor; [|auto]. intro K. destruct (HP _ K) as [|(y & Hy & Ey)]; [congruence|]. assert (y = d) by (eapply nxt_inj; eauto). subst.
        inversion ND; auto.
      + intros x [<-|Hx]; [eapply nxt_dart; eauto|auto].
      + intros x [<-|Hx]; [right; exists d; split; [left|]; auto|]. destruct (HP x Hx) as [|(y & Hy & Ey)]; [auto|]. right. exists y. split; [right|]; auto.
      + cbn [length]. lia.
      + rewrite El. cbn [bind]. eauto.
  Qed.
  Lemma loop_total lim m h : wf m -> bnd m -> m (fst h) (snd h) <> None -> length all <= lim -> exists lp, loop lim m h = Some lp.
  Proof.
    intros W B Hh HL. unfold loop. apply (walk_total m h W B lim h []); auto.
    - constructor; [auto|constructor].
    - intros x [<-|[]]. auto.
    - intros x [<-|[]]. auto.
  Qed.
  Lemma turn_total m v a : wf m -> bnd m -> forall n x seen, NoDup (x :: seen) ->
    (forall y, In y (x :: seen) -> m y v <> None) ->
    (forall y, In y (x :: seen) -> y = a \/ exists z, In z seen /\ m z v = Some y) ->
    length all <= length seen + n -> exists r, turn m v a x n = Some r.
  Proof.
    intros W B. induction n as [|n IH]; intros x seen ND HD HP HL.
    - exfalso. assert (length (map (fun y => (y, v)) (x :: seen)) <= length all); [|rewrite map_length in *; cbn [length] in *; lia].
      apply NoDup_incl_length; [apply nodup_map; [auto|intros; congruence]|].
      intros d Hd. apply in_map_iff in Hd. destruct Hd as (y & <- & Hy). apply B, HD, Hy.
    - cbn [turn]. destruct (m x v) as [y|] eqn:E; [|exfalso; apply (HD x); [left; auto|auto]]. cbn [bind].
      destruct (Nat.eqb_spec y a) as [|Hne]; [eauto|]. destruct (IH y (x :: seen)) as [r Er].
      + constructor; [|auto]. intro K. destruct (HP _ K) as [|(z & Hz & Ez)]; [congruence|].
        assert (z = x). { destruct (m v y) eqn:Ey; [|exfalso; eapply (wf_nxt m W); eauto]. eapply (wf_inj m W); eauto. } subst. inversion ND; auto.
      + intros z [<-|Hz]; [|auto]. apply (wf_sym m W). eapply (wf_nxt m W); eauto.
      + intros z [<-|Hz]; [right; exists x; split; [left|]; auto|]. destruct (HP z Hz) as [|(w & Hw & Ew)]; [auto|]. right. exists w. split; [right|]; auto.
      + cbn [length]. lia.
      + rewrite Er. cbn [bind]. eauto.
  Qed.
  Lemma ring_total lim m v a : wf m -> bnd m -> m a v <> None -> length all <= lim -> exists r, ring lim m v a = Some r.
  Proof.
    intros W B Ha HL. unfold ring. apply (turn_total m v a W B lim a []); auto.
    - constructor; [auto|constructor].
    - intros x [<-|[]]. auto.
    - intros x [<-|[]]. auto.
  Qed.

  Lemma turn_around m s t : forall n x r, turn m t s x n = Some r -> exists sp, around m (s, t) (t, x) (S n) = Some sp /\ length sp <= length r.
  Proof.
    induction n as [|n IH]; intros x r H; cbn [turn] in H; [discriminate|].
    destruct (m x t) as [y|] eqn:E; [|discriminate]. cbn [bind] in H. cbn [around]. unfold opp; cbn [fst snd].
    destruct (deq_spec (x, t) (s, t)) as [Ex|Ex]; [exists []; split; [auto|cbn [length]; lia]|].
    rewrite (nxt_some _ _ _ _ E). cbn [bind]. destruct (Nat.eqb_spec y s) as [->|Hy].
    - injection H as <-. cbn [around]. unfold opp; cbn [fst snd]. destruct (deq_spec (s, t) (s, t)); [|congruence]. cbn [bind]. eexists. split; [reflexivity|]. auto.
    - destruct (turn m t s y n) as [r'|] eqn:Er; [|discriminate]. injection H as <-. destruct (IH _ _ Er) as (sp & Es & Hl).
      cbn [around] in Es. unfold opp in Es; cbn [fst snd] in Es. unfold opp; cbn [fst snd]. rewrite Es. cbn [bind].
      eexists. split; [reflexivity|]. cbn [length]. lia.
  Qed.
  (** [around], starting just after [h]. *)
  Lemma around_total lim m s t : wf m -> bnd m -> m s t <> None -> length all < lim ->
    exists h1 sp, nxt m (s, t) = Some h1 /\ around m (s, t) h1 lim = Some sp /\ length sp <= length all.
  Proof.
    intros W B Hs HL. destruct (m s t) as [x|] eqn:E; [|congruence].
    assert (Hx : m x t <> None) by (apply (wf_sym m W); eapply (wf_nxt m W); eauto).
    destruct lim as [|n]; [lia|].
    assert (T : exists r, turn m t s s (S n) = Some r /\ length r <= length all).
    { destruct (ring_total (S n) m t s W B) as [r Er]; [congruence|lia|]. exists r. split; [exact Er|].
      apply ring_is_ring in Er. rewrite <- (map_length (fun y => (y, t))). apply NoDup_incl_length; [apply nodup_map; [apply (ir_nodup _ _ _ _ Er)|intros; congruence]|].
      intros d Hd. apply in_map_iff in Hd. destruct Hd as (y & <- & Hy). apply B. eapply ring_nb; eauto. }
    destruct T as (r & Er & Hr). cbn [turn] in Er. rewrite E in Er. cbn [bind] in Er. exists (t, x). destruct (Nat.eqb_spec x s) as [->|Hn].
    - exists []. split; [apply nxt_some; auto|]. cbn [around]. unfold opp; cbn [fst snd]. destruct (deq_spec (s, t) (s, t)); [|congruence]. split; [auto|cbn [length]; lia].
    - destruct (turn m t s x n) as [r'|] eqn:Et; [|discriminate]. injection Er as <-. destruct (turn_around _ _ _ _ _ _ Et) as (sp & Es & Hl).
      exists sp. split; [apply nxt_some; auto|]. split; [exact Es|]. cbn [length] in Hr. lia.
  Qed.

  (** *** Counting *)
  Definition cnt (P : dart -> bool) : nat := length (filter P all).
  Lemma cnt_drop (P P' : dart -> bool) l : NoDup l -> (forall d, In d l -> In d all /\ P d = true /\ P' d = false) ->
    (forall d, In d all -> P' d = true -> P d = true) -> length l + cnt P' <= cnt P.
  Proof.
    intros ND Hl HP. unfold cnt. rewrite <- app_length. apply NoDup_incl_length.
    - apply nodup_app; [auto|apply NoDup_filter; auto|]. intros x Hx K. apply filter_In in K. destruct (Hl x Hx) as (_ & _ & E). destruct K. congruence.
    - intros x Hx. apply filter_In. apply in_app_or in Hx. destruct Hx as [Hx|Hx]; [destruct (Hl x Hx); tauto|].
      apply filter_In in Hx. destruct Hx. auto.
  Qed.

  Definition left (m : mesh) (proc : dart -> bool) : nat :=
    cnt (fun d => match m (fst d) (snd d) with Some _ => negb (proc d) | None => false end).

  Lemma path_nodup m : wf m -> forall lp d h, path m d lp h -> ~ In h (tl lp) -> lp <> [] -> NoDup lp.
  Proof.
    intros W. induction lp as [|x lp IH]; intros d h P Nh Hn; [congruence|]. assert (P0 := P). cbn [path tl] in *. destruct P as [-> (d' & E & P)].
    destruct lp as [|y lp]; [constructor; [auto|constructor]|].
    assert (ND : NoDup (y :: lp)). { apply (IH d' h P); [cbn [tl]; intro; apply Nh; right; auto|congruence]. }
    constructor; [|auto]. intro K.
    (* take the split at d: the part after it has the same successor d' as the start *)
    apply in_split in K. destruct K as (l1 & l2 & El). 
    assert (P2 : path m d (d :: l2) h).
    { clear - P El. rewrite El in P. revert d' P. clear El. induction l1 as [|b l1 IH1]; intros d' P; cbn [app path] in *.
      - destruct P as [-> P]. auto.
      - destruct P as [-> (c & _ & P)]. eauto. }
    cbn [path] in P2. destruct P2 as [_ (c & Ec & P2)]. assert (c = d') by congruence. subst c.
    assert (SL : forall l l' e, path m e l h -> path m e l' h -> ~ In h l -> ~ In h l' -> length l = length l').
    { induction l as [|b l IHl]; intros l' e Q1 Q2 N1 N2; destruct l' as [|b' l']; cbn [path length] in *.
      - auto.
      - destruct Q2 as [<- _]. subst. exfalso. apply N2. left; auto.
      - destruct Q1 as [<- _]. subst. exfalso. apply N1. left; auto.
      - destruct Q1 as [-> (e1 & F1 & Q1)], Q2 as [-> (e2 & F2 & Q2)]. assert (e2 = e1) by congruence. subst.
        f_equal. apply (IHl l' e1); auto; intro; [apply N1|apply N2]; right; auto. }
    assert (LL := SL _ _ _ P P2 Nh). rewrite El in LL. rewrite app_length in LL. cbn [length] in LL.
    assert (~ In h l2). { intro K. apply Nh. rewrite El. apply in_or_app. right; right; auto. }
    specialize (LL H). lia.
  Qed.
  Lemma il_nodup m h lp : wf m -> is_loop m h lp -> NoDup lp.
  Proof.
    intros W L. destruct (il_head _ _ _ L) as (r & E & Hn). apply (path_nodup m W lp h h (il_path _ _ _ L)); subst; [auto|congruence].
  Qed.

  (** Conquering a facet: its half-edges are no longer left. *)
  Lemma left_loop m h lp proc : wf m -> bnd m -> is_loop m h lp -> fclosed m proc -> proc h = false ->
    length lp + left m (set_loop proc lp true) <= left m proc.
  Proof.
    intros W B L F Hp. unfold left. apply cnt_drop.
    - eapply il_nodup; eauto.
    - intros [p q] Hd. assert (K := il_dart _ _ _ _ L Hd). cbn [fst snd] in *. split; [apply B; auto|]. destruct (m p q); [|congruence].
      rewrite set_loop_in by auto. split; [|auto]. rewrite <- (fclosed_forb m proc h (p, q) F); [rewrite Hp; auto|]. apply (path_forb _ _ _ _ _ (il_path _ _ _ L) Hd).
    - intros d _. destruct (m (fst d) (snd d)); [|auto]. destruct (in_dec dart_dec d lp) as [Hi|Hi]; [rewrite set_loop_in by auto; discriminate|].
      rewrite set_loop_out by auto. auto.
  Qed.
  Lemma gates_length done lp : length (gates done lp) <= length lp.
  Proof. unfold gates. rewrite <- (map_length opp lp). induction (map opp lp) as [|x l IH]; cbn [filter length]; [lia|]. destruct (negb (done x)); cbn [length]; lia. Qed.
  Lemma filter_length_le {A} (f : A -> bool) l : length (filter f l) <= length l.
  Proof. induction l as [|x l IH]; cbn [filter length]; [lia|]. destruct (f x); cbn [length]; lia. Qed.

  Lemma fconq_total lim m : wf m -> bnd m -> length all <= lim -> forall n (q : list dart) proc, fclosed m proc ->
    (forall d, In d q -> m (fst d) (snd d) <> None) -> length q + left m proc < n -> exists tr, fconq lim m q proc n = Some tr.
  Proof.
    intros W B HL. induction n as [|n IH]; intros q proc F Hq Hn; [lia|]. cbn [fconq]. destruct q as [|h q]; [eauto|]. cbn [length] in Hn.
    destruct (proc h) eqn:Ep.
    - apply IH; [auto|intros; apply Hq; right; auto|lia].
    - destruct (loop_total lim m h W B) as [lp El]; [apply Hq; left; auto|auto|]. rewrite El. cbn [bind]. apply loop_is_loop in El.
      assert (K := left_loop m h lp proc W B El F Ep). assert (G := gates_length (set_loop proc lp true) lp).
      destruct (IH (q ++ gates (set_loop proc lp true) lp) (set_loop proc lp true)) as [tr Et].
      + eapply fclosed_loop; eauto.
      + intros d Hd. apply in_app_or in Hd. destruct Hd as [Hd|Hd]; [apply Hq; right; auto|]. apply gates_in in Hd. destruct Hd as [Hd _].
        apply (wf_sym m W). apply (il_dart _ _ _ _ El) in Hd. exact Hd.
      + rewrite app_length. lia.
      + rewrite Et. cbn [bind]. eauto.
  Qed.

  Lemma econq_total lim m : wf m -> bnd m -> length all < lim -> forall n (q : list dart) proc,
    (forall d, In d q -> m (fst d) (snd d) <> None) -> length q + length all * left m proc < n -> exists tr, econq lim m q proc n = Some tr.
  Proof.
    intros W B HL. induction n as [|n IH]; intros q proc Hq Hn; [lia|]. cbn [econq]. destruct q as [|h q]; [eauto|]. cbn [length] in Hn.
    destruct (proc h) eqn:Ep.
    - apply IH; [intros; apply Hq; right; auto|lia].
    - assert (Hh : m (fst h) (snd h) <> None) by (apply Hq; left; auto). destruct h as [s t]. cbn [fst snd] in Hh.
      destruct (around_total lim m s t W B Hh HL) as (h1 & sp & E1 & E2 & Hs). rewrite E1. cbn [bind]. rewrite E2. cbn [bind]. cbn zeta.
      set (proc' := set_dart (set_dart proc (s, t) true) (opp (s, t)) true).
      assert (K : length [(s, t)] + left m proc' <= left m proc).
      { unfold left. apply cnt_drop.
        - constructor; [auto|constructor].
        - intros d [<-|[]]. cbn [fst snd]. split; [apply B; auto|]. destruct (m s t); [|congruence]. rewrite Ep. split; [auto|].
          unfold proc'. assert (X : proc' (s, t) = true); [|unfold proc' in X; rewrite X; auto].
          unfold proc', set_dart. destruct (deq_spec (s, t) (opp (s, t))); [auto|]. destruct (deq_spec (s, t) (s, t)); [auto|congruence].
        - intros d _. destruct (m (fst d) (snd d)); [|auto]. unfold proc', set_dart. destruct (deq d _); [discriminate|]. destruct (deq d _); [discriminate|auto]. }
      cbn [length] in K. assert (FL := filter_length_le (fun d => negb (proc' d)) sp).
      destruct (IH (q ++ filter (fun d => negb (proc' d)) sp) proc') as [tr Et].
      + intros d Hd. apply in_app_or in Hd. destruct Hd as [Hd|Hd]; [apply Hq; right; auto|]. apply filter_In in Hd. destruct Hd as [Hd _].
        destruct (around_spec _ _ _ _ _ E2 d Hd) as [X|X]; [auto|apply (wf_sym m W); auto].
      + rewrite app_length. nia.
      + rewrite Et. cbn [bind]. eauto.
  Qed.
End Fin.

Lemma residuals_of_fconq P qz bary lim fl pos m : forall n q proc res tr, fconq lim m q proc n = Some tr ->
  exists r, determineResiduals P qz bary lim m fl pos q proc res n = Some r.
Proof.
  induction n as [|n IH]; intros q proc res tr H; cbn [fconq] in H; [discriminate|]. cbn [determineResiduals]. destruct q as [|h q]; [eauto|].
  destruct (proc h); [eauto|]. destruct (loop lim m h) as [lp|]; cbn [bind] in *; [|discriminate].
  match type of H with bind ?o _ = _ => destruct o eqn:E; cbn [bind] in H; [|discriminate] end. eauto.
Qed.
Lemma faces_of_fconq lim fl res m : forall n q proc tr, fconq lim m q proc n = Some tr ->
  exists r, RemovedVertexCoding lim m fl res q proc n = Some r.
Proof.
  induction n as [|n IH]; intros q proc tr H; cbn [fconq] in H; [discriminate|]. cbn [RemovedVertexCoding]. destruct q as [|h q]; [eauto|].
  destruct (proc h); [eauto|]. destruct (loop lim m h) as [lp|]; cbn [bind] in *; [|discriminate].
  match type of H with bind ?o _ = _ => destruct o eqn:E; cbn [bind] in H; [|discriminate] end. apply IH in E. destruct E as [r E]. cbn zeta. rewrite E. cbn [bind]. eauto.
Qed.
Lemma edges_of_econq lim fl added m : forall n q proc tr, econq lim m q proc n = Some tr ->
  exists r, InsertedEdgeCoding lim m fl added q proc n = Some r.
Proof.
  induction n as [|n IH]; intros q proc tr H; cbn [econq] in H; [discriminate|]. cbn [InsertedEdgeCoding]. destruct q as [|h q]; [eauto|].
  destruct (proc h); [eauto|]. destruct (nxt m h) as [h1|]; cbn [bind] in *; [|discriminate]. destruct (around m h h1 lim) as [sp|]; cbn [bind] in *; [|discriminate].
  match type of H with bind ?o _ = _ => destruct o eqn:E; cbn [bind] in H; [|discriminate] end. apply IH in E. destruct E as [r E]. cbn zeta. rewrite E. cbn [bind].
  destruct (isUnsplittable (fl h) && isUnsplittable (fl (opp h))); eauto.
Qed.

Lemma turn_ext m m' v a : (forall p, m p v = m' p v) -> forall n x, turn m v a x n = turn m' v a x n.
Proof.
  intros E. induction n as [|n IH]; intro x; cbn [turn]; [auto|]. rewrite E. destruct (m' x v); cbn [bind]; [|auto]. rewrite IH. auto.
Qed.
Lemma vpath_nth m v : forall r x a, vpath m v x r a -> forall i, S i < length r -> m (nth i r 0) v = Some (nth (S i) r 0).
Proof.
  induction r as [|b r IH]; intros x a P i Hi; cbn [length] in Hi; [lia|]. cbn [vpath] in P. destruct P as [-> (z & E & P)].
  destruct i as [|i].
  - cbn [nth]. destruct r as [|c r]; [cbn [length] in Hi; lia|]. cbn [vpath] in P. destruct P as [-> _]. auto.
  - change (nth (S (S i)) (x :: r) 0) with (nth (S i) r 0). cbn [nth]. eapply IH; [exact P|lia].
Qed.
Lemma vpath_end m v : forall r x a, vpath m v x r a -> r <> [] -> m (nth (length r - 1) r 0) v = Some a.
Proof.
  induction r as [|b r IH]; intros x a P Hr; [congruence|]. cbn [vpath] in P. destruct P as [-> (z & E & P)].
  destruct r as [|c r].
  - cbn [vpath] in P. subst. cbn [length nth Nat.sub]. auto.
  - replace (length (x :: c :: r) - 1) with (S (length (c :: r) - 1)) by (cbn [length]; lia). cbn [nth]. apply (IH z a P). congruence.
Qed.

Section Manifold.
  Variables (all : list dart) (lim : nat).
  Hypothesis AN : NoDup all.
  Hypothesis AP : forall a b c d, In (a, b) all -> In (c, d) all -> In (a, c) all.
  Hypothesis HL : length all <= lim.
  Notation bnd := (bnd all).

  Lemma violates_at_total m v r i : wf m -> bnd m -> (forall u, In u r -> m u v <> None) -> i < length r ->
    exists b, violates_at lim m v r i = Some b.
  Proof.
    intros W B Hr Hi. assert (Hu : m (nth i r 0) v <> None) by (apply Hr, nth_In; auto). unfold violates_at.
    destruct (ring_total all lim m (nth i r 0) v W B) as [nb En]; [apply (wf_sym m W); auto|auto|]. rewrite En. cbn [bind].
    unfold facet_degree. destruct (loop_total all lim m (v, nth i r 0) W B) as [l1 E1]; [apply (wf_sym m W); auto|auto|]. rewrite E1. cbn [bind].
    destruct (loop_total all lim m (nth i r 0, v) W B) as [l2 E2]; [auto|auto|]. rewrite E2. cbn [bind]. eauto.
  Qed.
  Lemma violates_total m v r : wf m -> bnd m -> (forall u, In u r -> m u v <> None) -> forall is, (forall i, In i is -> i < length r) ->
    exists b, violates lim m v r is = Some b.
  Proof.
    intros W B Hr. induction is as [|i is IH]; intro Hi; cbn [violates]; [eauto|].
    destruct (violates_at_total m v r i W B Hr) as [b Eb]; [apply Hi; left; auto|]. rewrite Eb. cbn [bind]. destruct b; [eauto|]. apply IH. intros; apply Hi; right; auto.
  Qed.
  Lemma violates_false m v r is : violates lim m v r is = Some false -> forall i, In i is -> violates_at lim m v r i = Some false.
  Proof.
    induction is as [|j is IH]; intros H i Hi; [destruct Hi|]. cbn [violates] in H. destruct (violates_at lim m v r j) as [[|]|] eqn:E; cbn [bind] in H; try discriminate.
    destruct Hi as [<-|Hi]; auto.
  Qed.

  (** What willViolateManifold makes sure of: a corner that will be cut has no edge across yet. *)
  Lemma manifold_test m v a r : wf m -> is_ring m v a r -> willViolateManifold lim m v r = Some false ->
    forall x u, m x v = Some u -> ~ tri3 m v u x -> m u x = None.
  Proof.
    intros W Rg HV x u E NT. unfold willViolateManifold in HV. destruct (m u x) eqn:Eux; [exfalso|auto].
    assert (Hvu : m v u <> None) by (eapply (wf_nxt m W); eauto).
    assert (Huv : m u v <> None) by (apply (wf_sym m W); auto).
    assert (Hu : In u r) by (apply (ring_all _ _ _ _ _ W Rg); auto). destruct (In_nth _ _ 0 Hu) as (i & Hi & Ei).
    assert (K := violates_false _ _ _ _ HV i ltac:(apply in_seq; lia)). unfold violates_at in K. rewrite Ei in K.
    destruct (ring lim m u v) as [nb|] eqn:En; cbn [bind] in K; [|discriminate]. apply ring_is_ring in En.
    unfold facet_degree in K. destruct (loop lim m (v, u)) as [l1|] eqn:E1; cbn [bind] in K; [|discriminate].
    destruct (loop lim m (u, v)) as [l2|] eqn:E2; cbn [bind] in K; [|discriminate]. injection K as K.
    assert (Hx : In x nb). { apply (ring_all _ _ _ _ _ W En). apply (wf_sym m W). congruence. }
    set (j := if i =? 0 then length r - 1 else i - 1) in *.
    assert (P := ir_path _ _ _ _ Rg).
    assert (Hr : r <> []) by (intro; subst; destruct Hu).
    assert (Ej : nth j r 0 = x /\ j < length r).
    { unfold j. destruct (Nat.eqb_spec i 0) as [->|Hi0].
      - split; [|destruct r; [congruence|cbn [length]; lia]]. assert (L := vpath_end _ _ _ _ _ P Hr).
        assert (Ea : nth 0 r 0 = a) by (destruct (ir_head _ _ _ _ Rg) as (r' & -> & _); auto). rewrite Ei in Ea. subst a. eapply (wf_inj m W); eauto.
      - split; [|lia]. assert (L := vpath_nth _ _ _ _ _ P (i - 1) ltac:(lia)). replace (S (i - 1)) with i in L by lia. rewrite Ei in L. eapply (wf_inj m W); eauto. }
    destruct Ej as [Ej Hj].
    assert (F3 : length l1 =? 3 = false).
    { destruct (Nat.eqb_spec (length l1) 3) as [L3|]; [|auto]. exfalso. apply NT. apply loop_is_loop in E1.
      destruct (loop_short m v u l1 W E1) as (y & Y1 & Y2 & Y3); [lia|]. assert (y = x) by (eapply (wf_inj m W); eauto). subst. unfold tri3. auto. }
    match type of K with existsb ?f nb = false => assert (T : existsb f nb = true); [|congruence] end.
    apply existsb_exists. exists x. split; [auto|]. apply existsb_exists. exists j. split; [apply in_seq; lia|].
    rewrite Ej, Nat.eqb_refl, Nat.eqb_refl, F3. auto.
  Qed.

  Lemma bnd_ext m m' : meq m m' -> bnd m -> bnd m'.
  Proof. intros E B p q H. apply B. rewrite E. auto. Qed.
  Lemma bnd_ins m v u x : wf m -> m x v = Some u -> m u x = None -> bnd m -> bnd (ins m v u x).
  Proof.
    intros W C N B p q H. apply ins_dart in H; auto.
    assert (X : In (x, v) all) by (apply B; congruence). assert (Y : In (u, v) all) by (apply B; apply (wf_sym m W); eapply (wf_nxt m W); eauto).
    destruct H as [H|[[-> ->]|[-> ->]]]; [auto| |]; eapply AP; eauto.
  Qed.

  Lemma cut_total v ue : forall n m c a u r, wf m -> bnd m -> turn m v ue u n = Some r -> m v u <> None ->
    (forall p q, m p v = Some q -> m q v <> Some p) ->
    (forall x u', In u' r -> m x v = Some u' -> ~ tri3 m v u' x -> m u' x = None) ->
    exists m1 c1 a1, cut_corners lim m c a v (v, u) (v, ue) n = Some (m1, c1, a1) /\ bnd m1.
  Proof.
    induction n as [|n IH]; intros m c a u r W B T Hu D NV; cbn [turn] in T; [discriminate|].
    destruct (m u v) as [y|] eqn:Ey; [|discriminate]. cbn [bind] in T.
    cbn [cut_corners]. destruct (loop_total all lim m (v, u) W B) as [lp El]; [auto|auto|]. rewrite El. cbn [bind]. apply loop_is_loop in El. cbn zeta.
    assert (Hur : In u r).
    { destruct (y =? ue); [injection T as <-; left; auto|]. destruct (turn m v ue y n); [|discriminate]. injection T as <-. left; auto. }
    assert (ST : exists m' a', (if 3 <? length lp then
           do m1 <- split_facet m (v, u) (nth (length lp - 2) lp (v, u));
           Some (m1, set_dart (set_dart a (snd (v, u), snd (nth (length lp - 2) lp (v, u))) true) (opp (snd (v, u), snd (nth (length lp - 2) lp (v, u)))) true)
         else Some (m, a)) = Some (m', a') /\ wf m' /\ bnd m' /\ cutrel v m m' /\
         (exists x, tri3 m' v u x /\ forall p q, m' p q <> None -> m p q <> None \/ (p = u /\ q = x) \/ (p = x /\ q = u))).
    { destruct (Nat.ltb_spec 3 (length lp)) as [Hl|Hl].
      - destruct (path_last2 m lp _ _ (v, u) (il_path _ _ _ El)) as (Ig & e & Eg & Ee); [lia|].
        destruct (nth (length lp - 2) lp (v, u)) as [p x] eqn:En. destruct (nxt_inv _ _ _ Eg) as [A1 A2]. destruct e as [x' v']. cbn [fst snd] in *. subst x'.
        destruct (nxt_inv _ _ _ Ee) as [A3 A4]. cbn [fst snd] in *. subst v'.
        assert (NT : ~ tri3 m v u x).
        { intros (T1 & T2 & T3). assert (lp = [(v, u); (u, x); (x, v)]); [|subst; cbn [length] in Hl; lia].
          assert (Pp := il_path _ _ _ El). destruct (il_head _ _ _ El) as (rr & -> & Hn). cbn [path] in Pp. destruct Pp as [_ (b1 & F1 & Pp)].
          rewrite (nxt_some _ _ _ _ T1) in F1. injection F1 as <-. f_equal. destruct rr as [|b1 rr]; cbn [path] in Pp; [injection Pp as Q1 Q2; subst; rewrite (wf_irr m W) in T1; discriminate|].
          destruct Pp as [-> (b2 & F2 & Pp)]. rewrite (nxt_some _ _ _ _ T2) in F2. injection F2 as <-. f_equal.
          destruct rr as [|b2 rr]; cbn [path] in Pp; [injection Pp as Q1 Q2; subst; exfalso; eapply wf_deg; eauto|].
          destruct Pp as [-> (b3 & F3 & Pp)]. rewrite (nxt_some _ _ _ _ T3) in F3. injection F3 as <-. f_equal.
          destruct rr as [|b3 rr]; [auto|]. cbn [path] in Pp. destruct Pp as [-> _]. exfalso. apply Hn. right; right; left; auto. }
        assert (N : m u x = None) by (apply (NV x u); auto).
        assert (N' : m x u = None) by (eapply ins_N'; eauto).
        assert (SF : exists m', split_facet m (v, u) (p, x) = Some m').
        { unfold split_facet. cbn [fst snd]. rewrite A1. destruct (m v u) eqn:E; [|congruence]. cbn [bind]. rewrite N, N'.
          destruct (Nat.eqb_spec u x) as [->|]; [|eauto]. exfalso. eapply wf_deg; [exact W|exact A3|auto]. }
        destruct SF as [m' SF]. rewrite SF. cbn [bind].
        assert (SF' : split_facet m (v, u) (nth (length lp - 2) lp (v, u)) = Some m') by (rewrite En; auto).
        destruct (split_ins _ _ _ _ _ _ W El Hl SF') as (x0 & Ex & _ & _ & F & E). rewrite En in Ex. cbn [snd] in Ex. subst x0.
        eexists m', _. split; [reflexivity|]. split; [eapply wf_ext; [apply meq_sym; exact E|]; apply wf_ins; auto|].
        split; [eapply bnd_ext; [apply meq_sym; exact E|]; apply bnd_ins; auto|].
        split; [eapply cutrel_ext; [apply meq_sym; exact E|]; apply cutrel_ins; auto|]. exists x. split; [unfold tri3; rewrite !E, ins_1, ins_2, ins_5; auto|].
        intros p0 q0. rewrite E. apply ins_dart; auto.
      - eexists m, _. split; [reflexivity|]. split; [auto|]. split; [auto|]. split; [apply cutrel_refl|]. destruct (loop_short m v u lp W El Hl) as [x X]. exists x. split; [exact X|auto]. }
    destruct ST as (m' & a' & ES & W' & B' & CR' & x & TX & NEW). rewrite ES. cbn [bind]. unfold opp; cbn [fst snd].
    assert (Ey' : m' u v = Some y) by (rewrite (cr_v _ _ _ CR'); auto). rewrite (nxt_some _ _ _ _ Ey'). cbn [bind].
    destruct (Nat.eqb_spec y ue) as [->|Hne].
    - destruct (deq_spec (v, ue) (v, ue)); [|congruence]. eauto 8.
    - destruct (deq_spec (v, y) (v, ue)); [congruence|]. destruct (turn m v ue y n) as [r'|] eqn:Et; [|discriminate]. injection T as <-.
      apply (IH m' (set_vertex c u) a' y r'); auto.
      + rewrite <- Et. symmetry. apply turn_ext. intro p. symmetry. apply (cr_v _ _ _ CR').
      + eapply (wf_nxt m' W'); eauto.
      + intros p q. rewrite !(cr_v _ _ _ CR'). auto.
      + intros x' u' Hu' Ex' NT. rewrite (cr_v _ _ _ CR') in Ex'.
        assert (N0 : m u' x' = None). { apply NV; auto. right; auto. intro T3. apply NT. apply (cr_tri _ _ _ CR'). auto. }
        destruct (m' u' x') eqn:E'; [exfalso|auto]. destruct TX as (T1 & T2 & T3). rewrite (cr_v _ _ _ CR') in T3.
        destruct (NEW u' x') as [K|[[-> ->]|[-> ->]]]; [congruence|congruence| |].
        * apply NT. unfold tri3. rewrite (cr_v _ _ _ CR'). auto.
        * apply (D _ _ T3). auto.
  Qed.
End Manifold.

Section Steps.
  Variables (all : list dart) (lim : nat) (convex : mesh -> nat -> bool) (d0 d1 : nat) (M : mesh).
  Hypothesis AN : NoDup all.
  Hypothesis AP : forall a b c d, In (a, b) all -> In (c, d) all -> In (a, c) all.
  Hypothesis HL : length all <= lim.
  Notation bnd := (bnd all).

  Lemma isRemovable_total m c hh : wf m -> bnd m -> m (fst hh) (snd hh) <> None -> exists b, isRemovable lim convex d0 d1 m c hh = Some b.
  Proof.
    intros W B Hd. unfold isRemovable. destruct (_ || _ || _); [eauto|].
    destruct (ring_total all lim m (snd hh) (fst hh) W B Hd HL) as [r Er]. rewrite Er. cbn [bind]. destruct (_ || _); [eauto|].
    apply ring_is_ring in Er. unfold willViolateManifold.
    destruct (violates_total all lim HL m (snd hh) r W B) with (is := seq 0 (length r)) as [b Eb].
    - intros u Hu. eapply ring_nb; eauto.
    - intros i Hi. apply in_seq in Hi. lia.
    - rewrite Eb. cbn [bind]. eauto.
  Qed.
  Lemma candidate_total m c : wf m -> bnd m -> forall l, (forall d, In d l -> m (fst d) (snd d) <> None) -> exists o, candidate lim convex d0 d1 m c l = Some o.
  Proof.
    intros W B. induction l as [|hh l IH]; intro Hl; cbn [candidate]; [eauto|].
    destruct (isRemovable_total m c hh W B) as [b Eb]; [apply Hl; left; auto|]. rewrite Eb. cbn [bind]. destruct b; [eauto|]. apply IH. intros; apply Hl; right; auto.
  Qed.

  Definition todo (s : est) : nat := left all (e_m s) (fun d => isConquered (e_f s d)).

  Lemma vertexCut_total U R A s u0 v r : inv M d0 d1 U R A s -> bnd (e_m s) -> e_m s u0 v <> None -> e_v s v = false ->
    ring lim (e_m s) v u0 = Some r -> 2 < length r -> willViolateManifold lim (e_m s) v r = Some false ->
    exists s', vertexCut lim s (u0, v) = Some s' /\ bnd (e_m s') /\ length (e_q s') + todo s' <= length (e_q s) + todo s.
  Proof.
    intros I B Hd Hc Er Hl HV. assert (IM := iv_m _ _ _ _ _ _ _ I). assert (WM := mi_wm _ _ _ _ _ _ _ _ IM). assert (Rg := ring_is_ring _ _ _ _ _ Er).
    assert (DG := ring_deg _ _ _ _ WM Rg Hl).
    destruct (cut_total all lim AP HL v u0 lim (e_m s) (e_v s) (e_a s) u0 r WM B Er) as (m1 & c1 & a1 & EC & B1).
    { apply (wf_sym _ WM); auto. } { exact DG. }
    { intros x u' _. eapply manifold_test; eauto. }
    unfold vertexCut. cbn [snd]. unfold opp; cbn [fst snd]. rewrite EC. cbn [bind].
    destruct (cut_corners_spec _ _ _ _ _ _ _ _ _ _ _ _ _ _ _ _ EC IM Hc) as (us & U1 & A1 & VP & Hus & I1 & Hc1 & Hcc & HT & CR1 & HA); [apply (wf_sym _ WM); auto|].
    assert (W1 := mi_wm _ _ _ _ _ _ _ _ I1).
    assert (US : forall w, m1 w v <> None -> In w us).
    { intros w Hw. rewrite (cr_v _ _ _ CR1) in Hw. assert (VO := wf_man _ WM v u0 w Hd Hw).
      assert (H0 : In u0 us). { destruct us as [|y us]; [congruence|]. cbn [vpath] in VP. destruct VP as [-> _]. left; auto. }
      assert (K : forall x y, vorb (e_m s) v x y -> In x us -> In y us).
      { induction 1 as [|x y z E _ IH]; intro Hi; [auto|]. apply IH. destruct (vpath_closed _ _ _ _ _ _ VP Hi) as (z' & E' & [X| ->]); [congruence|].
        assert (y = u0) by congruence. subst. auto. }
      eapply K; eauto. }
    assert (T0 : forall p q, m1 v p = Some q -> m1 p q = Some v /\ m1 q v = Some p).
    { intros p q E. destruct (HT p) as (x & X1 & X2 & X3); [apply US, (wf_sym _ W1); congruence|]. assert (x = q) by congruence. subst. auto. }
    assert (D1 : forall p q, m1 p v = Some q -> m1 q v <> Some p) by (intros p q; rewrite !(cr_v _ _ _ CR1); apply DG).
    assert (Hd1 : m1 u0 v <> None) by (rewrite (cr_v _ _ _ CR1); auto).
    unfold erase_center_vertex. cbn [fst snd].
    destruct (loop_total all lim m1 (u0, v) W1 B1 Hd1 HL) as [lp1 EL1]. rewrite EL1. cbn [bind].
    destruct (ring_total all lim m1 v u0 W1 B1 Hd1 HL) as [r1 ER]. rewrite ER. cbn [bind].
    apply loop_is_loop in EL1. apply ring_is_ring in ER.
    set (m2 := fold_left (fun m u => del_edge m v u) r1 m1). set (hN := last lp1 (u0, v)).
    assert (Em2 : meq m2 (rmv m1 v)) by (unfold m2; eapply erase_fold; eauto).
    assert (Dm2 : forall p q, m2 p q <> None <-> p <> v /\ q <> v /\ m1 p q <> None) by (intros p q; rewrite Em2; apply rmv_dart; auto).
    assert (W2 : wf m2) by (eapply wf_ext; [apply meq_sym; exact Em2|]; apply wf_rmv; auto).
    assert (B2 : bnd m2) by (intros p q H; apply B1; apply Dm2 in H; apply H).
    assert (EhN : m1 (fst hN) (snd hN) = Some v).
    { destruct (il_head _ _ _ EL1) as (rr & Err & _). destruct (last_path _ _ _ _ (u0, v) (il_path _ _ _ EL1)) as [_ X]; [rewrite Err; congruence|].
      fold hN in X. destruct (nxt_inv _ _ _ X) as [X1 X2]. cbn [fst snd] in *. auto. }
    assert (HhN : m2 (fst hN) (snd hN) <> None).
    { apply Dm2. split; [|split; [|congruence]].
      - intro K. symmetry in K. revert K. apply (wf_deg _ _ _ _ W1 EhN).
      - intro K. symmetry in K. revert K. intro K. apply (wf_tgt_ne _ _ _ _ W1 EhN). auto. }
    destruct (loop_total all lim m2 hN W2 B2 HhN HL) as [lp EL]. rewrite EL. cbn [bind]. apply loop_is_loop in EL.
    eexists. split; [reflexivity|]. cbn [e_m e_q e_f]. split; [auto|].
    assert (LPin : forall p q, In (p, q) lp -> m1 p q = Some v).
    { intros p q Hin. destruct (path_forb _ _ _ _ _ (il_path _ _ _ EL) Hin) as [F _].
      apply (forb_ext _ _ _ _ Em2) in F. apply (patch_forb _ _ W1 T0) in F. apply F. auto. }
    set (f2 := set_loop (e_f s) lp (Splittable v)).
    assert (FU : forall d, fst d = v \/ snd d = v -> e_f s d = Unknown).
    { intros [p q] Hv. eapply fresh_unknown; eauto. cbn [fst snd] in Hv. intuition congruence. }
    (* what is left of the new facet's corners, and of the old half-edges *)
    rewrite app_length. assert (GL := gates_length (fun d => isConquered (f2 d)) lp).
    assert (C : length lp + left all m2 (fun d => isConquered (f2 d)) <= todo s); [|unfold todo in *; cbn [e_m e_f] in *; fold f2; lia].
    unfold todo, left, cnt.
    set (P' := fun d : dart => match m2 (fst d) (snd d) with Some _ => negb (isConquered (f2 d)) | None => false end).
    set (g := fun d : dart => match e_m s (fst d) (snd d) with Some _ => d | None => (v, snd d) end).
    rewrite <- (map_length (fun d : dart => (snd d, v)) lp), <- (map_length g (filter P' all)), <- app_length.
    assert (HP' : forall d, In d (filter P' all) -> m2 (fst d) (snd d) <> None /\ ~ In d lp /\ isConquered (e_f s d) = false).
    { intros d Hi. apply filter_In in Hi. destruct Hi as [_ Hi]. unfold P' in Hi. destruct (m2 (fst d) (snd d)); [|discriminate]. split; [congruence|].
      destruct (in_dec dart_dec d lp) as [K|K]; [unfold f2 in Hi; rewrite set_loop_in in Hi by auto; discriminate|]. split; [auto|].
      unfold f2 in Hi; rewrite set_loop_out in Hi by auto. apply negb_true_iff. auto. }
    assert (NEW : forall d, In d (filter P' all) -> e_m s (fst d) (snd d) = None -> e_m s (fst d) v = Some (snd d)).
    { intros [p q] Hi E. destruct (HP' _ Hi) as (Q1 & Q2 & _). cbn [fst snd] in *. apply Dm2 in Q1. destruct Q1 as (Q3 & Q4 & Q5).
      destruct (cr_new _ _ _ CR1 _ _ Q5) as [K|[K|K]]; [congruence|auto|]. exfalso. apply Q2.
      (* q -> v -> p, so (p, q) is on the new facet *)
      assert (E1 : m1 q v = Some p) by (rewrite (cr_v _ _ _ CR1); auto). destruct (T1 _ _ W1 T0 _ _ E1) as [X1 X2].
      assert (X3 : m1 p q = Some v). { destruct (T0 _ _ X1) as [Z _]. auto. }
      eapply il_forb_in; [exact EL|]. 
      assert (PF : forall x y, vorb m1 v x y -> forall x' y', m1 x' x = Some v -> m1 y' y = Some v -> forb (rmv m1 v) (y', y) (x', x)).
      { induction 1 as [x|x y z Ey _ IH]; intros x' y' G1 G2.
        - assert (x' = y') by exact (wf_inj m1 W1 _ _ _ _ G1 G2). subst. constructor.
        - destruct (T2 _ _ W1 T0 _ _ G1) as [Y1 Y2]. assert (y = x') by congruence. subst y.
          destruct (m1 x' v) as [y0|] eqn:Ey0; [|exfalso; apply (wf_sym _ W1 v x'); congruence]. destruct (T1 _ _ W1 T0 _ _ Ey0) as [Y3 Y4].
          eapply forb_trans; [apply (IH y0 y'); auto|]. apply forb_one, nxt_some. rewrite rmv_2; auto.
          + intros ->. rewrite (wf_irr _ W1) in Y3. discriminate.
          + intros ->. rewrite (wf_irr _ W1) in Y2. discriminate. }
      destruct hN as [hp hq]. cbn [fst snd] in *. destruct (T2 _ _ W1 T0 _ _ EhN) as [Y1 _].
      apply (forb_ext _ _ _ _ (meq_sym _ _ Em2)). apply (PF q hq); auto. apply (wf_man _ W1); congruence. }
    apply NoDup_incl_length.
    - apply nodup_app.
      + apply nodup_map; [eapply il_nodup; eauto|]. intros [p q] [p' q'] K1 K2 E. cbn [snd] in E. injection E as <-. f_equal.
        apply LPin in K1, K2. eapply (wf_inj m1 W1); eauto.
      + apply nodup_map; [apply NoDup_filter; auto|]. intros x y Hx Hy E. unfold g in E.
        assert (Nx := NEW x Hx). assert (Ny := NEW y Hy). destruct (HP' x Hx) as (Qx & _), (HP' y Hy) as (Qy & _). apply Dm2 in Qx, Qy.
        destruct x as [p q], y as [p' q']. cbn [fst snd] in *.
        destruct (e_m s p q) eqn:E1, (e_m s p' q') eqn:E2; try (injection E as E3 E4; exfalso; intuition congruence); [auto|].
        injection E as <-. f_equal. apply (wf_inj _ WM _ _ _ _ (Nx eq_refl) (Ny eq_refl)).
      + intros z Hz K. apply in_map_iff in Hz, K. destruct Hz as ([p q] & <- & Hpq), K as (y & E & Hy). cbn [snd] in E.
        apply LPin in Hpq. destruct (HP' y Hy) as (Qy & _). apply Dm2 in Qy. assert (Ny := NEW y Hy).
        assert (Hqv : q <> v) by (intro; subst; eapply (wf_tgt_ne _ _ _ _ W1 Hpq); auto).
        unfold g in E. destruct y as [p' q']. cbn [fst snd] in *. destruct (e_m s p' q'); injection E as E3 E4; intuition congruence.
    - intros z Hz. apply filter_In. apply in_app_or in Hz. destruct Hz as [Hz|Hz]; apply in_map_iff in Hz.
      + destruct Hz as ([p q] & <- & Hpq). apply LPin in Hpq. cbn [snd fst]. destruct (T2 _ _ W1 T0 _ _ Hpq) as [X1 X2].
        assert (X3 : e_m s q v <> None). { rewrite <- (cr_v _ _ _ CR1). apply (wf_sym _ W1). eapply (wf_nxt _ W1) in X1. congruence || (apply (wf_sym _ W1); eapply (wf_nxt _ W1); eauto). }
        split; [apply B; auto|]. destruct (e_m s q v); [|congruence]. rewrite (FU (q, v)); auto.
      + destruct Hz as ([p q] & E & Hi). unfold g in E. cbn [fst snd] in E. destruct (HP' _ Hi) as (Q1 & Q2 & Q3). assert (N := NEW _ Hi). cbn [fst snd] in *.
        destruct (e_m s p q) as [w|] eqn:Epq; subst z; cbn [fst snd].
        * split; [apply B; congruence|]. rewrite Epq, Q3. auto.
        * assert (K : e_m s v q <> None) by (eapply (wf_nxt _ WM); apply N; auto). split; [apply B; auto|]. destruct (e_m s v q); [|congruence]. rewrite (FU (v, q)); auto.
  Qed.

  Lemma nullPatch_todo U R A s h lp : inv M d0 d1 U R A s -> bnd (e_m s) -> e_f s h = Unknown -> is_loop (e_m s) h lp ->
    length (e_q (nullPatch s lp)) + todo (nullPatch s lp) <= length (e_q s) + todo s.
  Proof.
    intros I B Hf L. assert (IM := iv_m _ _ _ _ _ _ _ I). assert (WM := mi_wm _ _ _ _ _ _ _ _ IM). unfold nullPatch, todo. cbn [e_m e_q e_f].
    set (f2 := set_loop (e_f s) lp Unsplittable). rewrite app_length. assert (G := gates_length (fun d => isConquered (f2 d)) lp).
    assert (K : length lp + left all (e_m s) (fun d => isConquered (f2 d)) <= left all (e_m s) (fun d => isConquered (e_f s d))); [|lia].
    unfold left. apply cnt_drop; auto.
    - eapply il_nodup; eauto.
    - intros [p q] Hd. assert (K := il_dart _ _ _ _ L Hd). cbn [fst snd] in *. split; [apply B; auto|]. destruct (e_m s p q); [|congruence].
      unfold f2. rewrite set_loop_in by auto. split; [|auto].
      rewrite <- (flag_forb _ _ _ _ _ _ _ _ h (p, q) IM); [rewrite Hf; auto|]. apply (path_forb _ _ _ _ _ (il_path _ _ _ L) Hd).
    - intros d _. destruct (e_m s (fst d) (snd d)); [|auto]. unfold f2. destruct (in_dec dart_dec d lp) as [Hi|Hi]; [rewrite set_loop_in by auto; discriminate|].
      rewrite set_loop_out by auto. auto.
  Qed.

  Lemma step_total U R A s h : inv M d0 d1 U R A s -> bnd (e_m s) -> e_m s (fst h) (snd h) <> None ->
    exists s', decimationStep lim convex d0 d1 s h = Some s' /\ bnd (e_m s') /\ length (e_q s') + todo s' <= length (e_q s) + todo s.
  Proof.
    intros I B Hd. assert (IM := iv_m _ _ _ _ _ _ _ I). assert (WM := mi_wm _ _ _ _ _ _ _ _ IM). unfold decimationStep.
    destruct (isConquered (e_f s h)) eqn:Ec; [eauto|].
    assert (Hf : e_f s h = Unknown) by (destruct (e_f s h); auto; discriminate).
    destruct (loop_total all lim (e_m s) h WM B Hd HL) as [lp EL]. rewrite EL. cbn [bind]. apply loop_is_loop in EL.
    destruct (candidate_total (e_m s) (e_v s) WM B (tl lp)) as [o EC].
    { intros d Hi. apply (il_dart _ _ _ _ EL). destruct lp; [destruct Hi|right; auto]. }
    rewrite EC. cbn [bind]. destruct o as [[u0 v]|].
    - assert (EC' := EC). apply candidate_some in EC. destruct EC as (Hi & N0 & N1 & Hc & r & Hr & Hl & HV). cbn [fst snd] in *.
      assert (Hi' : In (u0, v) lp) by (destruct lp; [destruct Hi|right; auto]).
      assert (Hd' : e_m s u0 v <> None) by (apply (il_dart _ _ _ _ EL Hi')).
      destruct (ring_total all lim (e_m s) v u0 WM B Hd' HL) as [r2 Er2].
      assert (r2 = r).
      { apply ring_is_ring in Er2. eapply vpath_same_length; [apply (ir_path _ _ _ _ Er2)|apply (ir_path _ _ _ _ Hr)| | | |].
        - destruct (ir_head _ _ _ _ Er2) as (t & -> & X). auto.
        - destruct (ir_head _ _ _ _ Hr) as (t & -> & X). auto.
        - destruct (ir_head _ _ _ _ Er2) as (t & -> & X). congruence.
        - destruct (ir_head _ _ _ _ Hr) as (t & -> & X). congruence. }
      subst r2. eapply vertexCut_total; eauto. lia.
    - eexists. split; [reflexivity|]. split; [auto|]. eapply nullPatch_todo; eauto.
  Qed.

  Lemma decimate_total : forall fuel U R A s, inv M d0 d1 U R A s -> cov (e_m s) (e_f s) (e_q s) ->
    bnd (e_m s) -> length (e_q s) + todo s < fuel -> exists s', decimate lim convex d0 d1 s fuel = Some s' /\ bnd (e_m s').
  Proof.
    induction fuel as [|n IH]; intros U R A s I CV B HF; [lia|]. cbn [decimate]. destruct (e_q s) as [|h q] eqn:Eq; [eauto|].
    set (s0 := EST (e_m s) (e_v s) (e_f s) (e_a s) q (e_n s)).
    assert (Hq := iv_q _ _ _ _ _ _ _ I). rewrite Eq in Hq.
    assert (I0 : inv M d0 d1 U R A s0).
    { destruct I as [I1 I2 I3 I4 I5 I6]. constructor; cbn [s0 e_m e_v e_f e_a e_q e_n]; auto. intros g Hg. apply Hq. right; auto. }
    assert (Hh : e_m s0 (fst h) (snd h) <> None) by (apply Hq; left; auto).
    destruct (step_total U R A s0 h I0 B Hh) as (s' & ES & B' & HM). rewrite ES. cbn [bind].
    assert (HM' : length (e_q s') + todo s' < n) by (unfold todo in HF, HM; unfold todo; cbn [s0 e_m e_q e_f] in HM; cbn [length] in HF; lia).
    destruct (step_inv lim convex d0 d1 M U R A s0 h s' I0) as (U' & R' & A' & I' & CV' & _); auto.
    eapply IH; eauto.
  Qed.

  Lemma decimation_total h0 fuel : wf M -> connected M -> bnd M -> M (fst h0) (snd h0) <> None -> 1 + length all < fuel ->
    exists s, decimate lim convex d0 d1 (beginDecimation M h0) fuel = Some s /\ bnd (e_m s).
  Proof.
    intros W C B Hh HF. destruct fuel as [|n]; [lia|]. cbn [decimate]. unfold beginDecimation. cbn [e_q e_m e_v e_f e_a e_n].
    set (s0 := EST M (fun _ => false) (fun _ => Unknown) (fun _ => false) [] 0).
    assert (I0 : inv M d0 d1 M (fun _ => false) [] s0) by (apply begin_inv; auto).
    assert (T0 : length (e_q s0) + todo s0 <= length all).
    { unfold s0, todo, left, cnt. cbn [e_q e_m e_f length Nat.add]. apply filter_length_le. }
    destruct (step_total M (fun _ => false) [] s0 h0 I0 B Hh) as (s' & ES & B' & HM). rewrite ES. cbn [bind].
    destruct (step_inv lim convex d0 d1 M M (fun _ => false) [] s0 h0 s' I0) as (U' & R' & A' & I' & CV' & _); auto.
    { cbn [s0 e_m e_f]. intros d _ K; discriminate. }
    eapply decimate_total; eauto. lia.
  Qed.
End Steps.

(** All pairs of vertices. *)
Definition pairs (vs : list nat) : list dart := nodup dart_dec (list_prod vs vs).
Lemma pairs_in vs p q : In (p, q) (pairs vs) <-> In p vs /\ In q vs.
Proof. unfold pairs. rewrite nodup_In. apply in_prod_iff. Qed.
Lemma nodup_length {A} (dec : forall x y : A, {x = y} + {x <> y}) l : length (nodup dec l) <= length l.
Proof. induction l as [|x l IH]; cbn [nodup length]; [lia|]. destruct (in_dec dec x l); cbn [length]; lia. Qed.
Lemma pairs_length vs : length (pairs vs) <= length vs * length vs.
Proof. rewrite <- (prod_length vs vs). apply (nodup_length dart_dec). Qed.

Lemma round_total (P : Type) (qz : P -> vec) (bary : list P -> P) lim convex d0 d1 (pos : nat -> P) M h0 fuel vs :
  wf M -> connected M -> M (fst h0) (snd h0) <> None -> M d0 d1 <> None ->
  (forall p q, M p q <> None -> In p vs) ->
  length vs * length vs < lim -> length vs * length vs * (length vs * length vs) + 1 < fuel ->
  exists X r, compressRound P qz bary lim convex d0 d1 pos M h0 fuel = Some (X, r) /\
    (r <> None -> exists v, vertex M v /\ ~ vertex X v).
Proof.
  intros W C Hh Hdep HV HL HF. set (all := pairs vs). assert (LA := pairs_length vs). fold all in LA.
  assert (AN : NoDup all) by apply NoDup_nodup.
  assert (AP : forall a b c d, In (a, b) all -> In (c, d) all -> In (a, c) all).
  { intros a b c d H1 H2. apply pairs_in in H1, H2. apply pairs_in. tauto. }
  assert (B : bnd all M). { intros p q H. apply pairs_in. split; [apply (HV p q); auto|]. apply (HV q p). apply (wf_sym M W); auto. }
  assert (NE : 1 <= length vs). { destruct vs; [exfalso; apply (HV _ _ Hdep)|cbn [length]; lia]. }
  destruct (decimation_total all lim convex d0 d1 M AN AP ltac:(lia) h0 fuel W C B Hh) as (s & ED & BX); [nia|].
  unfold compressRound. rewrite ED. cbn [bind].
  destruct (decimation_spec _ _ _ _ _ _ _ _ W C Hh ED) as (U & R & A & DCs & D0 & D1 & N0 & N1).
  destruct (Nat.eqb_spec (e_n s) 0) as [|Hn]; [exists (e_m s), None; split; [auto|congruence]|].
  destruct DCs as [WX WU CX ST TRI NB UN ADD ND NO AD SP FLAG FC ALL VX].
  assert (MU : forall p q, M p q <> None -> U p q <> None).
  { intros p q Hm K. apply Hm. rewrite <- (UN p q). apply dels_none. auto. }
  assert (XD : forall p q, e_m s p q <> None <-> R p = false /\ R q = false /\ U p q <> None) by (intros p q; rewrite (ST p q); apply star_dart; auto).
  assert (Hdx : e_m s d0 d1 <> None) by (apply XD; auto).
  unfold pushHehInit. destruct (e_m s d0 d1) as [dw|] eqn:Edw; [|congruence]. cbn [bind].
  assert (Hq : forall d : dart, In d [(d0, d1)] -> e_m s (fst d) (snd d) <> None) by (intros d [<-|[]]; cbn [fst snd]; congruence).
  assert (FC0 : fclosed (e_m s) (fun _ => false)) by (intros ? ? ?; reflexivity).
  assert (LL : left all (e_m s) (fun _ => false) <= length all) by (unfold left, cnt; apply filter_length_le).
  destruct (fconq_total all AN lim (e_m s) WX BX ltac:(lia) fuel [(d0, d1)] (fun _ => false) FC0 Hq) as [tr ET]; [cbn [length]; nia|].
  destruct (econq_total all AN lim (e_m s) WX BX ltac:(lia) fuel [(d0, d1)] (fun _ => false) Hq) as [te ETe]; [cbn [length]; nia|].
  destruct (residuals_of_fconq P qz bary lim (e_f s) pos (e_m s) fuel [(d0, d1)] (fun _ => false) (fun _ => (0, 0, 0)%Z) tr ET) as [res ER]. rewrite ER. cbn [bind].
  destruct (faces_of_fconq lim (e_f s) res (e_m s) fuel _ _ _ ET) as [fs EF]. rewrite EF. cbn [bind].
  destruct (edges_of_econq lim (e_f s) (e_a s) (e_m s) fuel _ _ _ ETe) as [es EE]. rewrite EE. cbn [bind].
  exists (e_m s), (Some (fs, es)). split; [auto|]. intros _. destruct (N1 Hn) as (w & p & Rw & Hw). exists w. split; [apply (VX w p Hw)|].
  intros (w' & K). apply XD in K. destruct K. congruence.
Qed.
