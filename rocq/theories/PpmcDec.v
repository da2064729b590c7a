(** The decompression round puts the vertices back and removes the inserted edges. *)
From Coq Require Import List ZArith Bool Arith Lia Relations Permutation.
From Verif Require Import Arr CodecModel PpmcModel PpmcTopo PpmcOps PpmcStar PpmcEnc PpmcTrav.
Import ListNotations.
Close Scope Z_scope.
Open Scope nat_scope.

(** *** Edges can be removed in any order *)
Definition rem (b : nat) (g : nat -> option nat) : nat -> option nat := fun p =>
  if p =? b then None else match g p with Some w => if w =? b then g b else Some w | None => None end.
Definition rinj (g : nat -> option nat) : Prop := forall p p' w, g p = Some w -> g p' = Some w -> p = p'.
Definition rcl (g : nat -> option nat) : Prop := forall p w, g p = Some w -> g w <> None.
Definition req (g g' : nat -> option nat) : Prop := forall p, g p = g' p.
Lemma rem_ext b g g' : req g g' -> req (rem b g) (rem b g').
Proof. intros E p. unfold rem. rewrite !E. reflexivity. Qed.
Lemma rem_cases b g p w : rem b g p = Some w -> p <> b /\ ((g p = Some w /\ w <> b) \/ (g p = Some b /\ g b = Some w)).
Proof.
  unfold rem. destruct (Nat.eqb_spec p b); [discriminate|]. destruct (g p) as [z|]; [|discriminate]. destruct (Nat.eqb_spec z b) as [->|]; intro E; split; auto.
  injection E as <-. auto.
Qed.
Lemma rem_inj b g : rinj g -> rinj (rem b g).
Proof.
  intros J p p' w E E'. apply rem_cases in E. apply rem_cases in E'. destruct E as (H1 & [[H2 H3]|[H2 H3]]), E' as (K1 & [[K2 K3]|[K2 K3]]).
  - eapply J; eauto.
  - exfalso. apply H1. eapply J; eauto.
  - exfalso. apply K1. eapply J; eauto.
  - eapply J; eauto.
Qed.
Lemma rem_some b g p : rcl g -> p <> b -> g p <> None -> rem b g p <> None.
Proof.
  intros C H1 H2. unfold rem. destruct (Nat.eqb_spec p b); [congruence|]. destruct (g p) as [w|] eqn:E; [|congruence].
  destruct (Nat.eqb_spec w b) as [->|]; [eapply C; eauto|discriminate].
Qed.
Lemma rem_cl b g : rinj g -> rcl g -> rcl (rem b g).
Proof.
  intros J C p w E. apply rem_cases in E. destruct E as (H1 & [[H2 H3]|[H2 H3]]).
  - apply rem_some; auto. eapply C; eauto.
  - apply rem_some; auto; [|eapply C; eauto]. intros ->. apply H1. eapply J; eauto.
Qed.
Lemma rem_comm b c g : rinj g -> req (rem b (rem c g)) (rem c (rem b g)).
Proof.
  intros J p. destruct (Nat.eq_dec b c) as [->|Hbc]; [auto|].
  assert (K : forall b c, b <> c -> forall w, rem b (rem c g) p = Some w -> rem c (rem b g) p = Some w).
  { clear b c Hbc. intros b c Hbc w E. apply rem_cases in E. destruct E as (H1 & [[H2 H3]|[H2 H3]]).
    - apply rem_cases in H2. destruct H2 as (H2 & [[H4 H5]|[H4 H5]]).
      + unfold rem. rewrite H4. destruct (Nat.eqb_spec p c), (Nat.eqb_spec p b), (Nat.eqb_spec w b), (Nat.eqb_spec w c); congruence.
      + unfold rem. rewrite H4, H5. destruct (Nat.eqb_spec p c), (Nat.eqb_spec p b), (Nat.eqb_spec c b), (Nat.eqb_spec c c), (Nat.eqb_spec w b); congruence.
    - apply rem_cases in H2. apply rem_cases in H3. destruct H2 as (H2 & [[H4 H5]|[H4 H5]]), H3 as (H6 & [[H7 H8]|[H7 H8]]).
      + unfold rem. rewrite H4, H7. destruct (Nat.eqb_spec p c), (Nat.eqb_spec p b), (Nat.eqb_spec b b), (Nat.eqb_spec w c); congruence.
      + unfold rem. rewrite H4, H7. destruct (Nat.eqb_spec p c), (Nat.eqb_spec p b), (Nat.eqb_spec b b), (Nat.eqb_spec c c), (Nat.eqb_spec c b); try congruence.
        rewrite H8. destruct (Nat.eqb_spec w b) as [->|]; [|auto].
        (* then b precedes itself *)
        exfalso. assert (c = p) by (eapply J; eauto). congruence.
      + unfold rem. rewrite H4, H5. destruct (Nat.eqb_spec p c), (Nat.eqb_spec p b), (Nat.eqb_spec c b), (Nat.eqb_spec c c), (Nat.eqb_spec b b); congruence.
      + exfalso. apply H1. eapply J; eauto. }
  destruct (rem b (rem c g) p) as [w|] eqn:E1; [symmetry; apply K; auto|].
  destruct (rem c (rem b g) p) as [w|] eqn:E2; [|auto]. rewrite <- E1. apply K; auto.
Qed.
Definition rems (l : list nat) (g : nat -> option nat) : nat -> option nat := fold_left (fun g b => rem b g) l g.
Lemma rems_ext l : forall g g', req g g' -> req (rems l g) (rems l g').
Proof. induction l as [|b l IH]; intros g g' E; cbn [rems fold_left]; [auto|]. apply IH. apply rem_ext. auto. Qed.
Lemma rems_perm l l' : Permutation l l' -> forall g, rinj g -> req (rems l g) (rems l' g).
Proof.
  induction 1 as [|x l l' _ IH|x y l|l1 l2 l3 _ IH1 _ IH2]; intros g J.
  - intro p; auto.
  - cbn [rems fold_left]. apply IH. apply rem_inj. auto.
  - cbn [rems fold_left]. apply rems_ext. apply rem_comm. auto.
  - intro p. rewrite IH1, IH2; auto.
Qed.
Lemma rems_inj l : forall g, rinj g -> rinj (rems l g).
Proof. induction l as [|b l IH]; intros g J; cbn [rems fold_left]; [auto|]. apply IH, rem_inj. auto. Qed.
Lemma rems_some l : forall g p, rinj g -> rcl g -> ~ In p l -> g p <> None -> rems l g p <> None.
Proof.
  induction l as [|b l IH]; intros g p J C H1 H2; cbn [rems fold_left]; [auto|]. apply IH.
  - apply rem_inj; auto.
  - apply rem_cl; auto.
  - intro; apply H1; right; auto.
  - apply rem_some; auto. intro; subst; apply H1; left; auto.
Qed.
(** The neighbours of q that lose their edge. *)
Definition nbs (q : nat) (L : list dart) : list nat :=
  flat_map (fun d : dart => if fst d =? q then [snd d] else if snd d =? q then [fst d] else []) L.
Lemma del_rem m a b q : a <> b -> req (fun p => del_edge m a b p q) (if a =? q then rem b (fun p => m p q) else if b =? q then rem a (fun p => m p q) else fun p => m p q).
Proof.
  intros H p. destruct (Nat.eqb_spec a q) as [->|Ha]; [|destruct (Nat.eqb_spec b q) as [->|Hb]]; unfold del_edge, rem.
  - rewrite Nat.eqb_refl. destruct (Nat.eqb_spec q b); [congruence|]. rewrite andb_false_r, andb_true_r. cbn [andb orb]. auto.
  - rewrite Nat.eqb_refl. destruct (Nat.eqb_spec q a); [congruence|]. rewrite andb_false_r, andb_true_r, orb_false_r. cbn [andb orb]. auto.
  - destruct (Nat.eqb_spec q a); [congruence|]. destruct (Nat.eqb_spec q b); [congruence|]. rewrite !andb_false_r. cbn [andb orb]. destruct (m p q); auto.
Qed.
Lemma dels_rems q L : (forall d, In d L -> fst d <> snd d) -> forall m, req (fun p => dels L m p q) (rems (nbs q L) (fun p => m p q)).
Proof.
  intro HL. induction L as [|d L IH]; intro m; cbn [dels fold_left nbs flat_map].
  - intro p; auto.
  - fold (dels L). fold (nbs q L). intro p. rewrite (IH ltac:(intros; apply HL; right; auto)). unfold rems at 2. rewrite fold_left_app. apply rems_ext. clear p IH.
    intro p. rewrite (del_rem m (fst d) (snd d) q (HL d (or_introl eq_refl)) p).
    destruct (fst d =? q), (snd d =? q); cbn [fold_left]; auto.
Qed.
Lemma nbs_in q L w : In w (nbs q L) -> In (q, w) L \/ In (w, q) L.
Proof.
  unfold nbs. rewrite in_flat_map. intros (d & Hd & Hw). destruct d as [a b]. cbn [fst snd] in *.
  destruct (Nat.eqb_spec a q) as [->|]; [destruct Hw as [<-|[]]; auto|]. destruct (Nat.eqb_spec b q) as [->|]; [destruct Hw as [<-|[]]; auto|destruct Hw].
Qed.
Lemma in_nbs q L w : (forall d, In d L -> fst d <> snd d) -> In (q, w) L \/ In (w, q) L -> In w (nbs q L).
Proof.
  intros HL H. unfold nbs. rewrite in_flat_map. destruct H as [H|H].
  - exists (q, w). split; [auto|]. cbn [fst snd]. rewrite Nat.eqb_refl. left; auto.
  - exists (w, q). split; [auto|]. cbn [fst snd]. rewrite Nat.eqb_refl. specialize (HL _ H). cbn [fst snd] in HL. destruct (Nat.eqb_spec w q); [congruence|]. left; auto.
Qed.
Lemma nbs_nodup q L : NoDup L -> (forall d, In d L -> ~ In (opp d) L) -> NoDup (nbs q L).
Proof.
  induction 1 as [|d L Hd _ IH]; intro HO; cbn [nbs flat_map]; [constructor|]. fold (nbs q L).
  assert (IH' : NoDup (nbs q L)) by (apply IH; intros d' H1 H2; apply (HO d'); right; auto).
  assert (HOd : ~ In (opp d) L) by (intro; apply (HO d); [left|right]; auto). destruct d as [a b]. unfold opp in HOd; cbn [fst snd] in *.
  destruct (Nat.eqb_spec a q) as [->|].
  - cbn [app]. constructor; [|auto]. intro K. apply nbs_in in K. tauto.
  - destruct (Nat.eqb_spec b q) as [->|]; [|auto]. cbn [app]. constructor; [|auto]. intro K. apply nbs_in in K. tauto.
Qed.
Lemma rows_inj m q : wf m -> rinj (fun p => m p q).
Proof. intros W p p' w E E'. eapply (wf_inj m W); eauto. Qed.
Lemma rows_cl m q : wf m -> rcl (fun p => m p q).
Proof. intros W p w E. apply (wf_sym m W). eapply (wf_nxt m W); eauto. Qed.
Lemma dels_same m A L : wf m -> NoDup A -> NoDup L -> (forall d, In d A -> ~ In (opp d) A) -> (forall d, In d L -> ~ In (opp d) L) ->
  (forall d, In d A -> fst d <> snd d) -> (forall d, In d L \/ In (opp d) L <-> In d A \/ In (opp d) A) -> meq (dels L m) (dels A m).
Proof.
  intros W NA NL OA OL DA E p q.
  assert (DL : forall d, In d L -> fst d <> snd d).
  { intros d Hd. destruct (proj1 (E d) (or_introl Hd)) as [X|X]; apply DA in X; destruct d; unfold opp in X; cbn [fst snd] in *; auto. }
  rewrite (dels_rems q L DL m p), (dels_rems q A DA m p). apply rems_perm; [|apply rows_inj; auto].
  apply NoDup_Permutation; try (apply nbs_nodup; auto). intro w. split; intro H; apply nbs_in in H; apply in_nbs; auto; apply (E (q, w)); auto.
Qed.
Lemma removal m0 m L : wf m -> meq m0 m -> NoDup L -> (forall d, In d L -> ~ In (opp d) L) -> (forall d, In d L -> m (fst d) (snd d) <> None) ->
  exists m', fold_left (fun m h => do m' <- m; join_facet m' h) L (Some m0) = Some m' /\ meq m' (dels L m).
Proof.
  intros W E0 NL OL DL. assert (DL' : forall d, In d L -> fst d <> snd d).
  { intros d Hd K. apply DL in Hd. rewrite K in Hd. apply Hd, (wf_irr m W). }
  assert (G : forall L1 L2, L = L1 ++ L2 -> forall m1, meq m1 (dels L1 m) ->
     exists m', fold_left (fun m h => do m' <- m; join_facet m' h) L2 (Some m1) = Some m' /\ meq m' (dels L m)).
  { intros L1 L2. revert L1. induction L2 as [|d L2 IH]; intros L1 EL m1 E1.
    - rewrite app_nil_r in EL. subst. exists m1. auto.
    - cbn [fold_left bind]. unfold join_facet. destruct (m1 (fst d) (snd d)) eqn:Ed.
      + cbn [bind]. apply (IH (L1 ++ [d])); [rewrite <- app_assoc; auto|]. unfold dels. rewrite fold_left_app. cbn [fold_left]. apply del_ext. auto.
      + exfalso. rewrite E1 in Ed. rewrite (dels_rems (snd d) L1) in Ed.
        * revert Ed. apply rems_some; [apply rows_inj; auto|apply rows_cl; auto| |apply DL; rewrite EL; apply in_or_app; right; left; auto].
          intro K. apply nbs_in in K. assert (Hd : In d L) by (rewrite EL; apply in_or_app; right; left; auto).
          destruct K as [K|K].
          -- apply (OL d Hd). rewrite EL. apply in_or_app. left. exact K.
          -- rewrite EL in NL. apply NoDup_remove_2 in NL. apply NL. apply in_or_app. left. destruct d; exact K.
        * intros d' Hd'. apply DL'. rewrite EL. apply in_or_app. auto. }
  apply (G [] L); auto.
Qed.

(** *** Putting the vertices back *)
Lemma walk_agree (X Y : mesh) (S : dart -> Prop) : (forall d, S d -> nxt Y d = nxt X d) -> (forall d d', S d -> nxt X d = Some d' -> S d') ->
  forall n h d, S d -> walk Y h d n = walk X h d n.
Proof.
  intros E C. induction n as [|n IH]; intros h d Hd; cbn [walk]; [auto|]. rewrite (E d Hd). destruct (nxt X d) as [d'|] eqn:En; cbn [bind]; [|auto].
  destruct (deq d' h); [auto|]. rewrite (IH h d'); [auto|]. eapply C; eauto.
Qed.
Lemma existsb_deq' d lp : existsb (deq d) lp = if in_dec dart_dec d lp then true else false.
Proof. destruct (in_dec dart_dec d lp) as [H|H]; [apply existsb_deq; auto|]. rewrite <- existsb_deq in H. destruct (existsb _ _); congruence. Qed.

Section Insert.
  Variables (P : Type) (qz : P -> vec) (gp : vec -> P) (bary : list P -> P) (lim : nat).
  Variables (fl : dart -> fflag nat) (pos : nat -> P) (X U : mesh) (R : nat -> bool).
  Hypotheses (WU : wf U) (WX : wf X) (ST : meq X (star R U)).
  Hypothesis TRI : forall w p q, R w = true -> U w p = Some q -> U p q = Some w /\ U q w = Some p.
  Hypothesis NB : forall w p, R w = true -> U w p <> None -> R p = false.
  Hypothesis FLAG : forall p q w, X p q <> None -> (fl (p, q) = Splittable w <-> U p q = Some w /\ R w = true).
  Hypothesis FC : forall p q w, X p q = Some w -> fl (p, q) = fl (q, w).
  Lemma fl_forb d d' : forb X d d' -> fl d = fl d'.
  Proof.
    induction 1 as [|d d1 d2 E _ IH]; [auto|]. rewrite <- IH. destruct (nxt_inv _ _ _ E) as [E1 E2]. destruct d, d1. cbn [fst snd] in *. subst. auto.
  Qed.
  Lemma X_dart p q : X p q <> None <-> R p = false /\ R q = false /\ U p q <> None.
  Proof. rewrite (ST p q). apply star_dart. auto. Qed.
  (** The half-edges around a removed vertex are one facet of X. *)
  Lemma hole_dart v p q : R v = true -> U p q = Some v -> X p q <> None.
  Proof.
    intros Rv E. destruct (T2 U v WU (fun a b => TRI v a b Rv) _ _ E) as [E1 E2].
    apply X_dart. split; [apply (NB v); [auto|congruence]|]. split; [|congruence]. apply (NB v); [auto|]. apply (wf_sym U WU). congruence.
  Qed.
  Lemma hole_face v h lp : R v = true -> is_loop X h lp -> fl h = Splittable v -> X (fst h) (snd h) <> None ->
    forall p q, In (p, q) lp <-> U p q = Some v.
  Proof.
    intros Rv L Hf Hh p q. assert (TR := fun a b => TRI v a b Rv). split.
    - intro Hi. apply (FLAG p q v); [apply (il_dart _ _ _ _ L Hi)|]. rewrite <- Hf. symmetry. apply fl_forb. apply (loop_forb _ _ _ _ L Hi).
    - intro E. assert (PF : forall x y, vorb U v x y -> forall x' y', U x' x = Some v -> U y' y = Some v -> forb X (y', y) (x', x)).
      { induction 1 as [x|x y z Ey _ IH]; intros x' y' E1 E2.
        - assert (x' = y') by exact (wf_inj U WU _ _ _ _ E1 E2). subst. constructor.
        - destruct (T2 _ _ WU TR _ _ E1) as [X1 X2]. assert (y = x') by congruence. subst y.
          destruct (U x' v) as [y0|] eqn:Ey0; [|exfalso; apply (wf_sym _ WU v x'); congruence]. destruct (T1 _ _ WU TR _ _ Ey0) as [X3 X4].
          eapply forb_trans; [apply (IH y0 y'); auto|]. apply forb_one, nxt_some. rewrite ST.
          assert (D := hole_dart v _ _ Rv X4). apply X_dart in D. destruct D as (D1 & D2 & _).
          rewrite (star_skip R U y0 x' v); auto. }
      destruct h as [hp hq]. cbn [fst snd] in *. apply (FLAG hp hq v Hh) in Hf. destruct Hf as [Hf _].
      destruct (T2 _ _ WU TR _ _ E) as [X1 _], (T2 _ _ WU TR _ _ Hf) as [Y1 _].
      eapply il_forb_in; [exact L|]. apply (PF q hq); auto. apply (wf_man _ WU); congruence.
  Qed.
  Definition subv (Rr : nat -> bool) (v : nat) : nat -> bool := fun w => Rr w && negb (w =? v).
  Lemma center_spec Y Rr h v lp : meq Y (star Rr U) -> (forall w, Rr w = true -> R w = true) -> R v = true -> Rr v = true ->
    is_loop X h lp -> fl h = Splittable v -> X (fst h) (snd h) <> None -> loop lim Y h = Some lp ->
    exists Y', create_center_vertex lim Y h v = Some Y' /\ meq Y' (star (subv Rr v) U).
  Proof.
    intros EY Sub Rv Rrv L Hf Hh EL. unfold create_center_vertex. rewrite EL. cbn [bind]. eexists. split; [reflexivity|].
    assert (HF := hole_face v h lp Rv L Hf Hh). assert (TR := fun a b => TRI v a b Rv).
    assert (NR : forall a, U v a <> None -> R a = false) by (intros; eapply NB; eauto).
    assert (FR : forall w, R w = false -> Rr w = false). { intros w Hw. destruct (Rr w) eqn:E; [|auto]. apply Sub in E. congruence. }
    assert (SF : forall w, Rr w = false -> subv Rr v w = false) by (intros w Hw; unfold subv; rewrite Hw; auto).
    assert (Sv : subv Rr v v = false) by (unfold subv; rewrite Nat.eqb_refl, andb_false_r; auto).
    intros p q. rewrite existsb_deq'. destruct (in_dec dart_dec (p, q) lp) as [Hi|Hi].
    - apply HF in Hi. destruct (T2 _ _ WU TR _ _ Hi) as [E1 E2].
      symmetry. apply star_keep; auto; apply SF, FR, NR; [congruence|]. apply (wf_sym U WU); congruence.
    - destruct (Nat.eqb_spec q v) as [->|Hq].
      + destruct (find (fun d => snd d =? p) lp) as [[a p']|] eqn:Ef.
        * apply find_some in Ef. destruct Ef as [Hi' Ep]. cbn [fst snd] in *. apply Nat.eqb_eq in Ep. subst p'. apply HF in Hi'.
          destruct (T2 _ _ WU TR _ _ Hi') as [E1 E2]. symmetry. apply star_keep; auto; apply SF, FR, NR; [apply (wf_sym U WU)|]; congruence.
        * unfold star. rewrite Sv, orb_false_r. destruct (subv Rr v p); [auto|]. destruct (U p v) as [a|] eqn:E; [|auto].
          exfalso. destruct (T1 _ _ WU TR _ _ E) as [E1 E2]. apply HF in E2. apply (find_none _ _ Ef) in E2. cbn [snd] in E2. rewrite Nat.eqb_refl in E2. discriminate.
      + destruct (Nat.eqb_spec p v) as [->|Hp].
        * destruct (find (fun d => fst d =? q) lp) as [[q' a]|] eqn:Ef.
          -- apply find_some in Ef. destruct Ef as [Hi' Ep]. cbn [fst snd] in *. apply Nat.eqb_eq in Ep. subst q'. apply HF in Hi'.
             destruct (T2 _ _ WU TR _ _ Hi') as [E1 E2]. symmetry. apply star_keep; auto; apply SF, FR, NR; [|apply (wf_sym U WU)]; congruence.
          -- unfold star. rewrite Sv. cbn [orb]. destruct (subv Rr v q); [auto|]. destruct (U v q) as [a|] eqn:E; [|auto].
             exfalso. destruct (TR _ _ E) as [E1 E2]. apply HF in E1. apply (find_none _ _ Ef) in E1. cbn [fst] in E1. rewrite Nat.eqb_refl in E1. discriminate.
        * rewrite EY. unfold star, subv. destruct (Nat.eqb_spec p v); [congruence|]. destruct (Nat.eqb_spec q v); [congruence|]. cbn [negb]. rewrite !andb_true_r.
          destruct (Rr p || Rr q); [auto|]. destruct (U p q) as [w|] eqn:E; [|auto]. destruct (Nat.eqb_spec w v) as [->|]; [exfalso; apply Hi, HF; auto|]. cbn [negb]. rewrite andb_true_r. auto.
  Qed.

  Definition names (tr : list (dart * list dart)) : list nat :=
    flat_map (fun x : dart * list dart => match fl (fst x) with Splittable v => [v] | _ => [] end) tr.
  Notation bc lp := (qz (bary (map (fun d : dart => pos (snd d)) lp))).
  Variable g : dart -> fflag vec.
  Lemma vadd_vsub a b : vadd b (vsub a b) = a.
  Proof. destruct a as [[x y] z], b as [[x' y'] z']. unfold vadd, vsub. repeat f_equal; lia. Qed.
  Lemma insert_spec : forall n q proc tr Y procY Rr pos',
    fconq lim X q proc n = Some tr -> (forall d, In d q -> X (fst d) (snd d) <> None) -> fclosed X proc ->
    (forall x, In x tr -> g (fst x) = toflag (sym P qz bary fl pos x)) ->
    meq Y (star Rr U) -> (forall w, Rr w = true -> R w = true) ->
    (forall w p q', R w = true -> Rr w = false -> U p q' = Some w -> proc (p, q') = true) ->
    (forall d, X (fst d) (snd d) <> None -> procY d = proc d) ->
    (forall u, R u = false -> pos' u = pos u) ->
    exists Y' pos2, insertRemovedVertices P qz gp bary lim Y g pos' (names tr) q procY n = Some (Y', pos2) /\
      meq Y' (star (fun w => Rr w && negb (existsb (Nat.eqb w) (names tr))) U) /\
      (forall u, pos2 u = if existsb (Nat.eqb u) (names tr) then gp (qz (pos u)) else pos' u) /\
      NoDup (names tr) /\ (forall w, In w (names tr) -> Rr w = true).
  Proof.
    induction n as [|n IH]; intros q proc tr Y procY Rr pos' H Hq FCl HG EY Sub PR PE HP; cbn [fconq] in H; [discriminate|].
    cbn [insertRemovedVertices]. destruct q as [|h q].
    - injection H as <-. cbn [names flat_map existsb]. exists Y, pos'. split; [auto|]. split; [|split; [auto|split; [constructor|contradiction]]].
      intros a b. rewrite EY. unfold star. cbn [negb]. rewrite !andb_true_r. destruct (Rr a || Rr b); [auto|]. destruct (U a b); [rewrite andb_true_r|]; auto.
    - assert (Hh := Hq h (or_introl eq_refl)). rewrite (PE h Hh). destruct (proc h) eqn:Eh; [apply (IH q proc); auto; intros; apply Hq; right; auto|].
      destruct (loop lim X h) as [lp|] eqn:EL; cbn [bind] in H; [|discriminate]. assert (L := loop_is_loop _ _ _ _ EL).
      destruct (fconq lim X _ _ n) as [tr'|] eqn:E; cbn [bind] in H; [|discriminate]. injection H as <-.
      (* the facet has not changed *)
      assert (AG : forall d, proc d = false -> X (fst d) (snd d) <> None -> nxt Y d = nxt X d).
      { intros [p q'] Hp Hx. cbn [fst snd] in *. unfold nxt. cbn [fst snd]. rewrite EY, (ST p q'). apply X_dart in Hx. destruct Hx as (D1 & D2 & D3).
        assert (FR : forall w, R w = false -> Rr w = false). { intros w Hw. destruct (Rr w) eqn:Ew; [|auto]. apply Sub in Ew. congruence. }
        unfold star. rewrite D1, D2, (FR _ D1), (FR _ D2). cbn [orb]. destruct (U p q') as [w|] eqn:Ew; [|auto].
        destruct (R w) eqn:Rw; [|rewrite (FR _ Rw); auto]. destruct (Rr w) eqn:Rrw; [auto|]. rewrite (PR w p q' Rw Rrw Ew) in Hp. discriminate. }
      assert (ELY : loop lim Y h = Some lp).
      { rewrite <- EL. unfold loop. apply (walk_agree X Y (fun d => proc d = false /\ X (fst d) (snd d) <> None)); [intros d [X1 X2]; auto| |auto].
        intros d d' [X1 X2] En. split; [rewrite <- (FCl _ _ En); auto|]. eapply nxt_dart; eauto. }
      rewrite ELY. cbn [bind].
      assert (FCl' := fclosed_loop X proc h lp true WX L FCl).
      assert (LD : forall d, In d lp -> X (fst d) (snd d) <> None) by (intros d Hd; eapply il_dart; eauto).
      assert (OD : forall d, X (fst d) (snd d) <> None -> X (fst (opp d)) (snd (opp d)) <> None) by (intros; unfold opp; cbn [fst snd]; apply (wf_sym X WX); auto).
      assert (PE' : forall d, X (fst d) (snd d) <> None -> set_loop procY lp true d = set_loop proc lp true d).
      { intros d Hd. unfold set_loop. destruct (existsb (deq d) lp); auto. }
      rewrite (gates_ext (set_loop procY lp true) (set_loop proc lp true)) by (intros d Hd; apply PE'; auto).
      assert (Hq' : forall d, In d (q ++ gates (set_loop proc lp true) lp) -> X (fst d) (snd d) <> None).
      { intros d Hi. apply in_app_or in Hi. destruct Hi as [Hi|Hi]; [apply Hq; right; auto|]. apply gates_in in Hi. destruct Hi as [Hi _].
        apply LD in Hi. apply OD in Hi. rewrite opp_opp in Hi. auto. }
      assert (HG' : forall x, In x tr' -> g (fst x) = toflag (sym P qz bary fl pos x)) by (intros; apply HG; right; auto).
      assert (PT : forall d, proc d = true -> set_loop proc lp true d = true) by (intros d Hd; unfold set_loop; destruct (existsb _ _); auto).
      assert (Hg : g h = toflag (sym P qz bary fl pos (h, lp))) by exact (HG (h, lp) (or_introl eq_refl)).
      rewrite Hg. unfold sym. cbn [names flat_map fst snd]. fold (names tr'). destruct (fl h) as [| |v] eqn:Ef; cbn [toflag app].
      + destruct (IH _ _ _ Y (set_loop procY lp true) Rr pos' E Hq' FCl' HG' EY Sub) as (Y' & pos2 & Z); auto.
        { intros. apply PT. eapply PR; eauto. } exists Y', pos2. exact Z.
      + destruct (IH _ _ _ Y (set_loop procY lp true) Rr pos' E Hq' FCl' HG' EY Sub) as (Y' & pos2 & Z); auto.
        { intros. apply PT. eapply PR; eauto. } exists Y', pos2. exact Z.
      + assert (FU : U (fst h) (snd h) = Some v /\ R v = true) by (apply FLAG; [auto|destruct h; auto]). destruct FU as [Uh Rv].
        assert (Rrv : Rr v = true). { destruct (Rr v) eqn:Z; [auto|]. assert (Z2 := PR v _ _ Rv Z Uh). destruct h; cbn [fst snd] in *; congruence. }
        assert (PB : @map (nat * nat) P (fun d : nat * nat => pos' (snd d)) lp = @map (nat * nat) P (fun d : nat * nat => pos (snd d)) lp).
        { apply map_ext_in. intros d Hd. apply HP. apply LD in Hd. apply X_dart in Hd. tauto. }
        rewrite PB. unfold resid. change dart with (nat * nat)%type. rewrite vadd_vsub.
        destruct (center_spec Y Rr h v lp EY Sub Rv Rrv L Ef Hh ELY) as (Y1 & EC & EY1). rewrite EC. cbn [bind].
        destruct (IH _ _ _ Y1 (fun d => set_loop procY lp true d || (fst d =? v) || (snd d =? v)) (subv Rr v) (fun u => if u =? v then gp (qz (pos v)) else pos' u) E Hq' FCl' HG' EY1)
          as (Y' & pos2 & Z1 & Z2 & Z3 & Z4 & Z5).
        * intros w Hw. unfold subv in Hw. apply andb_true_iff in Hw. apply Sub. tauto.
        * intros w p q' Hw Hs Ew. unfold subv in Hs. destruct (Nat.eqb_spec w v) as [->|Hn].
          -- rewrite set_loop_in; [auto|]. apply (hole_face v h lp Rv L Ef Hh). auto.
          -- cbn [negb] in Hs. rewrite andb_true_r in Hs. apply PT. eapply PR; eauto.
        * intros d Hd. rewrite <- PE' by auto. apply X_dart in Hd. destruct Hd as (D1 & D2 & _).
          destruct (Nat.eqb_spec (fst d) v); [congruence|]. destruct (Nat.eqb_spec (snd d) v); [congruence|]. rewrite !orb_false_r. auto.
        * intros u Hu. destruct (Nat.eqb_spec u v); [congruence|auto].
        * exists Y', pos2. split; [exact Z1|]. split; [|split; [|split]].
          -- intros a b. rewrite Z2. assert (SE : forall w, subv Rr v w && negb (existsb (Nat.eqb w) (names tr')) = Rr w && negb (existsb (Nat.eqb w) (v :: names tr'))).
             { intro w. unfold subv. cbn [existsb]. rewrite negb_orb. destruct (Rr w), (w =? v), (existsb (Nat.eqb w) (names tr')); auto. }
             unfold star. rewrite !SE. destruct (_ || _); [auto|]. destruct (U a b) as [w|]; [|auto]. rewrite SE. auto.
          -- intro u. rewrite Z3. cbn [existsb]. destruct (Nat.eqb_spec u v) as [->|]; cbn [orb]; [|auto]. destruct (existsb _ _); auto.
          -- constructor; [|auto]. intro K. apply Z5 in K. unfold subv in K. rewrite Nat.eqb_refl, andb_false_r in K. discriminate.
          -- intros w [<-|Hw]; [auto|]. apply Z5 in Hw. unfold subv in Hw. apply andb_true_iff in Hw. tauto.
  Qed.
End Insert.
