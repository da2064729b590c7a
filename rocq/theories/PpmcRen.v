(** The decoder does not depend on what the vertex handles are: renaming them renames the result. *)
From Coq Require Import List ZArith Bool Arith Lia.
From Verif Require Import Arr CodecModel PpmcModel PpmcTopo.
Import ListNotations.
Close Scope Z_scope.
Open Scope nat_scope.

Section Ren.
  Variables (sg tu : nat -> nat).
  Hypothesis TS : forall v, tu (sg v) = v.
  Definition s2 (d : dart) : dart := (sg (fst d), sg (snd d)).
  Lemma sg_inj a b : sg a = sg b -> a = b.
  Proof. intro E. rewrite <- (TS a), <- (TS b), E. auto. Qed.
  Lemma sg_eqb a b : (sg a =? sg b) = (a =? b).
  Proof. destruct (Nat.eqb_spec a b) as [->|H]; [apply Nat.eqb_refl|]. apply Nat.eqb_neq. intro E. apply H, sg_inj, E. Qed.
  Lemma s2_deq a b : deq (s2 a) (s2 b) = deq a b.
  Proof. unfold deq, s2. cbn [fst snd]. rewrite !sg_eqb. auto. Qed.
  Lemma s2_opp d : opp (s2 d) = s2 (opp d).
  Proof. reflexivity. Qed.
  Lemma s2_inj a b : s2 a = s2 b -> a = b.
  Proof. destruct a, b. unfold s2. cbn [fst snd]. intro E. injection E as E1 E2. apply sg_inj in E1, E2. congruence. Qed.
  Definition im (p : nat) : Prop := sg (tu p) = p.
  Lemma im_sg v : im (sg v).
  Proof. unfold im. rewrite TS. auto. Qed.

  Record ren (m m' : mesh) : Prop := RN {
    rn_at : forall u v, m' (sg u) (sg v) = option_map sg (m u v);
    rn_im : forall p q, m' p q <> None -> im p /\ im q }.

  Lemma ren_nxt m m' d : ren m m' -> nxt m' (s2 d) = option_map s2 (nxt m d).
  Proof. intros [A _]. unfold nxt, s2. cbn [fst snd]. rewrite A. destruct (m (fst d) (snd d)); auto. Qed.
  Lemma ren_walk m m' h : ren m m' -> forall n d, walk m' (s2 h) (s2 d) n = option_map (map s2) (walk m h d n).
  Proof.
    intro R. induction n as [|n IH]; intro d; cbn [walk]; [auto|]. rewrite (ren_nxt m m' d R). destruct (nxt m d) as [d'|]; cbn [option_map bind]; [|auto].
    rewrite s2_deq. destruct (deq d' h); [auto|]. rewrite IH. destruct (walk m h d' n); auto.
  Qed.
  Lemma ren_loop lim m m' h : ren m m' -> loop lim m' (s2 h) = option_map (map s2) (loop lim m h).
  Proof. intro R. apply ren_walk. auto. Qed.
  Lemma ren_exists d lp : existsb (deq (s2 d)) (map s2 lp) = existsb (deq d) lp.
  Proof. induction lp as [|x lp IH]; cbn [map existsb]; [auto|]. rewrite s2_deq, IH. auto. Qed.

  Definition fr {A} (f f' : dart -> A) : Prop := forall d, f' (s2 d) = f d.
  Lemma fr_loop {A} (f f' : dart -> A) lp x : fr f f' -> fr (set_loop f lp x) (set_loop f' (map s2 lp) x).
  Proof. intros F d. unfold set_loop. rewrite ren_exists, F. auto. Qed.
  Lemma fr_dart {A} (f f' : dart -> A) e x : fr f f' -> fr (set_dart f e x) (set_dart f' (s2 e) x).
  Proof. intros F d. unfold set_dart. rewrite s2_deq, F. auto. Qed.
  Lemma filter_map {A B} (g : A -> B) p p' l : (forall x, p' (g x) = p x) -> filter p' (map g l) = map g (filter p l).
  Proof. intro E. induction l as [|x l IH]; cbn [map filter]; [auto|]. rewrite E. destruct (p x); cbn [map]; rewrite IH; auto. Qed.
  Lemma fr_gates (f f' : dart -> bool) lp : fr f f' -> gates f' (map s2 lp) = map s2 (gates f lp).
  Proof.
    intro F. unfold gates. rewrite map_map. transitivity (filter (fun d => negb (f' d)) (map s2 (map opp lp))); [rewrite map_map; auto|].
    apply filter_map. intro x. rewrite F. auto.
  Qed.

  Lemma ren_undecimation lim m m' : ren m m' -> forall n fl fl' q syms g l, fr fl fl' ->
    undecimation lim m fl q syms n = Some (g, l) -> exists g', undecimation lim m' fl' (map s2 q) syms n = Some (g', l) /\ fr g g'.
  Proof.
    intro R. induction n as [|n IH]; intros fl fl' q syms g l F H; cbn [undecimation] in *; [discriminate|]. destruct q as [|h q]; cbn [map].
    - injection H as <- <-. eauto.
    - rewrite F. destruct (isConquered (fl h)); [eauto|]. destruct syms as [|s syms]; [discriminate|].
      rewrite (ren_loop lim m m' h R). destruct (loop lim m h) as [lp|]; cbn [option_map bind] in *; [|discriminate].
      cbn zeta in *. rewrite (fr_gates (fun d => isConquered (fl d)) (fun d => isConquered (fl' d))) by (intro d; rewrite F; auto). rewrite <- map_app.
      eapply IH; [|exact H]. apply fr_loop. auto.
  Qed.
  Lemma ren_around m m' h : ren m m' -> forall n d, around m' (s2 h) (s2 d) n = option_map (map s2) (around m h d n).
  Proof.
    intro R. induction n as [|n IH]; intro d; cbn [around]; [auto|]. rewrite s2_opp, s2_deq. destruct (deq (opp d) h); [auto|].
    rewrite (ren_nxt m m' _ R). destruct (nxt m (opp d)) as [d'|]; cbn [option_map bind]; [|auto]. rewrite IH. destruct (around m h d' n); auto.
  Qed.
  Lemma ren_edges lim m m' fl fl' : ren m m' -> fr fl fl' -> forall n added added' q proc proc' syms g l, fr added added' -> fr proc proc' ->
    (forall d, added' d = true -> im (fst d) /\ im (snd d)) ->
    InsertedEdgeDecoding lim m fl added q proc syms n = Some (g, l) ->
    exists g', InsertedEdgeDecoding lim m' fl' added' (map s2 q) proc' syms n = Some (g', l) /\ fr g g' /\ (forall d, g' d = true -> im (fst d) /\ im (snd d)).
  Proof.
    intros R Fl. induction n as [|n IH]; intros added added' q proc proc' syms g l Fa Fp Ia H; cbn [InsertedEdgeDecoding] in *; [discriminate|].
    destruct q as [|h q]; cbn [map].
    - injection H as <- <-. eauto.
    - rewrite Fp. destruct (proc h); [eauto|]. cbn zeta in *. rewrite (ren_nxt m m' h R). destruct (nxt m h) as [h1|]; cbn [option_map bind] in *; [|discriminate].
      rewrite (ren_around m m' h R). destruct (around m h h1 lim) as [sp|]; cbn [option_map bind] in *; [|discriminate].
      assert (Fp' : fr (set_dart (set_dart proc h true) (opp h) true) (set_dart (set_dart proc' (s2 h) true) (opp (s2 h)) true)).
      { rewrite s2_opp. apply fr_dart, fr_dart. auto. }
      rewrite (filter_map s2 (fun d => negb (set_dart (set_dart proc h true) (opp h) true d))) by (intro x; rewrite Fp'; auto). rewrite <- map_app.
      rewrite s2_opp, !Fl. destruct (isSplittable (fl h) || isSplittable (fl (opp h))).
      + destruct syms as [|s syms]; [discriminate|]. eapply IH; [| |  |exact H].
        * destruct (s =? 0)%Z; [auto|apply fr_dart; auto].
        * rewrite <- s2_opp. auto.
        * intros d Hd. destruct (s =? 0)%Z; [auto|]. unfold set_dart in Hd. revert Hd. generalize (deq_spec d (s2 h)). intros [Ed|Ed] Hd; [|auto].
          rewrite Ed. unfold s2; cbn [fst snd]. split; apply im_sg.
      + eapply IH; [exact Fa| |exact Ia|exact H]. rewrite <- s2_opp. auto.
  Qed.

  Lemma ren_center lim m m' h v m1 : ren m m' -> create_center_vertex lim m h v = Some m1 ->
    exists m1', create_center_vertex lim m' (s2 h) (sg v) = Some m1' /\ ren m1 m1'.
  Proof.
    intros R H. unfold create_center_vertex in *. rewrite (ren_loop lim m m' h R). destruct (loop lim m h) as [lp|]; cbn [option_map bind] in *; [|discriminate].
    injection H as <-. eexists. split; [reflexivity|].
    assert (F1 : forall p, find (fun d => snd d =? sg p) (map s2 lp) = option_map s2 (find (fun d : dart => snd d =? p) lp)).
    { intro p. induction lp as [|x lp IH]; cbn [map find]; [auto|]. change (snd (s2 x)) with (sg (snd x)). rewrite sg_eqb. destruct (snd x =? p); auto. }
    assert (F2 : forall p, find (fun d => fst d =? sg p) (map s2 lp) = option_map s2 (find (fun d : dart => fst d =? p) lp)).
    { clear F1. intro p. induction lp as [|x lp IH]; cbn [map find]; [auto|]. change (fst (s2 x)) with (sg (fst x)). rewrite sg_eqb. destruct (fst x =? p); auto. }
    constructor.
    - intros p q. change (sg p, sg q) with (s2 (p, q)). rewrite ren_exists. destruct (existsb (deq (p, q)) lp); [auto|].
      rewrite !sg_eqb. destruct (q =? v).
      + rewrite F1. change (find (fun d : dart => snd d =? p) lp) with (find (fun d : nat * nat => snd d =? p) lp). destruct (@find (nat * nat) _ _); auto.
      + destruct (p =? v); [|apply (rn_at _ _ R)]. rewrite F2. change (find (fun d : dart => fst d =? q) lp) with (find (fun d : nat * nat => fst d =? q) lp). destruct (@find (nat * nat) _ _); auto.
    - intros p q. destruct (existsb (deq (p, q)) (map s2 lp)) eqn:E.
      + intros _. apply existsb_deq in E. apply in_map_iff in E. destruct E as (x & E & _). unfold s2 in E. injection E as <- <-. split; apply im_sg.
      + destruct (Nat.eqb_spec q (sg v)) as [->|].
        * destruct (@find (nat * nat) (fun d => snd d =? p) (map s2 lp)) as [d|] eqn:Ef; [|congruence]. intros _. apply find_some in Ef. destruct Ef as [Ef1 Ef2].
          apply Nat.eqb_eq in Ef2. apply in_map_iff in Ef1. destruct Ef1 as (x & <- & _). subst p. unfold s2; cbn [snd]. split; apply im_sg.
        * destruct (Nat.eqb_spec p (sg v)) as [->|]; [|apply (rn_im _ _ R)].
          destruct (@find (nat * nat) (fun d => fst d =? q) (map s2 lp)) as [d|] eqn:Ef; [|congruence]. intros _. apply find_some in Ef. destruct Ef as [Ef1 Ef2].
          apply Nat.eqb_eq in Ef2. apply in_map_iff in Ef1. destruct Ef1 as (x & <- & _). subst q. unfold s2; cbn [fst]. split; apply im_sg.
  Qed.

  Variables (P : Type) (qz : P -> vec) (gp : vec -> P) (bary : list P -> P) (lim : nat).
  Lemma ren_insert fl fl' : fr fl fl' -> forall n m m' pos pos' names q proc proc' m1 pos1, ren m m' -> (forall v, pos' (sg v) = pos v) -> fr proc proc' ->
    insertRemovedVertices P qz gp bary lim m fl pos names q proc n = Some (m1, pos1) ->
    exists m1' pos1', insertRemovedVertices P qz gp bary lim m' fl' pos' (map sg names) (map s2 q) proc' n = Some (m1', pos1') /\
      ren m1 m1' /\ (forall v, pos1' (sg v) = pos1 v).
  Proof.
    intro Fl. induction n as [|n IH]; intros m m' pos pos' names q proc proc' m1 pos1 R Hp Fp H; cbn [insertRemovedVertices] in *; [discriminate|].
    destruct q as [|h q]; cbn [map].
    - injection H as <- <-. eauto.
    - rewrite Fp. destruct (proc h); [eauto|]. rewrite (ren_loop lim m m' h R). destruct (loop lim m h) as [lp|]; cbn [option_map bind] in *; [|discriminate].
      cbn zeta in *. assert (Fp' := fr_loop proc proc' lp true Fp). rewrite (fr_gates _ _ lp Fp'). rewrite <- map_app. rewrite Fl.
      destruct (fl h) as [| |r]; [eauto|eauto|]. destruct names as [|v names]; cbn [map]; [discriminate|].
      assert (EB : @map (nat * nat) P (fun d => pos' (snd d)) (map s2 lp) = @map (nat * nat) P (fun d => pos (snd d)) lp).
      { rewrite map_map. apply map_ext. intro d. unfold s2; cbn [snd]. auto. }
      rewrite EB. destruct (create_center_vertex lim m h v) as [m2|] eqn:EC; cbn [bind] in H; [|discriminate].
      destruct (ren_center lim m m' h v m2 R EC) as (m2' & EC' & R2). rewrite EC'. cbn [bind].
      eapply IH; [exact R2| | |exact H].
      + intro u. rewrite sg_eqb. destruct (u =? v); auto.
      + intro d. rewrite Fp'. unfold s2; cbn [fst snd]. rewrite !sg_eqb. auto.
  Qed.

  Lemma ren_del m m' a b : ren m m' -> ren (del_edge m a b) (del_edge m' (sg a) (sg b)).
  Proof.
    intros [A B]. constructor.
    - intros u v. unfold del_edge. rewrite !sg_eqb. destruct (_ || _); [auto|]. rewrite A. destruct (m u v) as [w|]; cbn [option_map]; [|auto].
      rewrite !sg_eqb. destruct (_ && _); [apply A|]. destruct (_ && _); [apply A|auto].
    - intros p q H. unfold del_edge in H. destruct (_ || _); [congruence|]. destruct (m' p q) eqn:E; [|congruence]. apply B. congruence.
  Qed.
  Lemma ren_join : forall l m m' m1, ren m m' ->
    fold_left (fun m h => do m' <- m; join_facet m' h) l (Some m) = Some m1 ->
    exists m1', fold_left (fun m h => do m' <- m; join_facet m' h) (map s2 l) (Some m') = Some m1' /\ ren m1 m1'.
  Proof.
    assert (NN : forall l, fold_left (fun m h => do m' <- m; join_facet m' h) l None = None) by (induction l; auto).
    induction l as [|h l IH]; intros m m' m1 R H; cbn [map fold_left bind] in *.
    - injection H as <-. eauto.
    - unfold join_facet in H at 2. unfold join_facet at 2. unfold s2 at 1 2 3 4; cbn [fst snd].
      rewrite (rn_at _ _ R). destruct (m (fst h) (snd h)); cbn [bind option_map] in *; [|rewrite NN in H; discriminate].
      eapply IH; [|exact H]. apply ren_del. auto.
  Qed.

  Lemma ren_decompress d0 d1 m m' pos pos' r names hs hs' fuel M1 pos1 rest : ren m m' -> (forall v, pos' (sg v) = pos v) ->
    filter (fun d => (sg (tu (fst d)) =? fst d) && (sg (tu (snd d)) =? snd d)) hs' = map s2 hs ->
    decompressRound P qz gp bary lim d0 d1 m pos r names hs fuel = Some (M1, pos1, rest) ->
    exists M1' pos1', decompressRound P qz gp bary lim (sg d0) (sg d1) m' pos' r (map sg names) hs' fuel = Some (M1', pos1', rest) /\
      ren M1 M1' /\ (forall v, pos1' (sg v) = pos1 v).
  Proof.
    intros R Hp Hh H. unfold decompressRound, pushHehInit in *. rewrite (rn_at _ _ R). destruct (m d0 d1); cbn [bind option_map] in *; [|discriminate].
    change [(sg d0, sg d1)] with (map s2 [(d0, d1)]).
    destruct (undecimation lim m _ _ _ _) as [[fl left1]|] eqn:EU; cbn [bind] in H; [|discriminate].
    destruct (ren_undecimation lim m m' R fuel (fun _ => Unknown) (fun _ => Unknown) _ _ _ _ (fun _ => eq_refl) EU) as (fl' & EU' & Fl). rewrite EU'. cbn [bind].
    destruct (InsertedEdgeDecoding lim m _ _ _ _ _ _) as [[ad left2]|] eqn:EE; cbn [bind] in H; [|discriminate].
    destruct (ren_edges lim m m' fl fl' R Fl fuel (fun _ => false) (fun _ => false) _ (fun _ => false) (fun _ => false) _ _ _ (fun _ => eq_refl) (fun _ => eq_refl) ltac:(discriminate) EE) as (ad' & EE' & Fa & Ia).
    rewrite EE'. cbn [bind].
    destruct (insertRemovedVertices _ _ _ _ _ _ _ _ _ _ _ _) as [[m2 pos2]|] eqn:EI; cbn [bind] in H; [|discriminate].
    destruct (ren_insert fl fl' Fl fuel m m' pos pos' names _ (fun _ => false) (fun _ => false) _ _ R Hp (fun _ => eq_refl) EI) as (m2' & pos2' & EI' & R2 & Hp2).
    rewrite EI'. cbn [bind]. unfold removeInsertedEdges in *.
    assert (EF : filter ad' hs' = map s2 (filter ad hs)).
    { rewrite <- (filter_map s2 ad ad') by apply Fa. rewrite <- Hh. clear - Ia. induction hs' as [|x l IH]; cbn [filter]; [auto|].
      destruct (ad' x) eqn:E.
      - destruct (Ia x E) as [I1 I2]. unfold im in *. rewrite I1, I2, !Nat.eqb_refl. cbn [andb filter]. rewrite E, IH. auto.
      - destruct (_ && _); cbn [filter]; [rewrite E|]; auto. }
    rewrite EF. destruct (fold_left _ (filter ad hs) (Some m2)) as [m3|] eqn:EJ; cbn [bind] in H; [|discriminate].
    destruct (ren_join _ _ _ _ R2 EJ) as (m3' & EJ' & R3). rewrite EJ'. cbn [bind]. injection H as <- <- <-. eauto 10.
  Qed.
End Ren.
