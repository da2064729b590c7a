(** The decimation conquest: what holds after every step. *)
From Coq Require Import List ZArith Bool Arith Lia Relations Permutation.
From Verif Require Import Arr CodecModel PpmcModel PpmcTopo PpmcOps PpmcStar.
Import ListNotations.
Close Scope Z_scope.
Open Scope nat_scope.

Lemma dart_dec (x y : dart) : {x = y} + {x <> y}.
Proof. decide equality; apply Nat.eq_dec. Defined.
Definition dels (A : list dart) (U : mesh) : mesh := fold_left (fun m d => del_edge m (fst d) (snd d)) A U.
Lemma del_ext m m' a b : meq m m' -> meq (del_edge m a b) (del_edge m' a b).
Proof. intros E p q. unfold del_edge. rewrite !E. reflexivity. Qed.
Lemma dels_ext A : forall m m', meq m m' -> meq (dels A m) (dels A m').
Proof. induction A as [|d A IH]; intros m m' E; cbn [dels fold_left]; [auto|]. apply IH. apply del_ext. auto. Qed.
Lemma rmv_ext m m' v : meq m m' -> meq (rmv m v) (rmv m' v).
Proof. intros E p q. unfold rmv. rewrite !E. reflexivity. Qed.
Lemma meq_trans m1 m2 m3 : meq m1 m2 -> meq m2 m3 -> meq m1 m3.
Proof. intros E1 E2 p q. rewrite E1. auto. Qed.

(** [M] the mesh before the round, [m] the mesh now, [U] the mesh [M] with the inserted edges [A]
    only, [R] the vertices removed, [c] and [f] the vertex and facet flags, [a] the Added flags. *)
Record minv (M m U : mesh) (R : nat -> bool) (A : list dart) (c : nat -> bool) (a : dart -> bool) (f : dart -> fflag nat) : Prop := MI {
  mi_wm : wf m; mi_wU : wf U; mi_cn : connected m;
  mi_st : meq m (star R U);
  mi_tri : forall w p q, R w = true -> U w p = Some q -> U p q = Some w /\ U q w = Some p;
  mi_nb : forall w p, R w = true -> U w p <> None -> c p = true /\ R p = false;
  mi_un : meq (dels A U) M;
  mi_add : forall d, a d = true <-> In d A \/ In (opp d) A;
  mi_nd : NoDup A;
  mi_no : forall d, In d A -> ~ In (opp d) A;
  mi_ad : forall d, In d A -> m (fst d) (snd d) <> None;
  mi_flag : forall p q w, m p q <> None -> (f (p, q) = Splittable w <-> U p q = Some w /\ R w = true);
  mi_fc : forall p q w, m p q = Some w -> f (p, q) = f (q, w);
  mi_f0 : forall p q, m p q = None -> f (p, q) = Unknown;
  mi_fv : forall p q, isConquered (f (p, q)) = true -> c p = true /\ c q = true;
  mi_vx : forall p q, U p q <> None -> exists w, M p w <> None }.

Lemma minv_ext M m m' U R A c a f : meq m m' -> minv M m U R A c a f -> minv M m' U R A c a f.
Proof.
  intros E [H1 H2 H3 H4 H5 H6 H7 H8 H9 H10 H11 H12 H13 H14 H15 H16]. constructor; auto.
  - eapply wf_ext; eauto.
  - eapply connected_ext; eauto.
  - eapply meq_trans; [apply meq_sym; exact E|auto].
  - intros d Hd. rewrite <- E. auto.
  - intros p q w Hp. rewrite <- E in Hp. auto.
  - intros p q w Hp. rewrite <- E in Hp. auto.
  - intros p q Hp. rewrite <- E in Hp. auto.
Qed.

(** Around a vertex not conquered yet nothing has happened. *)
Section Fresh.
  Variables (M m U : mesh) (R : nat -> bool) (A : list dart) (c : nat -> bool) (a : dart -> bool) (f : dart -> fflag nat).
  Hypothesis I : minv M m U R A c a f.
  Lemma unstar p q w : m p q = Some w -> c p = false \/ c q = false \/ c w = false -> U p q = Some w /\ R p = false /\ R q = false /\ R w = false.
  Proof.
    intros E H. rewrite (mi_st _ _ _ _ _ _ _ _ I) in E. destruct (star_cases _ _ _ _ _ E) as (Hp & Hq & [[Hw Ew]|(z & Hz & E1 & E2)]); [auto|].
    exfalso. destruct (T2 U z (mi_wU _ _ _ _ _ _ _ _ I) (fun a b => mi_tri _ _ _ _ _ _ _ _ I z a b Hz) _ _ E1) as [X Y].
    destruct (mi_tri _ _ _ _ _ _ _ _ I _ _ _ Hz E2) as [X2 Y2].
    assert (c p = true) by (apply (mi_nb _ _ _ _ _ _ _ _ I z); congruence).
    assert (c q = true) by (apply (mi_nb _ _ _ _ _ _ _ _ I z); congruence).
    assert (c w = true). { apply (mi_nb _ _ _ _ _ _ _ _ I z); [auto|]. apply (wf_sym U (mi_wU _ _ _ _ _ _ _ _ I)). congruence. }
    destruct H as [H|[H|H]]; congruence.
  Qed.
  Lemma fresh_nr v p q w : c v = false -> U p q = Some w -> v = p \/ v = q \/ v = w -> R v = false -> R p = false /\ R q = false /\ R w = false.
  Proof.
    intros Hv E Hin HR. assert (WU := mi_wU _ _ _ _ _ _ _ _ I).
    destruct (R p) eqn:Rp; [exfalso|destruct (R q) eqn:Rq; [exfalso|destruct (R w) eqn:Rw; [exfalso|auto]]].
    - destruct (mi_tri _ _ _ _ _ _ _ _ I _ _ _ Rp E) as [X Y]. destruct Hin as [->|[->| ->]]; [congruence| |].
      + assert (c q = true) by (apply (mi_nb _ _ _ _ _ _ _ _ I p); congruence). congruence.
      + assert (c w = true) by (apply (mi_nb _ _ _ _ _ _ _ _ I p); [auto|]; apply (wf_sym U WU); congruence). congruence.
    - destruct (T1 U q WU (fun a b => mi_tri _ _ _ _ _ _ _ _ I q a b Rq) _ _ E) as [X Y]. destruct Hin as [->|[->| ->]]; [|congruence|].
      + assert (c p = true) by (apply (mi_nb _ _ _ _ _ _ _ _ I q); [auto|]; apply (wf_sym U WU); congruence). congruence.
      + assert (c w = true) by (apply (mi_nb _ _ _ _ _ _ _ _ I q); [auto|]; congruence). congruence.
    - destruct (T2 U w WU (fun a b => mi_tri _ _ _ _ _ _ _ _ I w a b Rw) _ _ E) as [X Y]. destruct Hin as [->|[->| ->]]; [| |congruence].
      + assert (c p = true) by (apply (mi_nb _ _ _ _ _ _ _ _ I w); [auto|]; congruence). congruence.
      + assert (c q = true) by (apply (mi_nb _ _ _ _ _ _ _ _ I w); [auto|]; apply (wf_sym U WU); congruence). congruence.
  Qed.
  Lemma restar v p q w : c v = false -> U p q = Some w -> v = p \/ v = q \/ v = w -> R v = false -> m p q = Some w.
  Proof.
    intros Hv E Hin HR. destruct (fresh_nr _ _ _ _ Hv E Hin HR) as (X & Y & Z). rewrite (mi_st _ _ _ _ _ _ _ _ I). apply star_keep; auto.
  Qed.
  Lemma fresh_unknown p q : c p = false \/ c q = false -> f (p, q) = Unknown.
  Proof.
    intro H. destruct (f (p, q)) eqn:E; auto; exfalso; (destruct (mi_fv _ _ _ _ _ _ _ _ I p q) as [X Y]; [rewrite E; auto|destruct H; congruence]).
  Qed.
  Lemma forb_U d d' : forb m d d' -> f d = Unknown -> forb U d d' /\ f d' = Unknown.
  Proof.
    induction 1 as [|d d1 d2 E _ IH]; intro H; [split; [constructor|auto]|].
    destruct (nxt_inv _ _ _ E) as [E1 E2]. destruct d as [p q], d1 as [q' w]. cbn [fst snd] in *. subst q'.
    assert (H1 : f (q, w) = Unknown) by (rewrite <- H; symmetry; apply (mi_fc _ _ _ _ _ _ _ _ I); auto). destruct (IH H1) as [G1 G2]. split; [|auto].
    econstructor; [|exact G1]. apply nxt_some. assert (E3 := E1). rewrite (mi_st _ _ _ _ _ _ _ _ I) in E3.
    destruct (star_cases _ _ _ _ _ E3) as (Hp & Hq & [[Hw Ew]|(z & Hz & X1 & X2)]); [auto|]. exfalso.
    assert (f (p, q) = Splittable z) by (apply (mi_flag _ _ _ _ _ _ _ _ I); [congruence|auto]). congruence.
  Qed.

  (** One corner cut around the vertex [v]. *)
  Lemma minv_cut v u x : c v = false -> m x v = Some u -> m u x = None -> forb m (v, u) (x, v) ->
    minv M (ins m v u x) (ins U v u x) R ((u, x) :: A) c (set_dart (set_dart a (u, x) true) (x, u) true) f.
  Proof.
    intros Hv C N F. assert (WM := mi_wm _ _ _ _ _ _ _ _ I). assert (WU := mi_wU _ _ _ _ _ _ _ _ I).
    destruct (unstar _ _ _ C) as (CU & Rx & Rv & Ru); [auto|].
    assert (NU : U u x = None).
    { destruct (U u x) eqn:E; [|auto]. exfalso. assert (H : star R U u x <> None) by (apply star_dart; auto; split; auto; split; auto; congruence).
      rewrite <- (mi_st _ _ _ _ _ _ _ _ I) in H. congruence. }
    assert (FU : forb U (v, u) (x, v)) by (apply forb_U; [auto|apply fresh_unknown; auto]).
    assert (Hux : u <> x) by (eapply ins_ux; eauto).
    assert (Hvu : v <> u) by (eapply ins_vu; eauto). assert (Hxv : x <> v) by (eapply ins_xv; eauto).
    destruct (ins_y m v u x WM C N) as (y & Ey & Hy1 & Hy2).
    assert (N' : m x u = None) by (eapply ins_N'; eauto).
    constructor.
    - apply wf_ins; auto.
    - apply wf_ins; auto.
    - apply connected_ins; auto. apply (mi_cn _ _ _ _ _ _ _ _ I).
    - eapply meq_trans; [|apply meq_sym, star_ins; auto]. apply ins_ext, (mi_st _ _ _ _ _ _ _ _ I).
    - intros w p q Rw E. apply ins_cases in E; auto. destruct E as [(-> & -> & ->)|[(-> & -> & ->)|[(-> & -> & E)|[(-> & -> & E)|(E & E1 & E2)]]]]; try congruence.
      + exfalso. assert (R w = false) by (eapply (fresh_nr v w x v); eauto). congruence.
      + destruct (mi_tri _ _ _ _ _ _ _ _ I _ _ _ Rw E) as [X Y].
        assert (NV : p <> v /\ q <> v).
        { split; intros ->.
          - assert (c v = true) by (apply (mi_nb _ _ _ _ _ _ _ _ I w); congruence). congruence.
          - assert (c v = true) by (apply (mi_nb _ _ _ _ _ _ _ _ I w); [auto|]; apply (wf_sym U WU); congruence). congruence. }
        destruct NV as [NV1 NV2]. split; apply ins_old; auto; try congruence.
    - intros w p Rw E. apply ins_dart in E; auto. destruct E as [E|[[-> ->]|[-> ->]]]; [|congruence|congruence]. eapply (mi_nb _ _ _ _ _ _ _ _ I); eauto.
    - cbn [dels fold_left fst snd]. eapply meq_trans; [apply dels_ext, del_ins; auto|apply (mi_un _ _ _ _ _ _ _ _ I)].
    - intro d. unfold set_dart. destruct (deq_spec d (x, u)) as [->|H1]; [cbn [In]; unfold opp; cbn [fst snd]; tauto|].
      destruct (deq_spec d (u, x)) as [->|H2]; [cbn [In]; tauto|]. rewrite (mi_add _ _ _ _ _ _ _ _ I). cbn [In].
      assert ((u, x) <> d) by congruence. assert ((u, x) <> opp d) by (destruct d; unfold opp; cbn [fst snd]; congruence). tauto.
    - constructor; [|apply (mi_nd _ _ _ _ _ _ _ _ I)]. intro H. apply (mi_ad _ _ _ _ _ _ _ _ I) in H. cbn [fst snd] in H. congruence.
    - intros d [<-|Hd]; unfold opp; cbn [fst snd In].
      + intros [H|H]; [congruence|]. apply (mi_ad _ _ _ _ _ _ _ _ I) in H. cbn [fst snd] in H. congruence.
      + intros [H|H]; [|exact (mi_no _ _ _ _ _ _ _ _ I _ Hd H)]. apply (mi_ad _ _ _ _ _ _ _ _ I) in Hd.
        destruct d as [p q]; cbn [fst snd] in *. injection H as -> ->. congruence.
    - intros d [<-|Hd]; cbn [fst snd].
      + rewrite ins_2; eauto. discriminate.
      + assert (X := mi_ad _ _ _ _ _ _ _ _ I _ Hd). apply ins_dart; auto.
    - intros p q w Hpq. destruct (ins U v u x p q) as [z|] eqn:E.
      + assert (OLD : m p q <> None -> U p q = Some z -> f (p, q) = Splittable w <-> Some z = Some w /\ R w = true).
        { intros H1 H2. rewrite (mi_flag _ _ _ _ _ _ _ _ I) by auto. rewrite H2. tauto. }
        assert (NON : R z = false -> f (p, q) = Unknown -> f (p, q) = Splittable w <-> Some z = Some w /\ R w = true).
        { intros H1 H2. rewrite H2. split; [discriminate|]. intros [K1 K2]. congruence. }
        apply ins_cases in E; auto. destruct E as [(-> & -> & ->)|[(-> & -> & ->)|[(-> & -> & E)|[(-> & -> & E)|(E & E1 & E2)]]]].
        * apply NON; auto. apply fresh_unknown; auto.
        * apply NON; auto. apply (mi_f0 _ _ _ _ _ _ _ _ I); auto.
        * apply NON; auto. assert (E' : m p x = Some v) by (eapply (restar v); eauto). rewrite (mi_fc _ _ _ _ _ _ _ _ I _ _ _ E'). apply fresh_unknown; auto.
        * apply NON; [|apply (mi_f0 _ _ _ _ _ _ _ _ I); auto]. eapply (fresh_nr v v u z); eauto.
        * destruct (m p q) eqn:Em.
          -- apply OLD; congruence.
          -- exfalso. apply ins_dart in Hpq; auto. destruct Hpq as [H|[[-> ->]|[-> ->]]]; [congruence|congruence|].
             assert (U x u = None) by (eapply ins_N'; eauto). congruence.
      + exfalso. apply ins_dart in Hpq; auto. assert (K : ins U v u x p q <> None); [|congruence]. apply ins_dart; auto.
        destruct Hpq as [H|H]; [left|auto]. rewrite (mi_st _ _ _ _ _ _ _ _ I) in H. apply star_dart in H; auto. apply H.
    - assert (FU1 : f (v, u) = Unknown) by (apply fresh_unknown; auto).
      intros p q w E. apply ins_cases in E; auto. destruct E as [(-> & -> & ->)|[(-> & -> & ->)|[(-> & -> & E)|[(-> & -> & E)|(E & E1 & E2)]]]].
      + rewrite FU1. symmetry. apply (mi_f0 _ _ _ _ _ _ _ _ I); auto.
      + rewrite (mi_f0 _ _ _ _ _ _ _ _ I) by auto. symmetry. apply fresh_unknown; auto.
      + rewrite (mi_fc _ _ _ _ _ _ _ _ I _ _ _ E). rewrite (fresh_unknown x v) by auto. symmetry. apply (mi_f0 _ _ _ _ _ _ _ _ I); auto.
      + rewrite (mi_f0 _ _ _ _ _ _ _ _ I) by auto. rewrite <- (mi_fc _ _ _ _ _ _ _ _ I _ _ _ E). auto.
      + apply (mi_fc _ _ _ _ _ _ _ _ I); auto.
    - intros p q E. destruct (m p q) eqn:Em; [|apply (mi_f0 _ _ _ _ _ _ _ _ I); auto].
      exfalso. assert (ins m v u x p q <> None) by (apply ins_dart; auto; left; congruence). congruence.
    - apply (mi_fv _ _ _ _ _ _ _ _ I).
    - intros p q Hpq. apply ins_dart in Hpq; auto. destruct Hpq as [Hpq|[[-> ->]|[-> ->]]]; [eapply (mi_vx _ _ _ _ _ _ _ _ I); eauto| |].
      + apply (mi_vx _ _ _ _ _ _ _ _ I u v). apply (wf_sym U WU). eapply (wf_nxt U WU); eauto.
      + apply (mi_vx _ _ _ _ _ _ _ _ I x v). congruence.
  Qed.
End Fresh.

Lemma minv_conq M m U R A c c' a f : (forall w, c w = true -> c' w = true) -> minv M m U R A c a f -> minv M m U R A c' a f.
Proof.
  intros E [H1 H2 H3 H4 H5 H6 H7 H8 H9 H10 H11 H12 H13 H14 H15 H16]. constructor; auto.
  - intros w p Rw Hw. destruct (H6 w p Rw Hw). auto.
  - intros p q Hc. destruct (H15 _ _ Hc). auto.
Qed.

Definition tri3 (m : mesh) (v w x : nat) : Prop := m v w = Some x /\ m w x = Some v /\ m x v = Some w.

Record cutrel (v : nat) (m m1 : mesh) : Prop := CR {
  cr_v : forall p, m1 p v = m p v;
  cr_tri : forall w x, tri3 m v w x -> tri3 m1 v w x;
  cr_old : forall p q w, m p q = Some w -> p <> v -> w <> v -> m1 p q = Some w;
  cr_cut : forall p x, m p x = Some v -> m1 p x = Some v \/ exists u, m1 p x = Some u /\ u <> v /\ tri3 m1 v u x;
  cr_new : forall p q, m1 p q <> None -> m p q <> None \/ m p v = Some q \/ m q v = Some p }.
Lemma cutrel_refl v m : cutrel v m m.
Proof. constructor; auto. Qed.
Lemma cutrel_trans v m m1 m2 : wf m -> cutrel v m m1 -> cutrel v m1 m2 -> cutrel v m m2.
Proof.
  intros W [A1 A2 A3 A4 A5] [B1 B2 B3 B4 B5]. constructor.
  - intro p. rewrite B1. auto.
  - auto.
  - intros. apply B3; auto.
  - intros p x E. destruct (A4 _ _ E) as [E1|(u & E1 & E2 & E3)]; [auto|]. right. exists u. split; [|auto]. apply B3; auto. eapply wf_deg in E; eauto.
  - intros p q H. rewrite <- !A1. destruct (B5 _ _ H) as [H1|H1]; [rewrite !A1|]; auto.
Qed.
Lemma cutrel_ext v m m1 m2 : meq m1 m2 -> cutrel v m m1 -> cutrel v m m2.
Proof.
  intros E [A1 A2 A3 A4 A5]. unfold tri3 in *. constructor; unfold tri3; intros; rewrite <- ?E in *; auto.
  destruct (A4 _ _ H) as [H1|(u & H1)]; [auto|]. right. exists u. rewrite <- !E. auto.
Qed.
Lemma cutrel_ins v m u x : wf m -> m x v = Some u -> m u x = None -> cutrel v m (ins m v u x).
Proof.
  intros W C N. assert (Hvu := ins_vu _ _ _ _ W C). assert (Hxv := ins_xv _ _ _ _ W C). assert (Hux := ins_ux _ _ _ _ W C).
  assert (HV : forall p, ins m v u x p v = m p v).
  { intro p. unfold ins. destruct (Nat.eqb_spec v u); [congruence|]. destruct (Nat.eqb_spec v x); congruence. }
  constructor; auto.
  - intros w x0 (E1 & E2 & E3). assert (w <> u).
    { intros ->. assert (x0 = x) by (eapply wf_inj; eauto). subst. congruence. }
    unfold tri3. rewrite HV. split; [|split; [|auto]]; apply ins_old; auto; try congruence.
    intro H'. injection H' as -> ->. rewrite (wf_irr m W) in E1. discriminate.
  - intros p q w E Hp Hw. apply ins_old; auto. congruence.
  - intros p x0 E. destruct (Nat.eq_dec x0 x) as [->|Hx].
    + right. exists u. split; [apply ins_3; auto|]. split; [auto|]. unfold tri3. rewrite ins_1, ins_2, ins_5; auto.
    + left. apply ins_old; auto. intro H. injection H as -> ->. eapply wf_deg; eauto.
  - intros p q H. apply ins_dart in H; auto. destruct H as [H|[[-> ->]|[-> ->]]]; auto.
Qed.

Section Cuts.
  Variables (lim : nat) (M : mesh) (R : nat -> bool) (f : dart -> fflag nat) (v a0 : nat).
  Lemma cut_corners_spec : forall fuel m U A c a u m1 c1 a1,
    cut_corners lim m c a v (v, u) (v, a0) fuel = Some (m1, c1, a1) ->
    minv M m U R A c a f -> c v = false -> m v u <> None ->
    exists us U1 A1, vpath m v u us a0 /\ us <> [] /\ minv M m1 U1 R A1 c1 a1 f /\ c1 v = false /\
      (forall w, c1 w = true <-> c w = true \/ In w us) /\
      (forall w, In w us -> exists x, tri3 m1 v w x) /\ cutrel v m m1 /\
      (forall d, In d A1 -> In d A \/ tri3 m1 v (fst d) (snd d)).
  Proof.
    induction fuel as [|n IH]; intros m U A c a u m1 c1 a1 H I Hv Hu; cbn [cut_corners] in H; [discriminate|].
    destruct (loop lim m (v, u)) as [lp|] eqn:EL; [|discriminate]. cbn [bind] in H. apply loop_is_loop in EL.
    assert (WM := mi_wm _ _ _ _ _ _ _ _ I).
    (* after the possible cut *)
    assert (ST : exists m' U' A' a', (if 3 <? length lp then
           do m1 <- split_facet m (v, u) (nth (length lp - 2) lp (v, u));
           Some (m1, set_dart (set_dart a (snd (v, u), snd (nth (length lp - 2) lp (v, u))) true) (opp (snd (v, u), snd (nth (length lp - 2) lp (v, u)))) true)
         else Some (m, a)) = Some (m', a') /\ minv M m' U' R A' c a' f /\ cutrel v m m' /\ (exists x, tri3 m' v u x) /\
         (forall d, In d A' -> In d A \/ tri3 m' v (fst d) (snd d))).
    { cbn zeta in H. destruct (Nat.ltb_spec 3 (length lp)) as [Hl|Hl].
      - destruct (split_facet m (v, u) _) as [m'|] eqn:ES; [|discriminate]. cbn [bind] in *.
        destruct (split_ins _ _ _ _ _ _ WM EL Hl ES) as (x & Ex & C & N & F & E). rewrite Ex. cbn [snd opp] in *. unfold opp. cbn [fst snd].
        exists m', (ins U v u x), ((u, x) :: A). eexists. split; [reflexivity|].
        split; [eapply minv_ext; [apply meq_sym; exact E|]; apply minv_cut; auto|].
        assert (CR1 : cutrel v m m') by (eapply cutrel_ext; [apply meq_sym; exact E|]; apply cutrel_ins; auto).
        split; [auto|]. split.
        + exists x. unfold tri3. rewrite !E, ins_1, ins_2, ins_5; auto.
        + intros d [<-|Hd]; [|auto]. right. cbn [fst snd]. unfold tri3. rewrite !E, ins_1, ins_2, ins_5; auto.
      - exists m, U, A, a. split; [auto|]. split; [auto|]. split; [apply cutrel_refl|]. split; [|auto].
        destruct (loop_short m v u lp WM EL Hl) as (x & X). exists x. exact X. }
    destruct ST as (m' & U' & A' & a' & ES & I' & CR1 & T1 & HA). cbn zeta in H. rewrite ES in H. cbn [bind fst snd opp] in H.
    unfold opp in H; cbn [fst snd] in H. destruct (nxt m' (u, v)) as [h'|] eqn:EN; [|discriminate]. cbn [bind] in H.
    destruct (nxt_inv _ _ _ EN) as [E1 E2]. destruct h' as [v' u']. cbn [fst snd] in *. subst v'.
    assert (Euv : m u v = Some u') by (rewrite <- (cr_v _ _ _ CR1); auto).
    assert (Hne : u <> v) by (eapply wf_ne; eauto).
    assert (I2 : minv M m' U' R A' (set_vertex c u) a' f).
    { eapply minv_conq; [|exact I']. intros w Hw. unfold set_vertex. rewrite Hw. destruct (w =? u); auto. }
    assert (Hv2 : set_vertex c u v = false). { unfold set_vertex. destruct (Nat.eqb_spec v u); [congruence|auto]. }
    destruct (deq_spec (v, u') (v, a0)) as [He|He].
    - injection H as <- <- <-. injection He as ->. exists [u], U', A'. split; [cbn [vpath]; split; [auto|exists a0; auto]|]. split; [congruence|]. split; [auto|].
      split; [auto|]. split.
      + intro w. unfold set_vertex. destruct (Nat.eqb_spec w u) as [->|]; cbn [In]; intuition congruence.
      + split; [|auto]. intros w [<-|[]]. auto.
    - apply IH with (U := U') (A := A') in H; auto.
      + destruct H as (us & U1 & A1 & H1 & H2 & H3 & H4 & H5 & H6 & H7 & H8). exists (u :: us), U1, A1.
        split; [|split; [congruence|split; [auto|split; [auto|split; [|split; [|split]]]]]].
        * cbn [vpath]. split; [auto|]. exists u'. split; [auto|].
          clear - H1 CR1. revert u' H1. induction us as [|y us IHu]; intros u' H1; cbn [vpath] in *; [auto|]. destruct H1 as [-> (z & E & H1)].
          split; [auto|]. exists z. split; [rewrite <- (cr_v _ _ _ CR1); auto|]. auto.
        * intro w. rewrite H5. unfold set_vertex. cbn [In]. destruct (Nat.eqb_spec w u) as [->|]; intuition congruence.
        * intros w [<-|Hw]; [|auto]. destruct T1 as [x T1]. exists x. apply (cr_tri _ _ _ H7). auto.
        * eapply cutrel_trans; eauto.
        * intros d Hd. destruct (H8 d Hd) as [Hd1|Hd1]; [|auto]. destruct (HA d Hd1) as [Hd2|Hd2]; [auto|]. right.
          apply (cr_tri _ _ _ H7). auto.
      + eapply (wf_nxt m'); [apply (mi_wm _ _ _ _ _ _ _ _ I')|exact E1].
  Qed.
End Cuts.

Lemma ring_deg m v a r : wf m -> is_ring m v a r -> 2 < length r -> forall p q, m p v = Some q -> m q v <> Some p.
Proof.
  intros W Rg Hl p q E1 E2. assert (In p r) by (apply (ring_all _ _ _ _ _ W Rg); congruence).
  assert (K : forall x y, vorb m v x y -> In x [p; q] -> In y [p; q]).
  { induction 1 as [|x y z E _ IH]; intro Hi; [auto|]. apply IH. destruct Hi as [<-|[<-|[]]]; cbn [In]; [|left]; [right; left|]; congruence. }
  assert (incl r [p; q]).
  { intros y Hy. apply (K p y); [|left; auto]. apply (wf_man m W); [congruence|]. eapply ring_nb; eauto. }
  assert (length r <= 2); [|lia]. change 2 with (length [p; q]). apply NoDup_incl_length; [apply (ir_nodup _ _ _ _ Rg)|auto].
Qed.

Lemma last_path m lp : forall d h def, path m d lp h -> lp <> [] -> In (last lp def) lp /\ nxt m (last lp def) = Some h.
Proof.
  induction lp as [|y lp IH]; intros d h def P Hn; [congruence|]. cbn [path] in P. destruct P as [-> (d' & E & P)].
  destruct lp as [|z lp].
  - cbn [path] in P. subst. cbn [last]. split; [left; auto|auto].
  - destruct (IH d' h def P) as [X Y]; [congruence|]. change (last (d :: z :: lp) def) with (last (z :: lp) def). split; [right; auto|auto].
Qed.

Lemma forb_src m d d' : forb m d d' -> m (fst d') (snd d') <> None -> m (fst d) (snd d) <> None.
Proof. destruct 1 as [d|d d1 d2 E _]; [auto|]. intros _. destruct (nxt_inv _ _ _ E). congruence. Qed.

Definition cov (m : mesh) (f : dart -> fflag nat) (q : list dart) : Prop :=
  forall d, m (fst d) (snd d) <> None -> isConquered (f d) = true -> isConquered (f (opp d)) = false ->
  exists g, In g q /\ forb m (opp d) g.

Record inv (M : mesh) (d0 d1 : nat) (U : mesh) (R : nat -> bool) (A : list dart) (s : est) : Prop := IV {
  iv_m : minv M (e_m s) U R A (e_v s) (e_a s) (e_f s);
  iv_sp : forall d, In d A -> isSplittable (e_f s d) || isSplittable (e_f s (opp d)) = true;
  iv_q : forall g, In g (e_q s) -> e_m s (fst g) (snd g) <> None /\ e_v s (fst g) = true /\ e_v s (snd g) = true;
  iv_dep : R d0 = false /\ R d1 = false;
  iv_n : e_n s = 0 -> A = [] /\ forall w, R w = false;
  iv_p : e_n s <> 0 -> exists w p, R w = true /\ U w p <> None }.

Lemma flag_forb M m U R A c a f d d' : minv M m U R A c a f -> forb m d d' -> f d = f d'.
Proof.
  intros I. induction 1 as [|d d1 d2 E _ IH]; [auto|]. rewrite <- IH. destruct (nxt_inv _ _ _ E) as [E1 E2].
  destruct d as [p q], d1 as [q' w]. cbn [fst snd] in *. subst q'. apply (mi_fc _ _ _ _ _ _ _ _ I). auto.
Qed.
Lemma gates_in done lp g : In g (gates done lp) <-> In (opp g) lp /\ done g = false.
Proof.
  unfold gates. rewrite filter_In, in_map_iff, negb_true_iff. split.
  - intros [(x & <- & Hx) H]. rewrite opp_opp. auto.
  - intros [H1 H2]. split; [|auto]. exists (opp g). rewrite opp_opp. auto.
Qed.

Section VCut.
  Variables (lim : nat) (M : mesh) (d0 d1 : nat) (U : mesh) (R : nat -> bool) (A : list dart) (s s' : est) (h : dart) (u0 v : nat) (r : list nat).
  Hypotheses (I : inv M d0 d1 U R A s) (CV : cov (e_m s) (e_f s) (h :: e_q s)).
  Hypotheses (Hf : e_f s h = Unknown) (Hh : forb (e_m s) h (u0, v)) (Hd : e_m s u0 v <> None).
  Hypotheses (Hc : e_v s v = false) (Hv0 : v <> d0) (Hv1 : v <> d1).
  Hypotheses (Hr : is_ring (e_m s) v u0 r) (Hl : 2 < length r).
  Hypothesis VC : vertexCut lim s (u0, v) = Some s'.
  Lemma vertexCut_inv : exists U' A', inv M d0 d1 U' (addv R v) A' s' /\ cov (e_m s') (e_f s') (e_q s') /\
    (exists d, e_m s' (fst d) (snd d) <> None /\ isConquered (e_f s' d) = true).
  Proof.
    unfold vertexCut in VC. cbn [snd] in VC. unfold opp in VC; cbn [fst snd] in VC.
    assert (IM := iv_m _ _ _ _ _ _ _ I). assert (WM := mi_wm _ _ _ _ _ _ _ _ IM).
    destruct (cut_corners lim _ _ _ _ _ _ _) as [[[m1 c1] a1]|] eqn:EC; [|discriminate]. cbn [bind] in VC.
    destruct (cut_corners_spec _ _ _ _ _ _ _ _ _ _ _ _ _ _ _ _ EC IM Hc) as (us & U1 & A1 & VP & Hus & I1 & Hc1 & Hcc & HT & CR1 & HA); [apply (wf_sym _ WM); auto|].
    clear EC. assert (W1 := mi_wm _ _ _ _ _ _ _ _ I1). assert (WU1 := mi_wU _ _ _ _ _ _ _ _ I1).
    destruct (erase_center_vertex lim m1 (u0, v)) as [[m2 hN]|] eqn:EE; [|discriminate]. cbn [bind] in VC.
    destruct (loop lim m2 hN) as [lp|] eqn:EL; [|discriminate]. cbn [bind] in VC. injection VC as <-. apply loop_is_loop in EL.
    (* the vertices around v *)
    assert (US : forall w, m1 w v <> None -> In w us).
    { intros w Hw. rewrite (cr_v _ _ _ CR1) in Hw. assert (VO := wf_man _ WM v u0 w Hd Hw).
      assert (H0 : In u0 us). { destruct us as [|y us]; [congruence|]. cbn [vpath] in VP. destruct VP as [-> _]. left; auto. }
      assert (K : forall x y, vorb (e_m s) v x y -> In x us -> In y us).
      { induction 1 as [|x y z E _ IH]; intro Hi; [auto|]. apply IH. destruct (vpath_closed _ _ _ _ _ _ VP Hi) as (z' & E' & [X| ->]); [congruence|].
        assert (y = u0) by congruence. subst. auto. }
      eapply K; eauto. }
    assert (T0 : forall p q, m1 v p = Some q -> m1 p q = Some v /\ m1 q v = Some p).
    { intros p q E. destruct (HT p) as (x & X1 & X2 & X3); [apply US, (wf_sym _ W1); congruence|]. assert (x = q) by congruence. subst. auto. }
    assert (D1 : forall p q, m1 p v = Some q -> m1 q v <> Some p).
    { intros p q. rewrite !(cr_v _ _ _ CR1). apply (ring_deg _ _ _ _ WM Hr Hl). }
    unfold erase_center_vertex in EE. cbn [fst snd] in EE. destruct (loop lim m1 (u0, v)) as [lp1|] eqn:EL1; [|discriminate]. cbn [bind] in EE.
    destruct (ring lim m1 v u0) as [r1|] eqn:ER; [|discriminate]. cbn [bind] in EE. injection EE as EE EH.
    apply loop_is_loop in EL1. apply ring_is_ring in ER.
    assert (Em2 : meq m2 (rmv m1 v)) by (rewrite <- EE; eapply erase_fold; eauto). clear EE.
    assert (EhN : m1 (fst hN) (snd hN) = Some v).
    { destruct (il_head _ _ _ EL1) as (rr & Er & _). destruct (last_path _ _ _ _ (u0, v) (il_path _ _ _ EL1)) as [_ X]; [rewrite Er; congruence|].
      rewrite EH in X. destruct (nxt_inv _ _ _ X) as [X1 X2]. cbn [fst snd] in *. auto. }
    assert (Wr : wf (rmv m1 v)) by (apply wf_rmv; auto).
    (* the new facet *)
    assert (FT : forall d d', forb m2 d d' -> forb (rmv m1 v) d d') by (intros; eapply forb_ext; eauto).
    assert (FT' : forall d d', forb (rmv m1 v) d d' -> forb m2 d d') by (intros; eapply forb_ext; [apply meq_sym|]; eauto).
    assert (LPin : forall p q, In (p, q) lp <-> m1 p q = Some v).
    { intros p q. split.
      - intro Hin. destruct (path_forb _ _ _ _ _ (il_path _ _ _ EL) Hin) as [F _]. apply FT in F. apply (patch_forb _ _ W1 T0) in F. apply F. auto.
      - intro E. assert (PF : forall x y, vorb m1 v x y -> forall x' y', m1 x' x = Some v -> m1 y' y = Some v -> forb (rmv m1 v) (y', y) (x', x)).
        { induction 1 as [x|x y z Ey _ IH]; intros x' y' E1 E2.
          - assert (x' = y') by exact (wf_inj m1 W1 _ _ _ _ E1 E2). subst. constructor.
          - destruct (T2 _ _ W1 T0 _ _ E1) as [X1 X2]. assert (y = x') by congruence. subst y.
            destruct (m1 x' v) as [y0|] eqn:Ey0; [|exfalso; apply (wf_sym _ W1 v x'); congruence]. destruct (T1 _ _ W1 T0 _ _ Ey0) as [X3 X4].
            eapply forb_trans; [apply (IH y0 y'); auto|]. apply forb_one, nxt_some. rewrite rmv_2; auto.
            + intros ->. rewrite (wf_irr _ W1) in X3. discriminate.
            + intros ->. rewrite (wf_irr _ W1) in X2. discriminate. }
        destruct hN as [hp hq]. cbn [fst snd] in *. destruct (T2 _ _ W1 T0 _ _ E) as [X1 _], (T2 _ _ W1 T0 _ _ EhN) as [Y1 _].
        eapply il_forb_in; [exact EL|]. apply FT'. apply (PF q hq); auto. apply (wf_man _ W1); congruence. }
    assert (Dm2 : forall p q, m2 p q <> None <-> p <> v /\ q <> v /\ m1 p q <> None) by (intros p q; rewrite Em2; apply rmv_dart; auto).
    assert (LPd : forall d, In d lp -> e_f s d = Unknown).
    { intros [p q] Hin. apply LPin in Hin. rewrite (mi_fc _ _ _ _ _ _ _ _ I1 _ _ _ Hin). eapply fresh_unknown; eauto. }
    assert (Rv : R v = false).
    { destruct (m1 u0 v) as [w|] eqn:E; [|rewrite (cr_v _ _ _ CR1) in E; congruence]. destruct (unstar _ _ _ _ _ _ _ _ I1 u0 v w E) as (_ & _ & X & _); auto. }
    assert (NBv : forall w p, R w = true -> U1 w p <> None -> p <> v /\ R p = false).
    { intros w p Hw Hp. destruct (mi_nb _ _ _ _ _ _ _ _ I1 w p Hw Hp). split; [congruence|auto]. }
    set (f2 := set_loop (e_f s) lp (Splittable v)).
    assert (Nlp : forall p q, m2 p q = None -> ~ In (p, q) lp).
    { intros p q H Hin. apply (il_dart _ _ _ _ EL) in Hin. auto. }
    assert (FC : forall p q w, m2 p q = Some w -> f2 (p, q) = f2 (q, w)).
    { intros p q w E. unfold f2. destruct (in_dec dart_dec (p, q) lp) as [Hi|Hi].
      - rewrite !set_loop_in; auto. eapply il_closed; eauto. apply nxt_some. auto.
      - rewrite !set_loop_out; auto.
        + rewrite Em2 in E. destruct (rmv_cases _ _ _ _ _ E) as (X1 & X2 & [[X3 X4]|[X3 X4]]); [apply (mi_fc _ _ _ _ _ _ _ _ I1); auto|].
          exfalso. apply Hi, LPin. auto.
        + intro Hi'. apply Hi. eapply il_pred; [eapply wf_ext; [apply meq_sym; exact Em2|auto]|exact EL|exact Hi'|]. apply nxt_some. auto. }
    assert (MI2 : minv M m2 U1 (addv R v) A1 c1 a1 f2).
    { constructor; auto.
      - eapply wf_ext; [apply meq_sym; exact Em2|auto].
      - eapply connected_ext; [apply meq_sym; exact Em2|]. apply connected_rmv; auto. apply (mi_cn _ _ _ _ _ _ _ _ I1).
      - eapply meq_trans; [exact Em2|]. eapply meq_trans; [apply rmv_ext, (mi_st _ _ _ _ _ _ _ _ I1)|]. apply star_addv; auto. apply (mi_tri _ _ _ _ _ _ _ _ I1).
      - intros w p q Hw E. unfold addv in Hw. destruct (Nat.eqb_spec w v) as [->|Hwv]; [|apply (mi_tri _ _ _ _ _ _ _ _ I1); auto].
        assert (E1 : m1 v p = Some q) by (eapply (restar _ _ _ _ _ _ _ _ I1 v); eauto). destruct (T0 _ _ E1) as [X Y].
        split; [apply (unstar _ _ _ _ _ _ _ _ I1 p q v); auto|apply (unstar _ _ _ _ _ _ _ _ I1 q v p); auto].
      - intros w p Hw E. unfold addv in Hw. destruct (Nat.eqb_spec w v) as [->|Hwv].
        + destruct (U1 v p) as [q|] eqn:Eq; [|congruence]. destruct (fresh_nr _ _ _ _ _ _ _ _ I1 v v p q Hc1 Eq) as (_ & X & _); auto.
          assert (E1 : m1 v p = Some q) by (eapply (restar _ _ _ _ _ _ _ _ I1 v); eauto).
          split; [apply Hcc; right; apply US, (wf_sym _ W1); congruence|]. unfold addv. rewrite X. destruct (Nat.eqb_spec p v); [|auto].
          subst. rewrite (wf_irr _ W1) in E1. discriminate.
        + destruct (mi_nb _ _ _ _ _ _ _ _ I1 w p Hw E) as [X Y]. split; [auto|]. unfold addv. rewrite Y. destruct (Nat.eqb_spec p v); [congruence|auto].
      - apply (mi_un _ _ _ _ _ _ _ _ I1).
      - apply (mi_add _ _ _ _ _ _ _ _ I1).
      - apply (mi_nd _ _ _ _ _ _ _ _ I1).
      - apply (mi_no _ _ _ _ _ _ _ _ I1).
      - intros d Hi. apply Dm2. assert (X := mi_ad _ _ _ _ _ _ _ _ I1 _ Hi). destruct (HA d Hi) as [Hi'|(Y1 & Y2 & Y3)].
        + assert (SP := iv_sp _ _ _ _ _ _ _ I _ Hi'). assert (FV : e_v s (fst d) = true /\ e_v s (snd d) = true).
          { destruct d as [p q]. cbn [fst snd] in *. unfold opp in SP; cbn [fst snd] in SP. apply orb_true_iff in SP. destruct SP as [SP|SP].
            - apply (mi_fv _ _ _ _ _ _ _ _ IM). destruct (e_f s (p, q)); auto; discriminate.
            - apply and_comm. apply (mi_fv _ _ _ _ _ _ _ _ IM). destruct (e_f s (q, p)); auto; discriminate. }
          destruct FV. split; [congruence|]. split; [congruence|auto].
        + split; [|split; [|auto]]; intro K; rewrite K in *; rewrite (wf_irr _ W1) in *; discriminate.
      - intros p q w Hpq. unfold f2. destruct (in_dec dart_dec (p, q) lp) as [Hi|Hi].
        + rewrite set_loop_in by auto. apply LPin in Hi. destruct (unstar _ _ _ _ _ _ _ _ I1 p q v Hi) as (X & _); [auto|]. rewrite X.
          split; [intro E; injection E as <-; split; [auto|unfold addv; rewrite Nat.eqb_refl; auto]|intros [E _]; congruence].
        + rewrite set_loop_out by auto. apply Dm2 in Hpq. destruct Hpq as (P1 & P2 & P3). rewrite (mi_flag _ _ _ _ _ _ _ _ I1) by auto.
          unfold addv. destruct (Nat.eqb_spec w v) as [->|]; [|tauto]. split; intros [X Y]; [congruence|]. exfalso. apply Hi, LPin. eapply (restar _ _ _ _ _ _ _ _ I1 v); eauto.
      - intros p q E. unfold f2. rewrite set_loop_out by (apply Nlp; auto). destruct (m1 p q) as [w|] eqn:E1; [|apply (mi_f0 _ _ _ _ _ _ _ _ I1); auto].
        destruct (Nat.eq_dec p v) as [->|Hp]; [eapply fresh_unknown; eauto|]. destruct (Nat.eq_dec q v) as [->|Hq]; [eapply fresh_unknown; eauto|].
        exfalso. apply (Dm2 p q); [|auto]. split; auto. split; auto. congruence.
      - intros p q Hcq. unfold f2 in Hcq. destruct (in_dec dart_dec (p, q) lp) as [Hi|Hi].
        + apply LPin in Hi. destruct (T2 _ _ W1 T0 _ _ Hi) as [X Y]. split; apply Hcc; right; apply US; [apply (wf_sym _ W1)|]; congruence.
        + rewrite set_loop_out in Hcq by auto. apply (mi_fv _ _ _ _ _ _ _ _ I1). auto.
      - apply (mi_vx _ _ _ _ _ _ _ _ I1). }
    exists U1, A1. cbn [e_m e_v e_f e_a e_q e_n]. split; [|split].
    - constructor; cbn [e_m e_v e_f e_a e_q e_n]; auto.
      + intros d Hi. destruct (HA d Hi) as [Hi'|(Y1 & Y2 & Y3)].
        * assert (SP := iv_sp _ _ _ _ _ _ _ I _ Hi'). apply orb_true_iff in SP. apply orb_true_iff.
          destruct SP as [SP|SP]; [left|right]; fold f2; unfold f2; (rewrite set_loop_out; [auto|]); intro K; apply LPd in K; rewrite K in SP; discriminate.
        * apply orb_true_iff. left. destruct d as [p q]. unfold f2; rewrite set_loop_in; [auto|]. apply LPin. auto.
      + intros g Hg. apply in_app_or in Hg. destruct Hg as [Hg|Hg].
        * destruct (iv_q _ _ _ _ _ _ _ I _ Hg) as (G1 & G2 & G3). split; [|split; apply Hcc; auto]. apply Dm2. split; [congruence|]. split; [congruence|].
          destruct g as [p q]; cbn [fst snd] in *. destruct (e_m s p q) as [w|] eqn:E; [|congruence].
          destruct (Nat.eq_dec w v) as [->|Hw].
          -- destruct (cr_cut _ _ _ CR1 _ _ E) as [X|(u & X & _)]; congruence.
          -- erewrite (cr_old _ _ _ CR1); eauto; congruence.
        * apply gates_in in Hg. destruct Hg as [Hg _]. destruct g as [p q]. unfold opp in Hg; cbn [fst snd] in *. 
          assert (X := il_dart _ _ _ _ EL Hg). cbn [fst snd] in X. split; [apply (wf_sym _ (mi_wm _ _ _ _ _ _ _ _ MI2)); auto|].
          apply and_comm. apply (mi_fv _ _ _ _ _ _ _ _ MI2 q p). unfold f2. rewrite set_loop_in; auto.
      + destruct (iv_dep _ _ _ _ _ _ _ I). unfold addv. split; eqb; cbn [orb]; congruence.
      + discriminate.
      + intros _. exists v, u0. split; [unfold addv; rewrite Nat.eqb_refl; auto|].
        assert (X : m1 u0 v <> None) by (rewrite (cr_v _ _ _ CR1); auto). rewrite (mi_st _ _ _ _ _ _ _ _ I1) in X. apply star_dart in X; auto.
        apply (wf_sym _ WU1). apply X.
    - fold f2. intros [b a] Hba C1 C2. unfold opp in *; cbn [fst snd] in *.
      destruct (in_dec dart_dec (b, a) lp) as [Hi|Hi].
      + exists (a, b). split; [|constructor]. apply in_or_app. right. apply gates_in. unfold opp; cbn [fst snd]. auto.
      + assert (C1' : isConquered (e_f s (b, a)) = true) by (unfold f2 in C1; rewrite set_loop_out in C1; auto).
        assert (Hab : ~ In (a, b) lp) by (intro K; unfold f2 in C2; rewrite set_loop_in in C2 by auto; discriminate).
        assert (C2' : isConquered (e_f s (a, b)) = false) by (unfold f2 in C2; rewrite set_loop_out in C2; auto).
        assert (Eba : e_m s b a <> None). { intro K. apply (mi_f0 _ _ _ _ _ _ _ _ IM) in K. rewrite K in C1'. discriminate. }
        destruct (CV (b, a) Eba C1' C2') as (g & Hg & Fg). unfold opp in Fg; cbn [fst snd] in Fg.
        (* follow the facet of (a, b) in the old mesh, to v or to the gate g *)
        assert (K : forall e e', forb (e_m s) e e' -> fst e <> v -> snd e <> v -> e_m s (fst e) (snd e) <> None ->
                   (forb m2 e e' /\ fst e' <> v /\ snd e' <> v) \/ exists p x, forb m2 e (p, x) /\ p <> v /\ x <> v /\ e_m s p x = Some v).
        { induction 1 as [e|e e1 e2 E _ IH]; intros X1 X2 X3; [left; split; [constructor|auto]|].
          destruct (nxt_inv _ _ _ E) as [E1 E2]. destruct e as [p q], e1 as [q' w]. cbn [fst snd] in *. subst q'.
          destruct (Nat.eq_dec w v) as [->|Hw]; [right; exists p, q; split; [constructor|auto]|].
          assert (S2 : nxt m2 (p, q) = Some (q, w)).
          { apply nxt_some. rewrite Em2. apply rmv_1; auto. apply (cr_old _ _ _ CR1); auto. }
          destruct IH as [(Y1 & Y2)|(p' & x & Y1 & Y2)]; auto; [eapply (wf_nxt _ WM); eauto| |].
          - left. split; [econstructor; eauto|auto].
          - right. exists p', x. split; [econstructor; eauto|auto]. }
        assert (Hv' : a <> v /\ b <> v) by (apply Dm2 in Hba; tauto). destruct Hv' as [Hav Hbv].
        destruct (K _ _ Fg Hav Hbv) as [(Y1 & Y2 & Y3)|(p & x & Y1 & Y2 & Y3 & Y4)]; [cbn [fst snd]; apply (wf_sym _ WM); auto| |].
        * destruct Hg as [<-|Hg]; [|exists g; split; [apply in_or_app; auto|auto]].
          (* h cannot be reached without passing v *)
          destruct (K _ _ Hh Y2 Y3) as [(_ & _ & Z)|(p & x & Z1 & Z2 & Z3 & Z4)]; [|cbn [snd] in Z; congruence|].
          { eapply forb_src; [exact Hh|auto]. }
          assert (F3 : forb m2 (a, b) (p, x)) by (eapply forb_trans; eauto).
          assert (FF : f2 (a, b) = f2 (p, x)) by (eapply flag_forb; eauto).
          destruct (cr_cut _ _ _ CR1 _ _ Z4) as [X|(u & X1 & X2 & X3)].
          -- exfalso. apply LPin in X. unfold f2 at 2 in FF. rewrite set_loop_in in FF by auto. rewrite FF in C2. discriminate.
          -- assert (S2 : nxt m2 (p, x) = Some (x, u)). { apply nxt_some. rewrite Em2. apply rmv_1; auto. }
             exists (x, u). split.
             ++ apply in_or_app. right. apply gates_in. unfold opp; cbn [fst snd]. split; [apply LPin; apply X3|].
                fold f2. rewrite <- (FC p x u) by (destruct (nxt_inv _ _ _ S2); auto). rewrite <- FF. auto.
             ++ eapply forb_trans; [exact F3|]. apply forb_one; auto.
        * assert (FF : f2 (a, b) = f2 (p, x)) by (eapply flag_forb; eauto).
          destruct (cr_cut _ _ _ CR1 _ _ Y4) as [X|(u & X1 & X2 & X3)].
          -- exfalso. apply LPin in X. unfold f2 at 2 in FF. rewrite set_loop_in in FF by auto. rewrite FF in C2. discriminate.
          -- assert (S2 : nxt m2 (p, x) = Some (x, u)). { apply nxt_some. rewrite Em2. apply rmv_1; auto. }
             exists (x, u). split.
             ++ apply in_or_app. right. apply gates_in. unfold opp; cbn [fst snd]. split; [apply LPin; apply X3|].
                fold f2. rewrite <- (FC p x u) by (destruct (nxt_inv _ _ _ S2); auto). rewrite <- FF. auto.
             ++ eapply forb_trans; [exact Y1|]. apply forb_one; auto.
    - exists hN. assert (Hi := il_in _ _ _ EL). split; [apply (il_dart _ _ _ _ EL); auto|]. unfold f2. rewrite set_loop_in by auto. auto.
  Qed.
End VCut.

Lemma conq_fold lp : forall c w, fold_left (fun c d => set_vertex c (snd d)) lp c w = true <-> c w = true \/ exists d : dart, In d lp /\ snd d = w.
Proof.
  induction lp as [|d lp IH]; intros c w; cbn [fold_left].
  - split; [auto|]. intros [H|(d & [] & _)]. auto.
  - rewrite IH. unfold set_vertex. destruct (Nat.eqb_spec w (snd d)) as [->|Hn].
    + split; [|auto]. intros _. right. exists d. split; [left|]; auto.
    + split; (intros [H|(d' & Hd & E)]; [auto|right]).
      * exists d'. split; [right; auto|auto].
      * destruct Hd as [<-|Hd]; [congruence|]. exists d'. auto.
Qed.

Lemma nullPatch_inv M d0 d1 U R A s h lp : inv M d0 d1 U R A s -> cov (e_m s) (e_f s) (h :: e_q s) ->
  e_f s h = Unknown -> is_loop (e_m s) h lp ->
  inv M d0 d1 U R A (nullPatch s lp) /\ cov (e_m s) (e_f (nullPatch s lp)) (e_q (nullPatch s lp)) /\
  (exists d, e_m s (fst d) (snd d) <> None /\ isConquered (e_f (nullPatch s lp) d) = true).
Proof.
  intros I CV Hf L. assert (IM := iv_m _ _ _ _ _ _ _ I). assert (WM := mi_wm _ _ _ _ _ _ _ _ IM).
  unfold nullPatch. cbn [e_m e_v e_f e_a e_q e_n]. set (f2 := set_loop (e_f s) lp Unsplittable).
  set (c2 := fold_left (fun (c : nat -> bool) (d : dart) => set_vertex c (snd d)) lp (e_v s)).
  assert (LU : forall d, In d lp -> e_f s d = Unknown).
  { intros d Hd. rewrite <- Hf. symmetry. eapply flag_forb; eauto. eapply (path_forb _ _ _ _ _ (il_path _ _ _ L)); auto. }
  assert (FO : forall d, e_f s d <> Unknown -> f2 d = e_f s d).
  { intros d H. unfold f2. rewrite set_loop_out; auto. }
  assert (MC : forall w, e_v s w = true -> c2 w = true) by (intros w Hw; apply conq_fold; auto).
  assert (MI2 : minv M (e_m s) U R A c2 (e_a s) f2).
  { apply (minv_conq _ _ _ _ _ _ c2) in IM; [|auto]. destruct IM as [H1 H2 H3 H4 H5 H6 H7 H8 H9 H10 H11 H12 H13 H14 H15 H16]. constructor; auto.
    - intros p q w Hpq. unfold f2. destruct (in_dec dart_dec (p, q) lp) as [Hi|Hi].
      + rewrite set_loop_in by auto. split; [discriminate|]. intros X. apply (H12 p q w Hpq) in X. rewrite LU in X by auto. discriminate.
      + rewrite set_loop_out by auto. auto.
    - intros p q w E. unfold f2. destruct (in_dec dart_dec (p, q) lp) as [Hi|Hi].
      + rewrite !set_loop_in; auto. eapply il_closed; eauto. apply nxt_some; auto.
      + rewrite !set_loop_out; auto. intro K. apply Hi. eapply il_pred; [exact WM|exact L|exact K|]. apply nxt_some. auto.
    - intros p q E. unfold f2. rewrite set_loop_out; auto. intro K. apply (il_dart _ _ _ _ L) in K. auto.
    - intros p q E. unfold f2 in E. destruct (in_dec dart_dec (p, q) lp) as [Hi|Hi].
      + split; apply conq_fold; right.
        * destruct (wf_sur _ WM p q) as [o Ho]; [apply (il_dart _ _ _ _ L Hi)|]. exists (o, p). split; [|auto].
          eapply il_pred; [exact WM|exact L|exact Hi|]. apply nxt_some; auto.
        * exists (p, q). auto.
      + rewrite set_loop_out in E by auto. auto. }
  split; [|split].
  - constructor; cbn [e_m e_v e_f e_a e_q e_n]; auto.
    + intros d Hd. assert (X := iv_sp _ _ _ _ _ _ _ I d Hd). apply orb_true_iff in X. apply orb_true_iff.
      destruct X as [X|X]; [left|right]; fold f2; (rewrite FO; [auto|]); intro K; rewrite K in X; discriminate.
    + intros g Hg. apply in_app_or in Hg. destruct Hg as [Hg|Hg].
      * destruct (iv_q _ _ _ _ _ _ _ I g Hg) as (X & Y & Z). fold c2. auto.
      * apply gates_in in Hg. destruct Hg as [Hg _]. destruct g as [p q]. unfold opp in Hg. cbn [fst snd] in *.
        split; [apply (wf_sym _ WM), (il_dart _ _ _ _ L Hg)|]. fold c2. apply and_comm. apply (mi_fv _ _ _ _ _ _ _ _ MI2 q p).
        unfold f2. rewrite set_loop_in; auto.
    + apply (iv_dep _ _ _ _ _ _ _ I).
    + apply (iv_n _ _ _ _ _ _ _ I).
    + apply (iv_p _ _ _ _ _ _ _ I).
  - intros d Hd C1 C2. fold f2 in C1, C2. destruct (in_dec dart_dec d lp) as [Hi|Hi].
    + exists (opp d). split; [|constructor]. apply in_or_app. right. apply gates_in. rewrite opp_opp. auto.
    + assert (Ho : ~ In (opp d) lp) by (intro K; unfold f2 in C2; rewrite set_loop_in in C2 by auto; discriminate).
      unfold f2 in C1, C2. rewrite set_loop_out in C1, C2 by auto. destruct (CV d Hd C1 C2) as (g & [<-|Hg] & F).
      * exfalso. apply Ho. eapply il_forb_back; [exact WM|exact L|eapply il_in; eauto|exact F].
      * exists g. split; [apply in_or_app; auto|auto].
  - exists h. assert (Hi := il_in _ _ _ L). split; [apply (il_dart _ _ _ _ L); auto|]. unfold f2. rewrite set_loop_in by auto. auto.
Qed.

Section Steps.
  Variables (lim : nat) (convex : mesh -> nat -> bool) (d0 d1 : nat) (M : mesh).
  Lemma candidate_some m c l : forall hh, candidate lim convex d0 d1 m c l = Some (Some hh) ->
    In hh l /\ snd hh <> d0 /\ snd hh <> d1 /\ c (snd hh) = false /\
    exists r, is_ring m (snd hh) (fst hh) r /\ 2 < length r <= 8 /\ willViolateManifold lim m (snd hh) r = Some false.
  Proof.
    induction l as [|x l IH]; intros hh H; cbn [candidate] in H; [discriminate|].
    destruct (isRemovable lim convex d0 d1 m c x) as [[|]|] eqn:E; cbn [bind] in H; [|apply IH in H; intuition|discriminate].
    injection H as <-. split; [left; auto|]. unfold isRemovable in E.
    destruct (Nat.eqb_spec (snd x) d0); [discriminate|]. destruct (Nat.eqb_spec (snd x) d1); [discriminate|].
    destruct (c (snd x)); [discriminate|]. cbn [orb] in E. do 3 (split; [auto|]).
    destruct (ring lim m (snd x) (fst x)) as [r|] eqn:Er; [|discriminate]. cbn [bind] in E.
    destruct (Nat.leb_spec (length r) 2) as [|L1]; [discriminate|]. destruct (Nat.ltb_spec 8 (length r)) as [|L2]; [discriminate|]. cbn [orb] in E.
    destruct (willViolateManifold lim m (snd x) r) as [[|]|] eqn:EV; cbn [bind negb andb] in E; try discriminate.
    exists r. split; [eapply ring_is_ring; eauto|]. split; [lia|auto].
  Qed.

  Lemma step_inv U R A s h s' : inv M d0 d1 U R A s -> cov (e_m s) (e_f s) (h :: e_q s) -> e_m s (fst h) (snd h) <> None ->
    decimationStep lim convex d0 d1 s h = Some s' ->
    exists U' R' A', inv M d0 d1 U' R' A' s' /\ cov (e_m s') (e_f s') (e_q s') /\
    (exists d, e_m s' (fst d) (snd d) <> None /\ isConquered (e_f s' d) = true).
  Proof.
    intros I CV Hd H. unfold decimationStep in H. assert (IM := iv_m _ _ _ _ _ _ _ I). assert (WM := mi_wm _ _ _ _ _ _ _ _ IM).
    destruct (isConquered (e_f s h)) eqn:Ec.
    - injection H as <-. exists U, R, A. split; [auto|]. split; [|exists h; auto].
      intros d K1 K2 K3. destruct (CV d K1 K2 K3) as (g & [<-|Hg] & F); [|exists g; auto].
      exfalso. rewrite (flag_forb _ _ _ _ _ _ _ _ _ _ IM F) in K3. congruence.
    - assert (Hf : e_f s h = Unknown) by (destruct (e_f s h); auto; discriminate).
      destruct (loop lim (e_m s) h) as [lp|] eqn:EL; [|discriminate]. cbn [bind] in H. apply loop_is_loop in EL.
      destruct (candidate lim convex d0 d1 (e_m s) (e_v s) (tl lp)) as [[hh|]|] eqn:EC; cbn [bind] in H; [| |discriminate].
      + apply candidate_some in EC. destruct EC as (Hi & N0 & N1 & Hc & r & Hr & Hl & _). destruct hh as [u0 v]. cbn [fst snd] in *.
        assert (Hi' : In (u0, v) lp) by (destruct lp; [destruct Hi|right; auto]).
        destruct (vertexCut_inv lim M d0 d1 U R A s s' h u0 v r) as (U' & A' & X); auto; try lia.
        * eapply (path_forb _ _ _ _ _ (il_path _ _ _ EL)); auto.
        * apply (il_dart _ _ _ _ EL Hi').
        * exists U', (addv R v), A'. auto.
      + injection H as <-. exists U, R, A. destruct (nullPatch_inv M d0 d1 U R A s h lp) as (X & Y & Z); auto.
  Qed.

  Lemma decimate_inv fuel : forall U R A s s', inv M d0 d1 U R A s -> cov (e_m s) (e_f s) (e_q s) ->
    (exists d, e_m s (fst d) (snd d) <> None /\ isConquered (e_f s d) = true) ->
    decimate lim convex d0 d1 s fuel = Some s' ->
    exists U' R' A', inv M d0 d1 U' R' A' s' /\ cov (e_m s') (e_f s') [] /\
    (exists d, e_m s' (fst d) (snd d) <> None /\ isConquered (e_f s' d) = true).
  Proof.
    induction fuel as [|n IH]; intros U R A s s' I CV EX H; cbn [decimate] in H; [discriminate|].
    destruct (e_q s) as [|h q] eqn:Eq.
    - injection H as <-. exists U, R, A. auto.
    - destruct (decimationStep lim convex d0 d1 _ h) as [s1|] eqn:ES; [|discriminate]. cbn [bind] in H.
      assert (Hq := iv_q _ _ _ _ _ _ _ I). rewrite Eq in Hq.
      apply step_inv with (U := U) (R := R) (A := A) in ES.
      + destruct ES as (U' & R' & A' & I' & CV' & EX'). eapply IH; eauto.
      + destruct I as [I1 I2 I3 I4 I5 I6]. constructor; cbn [e_m e_v e_f e_a e_q e_n]; auto. intros g Hg. apply Hq. right; auto.
      + cbn [e_m e_f e_q]. auto.
      + cbn [e_m]. apply Hq. left; auto.
  Qed.

  Lemma begin_inv : wf M -> connected M -> inv M d0 d1 M (fun _ => false) [] (EST M (fun _ => false) (fun _ => Unknown) (fun _ => false) [] 0).
  Proof.
    intros W C. constructor; cbn [e_m e_v e_f e_a e_q e_n].
    - constructor; auto; try discriminate; try contradiction.
      + intros p q. unfold star. destruct (M p q); auto.
      + intros p q. reflexivity.
      + intro d. cbn [In]. intuition discriminate.
      + constructor.
      + intros p q w _. intuition discriminate.
      + eauto.
    - contradiction.
    - contradiction.
    - auto.
    - auto.
    - congruence.
  Qed.
  Lemma decimation_inv h0 fuel s : wf M -> connected M -> M (fst h0) (snd h0) <> None ->
    decimate lim convex d0 d1 (beginDecimation M h0) fuel = Some s ->
    exists U R A, inv M d0 d1 U R A s /\ cov (e_m s) (e_f s) [] /\
    (exists d, e_m s (fst d) (snd d) <> None /\ isConquered (e_f s d) = true).
  Proof.
    intros W C Hd H. destruct fuel as [|n]; cbn [decimate] in H; [discriminate|]. unfold beginDecimation in H; cbn [e_m e_v e_f e_a e_q e_n] in H.
    destruct (decimationStep lim convex d0 d1 _ h0) as [s1|] eqn:ES; [|discriminate]. cbn [bind] in H.
    eapply step_inv in ES; [|apply begin_inv; auto|cbn [e_m e_f]; intros d _ K; discriminate|auto].
    destruct ES as (U' & R' & A' & I' & CV' & EX'). eapply decimate_inv; eauto.
  Qed.
  (** At the end every facet is conquered. *)
  Lemma all_conquered U R A s : inv M d0 d1 U R A s -> cov (e_m s) (e_f s) [] ->
    (exists d, e_m s (fst d) (snd d) <> None /\ isConquered (e_f s d) = true) ->
    forall d, e_m s (fst d) (snd d) <> None -> isConquered (e_f s d) = true.
  Proof.
    intros I CV (d' & Hd' & C') d Hd. assert (IM := iv_m _ _ _ _ _ _ _ I). assert (WM := mi_wm _ _ _ _ _ _ _ _ IM).
    assert (K : forall a b, clos_refl_sym_trans dart (link (e_m s)) a b ->
      (e_m s (fst a) (snd a) <> None <-> e_m s (fst b) (snd b) <> None) /\
      (e_m s (fst a) (snd a) <> None -> (isConquered (e_f s a) = true <-> isConquered (e_f s b) = true))).
    { induction 1 as [a b [E|[E ->]]|a|a b _ [IH1 IH2]|a b c _ [IH1 IH2] _ [IH3 IH4]].
      - assert (Ha : e_m s (fst a) (snd a) <> None) by (destruct (nxt_inv _ _ _ E); congruence). assert (Hb := nxt_dart _ _ _ WM E).
        split; [tauto|]. intros _. rewrite (flag_forb _ _ _ _ _ _ _ _ _ _ IM (forb_one _ _ _ E)). tauto.
      - assert (Ho : e_m s (fst (opp a)) (snd (opp a)) <> None) by (unfold opp; cbn [fst snd]; apply (wf_sym _ WM); auto).
        split; [tauto|]. intros _. split; intro C.
        + destruct (isConquered (e_f s (opp a))) eqn:X; [auto|]. destruct (CV a E C X) as (g & [] & _).
        + destruct (isConquered (e_f s a)) eqn:X; [auto|]. destruct (CV (opp a) Ho C) as (g & [] & _). rewrite opp_opp. auto.
      - tauto.
      - tauto.
      - split; [tauto|]. intro Hx. rewrite IH2 by auto. apply IH4. tauto. }
    destruct (K d' d) as [_ K2]; [apply (mi_cn _ _ _ _ _ _ _ _ IM); auto|]. apply K2; auto.
  Qed.
End Steps.
