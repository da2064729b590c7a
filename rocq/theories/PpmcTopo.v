(** The half-edge structure: well-formedness, facets, and what the editing operations preserve. *)
From Coq Require Import List ZArith Bool Arith Lia Relations.
From Verif Require Import Arr CodecModel PpmcModel.
Import ListNotations.
Close Scope Z_scope.
Open Scope nat_scope.

Ltac eqb := repeat match goal with
  | H : context [?a =? ?b] |- _ => destruct (Nat.eqb_spec a b)
  | |- context [?a =? ?b] => destruct (Nat.eqb_spec a b)
  end.

(** Following next() around a facet. *)
Inductive forb (m : mesh) : dart -> dart -> Prop :=
| forb_refl d : forb m d d
| forb_step d d1 d2 : nxt m d = Some d1 -> forb m d1 d2 -> forb m d d2.

(** Turning around a vertex. *)
Inductive vorb (m : mesh) (v : nat) : nat -> nat -> Prop :=
| vorb_refl a : vorb m v a a
| vorb_step a b c : m a v = Some b -> vorb m v b c -> vorb m v a c.

(** A closed surface mesh without double edges: every half-edge has an opposite, next() is a
    bijection on the half-edges, the half-edges around a vertex form one cycle, and no facet lies
    on both sides of an edge. *)
Record wf (m : mesh) : Prop := WF {
  wf_sym : forall u v, m u v <> None -> m v u <> None;
  wf_irr : forall u, m u u = None;
  wf_nxt : forall u v w, m u v = Some w -> m v w <> None;
  wf_inj : forall u u' v w, m u v = Some w -> m u' v = Some w -> u = u';
  wf_sur : forall v w, m v w <> None -> exists u, m u v = Some w;
  wf_man : forall v a b, m a v <> None -> m b v <> None -> vorb m v a b;
  wf_nsa : forall d d', m (fst d) (snd d) <> None -> forb m d d' -> d' <> opp d }.

(** Any two half-edges are joined by next() and opposite() steps. *)
Definition link (m : mesh) (d d' : dart) : Prop := nxt m d = Some d' \/ (m (fst d) (snd d) <> None /\ d' = opp d).
Definition connected (m : mesh) : Prop := forall d d', m (fst d) (snd d) <> None -> m (fst d') (snd d') <> None ->
  clos_refl_sym_trans dart (link m) d d'.

Definition meq (m m' : mesh) : Prop := forall p q, m p q = m' p q.

Lemma deq_spec a b : reflect (a = b) (deq a b).
Proof.
  destruct a as [a a'], b as [b b']. unfold deq. cbn [fst snd].
  destruct (Nat.eqb_spec a b), (Nat.eqb_spec a' b'); cbn [andb]; constructor; congruence.
Qed.
Lemma opp_opp d : opp (opp d) = d.
Proof. destruct d; reflexivity. Qed.
Lemma existsb_deq d lp : existsb (deq d) lp = true <-> In d lp.
Proof.
  rewrite existsb_exists. split.
  - intros (x & Hx & E). destruct (deq_spec d x); [subst; auto|discriminate].
  - intro H. exists d. split; [auto|]. destruct (deq_spec d d); congruence.
Qed.
Lemma set_loop_in {A} (f : dart -> A) lp x d : In d lp -> set_loop f lp x d = x.
Proof. intro H. unfold set_loop. apply existsb_deq in H. rewrite H. auto. Qed.
Lemma set_loop_out {A} (f : dart -> A) lp x d : ~ In d lp -> set_loop f lp x d = f d.
Proof. intro H. unfold set_loop. rewrite <- existsb_deq in H. destruct (existsb _ _); congruence. Qed.
Lemma set_dart_eq {A} (f : dart -> A) e x : set_dart f e x e = x.
Proof. unfold set_dart. destruct (deq_spec e e); congruence. Qed.
Lemma set_dart_ne {A} (f : dart -> A) e x d : d <> e -> set_dart f e x d = f d.
Proof. intro H. unfold set_dart. destruct (deq_spec d e); congruence. Qed.

Lemma nxt_some m u v w : m u v = Some w -> nxt m (u, v) = Some (v, w).
Proof. intro H. unfold nxt. cbn [fst snd]. rewrite H. reflexivity. Qed.
Lemma nxt_inv m d d' : nxt m d = Some d' -> m (fst d) (snd d) = Some (snd d') /\ fst d' = snd d.
Proof. unfold nxt. destruct (m _ _); [|discriminate]. intro H. injection H as <-. auto. Qed.

Lemma forb_trans m a b c : forb m a b -> forb m b c -> forb m a c.
Proof. induction 1; intros; [auto|]. econstructor; eauto. Qed.
Lemma forb_one m a b : nxt m a = Some b -> forb m a b.
Proof. intro H. econstructor; [eauto|constructor]. Qed.
Lemma vorb_trans m v a b c : vorb m v a b -> vorb m v b c -> vorb m v a c.
Proof. induction 1; intros; [auto|]. econstructor; eauto. Qed.

Lemma nxt_ext m m' d : meq m m' -> nxt m d = nxt m' d.
Proof. intro E. unfold nxt. rewrite E. reflexivity. Qed.
Lemma forb_ext m m' a b : meq m m' -> forb m a b -> forb m' a b.
Proof. intros E; induction 1; econstructor; eauto. rewrite <- (nxt_ext _ _ _ E). auto. Qed.
Lemma vorb_ext m m' v a b : meq m m' -> vorb m v a b -> vorb m' v a b.
Proof. intros E; induction 1; econstructor; eauto. rewrite <- E. auto. Qed.
Lemma meq_sym m m' : meq m m' -> meq m' m.
Proof. intros H p q. symmetry. auto. Qed.
Lemma meq_trans m m' m'' : meq m m' -> meq m' m'' -> meq m m''.
Proof. intros H H' p q. rewrite H. auto. Qed.

Lemma wf_ext m m' : meq m m' -> wf m -> wf m'.
Proof.
  intros E [S I N J U M F]. assert (E' := meq_sym _ _ E). constructor.
  - intros u v. rewrite <- !E. auto.
  - intros. rewrite <- E. auto.
  - intros u v w. rewrite <- !E. eauto.
  - intros u u' v w. rewrite <- !E. eauto.
  - intros v w. rewrite <- E. intro H. destruct (U v w H) as [u Hu]. exists u. rewrite <- E. auto.
  - intros v a b. rewrite <- !E. intros. eapply vorb_ext; eauto.
  - intros d d'. rewrite <- E. intros H1 H2. apply (F d d'); [auto|]. eapply forb_ext; eauto.
Qed.
Lemma link_ext m m' d d' : meq m m' -> link m d d' -> link m' d d'.
Proof. intros E [H|[H1 H2]]; [left|right]; [rewrite <- (nxt_ext _ _ _ E); auto|rewrite <- E; auto]. Qed.
Lemma rst_mono (A : Type) (R R' : A -> A -> Prop) : (forall a b, R a b -> clos_refl_sym_trans A R' a b) ->
  forall a b, clos_refl_sym_trans A R a b -> clos_refl_sym_trans A R' a b.
Proof. intros H a b. induction 1; [auto|apply rst_refl|apply rst_sym; auto|eapply rst_trans; eauto]. Qed.
Lemma connected_ext m m' : meq m m' -> connected m -> connected m'.
Proof.
  intros E C d d'. rewrite <- !E. intros H H'. eapply rst_mono; [|apply (C d d' H H')].
  intros a b L. apply rst_step. eapply link_ext; eauto.
Qed.

(** next() of a well-formed mesh. *)
Lemma wf_deg m u v w : wf m -> m u v = Some w -> w <> u.
Proof.
  intros W H ->. apply (wf_nsa m W (u, v) (v, u)); [cbn [fst snd]; congruence|apply forb_one, nxt_some; auto|reflexivity].
Qed.
Lemma wf_ne m u v w : wf m -> m u v = Some w -> u <> v.
Proof. intros W H ->. rewrite (wf_irr m W) in H. discriminate. Qed.
Lemma wf_tgt_ne m u v w : wf m -> m u v = Some w -> v <> w.
Proof. intros W H ->. apply (wf_nxt m W) in H. rewrite (wf_irr m W) in H. congruence. Qed.
Lemma nxt_dart m d d' : wf m -> nxt m d = Some d' -> m (fst d') (snd d') <> None.
Proof. intros W H. destruct (nxt_inv _ _ _ H) as [H1 H2]. rewrite H2. eapply wf_nxt; eauto. Qed.
Lemma nxt_inj m d d' e : wf m -> nxt m d = Some e -> nxt m d' = Some e -> d = d'.
Proof.
  intros W H H'. destruct (nxt_inv _ _ _ H) as [H1 H2], (nxt_inv _ _ _ H') as [H3 H4].
  destruct d as [a b], d' as [a' b']. cbn [fst snd] in *. rewrite H2 in H4. subst b'.
  f_equal. eapply wf_inj; eauto.
Qed.
Lemma nxt_exists m d : m (fst d) (snd d) <> None -> exists d', nxt m d = Some d'.
Proof. intro H. unfold nxt. destruct (m _ _); [eauto|congruence]. Qed.

(** *** Facet loops *)
Fixpoint path (m : mesh) (d : dart) (lp : list dart) (h : dart) : Prop :=
  match lp with
  | [] => d = h
  | x :: r => x = d /\ exists d', nxt m x = Some d' /\ path m d' r h
  end.
Lemma walk_path m h n : forall d lp, walk m h d n = Some lp -> path m d lp h /\ (exists r, lp = d :: r /\ ~ In h r).
Proof.
  induction n as [|n IH]; intros d lp H; cbn [walk] in H; [discriminate|].
  destruct (nxt m d) as [d'|] eqn:E; [|discriminate]. cbn [bind] in H. destruct (deq_spec d' h) as [->|Hne].
  - injection H as <-. split; [|exists []; auto]. cbn [path]. split; [auto|]. exists h. auto.
  - destruct (walk m h d' n) as [r|] eqn:Er; [|discriminate]. cbn [bind] in H. injection H as <-.
    destruct (IH _ _ Er) as (P & r' & -> & Hn). split.
    + cbn [path] in *. split; [auto|]. exists d'. destruct P as [_ P]. auto.
    + exists (d' :: r'). split; [auto|]. intros [->|Hi]; auto.
Qed.
Lemma path_closed m lp : forall d h x, path m d lp h -> In x lp -> exists x', nxt m x = Some x' /\ (In x' lp \/ x' = h).
Proof.
  induction lp as [|y lp IH]; intros d h x P Hx; [destruct Hx|]. cbn [path] in P. destruct P as [-> (d' & E & P)].
  destruct Hx as [->|Hx].
  - exists d'. split; [auto|]. destruct lp as [|z lp]; cbn [path] in P; [auto|]. destruct P as [-> _]. left; right; left; auto.
  - destruct (IH _ _ _ P Hx) as (x' & E' & [H|H]); exists x'; split; auto. left; right; auto.
Qed.
Lemma path_forb m lp : forall d h x, path m d lp h -> In x lp -> forb m d x /\ forb m x h.
Proof.
  induction lp as [|y lp IH]; intros d h x P Hx; [destruct Hx|]. cbn [path] in P. destruct P as [-> (d' & E & P)].
  assert (Hh : forb m d' h).
  { destruct lp as [|z lp]; cbn [path] in P; [subst; constructor|]. destruct (IH d' h z P (or_introl eq_refl)) as [Q1 Q2]. eapply forb_trans; eauto. }
  destruct Hx as [->|Hx].
  - split; [constructor|]. econstructor; eauto.
  - destruct (IH _ _ _ P Hx) as [Q1 Q2]. split; [econstructor; eauto|auto].
Qed.
Lemma path_pred m lp : forall d h x, path m d lp h -> In x lp -> x = d \/ exists x', nxt m x' = Some x /\ In x' lp.
Proof.
  induction lp as [|y lp IH]; intros d h x P Hx; [destruct Hx|]. cbn [path] in P. destruct P as [-> (d' & E & P)].
  destruct Hx as [->|Hx]; [auto|]. right. destruct (IH _ _ _ P Hx) as [->|(x' & E' & H')].
  - exists d. split; [auto|]. left; auto.
  - exists x'. split; [auto|]. right; auto.
Qed.
Lemma path_last m lp : forall d h, path m d lp h -> lp <> [] -> exists x, In x lp /\ nxt m x = Some h.
Proof.
  induction lp as [|y lp IH]; intros d h P Hn; [congruence|]. cbn [path] in P. destruct P as [-> (d' & E & P)].
  destruct lp as [|z lp]; cbn [path] in P.
  - subst. exists d. split; [left|]; auto.
  - destruct (IH d' h P) as (x & Hx & E'); [congruence|]. exists x. split; [right|]; auto.
Qed.

(** What a facet loop is: the half-edges reached from the start, closed under next and previous. *)
Record is_loop (m : mesh) (h : dart) (lp : list dart) : Prop := {
  il_path : path m h lp h;
  il_head : exists r, lp = h :: r /\ ~ In h r;
  il_next : forall x, In x lp -> exists x', nxt m x = Some x' /\ In x' lp;
  il_forb : forall x, In x lp -> forb m h x /\ forb m x h }.
Lemma loop_is_loop lim m h lp : loop lim m h = Some lp -> is_loop m h lp.
Proof.
  intro H. destruct (walk_path _ _ _ _ _ H) as (P & r & E & Hn). constructor; [auto|eauto| |].
  - intros x Hx. destruct (path_closed _ _ _ _ _ P Hx) as (x' & E' & [Q| ->]); exists x' || exists h; split; auto. subst lp. left; auto.
  - intros x Hx. eapply path_forb; eauto.
Qed.
Lemma il_in m h lp : is_loop m h lp -> In h lp.
Proof. intro L. destruct (il_head _ _ _ L) as (r & -> & _). left; auto. Qed.
Lemma il_forb_in m h lp x : is_loop m h lp -> forb m h x -> In x lp.
Proof.
  intros L. assert (G : forall a b, forb m a b -> In a lp -> In b lp).
  { induction 1 as [d|d d1 d2 E _ IH]; intro Hi; [auto|]. apply IH. destruct (il_next _ _ _ L _ Hi) as (x' & E' & Hx'). congruence. }
  intro H. eapply G; eauto. eapply il_in; eauto.
Qed.
Lemma il_closed m h lp x y : is_loop m h lp -> In x lp -> nxt m x = Some y -> In y lp.
Proof. intros L Hx E. destruct (il_next _ _ _ L _ Hx) as (x' & E' & Hx'). congruence. Qed.
Lemma il_pred m h lp x y : wf m -> is_loop m h lp -> In y lp -> nxt m x = Some y -> In x lp.
Proof.
  intros W L Hy E. destruct (path_pred _ _ _ _ _ (il_path _ _ _ L) Hy) as [->|(x' & E' & Hx')].
  - destruct (path_last _ _ _ _ (il_path _ _ _ L)) as (z & Hz & Ez).
    + intro. subst. destruct (il_in _ _ _ L).
    + rewrite (nxt_inj _ _ _ _ W E Ez). auto.
  - rewrite (nxt_inj _ _ _ _ W E E'). auto.
Qed.
Lemma il_forb_back m h lp x y : wf m -> is_loop m h lp -> In y lp -> forb m x y -> In x lp.
Proof. intros W L Hy F. induction F as [|d d1 d2 E _ IH]; [auto|]. eapply il_pred; [exact W|exact L|apply IH; exact Hy|exact E]. Qed.
Lemma il_dart m h lp x : is_loop m h lp -> In x lp -> m (fst x) (snd x) <> None.
Proof. intros L Hx. destruct (il_next _ _ _ L _ Hx) as (x' & E & _). destruct (nxt_inv _ _ _ E). congruence. Qed.

(** *** Vertex rings *)
Fixpoint vpath (m : mesh) (v x : nat) (r : list nat) (a : nat) : Prop :=
  match r with
  | [] => x = a
  | y :: r' => y = x /\ exists z, m y v = Some z /\ vpath m v z r' a
  end.
Lemma turn_path m v a n : forall x r, turn m v a x n = Some r -> vpath m v x r a /\ exists r', r = x :: r' /\ ~ In a r'.
Proof.
  induction n as [|n IH]; intros x r H; cbn [turn] in H; [discriminate|].
  destruct (m x v) as [y|] eqn:E; [|discriminate]. cbn [bind] in H. destruct (Nat.eqb_spec y a) as [->|Hne].
  - injection H as <-. split; [|exists []; auto]. cbn [vpath]. split; [auto|]. exists a. auto.
  - destruct (turn m v a y n) as [r1|] eqn:Er; [|discriminate]. cbn [bind] in H. injection H as <-.
    destruct (IH _ _ Er) as (P & r' & -> & Hn). split.
    + cbn [vpath] in *. split; [auto|]. exists y. destruct P as [_ P]. auto.
    + exists (y :: r'). split; [auto|]. intros [->|Hi]; auto.
Qed.
Lemma vpath_closed m v r : forall x a y, vpath m v x r a -> In y r -> exists z, m y v = Some z /\ (In z r \/ z = a).
Proof.
  induction r as [|b r IH]; intros x a y P Hy; [destruct Hy|]. cbn [vpath] in P. destruct P as [-> (z & E & P)].
  destruct Hy as [->|Hy].
  - exists z. split; [auto|]. destruct r as [|b' r]; cbn [vpath] in P; [auto|]. destruct P as [-> _]. left; right; left; auto.
  - destruct (IH _ _ _ P Hy) as (z' & E' & [H|H]); exists z'; split; auto. left; right; auto.
Qed.
Lemma vpath_vorb m v r : forall x a, vpath m v x r a -> vorb m v x a.
Proof.
  induction r as [|b r IH]; intros x a P; cbn [vpath] in P; [subst; constructor|].
  destruct P as [-> (z & E & P)]. econstructor; eauto.
Qed.
(** A suffix of the walk, seen from one of its members. *)
Lemma vpath_split m v r1 : forall x r2 a y, vpath m v x (r1 ++ y :: r2) a -> vpath m v y (y :: r2) a.
Proof.
  induction r1 as [|b r1 IH]; intros x r2 a y P; cbn [app vpath] in P.
  - destruct P as [-> P]. cbn [vpath]. auto.
  - destruct P as [-> (z & _ & P)]. eapply IH; eauto.
Qed.
Lemma vpath_same_length m v : forall r1 r2 x a, vpath m v x r1 a -> vpath m v x r2 a -> ~ In a (tl r1) -> ~ In a (tl r2) -> r1 <> [] -> r2 <> [] -> r1 = r2.
Proof.
  induction r1 as [|b r1 IH]; intros r2 x a P1 P2 N1 N2 L1 L2; [congruence|]. destruct r2 as [|c r2]; [congruence|].
  cbn [vpath tl] in *. destruct P1 as [-> (z & E & P1)], P2 as [-> (z' & E' & P2)].
  assert (z' = z) by congruence. subst z'. f_equal.
  destruct r1 as [|b' r1], r2 as [|c' r2]; auto.
  - cbn [vpath] in P1, P2. destruct P2 as [-> _]. subst. exfalso. apply N2. left; auto.
  - cbn [vpath] in P1, P2. destruct P1 as [-> _]. subst. exfalso. apply N1. left; auto.
  - apply (IH (c' :: r2) z a); auto; try congruence; cbn [tl]; intro; [apply N1|apply N2]; right; auto.
Qed.
Lemma vpath_nodup m v : forall r x a, vpath m v x r a -> ~ In a (tl r) -> r <> [] -> NoDup r.
Proof.
  induction r as [|b r IH]; intros x a P Na Hr; [congruence|]. assert (P0 := P). cbn [vpath tl] in *. destruct P as [-> (z & E & P)].
  destruct r as [|c r]; [constructor; [auto|constructor]|].
  assert (Na' : ~ In a (tl (c :: r))) by (cbn [tl]; intro; apply Na; right; auto).
  constructor; [|apply (IH z a); auto; congruence].
  intro Hin. apply in_split in Hin. destruct Hin as (l1 & l2 & El).
  rewrite El in P. assert (P1 := vpath_split _ _ _ _ _ _ _ P).
  assert (P2 : vpath m v x (x :: l1 ++ x :: l2) a) by (cbn [vpath]; split; [auto|]; exists z; auto).
  assert (x :: l1 ++ x :: l2 = x :: l2).
  { eapply vpath_same_length; [exact P2|exact P1| | |congruence|congruence]; cbn [tl].
    - rewrite <- El. auto.
    - intro Hi. apply Na. rewrite El. apply in_or_app. right; right; auto. }
  assert (Hlen : length (x :: l1 ++ x :: l2) = length (x :: l2)) by congruence. cbn [length] in Hlen. rewrite app_length in Hlen. cbn [length] in Hlen. lia.
Qed.
Record is_ring (m : mesh) (v a : nat) (r : list nat) : Prop := {
  ir_path : vpath m v a r a;
  ir_head : exists r', r = a :: r' /\ ~ In a r';
  ir_next : forall y, In y r -> exists z, m y v = Some z /\ In z r;
  ir_nodup : NoDup r }.
Lemma ring_is_ring lim m v a r : ring lim m v a = Some r -> is_ring m v a r.
Proof.
  intro H. destruct (turn_path _ _ _ _ _ _ H) as (P & r' & E & Hn). constructor; [auto|eauto| |].
  - intros y Hy. destruct (vpath_closed _ _ _ _ _ _ P Hy) as (z & E' & [Q| ->]); [exists z|exists a]; split; auto. subst r. left; auto.
  - eapply vpath_nodup; [exact P| |]; subst r; [auto|congruence].
Qed.
Lemma ring_all m v a r b : wf m -> is_ring m v a r -> m b v <> None -> In b r.
Proof.
  intros W R Hb. assert (Ha : In a r) by (destruct (ir_head _ _ _ _ R) as (r' & -> & _); left; auto).
  assert (Hav : m a v <> None) by (destruct (ir_next _ _ _ _ R a Ha) as (z & E & _); congruence).
  assert (V := wf_man m W v a b Hav Hb). assert (G : forall x y, vorb m v x y -> In x r -> In y r).
  { induction 1 as [|a0 b0 c E _ IH]; intro Hi; [auto|]. apply IH. destruct (ir_next _ _ _ _ R a0 Hi) as (z & E' & Hz). congruence. }
  eapply G; eauto.
Qed.
Lemma ring_nb m v a r b : is_ring m v a r -> In b r -> m b v <> None.
Proof. intros R Hb. destruct (ir_next _ _ _ _ R b Hb) as (z & E & _). congruence. Qed.
