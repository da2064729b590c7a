(** Which vertices the compressor may remove (mymeshCompTests.cpp:27-59 willViolateManifold and
    :190-213 isRemovable): the test refuses a vertex exactly when removing it would lay a second
    edge between two of its neighbours, and isRemovable adds the other conditions. *)
From Coq Require Import List Arith Lia Bool.
From Verif Require Import Arr CodecModel PpmcModel PpmcTopo PpmcEnc PpmcTot PpmcCheck PropPpmc.
Import ListNotations.
Close Scope Z_scope.
Open Scope nat_scope.

(** A facet with three sides is walked in three steps. *)
Lemma loop_tri lim m v u x lp : v <> u -> v <> x -> u <> x -> tri3 m v u x -> loop lim m (v, u) = Some lp -> length lp = 3.
Proof.
  intros N1 N2 N3 (E1 & E2 & E3) H. unfold loop in H.
  destruct lim as [|[|[|n]]]; cbn [walk] in H; unfold nxt in H; cbn [fst snd] in H; [discriminate H| | |].
  - rewrite E1 in H. cbn [bind] in H. unfold deq in H. cbn [fst snd] in H.
    destruct (Nat.eqb_spec u v); [congruence|]. cbn [andb bind] in H. discriminate H.
  - rewrite E1 in H. cbn [bind] in H. unfold deq in H. cbn [fst snd] in H.
    destruct (Nat.eqb_spec u v); [congruence|]. cbn [andb bind] in H. rewrite E2 in H. cbn [bind fst snd] in H.
    destruct (Nat.eqb_spec x v); [congruence|]. cbn [andb bind] in H. discriminate H.
  - rewrite E1 in H. cbn [bind] in H. unfold deq in H. cbn [fst snd] in H.
    destruct (Nat.eqb_spec u v); [congruence|]. cbn [andb bind] in H. rewrite E2 in H. cbn [bind fst snd] in H.
    destruct (Nat.eqb_spec x v); [congruence|]. cbn [andb bind] in H. rewrite E3 in H. cbn [bind fst snd] in H.
    rewrite !Nat.eqb_refl in H. cbn [andb bind] in H. injection H as <-. reflexivity.
Qed.

Lemma violates_true lim m v r is : violates lim m v r is = Some true -> exists i, In i is /\ violates_at lim m v r i = Some true.
Proof.
  induction is as [|j is IH]; intro H; cbn [violates] in H; [discriminate H|].
  destruct (violates_at lim m v r j) as [[|]|] eqn:E; cbn [bind] in H; try discriminate H.
  - exists j. split; [left; auto|auto].
  - destruct (IH H) as (i & Hi & Ei). exists i. split; [right; auto|auto].
Qed.

Lemma manifold_refuses lim m v a r : wf m -> is_ring m v a r -> willViolateManifold lim m v r = Some true ->
  exists x u, m x v = Some u /\ ~ tri3 m v u x /\ m u x <> None.
Proof.
  intros W Rg H. apply violates_true in H. destruct H as (i & Hi & K). apply in_seq in Hi. cbn [Nat.add] in Hi.
  unfold violates_at in K. set (u := nth i r 0) in *.
  assert (Hu : In u r) by (apply nth_In; lia). assert (Huv := ring_nb _ _ _ _ _ Rg Hu).
  destruct (ring lim m u v) as [nb|] eqn:En; cbn [bind] in K; [|discriminate K]. apply ring_is_ring in En.
  unfold facet_degree in K. destruct (loop lim m (v, u)) as [l1|] eqn:E1; cbn [bind] in K; [|discriminate K].
  destruct (loop lim m (u, v)) as [l2|] eqn:E2; cbn [bind] in K; [|discriminate K]. injection K as K.
  apply existsb_exists in K. destruct K as (w & Hw & K). apply existsb_exists in K. destruct K as (j & Hj & K).
  apply in_seq in Hj. cbn [Nat.add] in Hj. apply andb_prop in K. destruct K as [Kw K]. apply Nat.eqb_eq in Kw.
  assert (Hwu := ring_nb _ _ _ _ _ En Hw). assert (Huw : m u w <> None) by (apply (wf_sym m W); auto).
  assert (P := ir_path _ _ _ _ Rg).
  assert (Hr : r <> []) by (intro; subst r; destruct Hu).
  assert (Ea : nth 0 r 0 = a) by (destruct (ir_head _ _ _ _ Rg) as (r' & -> & _); auto).
  assert (Nuv : u <> v) by (intro C; apply Huv; rewrite C; apply (wf_irr m W)).
  assert (Hwv : In w r) by (rewrite Kw; apply nth_In; lia).
  assert (Nwv : w <> v).
  { intro C. assert (X := ring_nb _ _ _ _ _ Rg Hwv). rewrite C in X. apply X, (wf_irr m W v). }
  assert (Nwu : w <> u).
  { intro C. rewrite C in Hwu. apply Hwu, (wf_irr m W u). }
  apply orb_prop in K. destruct K as [K|K]; apply andb_prop in K; destruct K as [Kj K3]; apply Nat.eqb_eq in Kj;
    apply Bool.negb_true_iff, Nat.eqb_neq in K3.
  - exists w, u. split; [|split; [|exact Huw]].
    + rewrite Kw. subst j. destruct (Nat.eqb_spec i 0) as [Z|Z].
      * assert (L := vpath_end _ _ _ _ _ P Hr). rewrite L. unfold u. rewrite Z, Ea. auto.
      * assert (L := vpath_nth _ _ _ _ _ P (i - 1) ltac:(lia)). replace (S (i - 1)) with i in L by lia. exact L.
    + intro T. apply K3. apply (loop_tri _ _ _ _ _ _ (not_eq_sym Nuv) (not_eq_sym Nwv) (not_eq_sym Nwu) T E1).
  - exists u, w. split; [|split; [|exact Hwu]].
    + rewrite Kw. subst j. destruct (Nat.eqb_spec i (length r - 1)) as [Z|Z].
      * assert (L := vpath_end _ _ _ _ _ P Hr). rewrite <- Z in L. fold u in L. rewrite L, Ea. auto.
      * assert (L := vpath_nth _ _ _ _ _ P i ltac:(lia)). replace (i + 1) with (S i) by lia. exact L.
    + intros (T1 & T2 & T3). apply K3. refine (loop_tri _ _ _ _ _ _ Nuv (not_eq_sym Nwu) (not_eq_sym Nwv) _ E2).
      split; [exact T3|split; [exact T1|exact T2]].
Qed.

(** The answer of willViolateManifold, in terms of the mesh alone: the test refuses [v] exactly
    when somewhere around it two neighbours that follow one another in a facet with more than
    three sides are already joined by an edge. *)
Theorem manifold_test_exact lim m v a r b :
  wf m -> ring lim m v a = Some r -> willViolateManifold lim m v r = Some b ->
  (b = true <-> exists x u, m x v = Some u /\ ~ (m v u = Some x /\ m u x = Some v) /\ m u x <> None).
Proof.
  intros W Hr Hb. apply ring_is_ring in Hr. split.
  - intros ->. destruct (manifold_refuses _ _ _ _ _ W Hr Hb) as (x & u & E & N & D). exists x, u. split; [auto|split; [|auto]].
    intros [T1 T2]. apply N. repeat split; auto.
  - intros (x & u & E & N & D). destruct b; [auto|]. exfalso. apply D.
    apply (manifold_test [] lim (Nat.le_0_l lim) m v a r W Hr Hb x u E). intros (T1 & T2 & T3). apply N. auto.
Qed.
Print Assumptions manifold_test_exact.

(** isRemovable as a whole. *)
Theorem removable_exactly lim convex d0 d1 m conq a v b :
  wf m -> m a v <> None -> isRemovable lim convex d0 d1 m conq (a, v) = Some b ->
  (b = true <->
   v <> d0 /\ v <> d1 /\ conq v = false /\ convex m v = true /\
   (exists r, NoDup r /\ (forall u, In u r <-> m u v <> None) /\ 3 <= length r <= 8) /\
   (forall x u, m x v = Some u -> m u x = None \/ (m v u = Some x /\ m u x = Some v))).
Proof.
  intros W Ha H. unfold isRemovable in H. cbn [fst snd] in H.
  destruct (Nat.eqb_spec v d0) as [D0|D0]; cbn [orb] in H; [injection H as <-; split; [discriminate|tauto]|].
  destruct (Nat.eqb_spec v d1) as [D1|D1]; cbn [orb] in H; [injection H as <-; split; [discriminate|tauto]|].
  destruct (conq v) eqn:C; cbn [orb] in H; [injection H as <-; split; [discriminate|intros (_ & _ & X & _); discriminate X]|].
  destruct (ring lim m v a) as [r|] eqn:Er; cbn [bind] in H; [|discriminate H].
  assert (R := ring_is_ring _ _ _ _ _ Er).
  assert (RI : forall u, In u r <-> m u v <> None) by (intro u; split; [apply (ring_nb _ _ _ _ _ R)|apply (ring_all _ _ _ _ _ W R)]).
  assert (RU : forall r', NoDup r' -> (forall u, In u r' <-> m u v <> None) -> length r' = length r).
  { intros r' N I. apply Nat.le_antisymm; apply NoDup_incl_length; auto; try apply (ir_nodup _ _ _ _ R); intros u Hu; [apply RI, I|apply I, RI]; auto. }
  destruct (Nat.leb_spec (length r) 2) as [L|L]; cbn [orb] in H.
  { injection H as <-. split; [discriminate|]. intros (_ & _ & _ & _ & (r' & N & I & B) & _). rewrite (RU r' N I) in B. lia. }
  destruct (Nat.ltb_spec 8 (length r)) as [L8|L8]; cbn [orb] in H.
  { injection H as <-. split; [discriminate|]. intros (_ & _ & _ & _ & (r' & N & I & B) & _). rewrite (RU r' N I) in B. lia. }
  destruct (willViolateManifold lim m v r) as [w|] eqn:Ew; cbn [bind] in H; [|discriminate H]. injection H as <-.
  assert (X := manifold_test_exact lim m v a r w W Er Ew). split.
  - intro Hb. apply andb_prop in Hb. destruct Hb as [Hw Hc]. apply Bool.negb_true_iff in Hw. subst w.
    split; [auto|split; [auto|split; [auto|split; [auto|split]]]].
    + exists r. split; [apply (ir_nodup _ _ _ _ R)|split; [exact RI|lia]].
    + intros x u E. destruct (m u x) as [z|] eqn:Ez; [right|left; auto].
      assert (T : {m v u = Some x /\ z = v} + {~ (m v u = Some x /\ z = v)}).
      { destruct (m v u) as [y|]; [|right; intros [Y _]; discriminate Y]. destruct (Nat.eq_dec y x), (Nat.eq_dec z v); subst; [left; auto|right..]; intros [Y1 Y2]; congruence. }
      destruct T as [[T1 T2]|T]; [subst; auto|]. exfalso. assert (F : false = true); [|discriminate F].
      apply X. exists x, u. split; [auto|split; [|congruence]]. intros [T1 T2]. apply T. split; congruence.
  - intros (_ & _ & _ & Hc & _ & HT). rewrite Hc, andb_true_r. destruct w; [|auto]. exfalso.
    destruct (proj1 X eq_refl) as (x & u & E & N & D). destruct (HT x u E) as [T|T]; [auto|auto].
Qed.
Print Assumptions removable_exactly.

(** The same answer for every half-edge towards the vertex: where vertex_begin() starts does not
    matter. *)
Theorem removable_any_start lim convex d0 d1 m conq a a' v b b' :
  wf m -> m a v <> None -> m a' v <> None ->
  isRemovable lim convex d0 d1 m conq (a, v) = Some b -> isRemovable lim convex d0 d1 m conq (a', v) = Some b' -> b = b'.
Proof.
  intros W Ha Ha' H H'. assert (X := removable_exactly _ _ _ _ _ _ _ _ _ W Ha H). assert (X' := removable_exactly _ _ _ _ _ _ _ _ _ W Ha' H').
  apply eq_true_iff_eq. rewrite X, X'. reflexivity.
Qed.
Print Assumptions removable_any_start.

(** The question is always answered: on a mesh with vertices [vs] no circulator runs longer than
    the number of half-edges. *)
Theorem removable_answers lim convex d0 d1 m conq a v vs :
  wf m -> (forall p q, m p q <> None -> In p vs) -> length vs * length vs <= lim -> m a v <> None ->
  exists b, isRemovable lim convex d0 d1 m conq (a, v) = Some b.
Proof.
  intros W B L H. assert (Bd : bnd (list_prod vs vs) m).
  { intros p q Hp. apply in_prod; [apply (B p q Hp)|apply (B q p), (wf_sym m W); auto]. }
  assert (Ll : length (list_prod vs vs) <= lim) by (rewrite prod_length; auto).
  apply (isRemovable_total (list_prod vs vs) lim convex d0 d1 Ll m conq (a, v) W Bd H).
Qed.
Print Assumptions removable_answers.

(** A square facet whose diagonal 0-2 is an edge on the far side: corner 1 of the square stays,
    the tip 4 over three triangles may go; and corner 3, with two neighbours, stays. *)
Definition folded : list (list nat) := [[0;1;2;3];[2;1;4];[1;0;4];[0;2;4];[3;2;0]].
Example folded_removable :
  good folded = true /\ wf (of_faces folded) /\ of_faces folded 0 1 <> None /\ of_faces folded 0 4 <> None /\
  isRemovable 100 (fun _ _ => true) 0 3 (of_faces folded) (fun _ => false) (0, 1) = Some false /\
  isRemovable 100 (fun _ _ => true) 0 3 (of_faces folded) (fun _ => false) (0, 4) = Some true /\
  isRemovable 100 (fun _ _ => true) 0 3 (of_faces folded) (fun _ => false) (2, 4) = Some true /\
  isRemovable 100 (fun _ _ => true) 0 1 (of_faces folded) (fun _ => false) (0, 3) = Some false.
Proof.
  assert (G : good folded = true) by (vm_compute; reflexivity).
  split; [exact G|]. split; [apply (good_spec _ G)|]. repeat split; vm_compute; solve [reflexivity|congruence].
Qed.
