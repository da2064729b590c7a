(** Meshes given as lists of facets, and a test that they are closed, simple and connected.  Used
    to show that concrete polyhedra meet the hypotheses of the theorems. *)
From Coq Require Import List ZArith Bool Arith Lia Relations.
From Verif Require Import Arr CodecModel PpmcModel PpmcTopo.
Import ListNotations.
Close Scope Z_scope.
Open Scope nat_scope.

(** /repo/src/PPMC/mymeshBaseBuilder.h:26-54 MyMeshBaseBuilder: the half-edge structure built facet
    by facet from lists of vertex numbers (CGAL's incremental builder: add_facet joins the half-edges
    of a facet in the order given; the errors it reports for surfaces that are not manifold are not
    modelled).  The corners (a, b, c) of a facet given by its vertices in order. *)
Fixpoint triples (l : list nat) : list (nat * nat * nat) :=
  match l with
  | a :: ((b :: c :: _) as t) => (a, b, c) :: triples t
  | _ => []
  end.
Definition corners (f : list nat) : list (nat * nat * nat) := triples (f ++ firstn 2 f).
Definition of_faces (fs : list (list nat)) : mesh :=
  let cs := flat_map corners fs in
  fun u v => match find (fun c => (fst (fst c) =? u) && (snd (fst c) =? v)) cs with Some c => Some (snd c) | None => None end.
Definition darts_of (fs : list (list nat)) : list dart := map fst (flat_map corners fs).

Lemma of_faces_in fs u v : of_faces fs u v <> None -> In (u, v) (darts_of fs).
Proof.
  unfold of_faces, darts_of. intro H. destruct (find _ _) as [c|] eqn:E; [|congruence]. apply find_some in E. destruct E as [E1 E2].
  apply andb_true_iff in E2. destruct E2 as [E2 E3]. apply Nat.eqb_eq in E2, E3. apply in_map_iff. exists c. split; [|auto].
  destruct c as [[a b] w]. cbn [fst snd] in *. congruence.
Qed.

Definition is_some {A} (o : option A) : bool := match o with Some _ => true | None => false end.
Definition oeq (a b : option nat) : bool := match a, b with Some x, Some y => x =? y | None, None => true | _, _ => false end.
Lemma oeq_spec a b : oeq a b = true <-> a = b.
Proof. destruct a, b; cbn [oeq]; try rewrite Nat.eqb_eq; split; congruence. Qed.

Fixpoint reach (m : mesh) (front seen : list dart) (fuel : nat) : list dart :=
  match fuel with
  | O => seen
  | S n =>
    match front with
    | [] => seen
    | d :: front' =>
      let new := filter (fun x => negb (existsb (deq x) seen))
                   ((if is_some (m (fst d) (snd d)) then [opp d] else []) ++ match nxt m d with Some d' => [d'] | None => [] end) in
      reach m (new ++ front') (new ++ seen) n
    end
  end.
Lemma reach_sound m d0 : forall n front seen, 
  (forall d, In d front -> clos_refl_sym_trans dart (link m) d0 d) -> (forall d, In d seen -> clos_refl_sym_trans dart (link m) d0 d) ->
  forall d, In d (reach m front seen n) -> clos_refl_sym_trans dart (link m) d0 d.
Proof.
  induction n as [|n IH]; intros front seen Hf Hs d Hd; cbn [reach] in Hd; [auto|].
  destruct front as [|x front]; [auto|].
  assert (K : forall y, In y (filter (fun x0 => negb (existsb (deq x0) seen))
    ((if is_some (m (fst x) (snd x)) then [opp x] else []) ++ match nxt m x with Some d' => [d'] | None => [] end)) -> clos_refl_sym_trans dart (link m) d0 y).
  { intros y Hy. apply filter_In in Hy. destruct Hy as [Hy _]. eapply rst_trans; [apply Hf; left; reflexivity|]. apply rst_step.
    apply in_app_or in Hy. destruct Hy as [Hy|Hy].
    - destruct (m (fst x) (snd x)) eqn:E; cbn [is_some] in Hy; [|destruct Hy]. destruct Hy as [<-|[]]. right. split; [congruence|auto].
    - destruct (nxt m x) eqn:E; [|destruct Hy]. destruct Hy as [<-|[]]. left. auto. }
  eapply IH; [| |exact Hd].
  - intros y Hy. apply in_app_or in Hy. destruct Hy as [Hy|Hy]; [auto|]. apply Hf. right; auto.
  - intros y Hy. apply in_app_or in Hy. destruct Hy as [Hy|Hy]; auto.
Qed.

Definition good (fs : list (list nat)) : bool :=
  let m := of_faces fs in
  let ds := darts_of fs in
  let n := S (length ds) in
  forallb (fun d =>
    is_some (m (snd d) (fst d)) && negb (fst d =? snd d) &&
    (match m (fst d) (snd d) with Some w => is_some (m (snd d) w) | None => false end) &&
    forallb (fun d' => implb ((snd d =? snd d') && oeq (m (fst d) (snd d)) (m (fst d') (snd d'))) (fst d =? fst d')) ds &&
    existsb (fun d' => (snd d' =? fst d) && oeq (m (fst d') (snd d')) (Some (snd d))) ds &&
    (match ring n m (snd d) (fst d) with Some r => forallb (fun d' => implb (snd d' =? snd d) (existsb (Nat.eqb (fst d')) r)) ds | None => false end) &&
    (match loop n m d with Some lp => negb (existsb (deq (opp d)) lp) | None => false end)) ds &&
  (match ds with [] => true | d0 :: _ => let s := reach m [d0] [d0] (2 * n) in forallb (fun d => existsb (deq d) s) ds end).

Lemma vpath_vorb_in m v r : forall x a y, vpath m v x r a -> In y r -> vorb m v x y.
Proof.
  induction r as [|b r IH]; intros x a y P Hy; [destruct Hy|]. cbn [vpath] in P. destruct P as [-> (z & E & P)].
  destruct Hy as [->|Hy]; [constructor|]. econstructor; [exact E|]. eapply IH; eauto.
Qed.

Lemma good_spec fs : good fs = true -> wf (of_faces fs) /\ connected (of_faces fs).
Proof.
  unfold good. intro H. apply andb_true_iff in H. destruct H as [H HC]. rewrite forallb_forall in H.
  set (m := of_faces fs) in *. set (n := S (length (darts_of fs))) in *.
  assert (Q : forall u v, m u v <> None ->
    is_some (m v u) = true /\ u <> v /\ (exists w, m u v = Some w /\ m v w <> None) /\
    (forall a b, m a b <> None -> v = b -> m u v = m a b -> u = a) /\ (exists a, m a u = Some v) /\
    (exists r, ring n m v u = Some r /\ forall a, m a v <> None -> In a r) /\
    (exists lp, loop n m (u, v) = Some lp /\ ~ In (v, u) lp)).
  { intros u v Hd. assert (Hi := of_faces_in fs u v Hd). specialize (H _ Hi). cbn [fst snd] in H.
    repeat rewrite andb_true_iff in H. destruct H as [[[[[[H1 H2] H3] H4] H5] H6] H7].
    split; [auto|]. split; [apply negb_true_iff, Nat.eqb_neq in H2; auto|]. split.
    { destruct (m u v) as [w|]; [|discriminate]. exists w. split; [auto|]. destruct (m v w); [congruence|discriminate]. }
    split.
    { intros a b Hab <- E. rewrite forallb_forall in H4. specialize (H4 _ (of_faces_in fs a v Hab)). cbn [fst snd] in H4.
      rewrite Nat.eqb_refl in H4. rewrite (proj2 (oeq_spec _ _) E) in H4. cbn [andb implb] in H4. apply Nat.eqb_eq. auto. }
    split.
    { apply existsb_exists in H5. destruct H5 as (d' & _ & E). apply andb_true_iff in E. destruct E as [E1 E2]. apply Nat.eqb_eq in E1. apply oeq_spec in E2.
      exists (fst d'). rewrite <- E1. auto. }
    split.
    { destruct (ring n m v u) as [r|]; [|discriminate]. exists r. split; [auto|]. intros a Ha. rewrite forallb_forall in H6.
      specialize (H6 _ (of_faces_in fs a v Ha)). cbn [fst snd] in H6. rewrite Nat.eqb_refl in H6. cbn [implb] in H6.
      apply existsb_exists in H6. destruct H6 as (y & Hy & E). apply Nat.eqb_eq in E. subst. auto. }
    destruct (loop n m (u, v)) as [lp|]; [|discriminate]. exists lp. split; [auto|]. apply negb_true_iff in H7. intro K. apply existsb_deq in K.
    unfold opp in H7; cbn [fst snd] in H7. congruence. }
  split.
  - constructor.
    + intros u v Hd K. destruct (Q u v Hd) as [Q1 _]. rewrite K in Q1. discriminate.
    + intro u. destruct (m u u) eqn:E; [|auto]. exfalso. destruct (Q u u) as (_ & Q2 & _); congruence.
    + intros u v w E. destruct (Q u v) as (_ & _ & (w' & E' & Hw) & _); [congruence|]. congruence.
    + intros u u' v w E E'. destruct (Q u v) as (_ & _ & _ & Qi & _); [congruence|]. apply (Qi u' v); congruence.
    + intros v w Hd. destruct (Q v w Hd) as (_ & _ & _ & _ & Qs & _). auto.
    + intros v a b Ha Hb. destruct (Q a v Ha) as (_ & _ & _ & _ & _ & (r & Er & Hr) & _). apply ring_is_ring in Er. destruct Er as [P _ _ _].
      eapply vpath_vorb_in; eauto.
    + intros [u v] d' Hd F. cbn [fst snd] in Hd. destruct (Q u v Hd) as (_ & _ & _ & _ & _ & _ & lp & El & Hn). apply loop_is_loop in El.
      intros ->. apply Hn. apply (il_forb_in _ _ _ _ El F).
  - intros d d' Hd Hd'. destruct d as [a b], d' as [a' b']. cbn [fst snd] in *. apply of_faces_in in Hd, Hd'.
    destruct (darts_of fs) as [|d0 ds]; [destruct Hd|]. rewrite forallb_forall in HC.
    assert (K : forall d, In d (d0 :: ds) -> clos_refl_sym_trans dart (link m) d0 d).
    { intros d Hi. assert (E := HC d Hi). apply existsb_deq in E. revert E. apply reach_sound; intros x [<-|[]]; apply rst_refl. }
    eapply rst_trans; [apply rst_sym; apply K; exact Hd|apply K; exact Hd'].
Qed.
