(** Lemmas about TreeDistModel.v. *)
From Coq Require Import QArith List Bool Arith Lia Lqa Field.
From Verif Require Import AabModel AabProofs SegDistModel SegDistProofs JoinModel TreeDistModel.
Import ListNotations.
Open Scope Q_scope.


Lemma vdot_self_nonneg v : 0 <= vdot v v.
Proof. unfold vdot, sum3. pose proof (sq_nonneg (v AX)). pose proof (sq_nonneg (v AY)). pose proof (sq_nonneg (v AZ)). lra. Qed.

(** The squared distance along a segment, as a polynomial of the parameter. *)
Lemma dist_at p a d t : dist2 p (at_ a d t) == vdot (vsub p a) (vsub p a) - 2 * t * vdot (vsub p a) d + t * t * vdot d d.
Proof. unfold dist2, at_, vdot, vsub, sum3. ring. Qed.

Lemma dist_at_axpy p a d t : vdot (vsub p (vaxpy a d t)) (vsub p (vaxpy a d t)) == dist2 p (at_ a d t).
Proof. unfold dist2, at_, vdot, vsub, vaxpy, sum3. ring. Qed.

Definition cut (t : Q) : Q := if Qle_bool t 0 then 0 else if Qle_bool 1 t then 1 else t.
Lemma cut_unit t : unit (cut t).
Proof.
  unfold cut, unit. destruct (Qle_bool t 0) eqn:A; [lra|]. destruct (Qle_bool 1 t) eqn:B; [lra|].
  assert (~ t <= 0) by (intro K; apply Qle_bool_iff in K; congruence). assert (~ 1 <= t) by (intro K; apply Qle_bool_iff in K; congruence). lra.
Qed.

(** A parabola is smallest on the unit interval at its cut apex. *)
Lemma parabola_min (b c u : Q) : 0 <= c -> (c == 0 -> b == 0) -> unit u ->
  cut (b / c) * cut (b / c) * c - 2 * cut (b / c) * b <= u * u * c - 2 * u * b.
Proof.
  intros C Z [U0 U1]. destruct (Qeq_dec c 0) as [E|E].
  - assert (B0 : b == 0) by (apply Z; exact E). generalize (cut (b / c)). intros t. rewrite E, B0. lra.
  - assert (C' : 0 < c) by lra. set (t0 := b / c). assert (B : b == t0 * c) by (unfold t0; field; lra). clearbody t0. rewrite B.
    set (t := cut t0).
    assert (K : 0 <= (u - t) * (u + t - 2 * t0)).
    { unfold t, cut. destruct (Qle_bool t0 0) eqn:A.
      - apply Qle_bool_iff in A. apply Qmult_le_0_compat; lra.
      - destruct (Qle_bool 1 t0) eqn:A'.
        + apply Qle_bool_iff in A'. setoid_replace ((u - 1) * (u + 1 - 2 * t0)) with ((1 - u) * (2 * t0 - 1 - u)) by ring. apply Qmult_le_0_compat; lra.
        + setoid_replace ((u - t0) * (u + t0 - 2 * t0)) with ((u - t0) * (u - t0)) by ring. apply sq_nonneg. }
    pose proof (Qmult_le_0_compat c _ C K). lra.
Qed.

Lemma vdot_self_zero v : vdot v v == 0 -> forall w, vdot w v == 0.
Proof.
  unfold vdot, sum3. intros H w. pose proof (sq_nonneg (v AX)). pose proof (sq_nonneg (v AY)). pose proof (sq_nonneg (v AZ)).
  assert (Zq : forall x : Q, x * x == 0 -> x == 0) by (intros x E; destruct (Qmult_integral _ _ E); assumption).
  assert (X0 : v AX == 0) by (apply Zq; lra). assert (Y0 : v AY == 0) by (apply Zq; lra). assert (Z0 : v AZ == 0) by (apply Zq; lra).
  rewrite X0, Y0, Z0. ring.
Qed.

Lemma pt_seg_at p s : exists t, unit t /\ pt_seg p s == dist2 p (at_ (fst s) (vsub (snd s) (fst s)) t) /\
  forall u, unit u -> pt_seg p s <= dist2 p (at_ (fst s) (vsub (snd s) (fst s)) u).
Proof.
  set (d := vsub (snd s) (fst s)). set (t0 := vdot (vsub p (fst s)) d / vdot d d).
  assert (E : pt_seg p s == dist2 p (at_ (fst s) d (cut t0))) by (unfold pt_seg; fold d; fold t0; apply dist_at_axpy).
  exists (cut t0). split; [apply cut_unit|]. split; [exact E|]. intros u U. rewrite E, !dist_at.
  pose proof (parabola_min (vdot (vsub p (fst s)) d) (vdot d d) u (vdot_self_nonneg d) (fun Hz => vdot_self_zero d Hz _) U) as P. fold t0 in P. lra.
Qed.

(** dmin and the folds over it. *)
Definition min_of (l : list Q) (m : option Q) : Prop :=
  match m with None => l = [] | Some x => In x l /\ forall y, In y l -> x <= y end.
Lemma dmin_min l m x : min_of l m -> min_of (l ++ [x]) (dmin m x).
Proof.
  unfold dmin. destruct m as [y|]; cbn [min_of].
  - intros [H1 H2]. destruct (Qltb_spec x y); cbn [min_of]; (split; [apply in_or_app; cbn; auto|]); intros z Hz; apply in_app_or in Hz as [Hz|[<-|[]]];
      try (specialize (H2 z Hz)); lra.
  - intros ->. cbn. split; [auto|]. intros y [<-|[]]. lra.
Qed.
Lemma tree_dist_min segs p : min_of (map (pt_seg p) segs) (tree_dist segs p).
Proof.
  unfold tree_dist. assert (G : forall l m r, min_of l m -> min_of (l ++ map (pt_seg p) r) (fold_left (fun a s => dmin a (pt_seg p s)) r m)).
  { intros l m r. revert l m. induction r as [|s r IH]; intros l m H; cbn [fold_left map]; [now rewrite app_nil_r|].
    specialize (IH (l ++ [pt_seg p s]) (dmin m (pt_seg p s)) (dmin_min _ _ _ H)). now rewrite <- app_assoc in IH. }
  apply (G [] None segs). reflexivity.
Qed.
Lemma mesh_dist_min segs : segs <> [] -> forall ps l m, min_of l m -> (forall x, In x l -> exists p s, In s segs /\ x = pt_seg p s) ->
  exists l', min_of l' (mesh_dist segs ps m) /\
   (forall x, In x l -> In x l') /\ (forall x, In x l' -> In x l \/ exists p s, In p ps /\ In s segs /\ x = pt_seg p s) /\
   (forall p s, In p ps -> In s segs -> exists x, In x l' /\ x <= pt_seg p s).
Proof.
  intros NE. induction ps as [|p r IH]; intros l m M L; cbn [mesh_dist].
  - exists l. split; [exact M|]. split; [auto|]. split; [auto|]. intros p s [].
  - pose proof (tree_dist_min segs p) as T. destruct (tree_dist segs p) as [d|]; cbn [min_of] in T.
    + destruct T as [T1 T2]. apply in_map_iff in T1 as [s0 [<- Hs0]].
      destruct (IH (l ++ [pt_seg p s0]) _ (dmin_min _ _ (pt_seg p s0) M)) as (l' & A & B & C & D).
      { intros x Hx. apply in_app_or in Hx as [Hx|[<-|[]]]; eauto. }
      exists l'. split; [exact A|]. split; [intros x Hx; apply B, in_or_app; auto|]. split.
      * intros x Hx. destruct (C x Hx) as [H|(p' & s & H1 & H2 & ->)].
        -- apply in_app_or in H as [H|[<-|[]]]; [auto|right]. exists p, s0. cbn. auto.
        -- right. exists p', s. cbn. auto.
      * intros p' s [<-|Hp] Hs; [|auto]. exists (pt_seg p s0). split; [apply B, in_or_app; cbn; auto|]. apply T2. now apply in_map.
    + exfalso. apply map_eq_nil in T. auto.
Qed.

(** * The order of the distances *)
Lemma nn_round_pairs_ext highest filled f g ps : forall idx mc, (forall i, (idx <= i < idx + length ps)%nat -> f i = g i) ->
  nn_round_pairs highest filled f idx mc ps = nn_round_pairs highest filled g idx mc ps /\
  snd (fst (nn_round_pairs highest filled f idx mc ps)) = (idx + length ps)%nat.
Proof.
  induction ps as [|vp r IH]; intros idx mc H; cbn [nn_round_pairs length]; [cbn; split; [reflexivity|lia]|].
  unfold nn_round_pair. rewrite (H idx) by (cbn [length]; lia). destruct (filled vp).
  - set (mc1 := match mc with None => _ | Some m => _ end).
    destruct (IH (S idx) mc1) as [E L]; [intros i Hi; apply H; cbn [length]; lia|]. rewrite E. rewrite E in L.
    destruct (nn_round_pairs highest filled g (S idx) mc1 r) as [[r' i'] mc']. cbn [fst snd] in *. split; [reflexivity|lia].
  - destruct (IH (S idx) mc) as [E L]; [intros i Hi; apply H; cbn [length]; lia|]. rewrite E. rewrite E in L.
    destruct (nn_round_pairs highest filled g (S idx) mc r) as [[r' i'] mc']. cbn [fst snd] in *. split; [reflexivity|lia].
Qed.
Lemma nn_round_infos_ext highest filled f g cl : forall idx mc, (forall i, (idx <= i < idx + length (flat_map c_pairs cl))%nat -> f i = g i) ->
  nn_round_infos highest filled f idx mc cl = nn_round_infos highest filled g idx mc cl /\
  snd (fst (nn_round_infos highest filled f idx mc cl)) = (idx + length (flat_map c_pairs cl))%nat.
Proof.
  induction cl as [|c r IH]; intros idx mc H; cbn [nn_round_infos flat_map]; [cbn; split; [reflexivity|lia]|].
  cbn [flat_map] in H. rewrite app_length in *.
  destruct (nn_round_pairs_ext highest filled f g (c_pairs c) idx mc) as [E L]; [intros; apply H; lia|]. rewrite E in *.
  destruct (nn_round_pairs highest filled g idx mc (c_pairs c)) as [[ps' i'] mc']. cbn [fst snd] in L. subst i'.
  destruct (IH (idx + length (c_pairs c))%nat mc') as [E' L']; [intros; apply H; lia|]. rewrite E' in *.
  destruct (nn_round_infos highest filled g _ mc' r) as [[r' i''] mc'']. cbn [fst snd] in *. split; [reflexivity|lia].
Qed.
Lemma nn_round_entries_ext highest filled f g cs : forall idx, (forall i, (idx <= i < idx + length (all_pairs cs))%nat -> f i = g i) ->
  nn_round_entries highest filled f idx cs = nn_round_entries highest filled g idx cs.
Proof.
  induction cs as [|e r IH]; intros idx H; cbn [nn_round_entries]; [reflexivity|].
  unfold all_pairs in H. cbn [flat_map] in H. rewrite app_length in H.
  destruct (nn_round_infos_ext highest filled f g (snd e) idx None) as [E L]; [intros; apply H; lia|]. rewrite E in *.
  destruct (nn_round_infos highest filled g idx None (snd e)) as [[cl' i'] mc]. cbn [fst snd] in L. subst i'. f_equal.
  apply IH. intros; apply H. unfold all_pairs in *. lia.
Qed.

Definition single_pairs (cs : list centry) : Prop := Forall (fun e => Forall (fun c => length (c_pairs c) = 1%nat) (snd e)) cs.
Definition several (cs : list centry) : Prop := Forall (fun e => (2 <= length (snd e))%nat) cs.

Lemma stored_map D g cs : several cs -> single_pairs cs ->
  (forall e c vp, In e cs -> In c (snd e) -> In vp (c_pairs c) -> g vp = D (fst e) (c_wrapper c)) ->
  tree_stored D cs = map g (all_pairs cs).
Proof.
  unfold several, single_pairs, tree_stored, all_pairs. induction cs as [|e r IH]; intros S P G; [reflexivity|].
  inversion S as [|? ? S1 S2]; subst. inversion P as [|? ? P1 P2]; subst. cbn [flat_map]. rewrite map_app. f_equal; [|apply IH; auto; intros; eapply G; eauto; now right].
  destruct (Nat.leb_spec (length (snd e)) 1); [lia|]. assert (G1 := fun c vp => G e c vp (or_introl eq_refl)). clear - P1 G1.
  induction (snd e) as [|c cl IH]; [reflexivity|]. inversion P1 as [|? ? Q1 Q2]; subst. cbn [map flat_map]. rewrite map_app, IH; auto.
  - destruct (c_pairs c) as [|vp [|? ?]] eqn:Ep; try discriminate Q1. cbn [map app]. f_equal. rewrite <- (G1 c vp); [reflexivity|now left|rewrite Ep; now left].
  - intros; eapply G1; eauto. now right.
Qed.

(** The distances read back are those of the pairs: the round is the one of the other branch. *)
Lemma nn_round_tree_same highest filled D g s : several (fst s) -> single_pairs (fst s) ->
  (forall e c vp, In e (fst s) -> In c (snd e) -> In vp (c_pairs c) -> g vp = D (fst e) (c_wrapper c)) ->
  nn_round_tree highest filled D s = nn_round highest filled g s.
Proof.
  destruct s as [cs settled]. cbn [fst]. intros S P G. unfold nn_round_tree, nn_round. destruct (negb _); [reflexivity|].
  rewrite (nn_round_entries_ext highest filled (tree_dists D cs) (fun i => match nth_error (all_pairs cs) i with Some vp => g vp | None => 0 end)); [reflexivity|].
  intros i Hi. unfold tree_dists. rewrite (stored_map D g cs S P G).
  destruct (nth_error (all_pairs cs) i) as [vp|] eqn:E.
  - apply nth_error_nth. now apply map_nth_error.
  - apply nth_error_None in E. apply nth_overflow. now rewrite map_length.
Qed.

(** No more distances are stored than there are pairs. *)
Lemma tree_stored_length D cs : Forall (fun e => Forall (fun c => c_pairs c <> []) (snd e)) cs -> (length (tree_stored D cs) <= get_pair_num cs)%nat.
Proof.
  unfold tree_stored, get_pair_num, all_pairs. induction 1 as [|e r H F IH]; [cbn; lia|]. cbn [flat_map]. rewrite !app_length.
  assert (L : (length (snd e) <= length (flat_map c_pairs (snd e)))%nat).
  { induction H as [|c cl Hc H' IH']; cbn [flat_map length]; [lia|]. rewrite app_length. destruct (c_pairs c); [congruence|]. cbn [length]. lia. }
  destruct (Nat.leb _ 1); [cbn [length]; lia|]. rewrite map_length. lia.
Qed.

Lemma same_point_spec p q : same_point p q = true <-> forall a, p a == q a.
Proof.
  unfold same_point, all3. rewrite !andb_true_iff, !Qeq_bool_iff. split.
  - intros H []; tauto.
  - intros H. repeat split; apply H.
Qed.
