(** Lemmas about JoinerModel.v. *)
From Coq Require Import ZArith QArith List Bool Lia Lqa Sorting.Sorted Permutation.
From Verif Require Import Arr AabModel AabProofs JoinModel JoinProofs NnExactProofs JoinerModel.
Import ListNotations.
Open Scope Z_scope.

(** The levels base, base + gap, ... up to top. *)
Fixpoint steps (n : nat) (l top gap : Z) : list Z :=
  match n with O => [] | S k => if top <? l then [] else l :: steps k (l + gap) top gap end.

Lemma lod_loop_steps gap top : 0 < gap -> top + gap <= int_max -> forall fuel l acc, int_min <= l -> (Z.to_nat (top - l + 1) <= fuel)%nat ->
  lod_loop fuel l top gap acc = Lods (rev acc ++ steps fuel l top gap).
Proof.
  intros G O. induction fuel as [|k IH]; intros l acc L F.
  - cbn [lod_loop steps]. destruct (Z.ltb_spec top l); [now rewrite app_nil_r|lia].
  - cbn [lod_loop steps]. destruct (Z.ltb_spec top l); [now rewrite app_nil_r|].
    destruct (Z.ltb_spec int_max (l + gap)); [lia|]. destruct (Z.ltb_spec (l + gap) int_min); [lia|]. cbn [orb].
    rewrite IH by lia. cbn [rev]. now rewrite <- app_assoc.
Qed.
Lemma steps_in gap top : 0 < gap -> forall n l x, (Z.to_nat (top - l + 1) <= n)%nat ->
  In x (steps n l top gap) <-> exists k, 0 <= k /\ x = l + k * gap /\ x <= top.
Proof.
  intros G. induction n as [|n IH]; intros l x F.
  - cbn [steps]. split; [intros []|intros (k & K & -> & H); nia].
  - cbn [steps]. destruct (Z.ltb_spec top l).
    + split; [intros []|intros (k & K & -> & H'); nia].
    + cbn [In]. rewrite (IH (l + gap)) by lia. split.
      * intros [<-|(k & K & -> & H')]; [exists 0; lia|exists (k + 1); lia].
      * intros (k & K & -> & H'). destruct (Z.eq_dec k 0) as [->|]; [left; lia|right; exists (k - 1); lia].
Qed.
Lemma steps_sorted gap top : 0 < gap -> forall n l, StronglySorted Z.lt (steps n l top gap) /\ Forall (fun x => l <= x <= top) (steps n l top gap).
Proof.
  intros G. induction n as [|n IH]; intros l; cbn [steps]; [repeat constructor|].
  destruct (Z.ltb_spec top l); [repeat constructor|]. destruct (IH (l + gap)) as [A B]. split; constructor; auto; try lia; eapply Forall_impl; [|exact B| |exact B]; cbn; lia.
Qed.
Lemma last_app_Z (l : list Z) x d : last (l ++ [x]) d = x.
Proof. induction l as [|y r IH]; [reflexivity|]. cbn [app]. destruct r; [reflexivity|]. exact IH. Qed.
Lemma in_last (l : list Z) d : l <> [] -> In (last l d) l.
Proof. induction l as [|x [|y r] IH]; intros H; [congruence|now left|]. right. apply IH. discriminate. Qed.
Lemma sorted_app (l : list Z) x : StronglySorted Z.lt l -> Forall (fun y => y < x) l -> StronglySorted Z.lt (l ++ [x]).
Proof.
  induction 1 as [|y r S IH H]; intros F; cbn [app]; [repeat constructor|]. inversion F; subst. constructor; [auto|].
  apply Forall_app. split; [exact H|repeat constructor; assumption].
Qed.

(** Sorted lists end with the largest. *)
Lemma last_largest (l : list Z) d : StronglySorted Z.lt l -> forall x, In x l -> x <= last l d.
Proof.
  induction 1 as [|y r S IH F]; intros x H; [destruct H|]. destruct r as [|z r]; [destruct H as [<-|[]]; cbn; lia|].
  change (last (y :: z :: r) d) with (last (z :: r) d). destruct H as [<-|H]; [|auto].
  rewrite Forall_forall in F. specialize (F z (or_introl eq_refl)). specialize (IH z (or_introl eq_refl)). lia.
Qed.

Lemma make_lods_ok base top gap : int_min <= base -> 0 < gap -> base <= top -> top + gap <= int_max -> forall fuel, (Z.to_nat (top - base + 1) <= fuel)%nat ->
  exists l, make_lods fuel base top gap = Lods l /\ StronglySorted Z.lt l /\ highest_lod l = top /\
  forall x, In x l <-> x = top \/ exists k, 0 <= k /\ x = base + k * gap /\ x <= top.
Proof.
  intros B G L O fuel F. unfold make_lods. rewrite (lod_loop_steps gap top G O fuel base [] B F). cbn [rev app].
  destruct (steps_sorted gap top G fuel base) as [S R]. pose proof (fun x => steps_in gap top G fuel base x F) as I.
  assert (Hb : In base (steps fuel base top gap)) by (apply I; exists 0; lia).
  set (s := steps fuel base top gap) in *. destruct s as [|s0 s'] eqn:Es; [destruct Hb|]. rewrite <- Es in *. clear Es s0 s' Hb.
  pose proof (proj2 (I base)) as Hb. assert (NE : s <> []). { intro E. rewrite E in Hb. apply Hb. exists 0. lia. }
  assert (Mx := in_last s 0 NE). rewrite Forall_forall in R.
  eexists. split; [reflexivity|]. destruct (Z.ltb_spec (last s 0) top).
  - split; [|split].
    + apply sorted_app; [exact S|]. apply Forall_forall. intros y Hy. pose proof (last_largest s 0 S y Hy). lia.
    + unfold highest_lod. destruct (s ++ [top]) as [|a b] eqn:E; [destruct s; discriminate E|]. rewrite <- E. apply last_app_Z.
    + intros x. rewrite in_app_iff, I. cbn [In]. intuition.
  - assert (T : last s 0 = top) by (specialize (R _ Mx); lia). split; [exact S|]. split.
    + unfold highest_lod. destruct s; [congruence|exact T].
    + intros x. rewrite I. split; [auto|]. intros [->|H']; [|exact H']. apply I. now rewrite <- T at 1.
Qed.

Lemma lod_loop_never top gap : gap <= 0 -> forall fuel l acc r, l <= top -> lod_loop fuel l top gap acc <> Lods r.
Proof.
  intros G. induction fuel as [|k IH]; intros l acc r L; cbn [lod_loop]; (destruct (Z.ltb_spec top l); [lia|]); [discriminate|].
  destruct (_ || _); [discriminate|]. apply IH. lia.
Qed.

(** * Merging *)
Open Scope Q_scope.
Definition same_context (x y : context) : Prop :=
  Forall2 Qeq (x_times x) (x_times y) /\ match x_nearest x, x_nearest y with Some a, Some b => a == b | None, None => True | _, _ => False end.

Lemma same_refl x : same_context x x.
Proof. split; [induction (x_times x); constructor; auto; reflexivity|]. destruct (x_nearest x); [reflexivity|exact I]. Qed.
Lemma same_trans x y z : same_context x y -> same_context y z -> same_context x z.
Proof.
  intros [A B] [C D]. split.
  - clear B D. revert C. generalize (x_times z). induction A as [|a b l l' E F IH]; intros l0 C; inversion C; subst; constructor; [now rewrite E|auto].
  - destruct (x_nearest x), (x_nearest y), (x_nearest z); try tauto. now rewrite B.
Qed.
Lemma add_times_same a a' b : Forall2 Qeq a a' -> Forall2 Qeq (add_times a b) (add_times a' b).
Proof. intros F. revert b. induction F as [|x y l l' E F IH]; intros [|z b]; cbn [add_times]; constructor; [now rewrite E|auto]. Qed.
Lemma add_times_swap a b c : Forall2 Qeq (add_times (add_times a b) c) (add_times (add_times a c) b).
Proof. revert b c. induction a as [|x a IH]; intros [|y b] [|z c]; cbn [add_times]; constructor; [ring|auto]. Qed.
Lemma merge_same g g' x : same_context g g' -> same_context (merge g x) (merge g' x).
Proof.
  intros [A B]. split; [now apply add_times_same|]. unfold merge. cbn [x_nearest]. unfold fmax.
  destruct (x_nearest g) as [p|], (x_nearest g') as [p'|]; try tauto. destruct (x_nearest x) as [q|]; [|exact I].
  destruct (Qltb_spec p q), (Qltb_spec p' q); lra.
Qed.
Lemma merge_swap g x y : same_context (merge (merge g x) y) (merge (merge g y) x).
Proof.
  split; [apply add_times_swap|]. unfold merge. cbn [x_nearest]. unfold fmax.
  destruct (x_nearest g) as [p|], (x_nearest x) as [q|], (x_nearest y) as [r|]; try exact I.
  - destruct (Qltb_spec p q), (Qltb_spec p r); try (destruct (Qltb_spec q r)); try (destruct (Qltb_spec r q)); try (destruct (Qltb_spec p r)); try (destruct (Qltb_spec p q)); try lra.
  - destruct (Qltb _ _); exact I.
  - destruct (Qltb _ _); exact I.
Qed.
Lemma fold_merge_same l : forall g g', same_context g g' -> same_context (fold_left merge l g) (fold_left merge l g').
Proof. induction l as [|x r IH]; intros g g' S; cbn [fold_left]; [exact S|]. apply IH. now apply merge_same. Qed.
Lemma fold_merge_perm l l' : Permutation l l' -> forall g, same_context (fold_left merge l g) (fold_left merge l' g).
Proof.
  induction 1 as [|x l l' P IH|x y l|l l' l'' P1 IH1 P2 IH2]; intros g; cbn [fold_left]; [apply same_refl|apply IH| |eapply same_trans; [apply IH1|apply IH2]].
  apply fold_merge_same, merge_swap.
Qed.

(** * The distance reported *)
Lemma fmax_spec a b x : fmax a b = Some x -> exists p q, a = Some p /\ b = Some q /\ p <= x /\ q <= x /\ (x = p \/ x = q).
Proof.
  unfold fmax. destruct a as [p|], b as [q|]; try (intro H; discriminate H). destruct (Qltb_spec p q); intro H; injection H as <-; exists p, q; intuition lra.
Qed.

Lemma round_nearest_ge highest filled f g cs : forall idx r x, reads f idx (all_pairs cs) g ->
  round_nearest highest filled f idx r cs = Some x ->
  (exists p, r = Some p /\ p <= x) /\
  (forall (N : wrapper -> nearest), (forall e, In e cs -> Forall (fun vp => n_dist (N (fst e)) <= maxdist (vp_dist vp) /\ n_dist (N (fst e)) <= g vp) (flat_map c_pairs (snd e))) ->
     forall e, In e cs -> n_dist (N (fst e)) <= x) /\
  (r = Some x \/ exists e d, In e cs /\ x = maxdist d /\ exists idx mc', nn_round_infos highest filled f idx None (snd e) = mc' /\ snd mc' = Some d /\ reads f idx (flat_map c_pairs (snd e)) g).
Proof.
  induction cs as [|e r' IH]; intros idx r x R E; cbn [round_nearest] in E.
  - subst r. split; [exists x; split; [reflexivity|lra]|]. split; [intros N _ e []|auto].
  - unfold all_pairs in R. cbn [flat_map] in R. apply reads_app in R as [R1 R2].
    destruct (round_infos 0 highest filled g f (snd e) idx None R1) as [mc0 [E1 _]].
    pose proof (round_info_min highest filled f g (snd e) idx None R1) as M. rewrite E1 in *. cbn [snd] in M. destruct M as (_ & M2 & M3).
    destruct (IH _ _ _ R2 E) as ((p & Ep & Lp) & I2 & I3). apply fmax_spec in Ep as (a & b & -> & Eb & La & Lb & Or).
    destruct mc0 as [d|]; [|discriminate Eb]. injection Eb as <-. destruct (M3 d eq_refl) as [Z|(vp & Hv & Fv & Ed)]; [discriminate Z|].
    split; [exists a; split; [reflexivity|lra]|]. split.
    + intros N H e' [<-|He']; [|apply (I2 N); auto; intros; apply H; now right].
      pose proof (H e (or_introl eq_refl)) as He. rewrite Forall_forall in He. destruct (He vp Hv) as [H1 H2].
      assert (n_dist (N (fst e)) <= maxdist d).
      { rewrite Ed. unfold refine_range. destruct highest; cbn [maxdist]; [exact H2|]. destruct (Qltb _ _); assumption. }
      lra.
    + destruct I3 as [I3|(e' & d' & A & B & C)].
      * apply fmax_spec in I3 as (a' & b' & Ea' & Eb' & _ & _ & Or'). injection Ea' as <-. injection Eb' as <-. destruct Or' as [->| ->]; [now left|]. right. exists e, d. split; [now left|]. split; [reflexivity|].
        exists idx. eexists. split; [exact E1|]. cbn [snd]. split; [reflexivity|exact R1].
      * right. exists e', d'. split; [now right|]. auto.
Qed.

Lemma refine_nearest_table rounds cs : fst (nn_refine_nearest rounds cs) = nn_refine rounds cs.
Proof.
  unfold nn_refine_nearest, nn_refine. generalize (drop_settled cs) (Some 0). induction rounds as [|r rs IH]; intros s q; cbn [fold_left]; [reflexivity|]. apply IH.
Qed.

Lemma nn_round_nearest_mono highest filled g cs r x : nn_round_nearest highest filled g cs r = Some x -> exists p, r = Some p /\ p <= x.
Proof.
  unfold nn_round_nearest. destruct (negb _); [intros ->; exists x; split; [reflexivity|lra]|]. intros E.
  apply (round_nearest_ge highest filled _ g cs 0 r x (reads_nth (all_pairs cs) g 0)) in E. tauto.
Qed.
Lemma nearest_mono rounds : forall s r x,
  snd (fold_left (fun s r => (nn_round (r_highest r) (r_filled r) (r_compute r) (fst s), nn_round_nearest (r_highest r) (r_filled r) (r_compute r) (fst (fst s)) (snd s))) rounds (s, r)) = Some x ->
  exists p, r = Some p /\ p <= x.
Proof.
  induction rounds as [|r0 rs IH]; intros s r x E; cbn [fold_left fst snd] in E; [exists x; split; [exact E|lra]|].
  apply IH in E as (p & E & L). apply nn_round_nearest_mono in E as (q & -> & L'). exists q. split; [reflexivity|lra].
Qed.
