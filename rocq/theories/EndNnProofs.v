(** Proofs about [EndNnModel]: the join on stored distances is the join of [JoinModel] on values of pairs. *)
From Coq Require Import ZArith QArith List Bool Lia Arith.
From Verif Require Import Arr AabModel JoinModel JoinProofs NnExactProofs EndModel EndProofs EndDistModel EndNnModel SegDistModel.
Import ListNotations.
Open Scope nat_scope.

Lemma nn_pairs_idx highest filled f ps : forall idx mc, snd (fst (nn_round_pairs highest filled f idx mc ps)) = idx + length ps.
Proof.
  induction ps as [|vp r IH]; intros idx mc; cbn [nn_round_pairs length]; [cbn; lia|].
  unfold nn_round_pair. destruct (filled vp).
  - match goal with |- context [nn_round_pairs _ _ _ ?i ?x r] => specialize (IH i x); destruct (nn_round_pairs highest filled f i x r) as [[r' i'] x'] end. cbn [fst snd] in *. lia.
  - specialize (IH (S idx) mc). destruct (nn_round_pairs highest filled f (S idx) mc r) as [[r' i'] x']. cbn [fst snd] in *. lia.
Qed.
Lemma nn_infos_idx highest filled f cl : forall idx mc, snd (fst (nn_round_infos highest filled f idx mc cl)) = idx + length (flat_map c_pairs cl).
Proof.
  induction cl as [|c r IH]; intros idx mc; cbn [nn_round_infos flat_map length]; [cbn; lia|].
  pose proof (nn_pairs_idx highest filled f (c_pairs c) idx mc) as P. destruct (nn_round_pairs highest filled f idx mc (c_pairs c)) as [[ps i1] m1]. cbn [fst snd] in P.
  specialize (IH i1 m1). destruct (nn_round_infos highest filled f i1 m1 r) as [[r' i'] x']. cbn [fst snd] in *. rewrite app_length. lia.
Qed.
(** Only distances of pairs with data are looked at. *)
Definition agree (filled : vpair -> bool) (f g : nat -> Q) (idx : nat) (ps : list vpair) : Prop :=
  forall i vp, nth_error ps i = Some vp -> filled vp = true -> f (idx + i) = g (idx + i).
Lemma agree_app filled f g idx a b : agree filled f g idx (a ++ b) -> agree filled f g idx a /\ agree filled f g (idx + length a) b.
Proof.
  intros H. split; intros i vp E F.
  - apply (H i vp); [|exact F]. rewrite nth_error_app1; [exact E|]. apply nth_error_Some. congruence.
  - rewrite <- Nat.add_assoc. apply (H (length a + i) vp); [|exact F]. rewrite nth_error_app2 by lia. now replace (length a + i - length a) with i by lia.
Qed.
Lemma nn_pairs_ext highest filled f g ps : forall idx mc, agree filled f g idx ps -> nn_round_pairs highest filled f idx mc ps = nn_round_pairs highest filled g idx mc ps.
Proof.
  induction ps as [|vp r IH]; intros idx mc A; cbn [nn_round_pairs]; [reflexivity|].
  assert (E : nn_round_pair highest filled f idx mc vp = nn_round_pair highest filled g idx mc vp).
  { unfold nn_round_pair. destruct (filled vp) eqn:F; [|reflexivity]. specialize (A 0 vp eq_refl F). rewrite Nat.add_0_r in A. now rewrite A. }
  rewrite E. destruct (nn_round_pair highest filled g idx mc vp) as [[vp' idx'] mc'] eqn:En. assert (Ei : idx' = S idx) by (unfold nn_round_pair in En; destruct (filled vp); injection En; congruence).
  rewrite (IH idx' mc'); [reflexivity|]. subst idx'. intros i vp0 Ev F. specialize (A (S i) vp0 Ev F). now rewrite <- Nat.add_succ_comm in A.
Qed.
Lemma nn_infos_ext highest filled f g cl : forall idx mc, agree filled f g idx (flat_map c_pairs cl) -> nn_round_infos highest filled f idx mc cl = nn_round_infos highest filled g idx mc cl.
Proof.
  induction cl as [|c r IH]; intros idx mc A; cbn [nn_round_infos flat_map] in *; [reflexivity|]. apply agree_app in A as [A1 A2].
  rewrite (nn_pairs_ext highest filled f g _ idx mc A1). pose proof (nn_pairs_idx highest filled g (c_pairs c) idx mc) as P.
  destruct (nn_round_pairs highest filled g idx mc (c_pairs c)) as [[ps i1] m1]. cbn [fst snd] in P. subst i1. now rewrite (IH _ m1 A2).
Qed.
Lemma nn_entries_ext highest filled f g cs : forall idx, agree filled f g idx (all_pairs cs) -> nn_round_entries highest filled f idx cs = nn_round_entries highest filled g idx cs.
Proof.
  induction cs as [|e r IH]; intros idx A; cbn [nn_round_entries]; [reflexivity|]. unfold all_pairs in A. cbn [flat_map] in A. apply agree_app in A as [A1 A2].
  rewrite (nn_infos_ext highest filled f g _ idx None A1). pose proof (nn_infos_idx highest filled g (snd e) idx None) as P.
  destruct (nn_round_infos highest filled g idx None (snd e)) as [[cl i1] m1]. cbn [fst snd] in P. subst i1. now rewrite (IH _ A2).
Qed.

(** Nothing new comes into the table. *)
Definition sub_info (cl' cl : list cinfo) : Prop := forall c' vp', In c' cl' -> In vp' (c_pairs c') ->
  exists c vp, In c cl /\ c_wrapper c = c_wrapper c' /\ In vp (c_pairs c) /\ ends vp = ends vp'.
Definition sub_table (cs' cs : list centry) : Prop := forall e' c' vp', In e' cs' -> In c' (snd e') -> In vp' (c_pairs c') ->
  exists e c vp, In e cs /\ fst e = fst e' /\ In c (snd e) /\ c_wrapper c = c_wrapper c' /\ In vp (c_pairs c) /\ ends vp = ends vp'.
Lemma sub_info_trans a b c : sub_info a b -> sub_info b c -> sub_info a c.
Proof.
  intros H K c' vp' Hc Hv. destruct (H c' vp' Hc Hv) as (c1 & v1 & A & B & C & D). destruct (K c1 v1 A C) as (c2 & v2 & A2 & B2 & C2 & D2).
  exists c2, v2. split; [exact A2|]. split; [congruence|]. split; [exact C2|congruence].
Qed.
Lemma sub_table_trans a b c : sub_table a b -> sub_table b c -> sub_table a c.
Proof.
  intros H K e' c' vp' He Hc Hv. destruct (H e' c' vp' He Hc Hv) as (e1 & c1 & v1 & A & B & C & D & E & F). destruct (K e1 c1 v1 A C E) as (e2 & c2 & v2 & A2 & B2 & C2 & D2 & E2 & F2).
  exists e2, c2, v2. split; [exact A2|]. split; [congruence|]. split; [exact C2|]. split; [congruence|]. split; [exact E2|congruence].
Qed.
Lemma sub_table_refl cs : sub_table cs cs.
Proof. intros e c vp A B C. exists e, c, vp. auto 8. Qed.
Lemma sub_table_incl cs' cs : incl cs' cs -> sub_table cs' cs.
Proof. intros I e c vp A B C. exists e, c, vp. auto 8. Qed.
Lemma update_sub cl : forall d, sub_info (fst (update_candidate_list cl d)) cl.
Proof.
  induction cl as [|c r IH]; intros d c' vp' Hc Hv; cbn [update_candidate_list] in Hc; [destruct Hc|].
  assert (K : In c' (fst (update_candidate_list r d)) -> exists c0 vp, In c0 (c :: r) /\ c_wrapper c0 = c_wrapper c' /\ In vp (c_pairs c0) /\ ends vp = ends vp').
  { intros H. destruct (IH d c' vp' H Hv) as (c0 & vp & A & B). exists c0, vp. split; [now right|exact B]. }
  destruct (range_gt _ _); [exists c', vp'; auto|]. destruct (range_lt _ _); [auto|].
  pose proof (upd_pairs_sub (c_pairs c) d) as SU. destruct (update_voxel_pair_list (c_pairs c) d) as [ps ok]. cbn [fst] in SU.
  destruct ok.
  - destruct ps as [|p ps]; [auto|]. destruct (update_candidate_list r d) as [r' b]. cbn [fst] in *. destruct Hc as [<-|Hc]; [|auto]. cbn [c_pairs c_wrapper] in *.
    exists c, vp'. split; [now left|]. split; [reflexivity|]. split; [now apply SU|reflexivity].
  - cbn [fst] in Hc. destruct Hc as [<-|Hc]; [|exists c', vp'; split; [now right|auto]]. cbn [c_pairs c_wrapper] in *.
    exists c, vp'. split; [now left|]. split; [reflexivity|]. split; [now apply SU|reflexivity].
Qed.
Lemma nn_pairs_ends highest filled f ps : forall idx mc, map ends (fst (fst (nn_round_pairs highest filled f idx mc ps))) = map ends ps.
Proof.
  induction ps as [|vp r IH]; intros idx mc; cbn [nn_round_pairs]; [reflexivity|]. unfold nn_round_pair. destruct (filled vp).
  - match goal with |- context [nn_round_pairs _ _ _ ?i ?x r] => specialize (IH i x); destruct (nn_round_pairs highest filled f i x r) as [[r' i'] x'] end.
    cbn [fst map] in *. now rewrite IH.
  - specialize (IH (S idx) mc). destruct (nn_round_pairs highest filled f (S idx) mc r) as [[r' i'] x']. cbn [fst map] in *. now rewrite IH.
Qed.
Lemma nn_infos_sub highest filled f cl : forall idx mc, sub_info (fst (fst (nn_round_infos highest filled f idx mc cl))) cl.
Proof.
  induction cl as [|c r IH]; intros idx mc c' vp' Hc Hv; cbn [nn_round_infos] in Hc; [destruct Hc|].
  pose proof (nn_pairs_ends highest filled f (c_pairs c) idx mc) as P. destruct (nn_round_pairs highest filled f idx mc (c_pairs c)) as [[ps i1] m1]. cbn [fst] in P.
  specialize (IH i1 m1 c' vp'). destruct (nn_round_infos highest filled f i1 m1 r) as [[r' i'] x']. cbn [fst] in *. destruct Hc as [<-|Hc].
  - cbn [c_pairs c_wrapper] in *. apply (in_map ends) in Hv. rewrite P in Hv. apply in_map_iff in Hv as (vp & E & Hv). exists c, vp. split; [now left|auto].
  - destruct (IH Hc Hv) as (c0 & vp & A & B). exists c0, vp. split; [now right|exact B].
Qed.
Lemma nn_entries_sub highest filled f cs : forall idx, sub_table (nn_round_entries highest filled f idx cs) cs.
Proof.
  induction cs as [|e r IH]; intros idx e' c' vp' He Hc Hv; cbn [nn_round_entries] in He; [destruct He|].
  pose proof (nn_infos_sub highest filled f (snd e) idx None) as P. destruct (nn_round_infos highest filled f idx None (snd e)) as [[cl i1] m1]. cbn [fst] in P.
  destruct He as [<-|He].
  - cbn [snd fst] in *. assert (Q : sub_info (match m1 with None => cl | Some d => fst (update_candidate_list cl d) end) (snd e)).
    { destruct m1 as [d|]; [|exact P]. exact (sub_info_trans _ _ _ (update_sub cl d) P). }
    destruct (Q c' vp' Hc Hv) as (c & vp & A & B & C & D). exists e, c, vp. split; [now left|]. auto 8.
  - destruct (IH i1 e' c' vp' He Hc Hv) as (e0 & c0 & vp & A & B). exists e0, c0, vp. split; [now right|exact B].
Qed.
Lemma drop_settled_sub cs : incl (fst (drop_settled cs)) cs /\ incl (snd (drop_settled cs)) cs.
Proof. split; intros e H; unfold drop_settled in H; cbn [fst snd] in H; now apply filter_In in H as [H _]. Qed.
Lemma sub_within okp cs' cs : sub_table cs' cs -> within_ok okp cs -> within_ok okp cs'.
Proof.
  intros S W e x He Hx. unfold entry_ends in Hx. apply in_map_iff in Hx as (vp & <- & Hx). apply in_flat_map in Hx as (c & Hc & Hx).
  destruct (S e c vp He Hc Hx) as (e0 & c0 & v0 & A & B & C & D & F & G). rewrite <- G. apply (W e0); [exact A|]. unfold entry_ends. apply in_map. apply in_flat_map. eauto.
Qed.
Lemma within_ok_pair okp cs i vp : within_ok okp cs -> nth_error (all_pairs cs) i = Some vp -> okp (ends vp).
Proof.
  intros W E. apply nth_error_In in E. unfold all_pairs in E. apply in_flat_map in E as (e & He & E). apply (W e); [exact He|]. unfold entry_ends. now apply in_map.
Qed.

Section Levels.
  Variables (far : Q) (h : heap) (dist : Z -> list centry -> list dist_t) (top : Z) (val : Z -> vpair -> Q) (okp : voxel * voxel -> Prop) (all : list Z).
  Hypothesis Reads : forall lod cs i vp, In lod all -> within_ok okp cs -> nth_error (all_pairs cs) i = Some vp -> number far (nth_error (dist lod cs) i) = val lod vp.
  (** A round of [JoinModel] that does what the level does. *)
  Definition matches (lod : Z) (r : round) : Prop := In lod all /\ r_highest r = (lod =? top)%Z /\ r_filled r = has_edges h lod /\
    forall vp, okp (ends vp) -> has_edges h lod vp = true -> r_compute r vp = val lod vp.
  Lemma round_sub highest filled compute s : sub_table (fst (nn_round highest filled compute s)) (fst s) /\ sub_table (snd (nn_round highest filled compute s)) (fst s ++ snd s).
  Proof.
    destruct s as [cs settled]. cbn [fst snd]. unfold nn_round. destruct (negb (existsb filled (all_pairs cs))).
    - cbn [fst snd]. split; [apply sub_table_refl|]. apply sub_table_incl. intros x H. apply in_or_app. now right.
    - set (f := fun i : nat => _). pose proof (nn_entries_sub highest filled f cs 0) as S. destruct (drop_settled_sub (nn_round_entries highest filled f 0 cs)) as [D1 D2].
      destruct (drop_settled (nn_round_entries highest filled f 0 cs)) as [cs' out]. cbn [fst snd] in *. split.
      + exact (sub_table_trans _ _ _ (sub_table_incl _ _ D1) S).
      + intros e c vp He Hc Hv. apply in_app_or in He as [He|He].
        * exists e, c, vp. split; [apply in_or_app; now right|auto 6].
        * destruct (sub_table_trans _ _ _ (sub_table_incl _ _ D2) S e c vp He Hc Hv) as (e0 & c0 & v0 & A & B). exists e0, c0, v0. split; [apply in_or_app; now left|exact B].
  Qed.
  Lemma levels_refine lods rounds : Forall2 matches lods rounds -> forall s, within_ok okp (fst s) ->
    nn_levels far h dist top lods s = fold_left (fun s r => nn_round (r_highest r) (r_filled r) (r_compute r) s) rounds s.
  Proof.
    induction 1 as [|lod r lods rounds M F IH]; intros s W; cbn [nn_levels fold_left]; [reflexivity|].
    destruct M as (Hl & -> & Ef & Hc). rewrite Ef.
    destruct (Nat.eqb_spec (get_pair_num (fst s)) 0) as [Z|Z].
    - assert (P : all_pairs (fst s) = []) by (apply length_zero_iff_nil; exact Z).
      assert (G : forall rs, fold_left (fun s r => nn_round (r_highest r) (r_filled r) (r_compute r) s) rs s = s).
      { assert (St : forall a b c, nn_round a b c s = s) by (intros a b c; destruct s as [cs st]; cbn [fst] in P; unfold nn_round; now rewrite P).
        induction rs as [|x rs IHr]; cbn [fold_left]; [reflexivity|]. now rewrite St. }
      assert (St : nn_round (lod =? top)%Z (has_edges h lod) (r_compute r) s = s) by (destruct s as [cs st]; cbn [fst] in P; unfold nn_round; now rewrite P).
      now rewrite St, G.
    - destruct (negb (existsb (has_edges h lod) (all_pairs (fst s)))) eqn:Ex.
      + assert (St : nn_round (lod =? top)%Z (has_edges h lod) (r_compute r) s = s) by (destruct s as [cs st]; cbn [fst] in Ex; unfold nn_round; now rewrite Ex).
        rewrite St. now apply IH.
      + assert (St : nn_enter (lod =? top)%Z (has_edges h lod) (fun i => number far (nth_error (dist lod (fst s)) i)) s = nn_round (lod =? top)%Z (has_edges h lod) (r_compute r) s).
        { destruct s as [cs st]. cbn [fst] in *. unfold nn_enter, nn_round. cbn [fst snd]. rewrite Ex.
          rewrite (nn_entries_ext (lod =? top)%Z (has_edges h lod) (fun i => number far (nth_error (dist lod cs) i)) (fun i => match nth_error (all_pairs cs) i with Some vp => r_compute r vp | None => 0%Q end) cs 0); [reflexivity|].
          intros i vp E Fl. cbn [Nat.add]. rewrite (Reads lod cs i vp Hl W E), E. symmetry. apply Hc; [exact (within_ok_pair okp cs i vp W E)|exact Fl]. }
        rewrite St. apply IH. exact (sub_within okp _ _ (proj1 (round_sub _ _ _ s)) W).
  Qed.
  Lemma rounds_sub rounds : forall s, sub_table (fst (fold_left (fun s r => nn_round (r_highest r) (r_filled r) (r_compute r) s) rounds s)) (fst s).
  Proof.
    induction rounds as [|r rs IH]; intros s; cbn [fold_left]; [apply sub_table_refl|]. exact (sub_table_trans _ _ _ (IH _) (proj1 (round_sub _ _ _ s))).
  Qed.
End Levels.
