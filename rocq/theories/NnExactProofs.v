(** What the last round of the nearest-neighbour join leaves: only candidates at the nearest
    distance (JoinModel.v). *)
From Coq Require Import QArith List Bool ZArith Lia Lqa.
From Verif Require Import Arr AabModel AabProofs OctreeModel OctreeProofs JoinModel JoinProofs.
Import ListNotations.
Open Scope Q_scope.

Lemma upd_pairs_kept ps d : snd (update_voxel_pair_list ps d) = true ->
  Forall (fun vp => range_lt d (vp_dist vp) = false) (fst (update_voxel_pair_list ps d)).
Proof.
  induction ps as [|x r IH]; cbn [update_voxel_pair_list]; [constructor|].
  destruct (range_gt _ _); [intro H; discriminate H|]. destruct (range_lt _ _) eqn:L; [exact IH|].
  destruct (update_voxel_pair_list r d) as [r' b]. cbn [fst snd] in *. constructor; auto.
Qed.

Lemma upd_cands_kept cl d : snd (update_candidate_list cl d) = true ->
  Forall (fun c => c_pairs c <> [] /\ Forall (fun vp => range_lt d (vp_dist vp) = false) (c_pairs c)) (fst (update_candidate_list cl d)).
Proof.
  induction cl as [|c r IH]; cbn [update_candidate_list]; [constructor|].
  destruct (range_gt _ _); [intro H; discriminate H|]. destruct (range_lt _ _); [exact IH|].
  pose proof (upd_pairs_kept (c_pairs c) d) as K. destruct (update_voxel_pair_list (c_pairs c) d) as [ps ok]. cbn [fst snd] in K.
  destruct ok; [|intro H; discriminate H]. destruct ps as [|p ps]; [exact IH|].
  destruct (update_candidate_list r d) as [r' b]. cbn [fst snd] in *. intro H. constructor; [|auto].
  cbn [c_pairs]. split; [discriminate|auto].
Qed.

(** The running minimum of a round. *)
Definition below (mc : option range) (x : Q) : Prop := exists d, mc = Some d /\ maxdist d <= x.

Lemma round_pair_min highest filled f g ps : forall idx mc, reads f idx ps g ->
  let mc' := snd (nn_round_pairs highest filled f idx mc ps) in
  (forall x, below mc x -> below mc' x) /\
  (forall vp, In vp ps -> filled vp = true -> below mc' (maxdist (refine_range highest (vp_dist vp) (g vp)))) /\
  (forall d, mc' = Some d -> mc = Some d \/ exists vp, In vp ps /\ filled vp = true /\ d = refine_range highest (vp_dist vp) (g vp)).
Proof.
  induction ps as [|vp r IH]; intros idx mc R; cbn [nn_round_pairs].
  - cbn. split; [auto|]. split; [intros vp []|auto].
  - apply reads_cons in R as [R1 R2]. unfold nn_round_pair. rewrite R1. destruct (filled vp) eqn:F.
    + set (d := refine_range highest (vp_dist vp) (g vp)).
      set (mc1 := match mc with None => Some d | Some m0 => if Qltb (maxdist d) (maxdist m0) then Some d else mc end).
      specialize (IH (S idx) mc1 R2). destruct (nn_round_pairs highest filled f (S idx) mc1 r) as [[r' i'] mc']. cbn [snd] in *.
      destruct IH as (I1 & I2 & I3).
      assert (B : forall x, below mc x -> below mc1 x).
      { intros x [e [-> E]]. unfold mc1. destruct (Qltb_spec (maxdist d) (maxdist e)); eexists; (split; [reflexivity|]); lra. }
      assert (D : below mc1 (maxdist d)).
      { unfold mc1. destruct mc as [e|]; [|exists d; split; [reflexivity|lra]]. destruct (Qltb_spec (maxdist d) (maxdist e)); eexists; (split; [reflexivity|]); lra. }
      split; [auto|]. split.
      * intros vp' [<-|H] F'; [apply I1; exact D|auto].
      * intros e E. destruct (I3 e E) as [E1|(vp' & A & B' & C)].
        -- unfold mc1 in E1. destruct mc as [e0|].
           ++ destruct (Qltb _ _); injection E1 as <-; [right; exists vp; cbn; auto|left; reflexivity].
           ++ injection E1 as <-. right. exists vp. cbn. auto.
        -- right. exists vp'. cbn. auto.
    + specialize (IH (S idx) mc R2). destruct (nn_round_pairs highest filled f (S idx) mc r) as [[r' i'] mc']. cbn [snd] in *.
      destruct IH as (I1 & I2 & I3). split; [auto|]. split.
      * intros vp' [<-|H] F'; [congruence|auto].
      * intros e E. destruct (I3 e E) as [E1|(vp' & A & B' & C)]; [auto|]. right. exists vp'. cbn. auto.
Qed.

Lemma round_info_min highest filled f g cl : forall idx mc, reads f idx (flat_map c_pairs cl) g ->
  let mc' := snd (nn_round_infos highest filled f idx mc cl) in
  (forall x, below mc x -> below mc' x) /\
  (forall vp, In vp (flat_map c_pairs cl) -> filled vp = true -> below mc' (maxdist (refine_range highest (vp_dist vp) (g vp)))) /\
  (forall d, mc' = Some d -> mc = Some d \/ exists vp, In vp (flat_map c_pairs cl) /\ filled vp = true /\ d = refine_range highest (vp_dist vp) (g vp)).
Proof.
  induction cl as [|c r IH]; intros idx mc R; cbn [nn_round_infos flat_map] in *.
  - cbn. split; [auto|]. split; [intros vp []|auto].
  - apply reads_app in R as [R1 R2].
    destruct (round_pairs 0 highest filled g f (c_pairs c) idx mc R1) as [mc1 [E1 _]].
    pose proof (round_pair_min highest filled f g (c_pairs c) idx mc R1) as P. rewrite E1 in *. cbn [snd] in P. destruct P as (P1 & P2 & P3).
    specialize (IH _ mc1 R2). destruct (nn_round_infos highest filled f (idx + length (c_pairs c)) mc1 r) as [[r' i'] mc']. cbn [snd] in *.
    destruct IH as (I1 & I2 & I3). split; [auto|]. split.
    + intros vp H F. apply in_app_or in H as [H|H]; auto.
    + intros d E. destruct (I3 d E) as [H|(vp & A & B & C)].
      * destruct (P3 d H) as [H'|(vp & A & B & C)]; [auto|]. right. exists vp. split; [apply in_or_app; auto|auto].
      * right. exists vp. split; [apply in_or_app; auto|auto].
Qed.

Lemma nn_entries_fst highest filled f cs : forall idx, map fst (nn_round_entries highest filled f idx cs) = map fst cs.
Proof.
  induction cs as [|e r IH]; intros idx; cbn [nn_round_entries map]; [reflexivity|].
  destruct (nn_round_infos highest filled f idx None (snd e)) as [[cl i] m]. cbn [map fst]. now rewrite IH.
Qed.
Lemma Forall_fst {A B} (P : A -> Prop) (l l' : list (A * B)) : incl (map fst l') (map fst l) -> Forall (fun e => P (fst e)) l -> Forall (fun e => P (fst e)) l'.
Proof.
  intros I F. apply Forall_forall. intros e He. apply (in_map fst) in He. apply I in He. apply in_map_iff in He as (e0 & <- & H). exact (proj1 (Forall_forall _ _) F e0 H).
Qed.

Section Last.
  Variable N : wrapper -> nearest.
  Variable tv : voxel -> voxel -> Q.
  Variable F : voxel -> voxel -> bool.
  Hypothesis exact : forall w, tv (n_a (N w)) (n_b (N w)) == n_dist (N w).
  Variable D : wrapper -> Prop.
  Hypothesis seen : forall w, D w -> F (n_a (N w)) (n_b (N w)) = true.
  Notation fl := (fun vp => F (vp_v1 vp) (vp_v2 vp)).
  Notation gv := (fun vp => tv (vp_v1 vp) (vp_v2 vp)).

  (** All pairs with data that are left are at the nearest distance. *)
  Definition only_nearest (e : centry) : Prop :=
    Forall (fun c => c_pairs c <> [] /\ Forall (fun vp => F (vp_v1 vp) (vp_v2 vp) = true -> tv (vp_v1 vp) (vp_v2 vp) == n_dist (N (fst e))) (c_pairs c)) (snd e).

  Lemma last_entries f cs : forall idx, reads f idx (all_pairs cs) gv -> Forall (entry_ok N) cs -> Forall (pairs_far N tv) cs -> Forall (fun e => D (fst e)) cs ->
    Forall only_nearest (nn_round_entries true fl f idx cs).
  Proof.
    induction cs as [|e r IH]; intros idx R O P Dm; cbn [nn_round_entries]; [constructor|].
    unfold all_pairs in R. cbn [flat_map] in R. apply reads_app in R as [R1 R2].
    inversion Dm as [|? ? De Dr]; subst. inversion O as [|? ? [G H] O']; subst. inversion P as [|? ? Pe P']; subst.
    set (m := n_dist (N (fst e))) in *.
    destruct (round_infos m true fl gv f (snd e) idx None R1) as [mc [E Hm]].
    pose proof (round_info_min true fl f gv (snd e) idx None R1) as M. rewrite E in *. cbn [snd] in M. destruct M as (_ & M2 & M3).
    constructor; [|apply IH; auto].
    assert (Pm : Forall (fun vp => m <= gv vp) (flat_map c_pairs (snd e))) by exact Pe.
    assert (G' := refined_good m true fl gv _ G Pm).
    destruct H as [c [Hc [Wc [Nc [vp [Hv [[P1 P2] Nv]]]]]]].
    assert (Hin : In vp (flat_map c_pairs (snd e))) by (apply in_flat_map; eauto).
    assert (Fv : fl vp = true) by (cbn beta; rewrite P1, P2; now apply seen).
    destruct (M2 vp Hin Fv) as [d [-> Ld]]. cbn [refine_range maxdist] in Ld. rewrite P1, P2, exact in Ld. fold m in Ld.
    destruct (M3 d eq_refl) as [X|(vp0 & In0 & F0 & ->)]; [discriminate X|]. cbn [refine_range maxdist mindist] in Ld.
    assert (D0 : gv vp0 == m). { rewrite Forall_forall in Pm. specialize (Pm vp0 In0). cbn beta in *. lra. }
    set (d := refine_range true (vp_dist vp0) (gv vp0)) in *.
    assert (Nd : near m d) by (unfold near, d; cbn [refine_range mindist]; cbn beta in D0; lra).
    pose proof (upd_cands_kept (map (refined_info true fl gv) (snd e)) d (upd_cands_ok m _ d Nd G')) as K.
    (* pairs left are refined pairs of the entry *)
    assert (US : forall cl d vp, In vp (flat_map c_pairs (fst (update_candidate_list cl d))) -> In vp (flat_map c_pairs cl)).
    { clear. induction cl as [|c r IH]; intros d vp; cbn [update_candidate_list]; [intros []|].
      destruct (range_gt _ _); [auto|]. destruct (range_lt _ _); [cbn [flat_map]; intros H; apply in_or_app; right; eauto|].
      pose proof (upd_pairs_sub (c_pairs c) d) as SU. destruct (update_voxel_pair_list (c_pairs c) d) as [ps ok]. cbn [fst] in SU.
      destruct ok.
      - destruct ps as [|p ps]; [cbn [flat_map]; intros H; apply in_or_app; right; eauto|].
        specialize (IH d vp). destruct (update_candidate_list r d) as [r' b]. cbn [fst flat_map c_pairs] in *.
        intros H. apply in_app_or in H as [H|H]; apply in_or_app; [left; auto|right; auto].
      - cbn [fst flat_map c_pairs]. intros H. apply in_app_or in H as [H|H]; apply in_or_app; auto. }
    unfold only_nearest. cbn [fst snd]. rewrite Forall_forall in K |- *. intros c' Hc'. destruct (K c' Hc') as [K1 K2].
    split; [exact K1|]. rewrite Forall_forall in K2 |- *. intros vp' Hv' Fv'.
    specialize (K2 vp' Hv').
    assert (I' : In vp' (flat_map c_pairs (map (refined_info true fl gv) (snd e)))) by (eapply US; apply in_flat_map; eauto).
    apply in_flat_map in I' as [c1 [Hc1 Hp1]]. apply in_map_iff in Hc1 as [c2 [<- Hc2]]. cbn [c_pairs refined_info] in Hp1.
    apply in_map_iff in Hp1 as [vp2 [<- Hp2]].
    assert (I2 : In vp2 (flat_map c_pairs (snd e))) by (apply in_flat_map; eauto).
    assert (Same : vp_v1 (refined true fl gv vp2) = vp_v1 vp2 /\ vp_v2 (refined true fl gv vp2) = vp_v2 vp2).
    { unfold refined. cbn beta. destruct (F (vp_v1 vp2) (vp_v2 vp2)); split; reflexivity. }
    destruct Same as [S1 S2]. rewrite S1, S2 in *. unfold refined in K2. rewrite Fv' in K2. cbn [vp_dist refine_range] in K2.
    unfold range_lt in K2. cbn [mindist] in K2. unfold d in K2. cbn [refine_range maxdist] in K2.
    rewrite Forall_forall in Pm. specialize (Pm vp2 I2). cbn beta in *.
    destruct (Qltb_spec (tv (vp_v1 vp0) (vp_v2 vp0)) (tv (vp_v1 vp2) (vp_v2 vp2))) as [Y|Y]; [discriminate K2|]. fold m. lra.
  Qed.

  Lemma last_round s : table_ok N s -> Forall (pairs_far N tv) (fst s) -> Forall (fun e => D (fst e)) (fst s) ->
    Forall only_nearest (fst (nn_round true fl gv s)).
  Proof.
    intros [T1 [T2 T3]] P Dm. destruct s as [cs settled]. cbn [fst snd] in *. unfold nn_round.
    destruct (negb (existsb fl (all_pairs cs))) eqn:X.
    - cbn [fst]. assert (C : cs = []).
      { destruct cs as [|e r]; [reflexivity|]. exfalso. inversion T1 as [|? ? [_ H] _]; subst. inversion Dm as [|? ? De Dr]; subst.
        destruct H as [c [Hc [Wc [Nc [vp [Hv [[P1 P2] Nv]]]]]]].
        apply negb_true_iff in X. assert (Y : existsb fl (all_pairs (e :: r)) = true); [|congruence].
        apply existsb_exists. exists vp. split; [|rewrite P1, P2; now apply seen].
        unfold all_pairs. cbn [flat_map]. apply in_or_app. left. apply in_flat_map. eauto. }
      subst cs. constructor.
    - set (f := fun i => match nth_error (all_pairs cs) i with Some vp => tv (vp_v1 vp) (vp_v2 vp) | None => 0 end).
      pose proof (last_entries f cs 0 (reads_nth (all_pairs cs) gv 0) T1 P Dm) as L.
      unfold drop_settled. cbn [fst]. now apply Forall_filter.
  Qed.

  Lemma last_refine rounds cs : Forall (round_sound tv) rounds -> Forall (entry_ok N) cs -> Forall (pairs_far N tv) cs -> Forall (fun e => D (fst e)) cs ->
    Forall only_nearest (fst (nn_refine (rounds ++ [Round true fl gv (fun _ => true)]) cs)).
  Proof.
    intros RS O P Dm. unfold nn_refine. rewrite fold_left_app. cbn [fold_left r_highest r_filled r_compute].
    assert (X : forall rs s, Forall (round_sound tv) rs -> table_ok N s -> Forall (pairs_far N tv) (fst s) -> Forall (fun e => D (fst e)) (fst s) ->
      table_ok N (fold_left (fun s r => nn_round (r_highest r) (r_filled r) (r_compute r) s) rs s) /\
      Forall (pairs_far N tv) (fst (fold_left (fun s r => nn_round (r_highest r) (r_filled r) (r_compute r) s) rs s)) /\
      Forall (fun e => D (fst e)) (fst (fold_left (fun s r => nn_round (r_highest r) (r_filled r) (r_compute r) s) rs s))).
    { induction rs as [|r rs IH]; intros s R T Ps Ds; cbn [fold_left]; [auto|]. inversion R; subst.
      destruct (nn_round_ok N tv exact r s) as [A [B _]]; auto. apply IH; auto.
      revert Ds. apply Forall_fst. destruct s as [c st]. unfold nn_round. cbn [fst]. destruct (negb _); [apply incl_refl|].
      intros w Hw. unfold drop_settled in Hw. cbn [fst] in Hw. apply in_map_iff in Hw as (e & <- & He). apply filter_In in He as [He _].
      apply (in_map fst) in He. now rewrite nn_entries_fst in He. }
    assert (DS : Forall (fun e => D (fst e)) (fst (drop_settled cs))) by (unfold drop_settled; cbn [fst]; now apply Forall_filter).
    destruct (X rounds (drop_settled cs) RS) as [A [B C]].
    - pose proof (drop_settled_ok N cs [] O (Forall_nil _) (Forall_nil _)) as Dk. cbn [app] in Dk. now rewrite <- surjective_pairing in Dk.
    - unfold drop_settled. cbn [fst]. now apply Forall_filter.
    - exact DS.
    - now apply last_round.
  Qed.
End Last.
