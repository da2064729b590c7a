(** Proofs about the trees kept with the meshes. *)
From Coq Require Import QArith List Bool Arith Lia.
From Verif Require Import AabModel OctreeModel JoinModel TreeDistModel TreeCacheModel.
Import ListNotations.

Lemma upd_same ms k m : upd ms k m k = m.
Proof. unfold upd. rewrite Nat.eqb_refl. reflexivity. Qed.
Lemma upd_other ms k m i : i <> k -> upd ms k m i = ms i.
Proof. intros H. unfold upd. apply Nat.eqb_neq in H. rewrite H. reflexivity. Qed.

(** Levels and data are left alone by trees. *)
Lemma get_tree_level ms k i : m_level (get_tree ms k i) = m_level (ms i) /\ m_data (get_tree ms k i) = m_data (ms i).
Proof.
  unfold get_tree. destruct (m_tree (ms k)); [auto|]. destruct (Nat.eq_dec i k) as [->|N]; [rewrite upd_same; auto|rewrite upd_other by exact N; auto].
Qed.
Lemma clear_tree_level ms k i : m_level (clear_tree ms k i) = m_level (ms i) /\ m_data (clear_tree ms k i) = m_data (ms i).
Proof.
  unfold clear_tree. destruct (Nat.eq_dec i k) as [->|N]; [rewrite upd_same; auto|rewrite upd_other by exact N; auto].
Qed.
Lemma get_tree_other ms k i : i <> k -> get_tree ms k i = ms i.
Proof. intros N. unfold get_tree. destruct (m_tree (ms k)); [reflexivity|apply upd_other; exact N]. Qed.
Lemma decode_tree lod ms k i : m_tree (decode lod ms k i) = m_tree (ms i).
Proof.
  unfold decode. destruct (existsb _ _); [reflexivity|]. destruct (Nat.eq_dec i k) as [->|N]; [rewrite upd_same; auto|rewrite upd_other by exact N; auto].
Qed.

(** No tree, or one of the current level. *)
Definition good (m : mesh) : Prop := m_tree m = None \/ m_tree m = Some (m_level m).
Lemma get_tree_good ms k i : good (ms i) -> good (get_tree ms k i).
Proof.
  intros G. destruct (Nat.eq_dec i k) as [->|N]; [|rewrite get_tree_other by exact N; exact G].
  unfold get_tree. destruct (m_tree (ms k)) eqn:E; [exact G|]. rewrite upd_same. right. reflexivity.
Qed.
Lemma get_tree_some ms k : good (ms k) -> m_tree (get_tree ms k k) = Some (m_level (ms k)).
Proof.
  intros G. unfold get_tree. destruct (m_tree (ms k)) eqn:E; [destruct G as [G|G]; congruence|]. rewrite upd_same. reflexivity.
Qed.

(** The vertices of one object. *)
Lemma ask_vertices_spec nv k1 k2 : forall ms, good (ms k2) ->
  let (ms', l) := ask_vertices nv k1 k2 ms in
  l = repeat (Ask k1 (m_level (ms k1)) k2 (m_level (ms k2)) (Some (m_level (ms k2)))) nv /\
  (forall i, m_level (ms' i) = m_level (ms i) /\ m_data (ms' i) = m_data (ms i)) /\ (forall i, i <> k2 -> ms' i = ms i).
Proof.
  induction nv as [|n IH]; intros ms G; cbn [ask_vertices]; [auto|].
  specialize (IH (get_tree ms k2) (get_tree_good _ _ _ G)). destruct (ask_vertices n k1 k2 (get_tree ms k2)) as [ms' l]. destruct IH as (-> & L & O).
  pose proof (get_tree_level ms k2) as GL.
  split; [|split].
  - cbn [repeat]. rewrite (get_tree_some _ _ G). rewrite !(proj1 (GL _)). reflexivity.
  - intros i. destruct (L i) as [-> ->]. apply GL.
  - intros i N. rewrite (O i N). apply get_tree_other; exact N.
Qed.

Definition info_key (c : cinfo) : nat := key (c_wrapper c).
(** What should be asked for one object and its candidates. *)
Definition ask_of (k1 l1 k2 l2 : nat) : ask := Ask k1 l1 k2 l2 (Some l2).

Lemma ask_infos_spec nv k1 cl : forall ms, (forall c, In c cl -> good (ms (info_key c))) ->
  let (ms', l) := ask_infos nv k1 cl ms in
  l = flat_map (fun c => repeat (ask_of k1 (m_level (ms k1)) (info_key c) (m_level (ms (info_key c)))) (nv k1 (m_level (ms k1)))) cl /\
  (forall i, m_level (ms' i) = m_level (ms i) /\ m_data (ms' i) = m_data (ms i)) /\
  (forall i, In i (map info_key cl) -> m_tree (ms' i) = None) /\ (forall i, ~ In i (map info_key cl) -> ms' i = ms i).
Proof.
  induction cl as [|c r IH]; intros ms G; cbn [ask_infos]; [cbn; repeat split; auto; contradiction|].
  fold (info_key c). pose proof (ask_vertices_spec (nv k1 (m_level (ms k1))) k1 (info_key c) ms (G c (or_introl eq_refl))) as V.
  destruct (ask_vertices _ k1 (info_key c) ms) as [ms1 l1]. destruct V as (-> & L1 & O1).
  set (ms2 := clear_tree ms1 (info_key c)).
  assert (L2 : forall i, m_level (ms2 i) = m_level (ms i) /\ m_data (ms2 i) = m_data (ms i)).
  { intros i. unfold ms2. destruct (clear_tree_level ms1 (info_key c) i) as [-> ->]. apply L1. }
  assert (C2 : m_tree (ms2 (info_key c)) = None) by (unfold ms2, clear_tree; rewrite upd_same; reflexivity).
  assert (O2 : forall i, i <> info_key c -> ms2 i = ms i).
  { intros i N. unfold ms2, clear_tree. rewrite upd_other by exact N. apply O1; exact N. }
  assert (G2 : forall c', In c' r -> good (ms2 (info_key c'))).
  { intros c' H. destruct (Nat.eq_dec (info_key c') (info_key c)) as [E|N]; [left; rewrite E; exact C2|rewrite (O2 _ N); apply G; right; exact H]. }
  specialize (IH ms2 G2). destruct (ask_infos nv k1 r ms2) as [ms3 l3]. destruct IH as (-> & L3 & T3 & O3).
  split; [|split; [|split]].
  - cbn [flat_map]. f_equal. rewrite (proj1 (L2 k1)). apply flat_map_ext. intros c'. rewrite (proj1 (L2 _)). reflexivity.
  - intros i. destruct (L3 i) as [-> ->]. apply L2.
  - intros i H. destruct (in_dec Nat.eq_dec i (map info_key r)) as [I|I]; [apply T3; exact I|].
    rewrite (O3 i I). cbn [map] in H. destruct H as [<-|H]; [exact C2|contradiction].
  - cbn [map]. intros i N. rewrite O3 by (intros H; apply N; right; exact H). apply O2. intros ->; apply N; left; reflexivity.
Qed.

(** Candidates of the objects that have several. *)
Definition several (e : centry) : bool := negb (Nat.leb (length (snd e)) 1).
Definition asked (cs : list centry) (k : nat) : Prop := exists e c, In e cs /\ several e = true /\ In c (snd e) /\ info_key c = k.

(** The questions of one round, for levels [lv]. *)
Definition asks (nv : nat -> nat -> nat) (lv : nat -> nat) (cs : list centry) : list ask :=
  flat_map (fun e => if several e then
    flat_map (fun c => repeat (ask_of (key (fst e)) (lv (key (fst e))) (info_key c) (lv (info_key c))) (nv (key (fst e)) (lv (key (fst e))))) (snd e) else []) cs.

Lemma flat_map_eq {A B} (f g : A -> list B) l : (forall x, In x l -> f x = g x) -> flat_map f l = flat_map g l.
Proof.
  induction l as [|a l IH]; intros H; [reflexivity|]. cbn. rewrite (H a (or_introl eq_refl)), IH; [reflexivity|]. intros; apply H; right; assumption.
Qed.

Lemma asks_ext nv lv lv' cs : (forall i, lv i = lv' i) -> asks nv lv cs = asks nv lv' cs.
Proof.
  intros E. unfold asks. apply flat_map_ext. intros e. destruct (several e); [|reflexivity]. apply flat_map_ext. intros c. rewrite !E. reflexivity.
Qed.

Lemma ask_entries_spec nv cs : forall ms, (forall k, asked cs k -> good (ms k)) ->
  let (ms', l) := ask_entries nv cs ms in
  l = asks nv (fun i => m_level (ms i)) cs /\
  (forall i, m_level (ms' i) = m_level (ms i) /\ m_data (ms' i) = m_data (ms i)) /\
  (forall k, asked cs k -> m_tree (ms' k) = None) /\ (forall k, ~ asked cs k -> ms' k = ms k).
Proof.
  induction cs as [|e r IH]; intros ms G; cbn [ask_entries].
  { split; [reflexivity|]. split; [auto|]. split; [intros k (e & c & [] & _)|auto]. }
  assert (Gr : forall k, asked r k -> good (ms k)).
  { intros k (e' & c & H). apply G. exists e', c. destruct H as (H & X). split; [right; exact H|exact X]. }
  destruct (Nat.leb (length (snd e)) 1) eqn:S.
  - specialize (IH ms Gr). destruct (ask_entries nv r ms) as [ms' l]. destruct IH as (-> & L & T & O).
    assert (Se : several e = false) by (unfold several; rewrite S; reflexivity).
    split; [unfold asks; cbn [flat_map]; rewrite Se; reflexivity|]. split; [exact L|].
    assert (K : forall k, asked (e :: r) k <-> asked r k).
    { intros k. split; intros (e' & c & H & X).
      - destruct H as [<-|H]; [destruct X; congruence|exists e', c; auto].
      - exists e', c. split; [right; exact H|exact X]. }
    split; intros k H; [apply T, K, H|apply O; intros Y; apply H, K, Y].
  - assert (Se : several e = true) by (unfold several; rewrite S; reflexivity).
    assert (Ge : forall c, In c (snd e) -> good (ms (info_key c))).
    { intros c H. apply G. exists e, c. split; [left; reflexivity|]. auto. }
    pose proof (ask_infos_spec nv (key (fst e)) (snd e) ms Ge) as V. destruct (ask_infos nv (key (fst e)) (snd e) ms) as [ms1 l1].
    destruct V as (-> & L1 & T1 & O1).
    assert (G1 : forall k, asked r k -> good (ms1 k)).
    { intros k H. destruct (in_dec Nat.eq_dec k (map info_key (snd e))) as [I|I]; [left; apply T1; exact I|rewrite (O1 k I); apply Gr; exact H]. }
    specialize (IH ms1 G1). destruct (ask_entries nv r ms1) as [ms2 l2]. destruct IH as (-> & L2 & T2 & O2).
    split; [|split; [|split]].
    + rewrite (asks_ext nv _ (fun i => m_level (ms i)) r) by (intros i; apply L1). unfold asks at 2. cbn [flat_map]. rewrite Se. reflexivity.
    + intros i. destruct (L2 i) as [-> ->]. apply L1.
    + intros k (e' & c & [<-|H] & X & Y & Z).
      * assert (I : In k (map info_key (snd e))) by (rewrite <- Z; apply in_map; exact Y).
        destruct (m_tree (ms2 k)) eqn:E; [|reflexivity].
        destruct (in_dec Nat.eq_dec k (flat_map (fun e => if several e then map info_key (snd e) else []) r)) as [J|J].
        { apply in_flat_map in J as (e' & J1 & J2). destruct (several e') eqn:S'; [|destruct J2]. apply in_map_iff in J2 as (c' & J2 & J3).
          rewrite T2 in E; [discriminate E|]. exists e', c'. auto. }
        rewrite O2 in E. { rewrite (T1 k I) in E. discriminate E. }
        intros (e' & c' & J1 & J2 & J3 & J4). apply J. apply in_flat_map. exists e'. split; [exact J1|]. rewrite J2, <- J4. apply in_map; exact J3.
      * apply T2. exists e', c. auto.
    + intros k N. rewrite O2. { apply O1. intros I. apply in_map_iff in I as (c & I1 & I2). apply N. exists e, c. split; [left; reflexivity|]. auto. }
      intros (e' & c' & J1 & J). apply N. exists e', c'. split; [right; exact J1|exact J].
Qed.

Lemma build_trees_spec l : forall ms,
  (forall i, m_level (fold_left get_tree l ms i) = m_level (ms i) /\ m_data (fold_left get_tree l ms i) = m_data (ms i)) /\
  (forall i, good (ms i) -> good (fold_left get_tree l ms i)) /\ (forall i, ~ In i l -> fold_left get_tree l ms i = ms i).
Proof.
  induction l as [|k l IH]; intros ms; cbn [fold_left]; [auto|]. destruct (IH (get_tree ms k)) as (L & G & O). split; [|split].
  - intros i. destruct (L i) as [-> ->]. apply get_tree_level.
  - intros i H. apply G, get_tree_good, H.
  - intros i N. rewrite O by (intros H; apply N; right; exact H). apply get_tree_other. intros ->; apply N; left; reflexivity.
Qed.

Lemma decode_all_tree lod l : forall ms i, m_tree (fold_left (decode lod) l ms i) = m_tree (ms i).
Proof. induction l as [|k l IH]; intros ms i; cbn [fold_left]; [reflexivity|]. rewrite IH. apply decode_tree. Qed.

(** Levels: nothing is decoded beyond the level, and data are of levels that have been reached. *)
Definition upto (lod : nat) (ms : meshes) : Prop := forall k, (m_level (ms k) <= lod)%nat /\ Forall (fun l => (l <= m_level (ms k))%nat) (m_data (ms k)).
Lemma decode_upto lod ms k : upto lod ms -> upto lod (decode lod ms k) /\ m_level (decode lod ms k k) = lod /\
  (forall i, m_level (ms i) = lod -> m_level (decode lod ms k i) = lod).
Proof.
  intros U. unfold decode. destruct (existsb _ _) eqn:E.
  - split; [exact U|]. split; [|auto]. apply existsb_exists in E as (l & I & E). apply Nat.eqb_eq in E. subst l.
    destruct (U k) as [U1 U2]. rewrite Forall_forall in U2. specialize (U2 _ I). lia.
  - assert (X : (if Nat.leb lod (m_level (ms k)) then m_level (ms k) else lod) = lod).
    { destruct (U k) as [U1 _]. destruct (Nat.leb_spec lod (m_level (ms k))); lia. }
    cbv zeta. rewrite X. split; [|split].
    + intros i. destruct (Nat.eq_dec i k) as [->|N]; [rewrite upd_same|rewrite upd_other by exact N; apply U]. cbn.
      split; [lia|]. constructor; [lia|]. destruct (U k) as [U1 U2]. eapply Forall_impl; [|exact U2]. cbn; intros; lia.
    + rewrite upd_same. reflexivity.
    + intros i H. destruct (Nat.eq_dec i k) as [->|N]; [rewrite upd_same; reflexivity|rewrite upd_other by exact N; exact H].
Qed.
Lemma decode_all_upto lod l : forall ms, upto lod ms -> upto lod (fold_left (decode lod) l ms) /\
  (forall i, In i l \/ m_level (ms i) = lod -> m_level (fold_left (decode lod) l ms i) = lod).
Proof.
  induction l as [|k l IH]; intros ms U; cbn [fold_left]; [split; [exact U|intros i [[]|H]; exact H]|].
  destruct (decode_upto lod ms k U) as (U' & K & O). destruct (IH _ U') as [U'' L]. split; [exact U''|].
  intros i [[<-|H]|H]; apply L; auto.
Qed.

(** Candidates only become fewer. *)
Definition from (e e' : centry) : Prop := fst e' = fst e /\ (length (snd e') <= length (snd e))%nat /\
  forall c', In c' (snd e') -> exists c, In c (snd e) /\ c_wrapper c' = c_wrapper c /\ (c_pairs c <> [] -> c_pairs c' <> []).
Definition sub_infos (cl cl' : list cinfo) : Prop := (length cl' <= length cl)%nat /\
  forall c', In c' cl' -> exists c, In c cl /\ c_wrapper c' = c_wrapper c /\ (c_pairs c <> [] -> c_pairs c' <> []).
Lemma sub_refl cl : sub_infos cl cl.
Proof. split; [lia|]. intros c H. exists c. auto. Qed.
Lemma sub_trans a b c : sub_infos a b -> sub_infos b c -> sub_infos a c.
Proof.
  intros [L1 H1] [L2 H2]. split; [lia|]. intros x I. destruct (H2 x I) as (y & J & W & P). destruct (H1 y J) as (z & K & W' & P').
  exists z. split; [exact K|]. split; [congruence|auto].
Qed.
Lemma sub_cons c c' r r' : c_wrapper c' = c_wrapper c -> (c_pairs c <> [] -> c_pairs c' <> []) -> sub_infos r r' -> sub_infos (c :: r) (c' :: r').
Proof.
  intros W P [L H]. split; [cbn; lia|]. intros x [<-|I]; [exists c; split; [left; reflexivity|auto]|].
  destruct (H x I) as (y & J & X). exists y. split; [right; exact J|exact X].
Qed.
Lemma sub_skip c r r' : sub_infos r r' -> sub_infos (c :: r) r'.
Proof. intros [L H]. split; [cbn; lia|]. intros x I. destruct (H x I) as (y & J & X). exists y. split; [right; exact J|exact X]. Qed.

Lemma nn_pairs_len hi fl ds ps : forall idx mc, length (fst (fst (nn_round_pairs hi fl ds idx mc ps))) = length ps.
Proof.
  induction ps as [|p r IH]; intros idx mc; [reflexivity|]. cbn [nn_round_pairs].
  repeat match goal with |- context [let '(_, _) := ?x in _] => destruct x eqn:? end.
  match goal with H : nn_round_pairs _ _ _ ?i ?m r = _ |- _ => specialize (IH i m); rewrite H in IH end. cbn in *. congruence.
Qed.
Lemma nonempty_len {A} (l l' : list A) : length l' = length l -> l <> [] -> l' <> [].
Proof. intros E N ->. destruct l; [contradiction|discriminate E]. Qed.
Lemma nn_infos_sub hi fl ds cl : forall idx mc, sub_infos cl (fst (fst (nn_round_infos hi fl ds idx mc cl))).
Proof.
  induction cl as [|c r IH]; intros idx mc; [apply sub_refl|]. cbn [nn_round_infos].
  pose proof (nn_pairs_len hi fl ds (c_pairs c) idx mc) as Lp. destruct (nn_round_pairs hi fl ds idx mc (c_pairs c)) as [[ps i1] m1].
  specialize (IH i1 m1). destruct (nn_round_infos hi fl ds i1 m1 r) as [[r' i2] m2]. cbn [fst] in *.
  apply sub_cons; [reflexivity| |exact IH]. cbn. apply nonempty_len; exact Lp.
Qed.
Lemma voxel_list_false ps d : snd (update_voxel_pair_list ps d) = false -> fst (update_voxel_pair_list ps d) <> [].
Proof.
  induction ps as [|p r IH]; cbn [update_voxel_pair_list]; [intros H; discriminate H|].
  destruct (range_gt d (vp_dist p)); [intros _ H; discriminate H|]. destruct (range_lt d (vp_dist p)); [exact IH|].
  destruct (update_voxel_pair_list r d). cbn. intros _ H; discriminate H.
Qed.
Lemma update_sub cl d : sub_infos cl (fst (update_candidate_list cl d)).
Proof.
  induction cl as [|c r IH]; cbn [update_candidate_list]; [apply sub_refl|].
  destruct (range_gt d (c_distance c)); [apply sub_refl|]. destruct (range_lt d (c_distance c)); [apply sub_skip, IH|].
  pose proof (voxel_list_false (c_pairs c) d) as V. destruct (update_voxel_pair_list (c_pairs c) d) as [ps ok]. cbn [fst snd] in V.
  destruct ok.
  - destruct ps as [|p ps]; [apply sub_skip, IH|]. destruct (update_candidate_list r d) as [r' b]. cbn [fst] in *.
    apply sub_cons; [reflexivity|intros _ H; discriminate H|exact IH].
  - cbn [fst]. apply sub_cons; [reflexivity|intros _; exact (V eq_refl)|apply sub_refl].
Qed.
Lemma from_sub e cl' : sub_infos (snd e) cl' -> from e (fst e, cl').
Proof. intros [L H]. split; [reflexivity|]. split; assumption. Qed.
Lemma nn_entries_from hi fl ds cs : forall idx e', In e' (nn_round_entries hi fl ds idx cs) -> exists e, In e cs /\ from e e'.
Proof.
  induction cs as [|e r IH]; intros idx e'; cbn [nn_round_entries]; [intros []|].
  pose proof (nn_infos_sub hi fl ds (snd e) idx None) as S. destruct (nn_round_infos hi fl ds idx None (snd e)) as [[cl i1] m1]. cbn [fst] in S.
  intros [<-|I].
  - exists e. split; [left; reflexivity|]. apply from_sub. destruct m1 as [d|]; [|exact S]. eapply sub_trans; [exact S|apply update_sub].
  - destruct (IH _ _ I) as (x & J & F). exists x. split; [right; exact J|exact F].
Qed.
Lemma within_pairs_len md hi fl ds ps : forall idx det, length (fst (fst (within_round_pairs md hi fl ds idx det ps))) = length ps.
Proof.
  induction ps as [|p r IH]; intros idx det; [reflexivity|]. cbn [within_round_pairs].
  set (h := if (negb det && fl p)%bool then _ else _). destruct h as [p' det'].
  specialize (IH (S idx) det'). destruct (within_round_pairs md hi fl ds (S idx) det' r) as [[r' i'] d']. cbn in *. congruence.
Qed.
Lemma within_infos_sub md hi fl ds cl : forall idx det, sub_infos cl (fst (within_round_infos md hi fl ds idx det cl)).
Proof.
  induction cl as [|c r IH]; intros idx det; [apply sub_refl|]. cbn [within_round_infos]. destruct det.
  - specialize (IH idx true). destruct (within_round_infos md hi fl ds idx true r) as [r' i']. cbn [fst] in *. apply sub_cons; auto.
  - pose proof (within_pairs_len md hi fl ds (c_pairs c) idx false) as Lp. destruct (within_round_pairs md hi fl ds idx false (c_pairs c)) as [[ps i1] d1].
    specialize (IH i1 d1). destruct (within_round_infos md hi fl ds i1 d1 r) as [r' i2]. cbn [fst] in *.
    apply sub_cons; [reflexivity| |exact IH]. cbn. apply nonempty_len; exact Lp.
Qed.
Lemma within_entries_from md hi fl ds cs : forall idx e', In e' (within_round_entries md hi fl ds idx cs) -> exists e, In e cs /\ from e e'.
Proof.
  induction cs as [|e r IH]; intros idx e'; cbn [within_round_entries]; [intros []|].
  pose proof (within_infos_sub md hi fl ds (snd e) idx false) as S. destruct (within_round_infos md hi fl ds idx false (snd e)) as [cl i1]. cbn [fst] in S.
  intros [<-|I].
  - exists e. split; [left; reflexivity|]. apply from_sub, S.
  - destruct (IH _ _ I) as (x & J & F). exists x. split; [right; exact J|exact F].
Qed.

(** The candidates after a round, for either join. *)
Definition next (nn : bool) (md : Q) (r : tround) (q : list centry * list centry) : list centry * list centry :=
  if nn then nn_round_tree (t_highest r) (t_filled r) (t_dist r) q else within_round_tree md (t_highest r) (t_filled r) (t_dist r) q.
Lemma next_from nn md r q e' : In e' (fst (next nn md r q)) -> exists e, In e (fst q) /\ from e e'.
Proof.
  assert (R : forall e, from e e) by (intros [w cl]; apply from_sub, sub_refl).
  destruct q as [cs out]. unfold next, nn_round_tree, within_round_tree, drop_settled, update_candidate_list_intersect.
  destruct nn, (negb _); cbn [fst]; intros I; try (exists e'; split; [exact I|apply R]).
  - apply filter_In in I as [I _]. eapply nn_entries_from; exact I.
  - apply filter_In in I as [I _]. eapply within_entries_from; exact I.
Qed.
Lemma several_from e e' : from e e' -> several e' = true -> several e = true.
Proof.
  intros (_ & L & _). unfold several. rewrite !negb_true_iff, !Nat.leb_gt. lia.
Qed.
Lemma asked_next nn md r q k : asked (fst (next nn md r q)) k -> asked (fst q) k.
Proof.
  intros (e' & c' & I & S & Ic & K). destruct (next_from _ _ _ _ _ I) as (e & J & F). pose proof (several_from _ _ F S) as S'.
  destruct F as (_ & _ & F). destruct (F c' Ic) as (c & Jc & W & _). exists e, c. split; [exact J|]. split; [exact S'|]. split; [exact Jc|].
  unfold info_key in *. congruence.
Qed.
Definition have_pairs (cs : list centry) : Prop := forall e c, In e cs -> In c (snd e) -> c_pairs c <> [].
Lemma pairs_next nn md r q : have_pairs (fst q) -> have_pairs (fst (next nn md r q)).
Proof.
  intros H e' c' I Ic. destruct (next_from _ _ _ _ _ I) as (e & J & _ & _ & F). destruct (F c' Ic) as (c & Jc & _ & P). apply P. exact (H e c J Jc).
Qed.

(** One round. *)
Definition no_trees (cs : list centry) (ms : meshes) : Prop := forall k, asked cs k -> m_tree (ms k) = None.
Definition has_data (r : tround) (cs : list centry) : bool := existsb (t_filled r) (all_pairs cs).

Lemma join_round_spec nn md nv r ms q : no_trees (fst q) ms ->
  let '((ms', q'), l) := join_round nn md nv r (ms, q) in
  q' = next nn md r q /\ no_trees (fst q') ms' /\
  (forall i, m_level (ms' i) = m_level (decode_all nn (t_lod r) (fst q) ms i) /\ m_data (ms' i) = m_data (decode_all nn (t_lod r) (fst q) ms i)) /\
  l = (if has_data r (fst q) then asks nv (fun i => m_level (decode_all nn (t_lod r) (fst q) ms i)) (fst q) else []).
Proof.
  intros N. unfold join_round. set (ms1 := decode_all nn (t_lod r) (fst q) ms).
  assert (N1 : no_trees (fst q) ms1).
  { intros k H. unfold ms1, decode_all. rewrite decode_all_tree. apply N, H. }
  fold (has_data r (fst q)). destruct (has_data r (fst q)) eqn:E; cbn [negb].
  - unfold build_trees. match goal with |- context [fold_left get_tree ?b ms1] => set (bl := b) end. destruct (build_trees_spec bl ms1) as (L & G & _).
    pose proof (ask_entries_spec nv (fst q) (fold_left get_tree bl ms1)) as A.
    destruct (ask_entries nv (fst q) (fold_left get_tree bl ms1)) as [ms2 l].
    destruct A as (-> & L2 & T & _). { intros k H. apply G. left. apply N1, H. }
    split; [reflexivity|]. split; [intros k H; apply T; eapply asked_next; exact H|]. split.
    + intros i. destruct (L2 i) as [-> ->]. apply L.
    + apply asks_ext. intros i. apply L.
  - split.
    + unfold next, nn_round_tree, within_round_tree. destruct q as [cs out]. cbn [fst] in E. unfold has_data in E. rewrite E. destruct nn; reflexivity.
    + split; [exact N1|]. split; [auto|reflexivity].
Qed.

(** The questions as they would be without keeping anything: the trees of the level of the round. *)
Fixpoint all_asks (nn : bool) (md : Q) (nv : nat -> nat -> nat) (rs : list tround) (q : list centry * list centry) : list (nat * ask) :=
  match rs with
  | [] => []
  | r :: rs' => (if has_data r (fst q) then map (pair (t_lod r)) (asks nv (fun _ => t_lod r) (fst q)) else []) ++ all_asks nn md nv rs' (next nn md r q)
  end.
Fixpoint rising (l : nat) (rs : list tround) : Prop := match rs with [] => True | r :: rs' => (l <= t_lod r)%nat /\ rising (t_lod r) rs' end.

Lemma decoded_level nn lod cs ms e c : upto lod ms -> have_pairs cs -> In e cs -> several e = true -> In c (snd e) ->
  m_level (decode_all nn lod cs ms (key (fst e))) = lod /\ m_level (decode_all nn lod cs ms (info_key c)) = lod.
Proof.
  intros U H I S Ic. unfold decode_all. match goal with |- context [fold_left (decode lod) ?b ms] => set (l := b) end. destruct (decode_all_upto lod l ms U) as [_ L].
  assert (K : forall k, k = key (fst e) \/ k = info_key c -> In k l).
  { intros k Hk. apply in_flat_map. exists e. split; [exact I|]. unfold several in S. apply negb_true_iff in S. rewrite S, andb_false_r.
    apply in_flat_map. exists c. split; [exact Ic|]. pose proof (H e c I Ic) as P. destruct (c_pairs c) as [|p ps]; [contradiction|]. cbn.
    destruct Hk as [->| ->]; auto. }
  split; apply L; left; apply K; auto.
Qed.
Lemma asks_level nn nv lod cs ms : upto lod ms -> have_pairs cs ->
  asks nv (fun i => m_level (decode_all nn lod cs ms i)) cs = asks nv (fun _ => lod) cs.
Proof.
  intros U H. unfold asks. apply flat_map_eq. intros e I. destruct (several e) eqn:S; [|reflexivity].
  apply flat_map_eq. intros c Ic. destruct (decoded_level nn lod cs ms e c U H I S Ic) as [-> ->]. reflexivity.
Qed.
Lemma upto_mono a b ms : (a <= b)%nat -> upto a ms -> upto b ms.
Proof. intros L U k. destruct (U k) as [U1 U2]. split; [lia|exact U2]. Qed.

Lemma join_rounds_spec nn md nv rs : forall ms q l0, rising l0 rs -> upto l0 ms -> have_pairs (fst q) -> no_trees (fst q) ms ->
  snd (join_rounds nn md nv rs (ms, q)) = all_asks nn md nv rs q /\ snd (fst (join_rounds nn md nv rs (ms, q))) = fold_left (fun q r => next nn md r q) rs q.
Proof.
  induction rs as [|r rs IH]; intros ms q l0 R U H N; [split; reflexivity|]. cbn [join_rounds all_asks fold_left].
  destruct R as [R1 R2]. apply (upto_mono _ _ _ R1) in U.
  pose proof (join_round_spec nn md nv r ms q N) as J. destruct (join_round nn md nv r (ms, q)) as [[ms' q'] l]. destruct J as (-> & N' & L & ->).
  assert (U' : upto (t_lod r) ms').
  { intros k. destruct (L k) as [-> ->]. unfold decode_all. apply decode_all_upto. exact U. }
  specialize (IH ms' (next nn md r q) (t_lod r) R2 U' (pairs_next _ _ _ _ H) N').
  destruct (join_rounds nn md nv rs (ms', next nn md r q)) as [s2 l2]. cbn [fst snd] in *. destruct IH as [-> ->].
  split; [|reflexivity]. f_equal. destruct (has_data r (fst q)); [|reflexivity]. f_equal. apply asks_level; assumption.
Qed.

(** Without any order of the levels: the tree is of the level the second mesh has. *)
Lemma join_rounds_current nn md nv rs : forall ms q, no_trees (fst q) ms ->
  Forall (fun x => a_tree (snd x) = Some (a_level2 (snd x))) (snd (join_rounds nn md nv rs (ms, q))).
Proof.
  induction rs as [|r rs IH]; intros ms q N; [constructor|]. cbn [join_rounds].
  pose proof (join_round_spec nn md nv r ms q N) as J. destruct (join_round nn md nv r (ms, q)) as [[ms' q'] l]. destruct J as (-> & N' & _ & ->).
  specialize (IH ms' _ N'). destruct (join_rounds nn md nv rs (ms', next nn md r q)) as [s2 l2]. cbn [snd] in *.
  apply Forall_app. split; [|exact IH]. destruct (has_data r (fst q)); [|constructor].
  apply Forall_forall. intros x I. apply in_map_iff in I as (a & <- & I). cbn [snd]. unfold asks in I. apply in_flat_map in I as (e & _ & I).
  destruct (several e); [|destruct I]. apply in_flat_map in I as (c & _ & I). apply repeat_spec in I. subst a. reflexivity.
Qed.

(** The nearest-neighbour join leaves no trees. *)
Lemma nn_round_clean md nv r (ms : meshes) q : (forall k, m_tree (ms k) = None) -> forall k, m_tree (fst (fst (join_round true md nv r (ms, q))) k) = None.
Proof.
  intros N k. unfold join_round. set (ms1 := decode_all true (t_lod r) (fst q) ms).
  assert (N1 : forall k, m_tree (ms1 k) = None) by (intros i; unfold ms1, decode_all; rewrite decode_all_tree; apply N).
  destruct (negb _); [exact (N1 k)|]. unfold build_trees. match goal with |- context [fold_left get_tree ?b ms1] => set (bl := b) end. destruct (build_trees_spec bl ms1) as (L & G & O).
  pose proof (ask_entries_spec nv (fst q) (fold_left get_tree bl ms1)) as A.
  destruct (ask_entries nv (fst q) (fold_left get_tree bl ms1)) as [ms2 l]. cbn [fst].
  destruct A as (_ & _ & T & O2). { intros i _. apply G. left. apply N1. }
  destruct (in_dec Nat.eq_dec k bl) as [I|I].
  - apply T. unfold bl in I. apply in_flat_map in I as (e & Ie & I). destruct (true && _)%bool eqn:S; [destruct I|]. apply in_map_iff in I as (c & K & Ic).
    exists e, c. split; [exact Ie|]. split; [unfold several; cbn in S; rewrite S; reflexivity|]. auto.
  - rewrite O2; [rewrite (O k I); apply N1|]. intros (e & c & Ie & S & Ic & K). apply I. apply in_flat_map. exists e. split; [exact Ie|].
    unfold several in S. apply negb_true_iff in S. rewrite S. cbn [andb]. apply in_map_iff. exists c. auto.
Qed.
