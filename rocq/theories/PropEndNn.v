(** C140, C141, C142: nearest neighbours from the edges of the objects to the answer. *)
From Coq Require Import ZArith QArith List Bool Lia Lqa Arith.
From Verif Require Import Arr AabModel AabProofs OctreeModel OctreeProofs JoinModel JoinProofs NnExactProofs BatchModel SegDistModel SegDistProofs EndModel EndProofs EndDistModel EndDistProofs EndNnModel EndNnProofs.
From Verif Require Import PropJoin PropTreeDist PropEnd PropEndDist.
From Verif Require VoxelModel PropVoxel PropBatch PropSegDist.
Import ListNotations.
Open Scope Z_scope.

(** * Specification *)
(** The nearest object of another one: points on two edges of theirs, the voxels that hold the edges. *)
Record neighbour := Neighbour { nb_obj : wrapper; nb_a : voxel; nb_b : voxel; nb_e1 : edge; nb_e2 : edge; nb_x : vec; nb_y : vec }.
Definition nb_dist (n : neighbour) : Q := dist2 (nb_x n) (nb_y n).
Record is_nearest (h : heap) (lod : Z) (t2 : tile) (E : wrapper -> list edge) (w1 : wrapper) (n : neighbour) : Prop := {
  nb_in : In (nb_obj n) (t_objs t2);
  nb_other : o_ptr (w_obj (nb_obj n)) <> o_ptr (w_obj w1);
  nb_va : In (nb_a n) (w_voxels w1);
  nb_vb : In (nb_b n) (w_voxels (nb_obj n));
  nb_l1 : long (nb_e1 n);
  nb_l2 : long (nb_e2 n);
  nb_f1 : near_front h lod (nb_a n) (nb_e1 n);
  nb_f2 : near_front h lod (nb_b n) (nb_e2 n);
  nb_on1 : on_edge (nb_e1 n) (nb_x n);
  nb_on2 : on_edge (nb_e2 n) (nb_y n);
  (** nearest on the lines of the two edges as well (see C41) *)
  nb_lines : forall X Y, on_line (nb_e1 n) X -> on_line (nb_e2 n) Y -> (nb_dist n <= dist2 X Y)%Q;
  (** no points on edges of any other object are nearer *)
  nb_least : forall w2 e1 e2 X Y, In w2 (t_objs t2) -> o_ptr (w_obj w2) <> o_ptr (w_obj w1) -> In e1 (E w1) -> In e2 (E w2) -> on_edge e1 X -> on_edge e2 Y ->
    (nb_dist n <= dist2 X Y)%Q }.
(** What is computed for two voxels at a level. *)
Definition pair_value (far : Q) (h : heap) (lod : Z) (v1 v2 : voxel) : Q := seg_value far h lod (VPair v1 v2 (Range 0 0) false).
Definition both_filled (h : heap) (lod : Z) (v1 v2 : voxel) : bool := (0 <? lsize h lod (v_ptr v1)) && (0 <? lsize h lod (v_ptr v2)).
(** Pairs of voxels that are compared. *)
Definition compared (t1 t2 : tile) (w1 w2 : wrapper) (v1 v2 : voxel) : Prop :=
  In w1 (t_objs t1) /\ In w2 (t_objs t2) /\ o_ptr (w_obj w2) <> o_ptr (w_obj w1) /\ In v1 (w_voxels w1) /\ In v2 (w_voxels w2).
Record sound_boxes (h : heap) (lod : Z) (t1 t2 : tile) : Prop := {
  sb_wf : forall w, In w (t_objs t1 ++ t_objs t2) -> wf (o_box (w_obj w)) /\ Forall (fun v => wf (v_box v) /\ within (v_box v) (o_box (w_obj w))) (w_voxels w);
  (** voxels contain their edges *)
  sb_edges : forall w v e, In w (t_objs t1 ++ t_objs t2) -> In v (w_voxels w) -> long e -> near_front h lod v e -> inside (fst e) (v_box v) /\ inside (snd e) (v_box v) }.
(** The upper ends of the ranges of boxes do their duty (they need not, C17). *)
Record sound_ranges (far : Q) (h : heap) (lod : Z) (t1 t2 : tile) (near : wrapper -> neighbour) : Prop := {
  sr_filled : forall w1 w2 v1 v2, compared t1 t2 w1 w2 v1 v2 -> both_filled h lod v1 v2 = true -> (pair_value far h lod v1 v2 <= maxdist (distance (v_box v1) (v_box v2)))%Q;
  sr_empty : forall w1 w2 v1 v2, compared t1 t2 w1 w2 v1 v2 -> both_filled h lod v1 v2 = false -> (nb_dist (near w1) <= maxdist (distance (v_box v1) (v_box v2)))%Q;
  sr_object : forall w1 w2, In w1 (t_objs t1) -> In w2 (t_objs t2) -> o_ptr (w_obj w2) <> o_ptr (w_obj w1) ->
    (nb_dist (near w1) <= maxdist (distance (o_box (w_obj w2)) (o_box (w_obj w1))))%Q }.
(** Coarser levels give larger distances (they need not, C115). *)
Definition shrinking (far : Q) (h : heap) (lods : list Z) (top : Z) (t1 t2 : tile) : Prop := forall lod w1 w2 v1 v2, In lod lods -> compared t1 t2 w1 w2 v1 v2 ->
  both_filled h lod v1 v2 = true -> both_filled h top v1 v2 = true /\ (pair_value far h top v1 v2 <= pair_value far h lod v1 v2)%Q.

(** * Values of pairs *)
Lemma front_near h lod v S e s : sholds h lod (v_ptr v) S -> In s (firstn (N.to_nat 10000%N) S) -> of_edge e s -> near_front h lod v e.
Proof.
  intros [_ Dv] Hs O. apply In_nth_error in Hs as (k & Ek). assert (Lk : (k < N.to_nat 10000)%nat).
  { assert (K : (k < length (firstn (N.to_nat 10000) S))%nat) by (apply nth_error_Some; congruence). rewrite firstn_length in K. lia. }
  exists (seg_buffer S), k. split; [exact Dv|]. split; [lia|].
  assert (Es : nth_error S k = Some s).
  { rewrite <- (firstn_skipn (N.to_nat 10000) S). rewrite nth_error_app1; [exact Ek|]. apply nth_error_Some. congruence. }
  clear -Es O. revert k Es. induction S as [|t S IH]; intros k Es; [destruct k; discriminate Es|]. destruct k as [|k].
  - injection Es as ->. destruct s as [[[a b] c] [[x y] z]]. exact O.
  - replace (6 * Datatypes.S k)%nat with (6 + 6 * k)%nat by lia. destruct t as [[[a b] c] [[x y] z]]. exact (IH k Es).
Qed.
Lemma inside_between p q b t X : inside p b -> inside q b -> (0 <= t <= 1)%Q -> (forall i, X i == (1 - t) * p i + t * q i)%Q -> inside X b.
Proof.
  intros P Q Ht V a. specialize (P a). specialize (Q a). specialize (V a). rewrite V.
  assert (A : (0 <= (1 - t) * (p a - bmin b a))%Q) by (apply Qmult_le_0_compat; lra). assert (B : (0 <= t * (q a - bmin b a))%Q) by (apply Qmult_le_0_compat; lra).
  assert (C : (0 <= (1 - t) * (bmax b a - p a))%Q) by (apply Qmult_le_0_compat; lra). assert (D : (0 <= t * (bmax b a - q a))%Q) by (apply Qmult_le_0_compat; lra).
  split; lra.
Qed.
Lemma last_in (lods : list Z) : lods <> [] -> In (last lods 0) lods.
Proof. intros H. destruct (exists_last H) as (l & a & ->). rewrite last_last. apply in_or_app. right. now left. Qed.
Section Setting.
  Variables (far : Q) (h : heap) (t1 t2 : tile).
  Lemma value_attained lod E w1 w2 v1 v2 : loaded_edges h lod t1 t2 E -> In w1 (t_objs t1) -> In w2 (t_objs t2) -> In v1 (w_voxels w1) -> In v2 (w_voxels w2) -> both_filled h lod v1 v2 = true ->
    exists e1 e2 X Y, In e1 (E w1) /\ In e2 (E w2) /\ near_front h lod v1 e1 /\ near_front h lod v2 e2 /\ on_edge e1 X /\ on_edge e2 Y /\ (pair_value far h lod v1 v2 == dist2 X Y)%Q.
  Proof.
    intros L I1 I2 V1 V2 Hn. unfold both_filled in Hn. apply andb_prop in Hn as [S1 S2]. apply Z.ltb_lt in S1, S2.
    assert (J1 : In w1 (t_objs t1 ++ t_objs t2)) by (apply in_or_app; now left). assert (J2 : In w2 (t_objs t1 ++ t_objs t2)) by (apply in_or_app; now right).
    destruct (carries_segs h lod _ _ (le_data _ _ _ _ _ L _ J1)) as [H1 F1]. destruct (carries_segs h lod _ _ (le_data _ _ _ _ _ L _ J2)) as [H2 F2].
    specialize (H1 _ V1). specialize (H2 _ V2). rewrite (lsize_sholds _ _ _ _ H1) in S1. rewrite (lsize_sholds _ _ _ _ H2) in S2.
    pose proof (proj1 (Forall_forall _ _) (le_long _ _ _ _ _ L _ J1)) as L1. pose proof (proj1 (Forall_forall _ _) (le_long _ _ _ _ _ L _ J2)) as L2.
    unfold pair_value, seg_value. cbn [vp_v1 vp_v2]. cbv zeta. set (a := segs_at h lod (v_ptr v1)) in *. set (b := segs_at h lod (v_ptr v2)) in *.
    pose proof (PropSegDist.segdist_single_minimum a b) as M. cbv zeta in M. destruct (SegDist_single _ _ _ _) as [d|] in M |- *; cbn [number].
    - destruct M as [(s1 & s2 & M1 & M2 & Es) _]. destruct (F1 _ s1 V1 (front_in _ _ _ M1)) as (e1 & G1 & O1). destruct (F2 _ s2 V2 (front_in _ _ _ M2)) as (e2 & G2 & O2).
      destruct (pair_attained e1 e2 s1 s2 d (L1 _ G1) (L2 _ G2) O1 O2 Es) as (X & Y & X1 & Y1 & V). exists e1, e2, X, Y.
      split; [exact G1|]. split; [exact G2|]. split; [exact (front_near h lod v1 a e1 s1 H1 M1 O1)|]. split; [exact (front_near h lod v2 b e2 s2 H2 M2 O2)|]. auto.
    - exfalso. destruct (front_nonempty a) as (s1 & M1); [intros Z; rewrite Z in S1; cbn [length] in S1; lia|].
      destruct (front_nonempty b) as (s2 & M2); [intros Z; rewrite Z in S2; cbn [length] in S2; lia|]. specialize (M s1 s2 M1 M2).
      destruct (F1 _ s1 V1 (front_in _ _ _ M1)) as (e1 & G1 & O1). destruct (F2 _ s2 V2 (front_in _ _ _ M2)) as (e2 & G2 & O2).
      exact (pair_some e1 e2 s1 s2 (L1 _ G1) (L2 _ G2) O1 O2 M).
  Qed.
  Variables (lods : list Z) (E : Z -> wrapper -> list edge) (near : wrapper -> neighbour).
  Notation top := (last lods 0).
  Hypothesis Some_lod : lods <> [].
  Hypothesis Loaded : forall lod, In lod lods -> loaded_edges h lod t1 t2 (E lod).
  Hypothesis Boxes : sound_boxes h top t1 t2.
  Hypothesis Ranges : sound_ranges far h top t1 t2 near.
  Hypothesis Shrink : shrinking far h lods top t1 t2.
  Hypothesis Near : forall w1, In w1 (t_objs t1) -> is_nearest h top t2 (E top) w1 (near w1).

  Lemma near_filled w1 : In w1 (t_objs t1) -> both_filled h top (nb_a (near w1)) (nb_b (near w1)) = true /\ (pair_value far h top (nb_a (near w1)) (nb_b (near w1)) == nb_dist (near w1))%Q.
  Proof.
    intros I1. pose proof (Near w1 I1) as N. pose proof (Loaded top (last_in lods Some_lod)) as L. set (n := near w1) in *.
    assert (J1 : In w1 (t_objs t1 ++ t_objs t2)) by (apply in_or_app; now left). assert (J2 : In (nb_obj n) (t_objs t1 ++ t_objs t2)) by (apply in_or_app; right; apply N).
    destruct (near_front_seg h top t1 t2 _ _ w1 _ L J1 (nb_va _ _ _ _ _ _ N) (nb_f1 _ _ _ _ _ _ N)) as (s1 & M1 & O1).
    destruct (near_front_seg h top t1 t2 _ _ (nb_obj n) _ L J2 (nb_vb _ _ _ _ _ _ N) (nb_f2 _ _ _ _ _ _ N)) as (s2 & M2 & O2).
    assert (F : both_filled h top (nb_a n) (nb_b n) = true).
    { unfold both_filled.
      rewrite (lsize_sholds _ _ _ _ (proj1 (carries_segs h top _ _ (le_data _ _ _ _ _ L _ J1)) _ (nb_va _ _ _ _ _ _ N))).
      rewrite (lsize_sholds _ _ _ _ (proj1 (carries_segs h top _ _ (le_data _ _ _ _ _ L _ J2)) _ (nb_vb _ _ _ _ _ _ N))).
      apply front_in in M1, M2. destruct (segs_at h top (v_ptr (nb_a n))); [destruct M1|]. destruct (segs_at h top (v_ptr (nb_b n))); [destruct M2|]. reflexivity. }
    split; [exact F|]. apply Qle_antisym.
    - destruct (single_at_most _ _ s1 s2 _ _ _ _ M1 M2 O1 O2 (nb_l1 _ _ _ _ _ _ N) (nb_l2 _ _ _ _ _ _ N) (nb_on1 _ _ _ _ _ _ N) (nb_on2 _ _ _ _ _ _ N) (nb_lines _ _ _ _ _ _ N)) as (d & E0 & Le).
      unfold pair_value, seg_value. cbn [vp_v1 vp_v2]. cbv zeta. rewrite E0. exact Le.
    - destruct (value_attained top (E top) w1 (nb_obj n) _ _ L I1 (nb_in _ _ _ _ _ _ N) (nb_va _ _ _ _ _ _ N) (nb_vb _ _ _ _ _ _ N) F) as (e1 & e2 & X & Y & G1 & G2 & _ & _ & X1 & Y1 & V).
      rewrite V. exact (nb_least _ _ _ _ _ _ N _ _ _ _ _ (nb_in _ _ _ _ _ _ N) (nb_other _ _ _ _ _ _ N) G1 G2 X1 Y1).
  Qed.
  (** The distances the join of [JoinModel] is about. *)
  Definition vdist (v1 v2 : voxel) : Q := if both_filled h top v1 v2 then pair_value far h top v1 v2 else maxdist (distance (v_box v1) (v_box v2)).
  Definition odist (w1 w2 : wrapper) : Q :=
    fold_right (fun p m => if Qle_bool (vdist (fst p) (snd p)) m then vdist (fst p) (snd p) else m) (maxdist (distance (o_box (w_obj w2)) (o_box (w_obj w1)))) (list_prod (w_voxels w1) (w_voxels w2)).
  Lemma least_of (m0 : Q) l : let m := fold_right (fun p m => if Qle_bool (vdist (fst p) (snd p)) m then vdist (fst p) (snd p) else m) m0 l in
    (m <= m0)%Q /\ (forall p, In p l -> m <= vdist (fst p) (snd p))%Q /\ (m = m0 \/ exists p, In p l /\ m = vdist (fst p) (snd p)).
  Proof.
    induction l as [|p l IH]; cbn [fold_right]; [split; [lra|]; split; [intros ? []|now left]|]. cbv zeta in IH. destruct IH as (A & B & C).
    set (m := fold_right _ m0 l) in *. destruct (Qleb_spec (vdist (fst p) (snd p)) m) as [Le|Gt]; (split; [|split]); [lra| | |lra| |].
    - intros q [<-|H]; [lra|]. specialize (B q H). lra.
    - right. exists p. split; [now left|reflexivity].
    - intros q [<-|H]; [lra|auto].
    - destruct C as [C|(q & H & C)]; [now left|]. right. exists q. split; [now right|exact C].
  Qed.
  Definition N (w : wrapper) : nearest := Nearest (nb_obj (near w)) (vdist (nb_a (near w)) (nb_b (near w))) (nb_a (near w)) (nb_b (near w)).
  Lemma N_dist w1 : In w1 (t_objs t1) -> (n_dist (N w1) == nb_dist (near w1))%Q.
  Proof. intros I. destruct (near_filled w1 I) as [F V]. cbn [N n_dist]. unfold vdist. rewrite F. exact V. Qed.
  Lemma vdist_facts w1 w2 v1 v2 : compared t1 t2 w1 w2 v1 v2 ->
    (mindist (distance (v_box v1) (v_box v2)) <= vdist v1 v2 <= maxdist (distance (v_box v1) (v_box v2)))%Q /\
    (mindist (distance (o_box (w_obj w2)) (o_box (w_obj w1))) <= vdist v1 v2)%Q /\ (nb_dist (near w1) <= vdist v1 v2)%Q.
  Proof.
    intros C. pose proof C as (I1 & I2 & Ne & V1 & V2).
    assert (J1 : In w1 (t_objs t1 ++ t_objs t2)) by (apply in_or_app; now left). assert (J2 : In w2 (t_objs t1 ++ t_objs t2)) by (apply in_or_app; now right).
    destruct (sb_wf _ _ _ _ Boxes w1 J1) as [B1 U1]. destruct (sb_wf _ _ _ _ Boxes w2 J2) as [B2 U2].
    destruct (proj1 (Forall_forall _ _) U1 v1 V1) as [W1 In1]. destruct (proj1 (Forall_forall _ _) U2 v2 V2) as [W2 In2].
    assert (K : exists p q, inside p (v_box v1) /\ inside q (v_box v2) /\ (dist2 p q <= vdist v1 v2)%Q).
    { unfold vdist. destruct (both_filled h top v1 v2) eqn:F.
      - destruct (value_attained top (E top) w1 w2 v1 v2 (Loaded top (last_in lods Some_lod)) I1 I2 V1 V2 F) as (e1 & e2 & X & Y & G1 & G2 & F1 & F2 & (t & Ht & VX) & (u & Hu & VY) & V).
        pose proof (proj1 (Forall_forall _ _) (le_long _ _ _ _ _ (Loaded top (last_in lods Some_lod)) w1 J1) e1 G1) as Lo1. pose proof (proj1 (Forall_forall _ _) (le_long _ _ _ _ _ (Loaded top (last_in lods Some_lod)) w2 J2) e2 G2) as Lo2.
        destruct (sb_edges _ _ _ _ Boxes w1 v1 e1 J1 V1 Lo1 F1) as [P1 Q1]. destruct (sb_edges _ _ _ _ Boxes w2 v2 e2 J2 V2 Lo2 F2) as [P2 Q2].
        exists X, Y. split; [exact (inside_between _ _ _ t X P1 Q1 Ht VX)|]. split; [exact (inside_between _ _ _ u Y P2 Q2 Hu VY)|lra].
      - destruct (mindist_attained (v_box v1) (v_box v2) W1 W2) as (p & q & P & Q & D). exists p, q. split; [exact P|]. split; [exact Q|].
        rewrite D. now apply mindist_le_maxdist. }
    destruct K as (p & q & P & Q & Le). split; [split|split].
    - pose proof (mindist_lower _ _ p q P Q). lra.
    - unfold vdist. destruct (both_filled h top v1 v2) eqn:F; [exact (sr_filled _ _ _ _ _ _ Ranges w1 w2 v1 v2 C F)|lra].
    - pose proof (mindist_lower _ _ q p (inside_within _ _ _ In2 Q) (inside_within _ _ _ In1 P)) as M.
      assert (Sy : (dist2 q p == dist2 p q)%Q) by (unfold dist2, sum3; ring). lra.
    - unfold vdist. destruct (both_filled h top v1 v2) eqn:F; [|exact (sr_empty _ _ _ _ _ _ Ranges w1 w2 v1 v2 C F)].
      destruct (value_attained top (E top) w1 w2 v1 v2 (Loaded top (last_in lods Some_lod)) I1 I2 V1 V2 F) as (e1 & e2 & X & Y & G1 & G2 & _ & _ & X1 & Y1 & V).
      rewrite V. exact (nb_least _ _ _ _ _ _ (Near w1 I1) _ _ _ _ _ I2 Ne G1 G2 X1 Y1).
  Qed.
  Lemma truth : nn_truth t1 t2 vdist odist N.
  Proof.
    split; [|split].
    - intros w1 w2 v1 v2 I1 I2 Ne V1 V2. destruct (vdist_facts w1 w2 v1 v2) as (A & _); [repeat split; assumption|]. split; [exact A|].
      pose proof (least_of (maxdist (distance (o_box (w_obj w2)) (o_box (w_obj w1)))) (list_prod (w_voxels w1) (w_voxels w2))) as (_ & K & _).
      exact (K (v1, v2) (in_prod _ _ _ _ V1 V2)).
    - intros w1 w2 I1 I2 Ne. pose proof (least_of (maxdist (distance (o_box (w_obj w2)) (o_box (w_obj w1)))) (list_prod (w_voxels w1) (w_voxels w2))) as (U & _ & K).
      fold (odist w1 w2) in U, K. split; [|exact U]. destruct K as [K|([v1 v2] & Hp & K)]; rewrite K.
      + apply mindist_le_maxdist; [exact (proj1 (sb_wf _ _ _ _ Boxes w2 (in_or_app _ _ _ (or_intror I2))))|exact (proj1 (sb_wf _ _ _ _ Boxes w1 (in_or_app _ _ _ (or_introl I1))))].
      + apply in_prod_iff in Hp as [V1 V2]. apply (vdist_facts w1 w2 v1 v2). repeat split; assumption.
    - intros w1 I1. pose proof (Near w1 I1) as Nw. pose proof (N_dist w1 I1) as Nd.
      assert (Low : forall w2, In w2 (t_objs t2) -> o_ptr (w_obj w2) <> o_ptr (w_obj w1) -> (n_dist (N w1) <= odist w1 w2)%Q).
      { intros w2 I2 Ne. pose proof (least_of (maxdist (distance (o_box (w_obj w2)) (o_box (w_obj w1)))) (list_prod (w_voxels w1) (w_voxels w2))) as (_ & _ & K).
        fold (odist w1 w2) in K. rewrite Nd. destruct K as [K|([v1 v2] & Hp & K)]; rewrite K.
        - exact (sr_object _ _ _ _ _ _ Ranges w1 w2 I1 I2 Ne).
        - apply in_prod_iff in Hp as [V1 V2]. apply (vdist_facts w1 w2 v1 v2). repeat split; assumption. }
      cbn [N n_obj n_a n_b]. split; [exact (nb_in _ _ _ _ _ _ Nw)|]. split; [exact (nb_other _ _ _ _ _ _ Nw)|]. split; [exact (nb_va _ _ _ _ _ _ Nw)|]. split; [exact (nb_vb _ _ _ _ _ _ Nw)|].
      split; [reflexivity|]. split; [|exact Low]. apply Qle_antisym.
      + pose proof (least_of (maxdist (distance (o_box (w_obj (nb_obj (near w1)))) (o_box (w_obj w1)))) (list_prod (w_voxels w1) (w_voxels (nb_obj (near w1))))) as (_ & K & _).
        exact (K (nb_a (near w1), nb_b (near w1)) (in_prod _ _ _ _ (nb_va _ _ _ _ _ _ Nw) (nb_vb _ _ _ _ _ _ Nw))).
      + exact (Low _ (nb_in _ _ _ _ _ _ Nw) (nb_other _ _ _ _ _ _ Nw)).
  Qed.
  (** The rounds of the levels. *)
  Definition comp (lod : Z) (vp : vpair) : Q :=
    if lod =? top then vdist (vp_v1 vp) (vp_v2 vp)
    else if Qle_bool (vdist (vp_v1 vp) (vp_v2 vp)) (seg_value far h lod vp) then seg_value far h lod vp else vdist (vp_v1 vp) (vp_v2 vp).
  Definition level_round (lod : Z) : round := Round (lod =? top) (has_edges h lod) (comp lod) (fun _ => true).
  Definition last_round_of : round := Round true (fun vp => both_filled h top (vp_v1 vp) (vp_v2 vp)) (fun vp => vdist (vp_v1 vp) (vp_v2 vp)) (fun _ => true).
  Definition okpair (x : voxel * voxel) : Prop := exists w1 w2, compared t1 t2 w1 w2 (fst x) (snd x).
  Lemma comp_matches lod : In lod lods -> matches h top (fun lod vp => seg_value far h lod vp) okpair lods lod (level_round lod).
  Proof.
    intros Hl. split; [exact Hl|]. split; [reflexivity|]. split; [reflexivity|]. intros vp (w1 & w2 & C) F. cbn [level_round r_compute fst snd ends] in *. unfold comp.
    destruct (Z.eqb_spec lod top) as [->|Ne].
    - unfold vdist. change (has_edges h top vp = true) with (both_filled h top (vp_v1 vp) (vp_v2 vp) = true) in F. rewrite F. reflexivity.
    - destruct (Shrink lod w1 w2 _ _ Hl C F) as [F' Le]. unfold vdist. rewrite F'.
      change (seg_value far h lod vp) with (pair_value far h lod (vp_v1 vp) (vp_v2 vp)). destruct (Qleb_spec (pair_value far h top (vp_v1 vp) (vp_v2 vp)) (pair_value far h lod (vp_v1 vp) (vp_v2 vp))); [reflexivity|contradiction].
  Qed.
  Lemma comp_sound lod : round_sound vdist (level_round lod).
  Proof.
    intros vp. cbn [level_round r_compute r_highest]. unfold comp. destruct (lod =? top).
    - split; [lra|intros _; reflexivity].
    - split; [|intros X; discriminate X]. destruct (Qleb_spec (vdist (vp_v1 vp) (vp_v2 vp)) (seg_value far h lod vp)); lra.
  Qed.
End Setting.

Lemma mbb_nn_start fuel t1 t2 cs : tile_ok t2 -> mbb_nn fuel t1 t2 = Some cs -> forall e c vp, In e cs -> In c (snd e) -> In vp (c_pairs c) ->
  compared t1 t2 (fst e) (c_wrapper c) (vp_v1 vp) (vp_v2 vp).
Proof.
  intros O E e c vp He Hc Hv. unfold mbb_nn in E. destruct (tile_octree fuel 400 t2) as [tree|] eqn:Et; cbn [bind] in E; [|discriminate E].
  destruct (tile_tree_facts fuel 400 t2 tree O Et) as [I B].
  destruct (map_opt _ (t_objs t1)) as [l|] eqn:El in E; cbn [bind] in E; [|discriminate E]. injection E as <-. apply filter_In in He as [He _].
  destruct (map_opt_in _ _ _ El) as [_ L2]. destruct (L2 e He) as [w1 [Hw Ew]]. destruct (nn_entry tree t2 w1) as [cl|] eqn:En; cbn [bind] in Ew; [|discriminate Ew].
  injection Ew as <-. cbn [fst snd] in *. unfold nn_entry in En. destruct (map_opt _ (skip_dups _ _ _)) as [m|] eqn:Em in En; cbn [bind] in En; [|discriminate En]. injection En as <-.
  set (P := fun w2 => In w2 (t_objs t2) /\ o_ptr (w_obj w2) <> o_ptr (w_obj w1)).
  assert (Fm : forall x, In x m -> P (fst x)).
  { intros x Hx. destruct (map_opt_in _ _ _ Em) as [_ M2]. destruct (M2 x Hx) as [[i r] [Hy Ey]]. cbn [fst snd] in Ey.
    apply (proj1 (skip_dups_in fst _ (-1))) in Hy. apply sort_by_in in Hy.
    pose proof (query_nn_stems (w_obj w1) (map w_obj (t_objs t2)) tree _ I (fun o H => H) ([], None) (Forall_nil _)) as S.
    rewrite Forall_forall in S. destruct (S _ Hy) as [o [Ho [Do Eo]]]. injection Eo as -> ->.
    apply in_map_iff in Ho as [w2 [<- Hw2]]. rewrite (tile_wrapper t2 w2 O Hw2) in Ey. cbn [bind] in Ey. injection Ey as <-. split; [exact Hw2|exact Do]. }
  assert (FR : forall l cl, (forall x, In x l -> P (fst x)) -> Forall (fun c => from w1 c /\ P (c_wrapper c)) cl ->
    Forall (fun c => from w1 c /\ P (c_wrapper c)) (fold_left (nn_candidate w1) l cl)).
  { induction l0 as [|x r IH]; intros cl Hx F; cbn [fold_left]; [exact F|]. apply IH; [intros; apply Hx; now right|].
    apply (nn_candidate_from w1 cl x P); [apply Hx; now left|exact F]. }
  destruct (proj1 (Forall_forall _ _) (FR m [] Fm (Forall_nil _)) c Hc) as [Fc [C1 C2]]. destruct (proj1 (Forall_forall _ _) Fc vp Hv) as [V1 V2]. repeat split; assumption.
Qed.
Lemma compared_known t1 t2 cs : (forall e c vp, In e cs -> In c (snd e) -> In vp (c_pairs c) -> compared t1 t2 (fst e) (c_wrapper c) (vp_v1 vp) (vp_v2 vp)) ->
  within_ok (okpair t1 t2) cs.
Proof.
  intros H e x He Hx. unfold entry_ends in Hx. apply in_map_iff in Hx as (vp & <- & Hx). apply in_flat_map in Hx as (c & Hc & Hx).
  exists (fst e), (c_wrapper c). exact (H e c vp He Hc Hx).
Qed.
Lemma okpair_known t1 t2 cs : within_ok (okpair t1 t2) cs -> within_ok (known (addresses t1 t2)) cs.
Proof.
  intros W e x He Hx. destruct (W e x He Hx) as (w1 & w2 & I1 & I2 & _ & V1 & V2). split.
  - apply (address_in t1 t2 w1); [apply in_or_app; now left|exact V1].
  - apply (address_in t1 t2 w2); [apply in_or_app; now right|exact V2].
Qed.

(** C140, the part that holds.  Whatever the threads do: if boxes contain what they stand for, the upper
    ends of their ranges are not too low and coarser levels give larger distances, then every object
    ends either erased with its nearest object as the only candidate, or left with several that are all
    as near as the nearest.  Missing: objects nearest inside of a facet, and the three conditions. *)
Theorem nn_end_nearest_partial : forall fuel far h dist lods t1 t2 E near rest settled, lods <> [] -> tile_ok t2 ->
  (forall lod, In lod lods -> loaded_edges h lod t1 t2 (E lod)) -> distances_of h dist ->
  sound_boxes h (last lods 0) t1 t2 -> sound_ranges far h (last lods 0) t1 t2 near -> shrinking far h lods (last lods 0) t1 t2 ->
  (forall w1, In w1 (t_objs t1) -> is_nearest h (last lods 0) t2 (E (last lods 0)) w1 (near w1)) ->
  nn_all fuel far h dist lods t1 t2 = Some (rest, settled) ->
  forall w1, In w1 (t_objs t1) ->
  (exists c, In (w1, [c]) settled /\ c_wrapper c = nb_obj (near w1)) \/
  (exists cl, In (w1, cl) rest /\ (exists c, In c cl /\ c_wrapper c = nb_obj (near w1)) /\
     forall c, In c cl -> c_pairs c <> [] /\ forall vp, In vp (c_pairs c) -> both_filled h (last lods 0) (vp_v1 vp) (vp_v2 vp) = true ->
       exists e1 e2 X Y, In e1 (E (last lods 0) w1) /\ In e2 (E (last lods 0) (c_wrapper c)) /\ on_edge e1 X /\ on_edge e2 Y /\ (dist2 X Y == nb_dist (near w1))%Q).
Proof.
  intros fuel far h dist lods t1 t2 E near rest settled Sl O L D B R Sh Nr Er w1 I1. unfold nn_all in Er.
  destruct (mbb_nn fuel t1 t2) as [cs|] eqn:Ec; cbn [bind] in Er; [|discriminate Er].
  set (top := last lods 0) in *.
  pose proof (mbb_nn_start fuel t1 t2 cs O Ec) as St.
  set (rounds := map (level_round far h lods) (removelast lods)).
  assert (Split : lods = removelast lods ++ [top]) by (apply app_removelast_last; exact Sl).
  assert (M : Forall2 (matches h top (fun lod vp => seg_value far h lod vp) (okpair t1 t2) lods) lods (rounds ++ [last_round_of far h lods])).
  { rewrite Split at 2. apply Forall2_app.
    - assert (K : forall lod, In lod (removelast lods) -> In lod lods) by (intros lod H; rewrite Split; apply in_or_app; now left).
      unfold rounds. revert K. generalize (removelast lods). induction l as [|lod r IH]; intros K; cbn [map]; [constructor|].
      constructor; [|apply IH; intros; apply K; now right]. apply (comp_matches far h t1 t2 lods Sh). apply K. now left.
    - constructor; [|constructor]. split; [exact (last_in lods Sl)|]. split; [cbn; symmetry; apply Z.eqb_refl|]. split; [reflexivity|].
      intros vp _ F. cbn [last_round_of r_compute]. unfold vdist. change (has_edges h top vp = true) with (both_filled h top (vp_v1 vp) (vp_v2 vp) = true) in F. fold top. rewrite F. reflexivity. }
  assert (W : within_ok (okpair t1 t2) (fst (drop_settled cs))).
  { apply (sub_within _ _ cs); [apply sub_table_incl; exact (proj1 (drop_settled_sub cs))|exact (compared_known t1 t2 cs St)]. }
  assert (Ev : (rest, settled) = nn_refine (rounds ++ [last_round_of far h lods]) cs).
  { unfold nn_refine. rewrite <- (levels_refine far h dist top (fun lod vp => seg_value far h lod vp) (okpair t1 t2) lods) with (lods := lods); [congruence| |exact M|exact W].
    intros lod cs' i vp Hl W' Ei. destruct (D lod cs') as (threads & Ht & Rn).
    rewrite (distances_exact h lod (segs_at h lod) (addresses t1 t2) (le_sizes _ _ _ _ _ (L lod Hl)) (loaded_sholds _ _ _ _ _ (L lod Hl)) (le_room _ _ _ _ _ (L lod Hl)) threads cs' _ i vp Ht Rn (okpair_known _ _ _ W') Ei).
    reflexivity. }
  assert (Wf : Forall (fun w => wf (o_box (w_obj w))) (t_objs t1)).
  { apply Forall_forall. intros w Hw. exact (proj1 (sb_wf _ _ _ _ B w (in_or_app _ _ _ (or_introl Hw)))). }
  pose proof (truth far h t1 t2 lods E near Sl L B R Nr) as T.
  assert (Rs : Forall (fun r => forall vp, (vdist far h lods (vp_v1 vp) (vp_v2 vp) <= r_compute r vp)%Q /\ (r_highest r = true -> (r_compute r vp == vdist far h lods (vp_v1 vp) (vp_v2 vp))%Q)) rounds).
  { apply Forall_forall. intros r Hr. apply in_map_iff in Hr as (lod & <- & _). exact (comp_sound far h lods lod). }
  assert (X : forall w, (vdist far h lods (n_a (N far h lods near w)) (n_b (N far h lods near w)) == n_dist (N far h lods near w))%Q) by (intros w; reflexivity).
  pose proof (nn_join_keeps_nearest fuel t1 t2 cs (vdist far h lods) (odist far h lods) (N far h lods near) (rounds ++ [last_round_of far h lods]) O Wf T Ec X) as Keep.
  specialize (Keep ltac:(apply Forall_app; split; [exact Rs|constructor; [|constructor]]; intros vp; cbn [last_round_of r_compute]; split; [lra|intros _; reflexivity]) w1 I1).
  rewrite <- Ev in Keep. cbn [fst snd] in Keep. destruct Keep as [(cl & c & vp & Hcl & Hc & Wc & _)|(c & Hc & Wc)]; [right|left; exists c; split; [exact Hc|exact Wc]].
  exists cl. split; [exact Hcl|]. split; [exists c; split; [exact Hc|exact Wc]|]. intros c' Hc'.
  assert (Hr : In (w1, cl) (fst (nn_refine (rounds ++ [last_round_of far h lods]) cs))) by (rewrite <- Ev; exact Hcl).
  pose proof (nn_last_round_only_nearest fuel t1 t2 cs (vdist far h lods) (odist far h lods) (N far h lods near) rounds (both_filled h top) O Wf T Ec X
    (fun w Hw => proj1 (near_filled far h t1 t2 lods E near Sl L Nr w Hw)) Rs w1 cl c' Hr Hc') as [Ne Eq].
  split; [exact Ne|]. intros vp' Hv' F. specialize (Eq vp' Hv' F).
  pose proof (rounds_sub (rounds ++ [last_round_of far h lods]) (drop_settled cs)) as Sub. change (fold_left _ _ _) with (nn_refine (rounds ++ [last_round_of far h lods]) cs) in Sub.
  destruct (Sub (w1, cl) c' vp' Hr Hc' Hv') as (e0 & c0 & v0 & A0 & B0 & C0 & D0 & E0 & F0). cbn [fst] in B0.
  destruct (St e0 c0 v0 (proj1 (drop_settled_sub cs) _ A0) C0 E0) as (K1 & K2 & _ & K4 & K5). injection F0 as G1 G2. rewrite B0, D0, G1, G2 in *.
  destruct (value_attained far h t1 t2 top (E top) w1 (c_wrapper c') _ _ (L top (last_in lods Sl)) K1 K2 K4 K5 F) as (e1 & e2 & X1 & Y1 & P1 & P2 & _ & _ & P3 & P4 & P5).
  exists e1, e2, X1, Y1. split; [exact P1|]. split; [exact P2|]. split; [exact P3|]. split; [exact P4|].
  rewrite <- P5, <- (N_dist far h t1 t2 lods E near Sl L Nr w1 I1), <- Eq. unfold vdist. fold top. rewrite F. reflexivity.
Qed.
Print Assumptions nn_end_nearest_partial.

(** * Witnesses *)
Definition levels_of (far : Q) (h : heap) (lods : list Z) : list round := map (fun lod => Round (lod =? last lods 0) (has_edges h lod) (seg_value far h lod) (fun _ => true)) lods.
Lemma nn_all_value fuel far h dist lods t1 t2 E cs : tile_ok t2 -> (forall lod, In lod lods -> loaded_edges h lod t1 t2 (E lod)) -> distances_of h dist ->
  mbb_nn fuel t1 t2 = Some cs -> nn_all fuel far h dist lods t1 t2 = Some (nn_refine (levels_of far h lods) cs).
Proof.
  intros O L D Ec. unfold nn_all. rewrite Ec. cbn [bind]. f_equal. unfold nn_refine.
  pose proof (compared_known t1 t2 cs (mbb_nn_start fuel t1 t2 cs O Ec)) as W.
  apply (levels_refine far h dist (last lods 0) (fun lod vp => seg_value far h lod vp) (okpair t1 t2) lods).
  - intros lod cs' i vp Hl W' Ei. destruct (D lod cs') as (threads & Ht & Rn).
    rewrite (distances_exact h lod (segs_at h lod) (addresses t1 t2) (le_sizes _ _ _ _ _ (L lod Hl)) (loaded_sholds _ _ _ _ _ (L lod Hl)) (le_room _ _ _ _ _ (L lod Hl)) threads cs' _ i vp Ht Rn (okpair_known _ _ _ W') Ei).
    reflexivity.
  - unfold levels_of. assert (K : forall l, incl l lods -> Forall2 (matches h (last lods 0) (fun lod vp => seg_value far h lod vp) (okpair t1 t2) lods) l (map (fun lod => Round (lod =? last lods 0) (has_edges h lod) (seg_value far h lod) (fun _ => true)) l)).
    { induction l as [|lod r IH]; intros I; cbn [map]; [constructor|]. constructor; [|apply IH; intros x Hx; apply I; now right].
      split; [apply I; now left|]. split; [reflexivity|]. split; [reflexivity|]. intros; reflexivity. }
    apply K. apply incl_refl.
  - apply (sub_within _ _ cs); [apply sub_table_incl; exact (proj1 (drop_settled_sub cs))|exact W].
Qed.
(** The answer is one object with one candidate. *)
Definition answer (s : list centry * list centry) (w1 w2 : wrapper) : Prop := exists c, In (w1, [c]) (snd s) /\ c_wrapper c = w2.
Definition only_answer (o : option (list centry * list centry)) (w1 w2 : wrapper) : Prop :=
  match o with Some (_, [(w, [c])]) => w = w1 /\ c_wrapper c = w2 | _ => False end.
Lemma only_answer_spec s w1 w2 : only_answer (Some s) w1 w2 -> answer s w1 w2.
Proof. destruct s as [r st]. cbn [only_answer]. destruct st as [|[w [|c [|]]] [|]]; try contradiction. intros [-> H]. exists c. split; [now left|exact H]. Qed.

Lemma front_is h lod v es e : near_front h lod v e -> long e -> VoxelModel.v_data (h (v_ptr v)) lod = Some (map Some (floats_of es)) ->
  exists e', In e' es /\ (forall i, fst e i == fst e' i)%Q /\ (forall i, snd e i == snd e' i)%Q.
Proof.
  intros (l & k & A & _ & B) Lo D. rewrite D in A.
  apply (f_equal (fun o => match o with Some l => map (fun o : option Q => match o with Some z => z | None => 0%Q end) l | None => [] end)) in A.
  cbv beta iota in A. rewrite !unwrap in A. rewrite <- A in B. clear -B Lo. revert k B.
  induction es as [|e' es IH]; intros k B; [unfold floats_of in B; cbn [flat_map] in B; rewrite skipn_nil in B; destruct B|].
  destruct k as [|k].
  - exists e'. split; [now left|]. unfold floats_of in B. cbn [flat_map app Nat.mul skipn firstn PropVoxel.edge_floats] in B.
    destruct B as (B1 & B2 & B3 & B4 & B5 & _ & B7). specialize (B7 Lo). split; intros []; symmetry; assumption.
  - destruct (IH k) as (x & H1 & H2); [|exists x; split; [now right|exact H2]].
    replace (6 * Datatypes.S k)%nat with (6 + 6 * k)%nat in B by lia. exact B.
Qed.
Lemma front_inside h lod v es b e : near_front h lod v e -> long e -> VoxelModel.v_data (h (v_ptr v)) lod = Some (map Some (floats_of es)) ->
  Forall (fun e => inside (fst e) b /\ inside (snd e) b) es -> inside (fst e) b /\ inside (snd e) b.
Proof.
  intros F Lo D A. destruct (front_is h lod v es e F Lo D) as (e' & H & P & Q). destruct (proj1 (Forall_forall _ _) A e' H) as [I J].
  split; intros a; [rewrite (P a); exact (I a)|rewrite (Q a); exact (J a)].
Qed.

(** ** Example: a triangle that crosses the first, and one at the distance 1/10 *)
Definition fD : facet := (v3 0 (-(1 # 10)) 0, v3 4 (-(1 # 10)) 1, v3 0 (-(4)) 1).
Definition box_D : aab := Aab (v3 (-(1)) (-(5)) (-(1))) (v3 5 0 2).
Definition wQ : wrapper := Wrapper (Wobj 1 0 (cube (-(1)) 5) 200) [Voxel 101 (cube (-(1)) 5)].
Definition wX : wrapper := Wrapper (Wobj 3 0 (cube (-(4)) 5) 200) [Voxel 201 (cube (-(4)) 5)].
Definition wD : wrapper := Wrapper (Wobj 4 1 box_D 200) [Voxel 202 box_D].
Definition tQ : tile := Tile (cube (-(1)) 5) [wQ].
Definition tX : tile := Tile (cube (-(5)) 5) [wX; wD].
Definition xh (v : nat) : VoxelModel.voxel := if Nat.eqb v 101 then three fA else if Nat.eqb v 201 then three fB else three fD.
Definition xM (w : wrapper) : list facet := match o_ptr (w_obj w) with 1%nat => [fA] | 3%nat => [fB] | _ => [fD] end.
Definition xE (w : wrapper) : list edge := flat_map sides (xM w).
Lemma long_xsides f : In f [fA; fB; fD] -> Forall long (sides f).
Proof. intros [<-|[<-|[<-|[]]]]; cbn [sides fA fB fD]; each; intros H; (specialize (H AX); vm_compute in H; discriminate H) || (specialize (H AY); vm_compute in H; discriminate H). Qed.
Lemma x_loaded : loaded_edges xh 100 tQ tX xE.
Proof.
  split.
  - intros v. unfold lsize, xh. destruct (Nat.eqb v 101), (Nat.eqb v 201); cbn; lia.
  - intros w Hw. cbn [t_objs tQ tX app In] in Hw. unfold xE.
    destruct Hw as [<-|[<-|[<-|[]]]]; cbn [xM wQ wX wD w_obj o_ptr flat_map app]; rewrite ?app_nil_r.
    + apply (three_carries xh wQ fA (Voxel 101 (cube (-(1)) 5))); [apply long_xsides; now left|reflexivity|reflexivity].
    + apply (three_carries xh wX fB (Voxel 201 (cube (-(4)) 5))); [apply long_xsides; now right; left|reflexivity|reflexivity].
    + apply (three_carries xh wD fD (Voxel 202 box_D)); [apply long_xsides; now right; right; left|reflexivity|reflexivity].
  - intros w Hw. cbn [t_objs tQ tX app In] in Hw. unfold xE.
    destruct Hw as [<-|[<-|[<-|[]]]]; cbn [xM wQ wX wD w_obj o_ptr flat_map app]; rewrite ?app_nil_r; apply long_xsides; cbn [In]; tauto.
  - vm_compute. reflexivity.
Qed.
Lemma tX_ok : tile_ok tX.
Proof.
  split.
  - intros [|[|i]] w E; cbn in E; [injection E as <-; reflexivity|injection E as <-; reflexivity|destruct i; discriminate E].
  - split; [each; vm_compute; discriminate|vm_compute; reflexivity].
  - each; intros []; vm_compute; reflexivity.
  - each; intros []; try split; vm_compute; discriminate.
  - each; intros []; try split; vm_compute; discriminate.
Qed.
Lemma x_answer far : only_answer (option_map (nn_refine (levels_of far xh [100])) (mbb_nn 10 tQ tX)) wQ wD.
Proof. vm_compute. split; reflexivity. Qed.
Lemma fA_half X : in_facet fA X -> (0 <= X AY)%Q.
Proof.
  cbn [in_facet fA]. intros (a & b & c & A & B & C & _ & V). rewrite (V AY). cbn [v3]. lra.
Qed.
Lemma fD_half X : in_facet fD X -> (X AY <= -(1 # 10))%Q.
Proof. cbn [in_facet fD]. intros (a & b & c & A & B & C & S & V). rewrite (V AY). cbn [v3]. lra. Qed.
(** C140 is false: an object crosses another one, but the answer is a third that it does not touch. *)
Theorem nn_end_crossing_refuted : exists fuel h t1 t2 E M w1 w2 w3 f1 f2 X m, tile_ok t2 /\ loaded_edges h 100 t1 t2 E /\
  (forall w, In w (t_objs t1 ++ t_objs t2) -> forall e, In e (E w) -> exists f, In f (M w) /\ side f e) /\
  In w1 (t_objs t1) /\ In w2 (t_objs t2) /\ In w3 (t_objs t2) /\ In f1 (M w1) /\ In f2 (M w2) /\ in_facet f1 X /\ in_facet f2 X /\
  (0 < m)%Q /\ (forall f f' Y Y', In f (M w1) -> In f' (M w3) -> in_facet f Y -> in_facet f' Y' -> m <= dist2 Y Y')%Q /\
  forall far dist, distances_of h dist -> exists s, nn_all fuel far h dist [100] t1 t2 = Some s /\ answer s w1 w3.
Proof.
  exists 10%nat, xh, tQ, tX, xE, xM, wQ, wX, wD, fA, fB, eX, (1 # 100). split; [exact tX_ok|]. split; [exact x_loaded|]. split.
  { intros w _ e H. unfold xE in H. apply in_flat_map in H as (f & Hf & H). exists f. split; [exact Hf|]. destruct f as [[p q] r]. cbn [sides In side] in *.
    destruct H as [<-|[<-|[<-|[]]]]; auto. }
  split; [now left|]. split; [now left|]. split; [now right; left|]. split; [now left|]. split; [now left|].
  destruct e_reports_sample as (_ & _ & X1 & X2 & _). split; [exact X1|]. split; [exact X2|]. split; [reflexivity|]. split.
  { intros f f' Y Y' [<-|[]] [<-|[]] H H'. apply fA_half in H. apply fD_half in H'. unfold dist2, sum3.
    pose proof (sq_nonneg (Y AX - Y' AX)). pose proof (sq_nonneg (Y AZ - Y' AZ)). pose proof (sq_mono (1 # 10) (Y AY - Y' AY)). lra. }
  intros far dist D. pose proof (x_answer far) as A. destruct (mbb_nn 10 tQ tX) as [cs|] eqn:Ec; [|destruct A]. cbn [option_map] in A.
  exists (nn_refine (levels_of far xh [100]) cs). split; [|exact (only_answer_spec _ _ _ A)].
  apply (nn_all_value 10 far xh dist [100] tQ tX (fun _ => xE) cs tX_ok); [intros lod [<-|[]]; exact x_loaded|exact D|exact Ec].
Qed.
Print Assumptions nn_end_crossing_refuted.

(** ** Example: an object on both sides of another one, far away *)
Definition rL : facet := (v3 (-(10)) 0 0, v3 (-(10)) 4 0, v3 (-(10)) 0 4).
Definition rR : facet := (v3 10 0 0, v3 10 4 0, v3 10 0 4).
Definition rQ : facet := (v3 0 0 0, v3 0 4 0, v3 0 0 4).
Definition rS : facet := (v3 3 0 0, v3 3 4 0, v3 3 0 4).
Definition pane (lo hi : Q) : aab := Aab (v3 lo 0 0) (v3 hi 4 4).
Definition yQ : wrapper := Wrapper (Wobj 1 0 (pane (-(1)) 1) 200) [Voxel 101 (pane (-(1)) 1)].
Definition yR : wrapper := Wrapper (Wobj 3 0 (pane (-(10)) 10) 200) [Voxel 201 (pane (-(10)) 10)].
Definition yS : wrapper := Wrapper (Wobj 4 1 (pane 2 4) 200) [Voxel 202 (pane 2 4)].
Definition uQ : tile := Tile (pane (-(1)) 1) [yQ].
Definition uR : tile := Tile (pane (-(10)) 10) [yR; yS].
Definition six_edges (f g : facet) : VoxelModel.voxel :=
  VoxelModel.Voxel None None (fun lod => if lod =? 100 then Some (map Some (floats_of (sides f ++ sides g))) else None) (fun lod => if lod =? 100 then Some 6 else None).
Definition yh (v : nat) : VoxelModel.voxel := if Nat.eqb v 101 then three rQ else if Nat.eqb v 201 then six_edges rL rR else three rS.
Definition yM (w : wrapper) : list facet := match o_ptr (w_obj w) with 1%nat => [rQ] | 3%nat => [rL; rR] | _ => [rS] end.
Definition yE (w : wrapper) : list edge := flat_map sides (yM w).
Lemma long_ysides f : In f [rQ; rL; rR; rS] -> Forall long (sides f).
Proof. intros [<-|[<-|[<-|[<-|[]]]]]; cbn [sides rQ rL rR rS]; each; intros H; (specialize (H AY); vm_compute in H; discriminate H) || (specialize (H AZ); vm_compute in H; discriminate H). Qed.
Lemma six_carries (h : heap) w f g v : Forall long (sides f ++ sides g) -> w_voxels w = [v] -> h (v_ptr v) = six_edges f g -> carries_edges h 100 w (sides f ++ sides g).
Proof.
  intros Lg E S.
  exists [map (fun e : edge => [fst e AX; fst e AY; fst e AZ; snd e AX; snd e AY; snd e AZ]) (sides f ++ sides g)], (map (fun e : edge => [fst e AX; fst e AY; fst e AZ; snd e AX; snd e AY; snd e AZ]) (sides f ++ sides g)).
  split; [|split].
  - rewrite E. constructor; [|constructor]. rewrite S. split; cbn [six_edges VoxelModel.v_size VoxelModel.v_data Z.eqb Pos.eqb].
    + destruct f as [[p q] r], g as [[p' q'] r']. reflexivity.
    + unfold floats_of. rewrite flat_map_concat_map. reflexivity.
  - clear -Lg. induction (sides f ++ sides g) as [|e l IH]; cbn [map]; [constructor|]. inversion Lg; subst. constructor; [now apply side_floats|now apply IH].
  - cbn [concat]. rewrite app_nil_r. apply Permutation.Permutation_refl.
Qed.
Lemma y_loaded : loaded_edges yh 100 uQ uR yE.
Proof.
  split.
  - intros v. unfold lsize, yh. destruct (Nat.eqb v 101), (Nat.eqb v 201); cbn; lia.
  - intros w Hw. cbn [t_objs uQ uR app In] in Hw. unfold yE.
    destruct Hw as [<-|[<-|[<-|[]]]]; cbn [yM yQ yR yS w_obj o_ptr flat_map]; rewrite ?app_nil_r.
    + apply (three_carries yh yQ rQ (Voxel 101 (pane (-(1)) 1))); [apply long_ysides; now left|reflexivity|reflexivity].
    + apply (six_carries yh yR rL rR (Voxel 201 (pane (-(10)) 10))); [apply Forall_app; split; apply long_ysides; cbn [In]; tauto|reflexivity|reflexivity].
    + apply (three_carries yh yS rS (Voxel 202 (pane 2 4))); [apply long_ysides; cbn [In]; tauto|reflexivity|reflexivity].
  - intros w Hw. cbn [t_objs uQ uR app In] in Hw. unfold yE.
    destruct Hw as [<-|[<-|[<-|[]]]]; cbn [yM yQ yR yS w_obj o_ptr flat_map]; rewrite ?app_nil_r; [|apply Forall_app; split|]; apply long_ysides; cbn [In]; tauto.
  - vm_compute. reflexivity.
Qed.
Lemma uR_ok : tile_ok uR.
Proof.
  split.
  - intros [|[|i]] w E; cbn in E; [injection E as <-; reflexivity|injection E as <-; reflexivity|destruct i; discriminate E].
  - split; [each; vm_compute; discriminate|vm_compute; reflexivity].
  - each; intros []; vm_compute; reflexivity.
  - each; intros []; try split; vm_compute; discriminate.
  - each; intros []; try split; vm_compute; discriminate.
Qed.
Lemma y_answer far : only_answer (option_map (nn_refine (levels_of far yh [100])) (mbb_nn 10 uQ uR)) yQ yR.
Proof. vm_compute. split; reflexivity. Qed.
(** C141 is false: the box of an object lies around another one, its surface far away; the filter takes
    the distance of the centres for an upper bound and drops the object that is nearest. *)
Theorem nn_end_around_refuted : exists fuel h t1 t2 E M w1 w2 w3 f1 f2 X Y m, tile_ok t2 /\ loaded_edges h 100 t1 t2 E /\ sound_boxes h 100 t1 t2 /\
  (forall w, In w (t_objs t1 ++ t_objs t2) -> forall e, In e (E w) -> exists f, In f (M w) /\ side f e) /\
  In w1 (t_objs t1) /\ In w2 (t_objs t2) /\ In w3 (t_objs t2) /\ In f1 (M w1) /\ In f2 (M w2) /\ in_facet f1 X /\ in_facet f2 Y /\
  (dist2 X Y < m)%Q /\ (forall f f' X Y, In f (M w1) -> In f' (M w3) -> in_facet f X -> in_facet f' Y -> m <= dist2 X Y)%Q /\
  forall far dist, distances_of h dist -> exists s, nn_all fuel far h dist [100] t1 t2 = Some s /\ answer s w1 w3.
Proof.
  exists 10%nat, yh, uQ, uR, yE, yM, yQ, yS, yR, rQ, rS, (v3 0 0 0), (v3 3 0 0), 100%Q. split; [exact uR_ok|]. split; [exact y_loaded|]. split; [|split].
  { split.
    - intros w Hw. cbn [t_objs uQ uR app In] in Hw.
      destruct Hw as [<-|[<-|[<-|[]]]]; (split; [intros []; vm_compute; discriminate|]); each; split; intros []; try split; vm_compute; discriminate.
    - intros w v e Hw Hv Lo F. cbn [t_objs uQ uR app In] in Hw.
      destruct Hw as [<-|[<-|[<-|[]]]]; cbn [w_voxels yQ yR yS In] in Hv; destruct Hv as [<-|[]]; cbn [v_box].
      + apply (front_inside yh 100 _ (sides rQ) _ e F Lo eq_refl). cbn [sides rQ]. each; split; intros []; split; vm_compute; discriminate.
      + apply (front_inside yh 100 _ (sides rL ++ sides rR) _ e F Lo eq_refl). cbn [sides rL rR app]. each; split; intros []; split; vm_compute; discriminate.
      + apply (front_inside yh 100 _ (sides rS) _ e F Lo eq_refl). cbn [sides rS]. each; split; intros []; split; vm_compute; discriminate. }
  { intros w _ e H. unfold yE in H. apply in_flat_map in H as (f & Hf & H). exists f. split; [exact Hf|]. destruct f as [[p q] r]. cbn [sides In side] in *.
    destruct H as [<-|[<-|[<-|[]]]]; auto. }
  split; [now left|]. split; [now right; left|]. split; [now left|]. split; [now left|]. split; [now left|].
  split; [exists 1%Q, 0%Q, 0%Q; split; [lra|]; split; [lra|]; split; [lra|]; split; [reflexivity|]; intros []; vm_compute; reflexivity|].
  split; [exists 1%Q, 0%Q, 0%Q; split; [lra|]; split; [lra|]; split; [lra|]; split; [reflexivity|]; intros []; vm_compute; reflexivity|].
  split; [vm_compute; reflexivity|]. split.
  { intros f f' X Y Hf Hf' P P'. cbn [yM yQ yR w_obj o_ptr In] in Hf, Hf'. destruct Hf as [<-|[]].
    assert (Zx : (X AX == 0)%Q) by (destruct P as (a & b & c & A & B & C & S & V); rewrite (V AX); cbn [v3]; ring).
    assert (Zy : (Y AX * Y AX == 100)%Q).
    { destruct Hf' as [<-|[<-|[]]]; destruct P' as (a' & b' & c' & A' & B' & C' & S' & V'); specialize (V' AX); cbn [v3] in V'.
      - assert (Z : (Y AX == -(10))%Q) by lra. rewrite Z. reflexivity.
      - assert (Z : (Y AX == 10)%Q) by lra. rewrite Z. reflexivity. }
    unfold dist2, sum3. pose proof (sq_nonneg (X AY - Y AY)). pose proof (sq_nonneg (X AZ - Y AZ)).
    assert (E : ((X AX - Y AX) * (X AX - Y AX) == Y AX * Y AX)%Q) by (rewrite Zx; ring). lra. }
  intros far dist D. pose proof (y_answer far) as A. destruct (mbb_nn 10 uQ uR) as [cs|] eqn:Ec; [|destruct A]. cbn [option_map] in A.
  exists (nn_refine (levels_of far yh [100]) cs). split; [|exact (only_answer_spec _ _ _ A)].
  apply (nn_all_value 10 far yh dist [100] uQ uR (fun _ => yE) cs uR_ok); [intros lod [<-|[]]; exact y_loaded|exact D|exact Ec].
Qed.
Print Assumptions nn_end_around_refuted.

(** ** Example: triangles above each other, at two levels *)
Definition tri (z : Q) : facet := (v3 0 0 z, v3 4 0 z, v3 0 4 z).
(** A voxel with a triangle at height [fst p] at the coarse level and [snd p] at the fine one. *)
Definition kz (lod : Z) (p : Q * Q) : Q := if lod =? 50 then fst p else snd p.
Definition two (p : Q * Q) : VoxelModel.voxel :=
  VoxelModel.Voxel None None (fun lod => if (lod =? 50) || (lod =? 100) then Some (map Some (floats_of (sides (tri (kz lod p))))) else None)
    (fun lod => if (lod =? 50) || (lod =? 100) then Some 3 else None).
Definition kh (b c : Q * Q) (v : nat) : VoxelModel.voxel := if Nat.eqb v 101 then two (0%Q, 0%Q) else if Nat.eqb v 201 then two b else two c.
Definition kA : wrapper := Wrapper (Wobj 1 0 (slab (-(1)) (1 # 2)) 200) [Voxel 101 (slab (-(1)) (1 # 2))].
Definition kB (s : aab) : wrapper := Wrapper (Wobj 3 0 s 200) [Voxel 201 s].
Definition kC (s : aab) : wrapper := Wrapper (Wobj 4 1 s 200) [Voxel 202 s].
Definition kQ : tile := Tile (slab (-(1)) (1 # 2)) [kA].
Definition kT (s t : aab) : tile := Tile (slab (3 # 4) 9) [kB s; kC t].
Definition kE (b c : Q * Q) (lod : Z) (w : wrapper) : list edge := sides (tri (match o_ptr (w_obj w) with 1%nat => 0 | 3%nat => kz lod b | _ => kz lod c end)).
Lemma tri_long z : Forall long (sides (tri z)).
Proof. cbn [sides tri]; each; intros H; (specialize (H AX); cbn [fst snd v3] in H; lra) || (specialize (H AY); cbn [fst snd v3] in H; lra). Qed.
Lemma two_carries (h : heap) lod w p v : lod = 50 \/ lod = 100 -> w_voxels w = [v] -> h (v_ptr v) = two p -> carries_edges h lod w (sides (tri (kz lod p))).
Proof.
  intros Hl E S. set (es := sides (tri (kz lod p))).
  exists [map (fun e : edge => [fst e AX; fst e AY; fst e AZ; snd e AX; snd e AY; snd e AZ]) es], (map (fun e : edge => [fst e AX; fst e AY; fst e AZ; snd e AX; snd e AY; snd e AZ]) es).
  split; [|split].
  - rewrite E. constructor; [|constructor]. rewrite S. unfold two, PropVoxel.stores. cbn [VoxelModel.v_size VoxelModel.v_data].
    replace ((lod =? 50) || (lod =? 100)) with true by (destruct Hl as [-> | ->]; reflexivity). split; [reflexivity|]. fold es.
    unfold floats_of. rewrite flat_map_concat_map. reflexivity.
  - pose proof (tri_long (kz lod p)) as Lg. fold es in Lg. clear -Lg. induction es as [|e l IH]; cbn [map]; [constructor|]. inversion Lg; subst. constructor; [now apply side_floats|now apply IH].
  - cbn [concat]. rewrite app_nil_r. apply Permutation.Permutation_refl.
Qed.
Lemma k_loaded b c s t lod : lod = 50 \/ lod = 100 -> loaded_edges (kh b c) lod kQ (kT s t) (kE b c lod).
Proof.
  intros Hl. split.
  - intros v. unfold lsize, kh. destruct (Nat.eqb v 101), (Nat.eqb v 201); destruct Hl as [-> | ->]; cbn; lia.
  - intros w Hw. cbn [t_objs kQ kT app In] in Hw. unfold kE. destruct Hw as [<-|[<-|[<-|[]]]]; cbn [kA kB kC w_obj o_ptr].
    + replace 0%Q with (kz lod (0%Q, 0%Q)) by (destruct Hl as [-> | ->]; reflexivity).
      apply (two_carries (kh b c) lod kA (0%Q, 0%Q) (Voxel 101 (slab (-(1)) (1 # 2))) Hl); reflexivity.
    + apply (two_carries (kh b c) lod (kB s) b (Voxel 201 s) Hl); reflexivity.
    + apply (two_carries (kh b c) lod (kC t) c (Voxel 202 t) Hl); reflexivity.
  - intros w _. apply tri_long.
  - destruct Hl as [-> | ->]; vm_compute; reflexivity.
Qed.
Lemma on_tri z e X : In e (sides (tri z)) -> on_edge e X -> (X AZ == z)%Q.
Proof. cbn [sides tri In]. intros [<-|[<-|[<-|[]]]] (t & _ & V); rewrite (V AZ); cbn [fst snd v3]; ring. Qed.
Lemma tri_apart z z' e1 e2 X Y : In e1 (sides (tri z)) -> In e2 (sides (tri z')) -> on_edge e1 X -> on_edge e2 Y -> ((z - z') * (z - z') <= dist2 X Y)%Q.
Proof.
  intros H1 H2 O1 O2. apply (on_tri z) in O1; [|exact H1]. apply (on_tri z') in O2; [|exact H2]. unfold dist2, sum3. rewrite O1, O2.
  pose proof (sq_nonneg (X AX - Y AX)). pose proof (sq_nonneg (X AY - Y AY)). lra.
Qed.
Lemma k_front b c lod v p : lod = 50 \/ lod = 100 -> kh b c (v_ptr v) = two p -> near_front (kh b c) lod v (v3 0 0 (kz lod p), v3 4 0 (kz lod p)).
Proof.
  intros Hl S. exists (floats_of (sides (tri (kz lod p)))), 0%nat. split; [|split; [cbn; lia|]].
  - rewrite S. destruct Hl as [-> | ->]; reflexivity.
  - apply (side_floats (v3 0 0 (kz lod p), v3 4 0 (kz lod p))). intros H. specialize (H AX). cbn [fst snd v3] in H. lra.
Qed.
Lemma k_lines z X' Y' : on_line (v3 0 0 0, v3 4 0 0) X' -> on_line (v3 0 0 z, v3 4 0 z) Y' -> (dist2 (v3 1 0 0) (v3 1 0 z) <= dist2 X' Y')%Q.
Proof.
  intros (t & Ht) (u & Hu). rewrite (dist2_compat _ _ _ _ Ht Hu). unfold dist2, sum3. cbn [fst snd v3].
  pose proof (sq_nonneg (4 * t - 4 * u)). lra.
Qed.
(** The neighbour of [kA] among the two others: the lower one. *)
Definition kN (w : wrapper) (v : voxel) (z : Q) : neighbour :=
  Neighbour w (Voxel 101 (slab (-(1)) (1 # 2))) v (v3 0 0 0, v3 4 0 0) (v3 0 0 z, v3 4 0 z) (v3 1 0 0) (v3 1 0 z).
Lemma k_nearest b c s t w v p : (w = kB s /\ v = Voxel 201 s /\ p = b \/ w = kC t /\ v = Voxel 202 t /\ p = c) ->
  (snd p * snd p <= snd b * snd b)%Q -> (snd p * snd p <= snd c * snd c)%Q ->
  is_nearest (kh b c) 100 (kT s t) (kE b c 100) kA (kN w v (snd p)).
Proof.
  intros W Lb Lc. assert (S : kh b c (v_ptr v) = two p) by (destruct W as [(-> & -> & ->)|(-> & -> & ->)]; reflexivity).
  assert (Dn : (nb_dist (kN w v (snd p)) == snd p * snd p)%Q) by (unfold nb_dist, dist2, sum3; cbn [kN nb_x nb_y v3]; ring).
  split; cbn [kN nb_obj nb_a nb_b nb_e1 nb_e2 nb_x nb_y].
  - destruct W as [(-> & _)|(-> & _)]; cbn [kT t_objs In]; auto.
  - destruct W as [(-> & _)|(-> & _)]; discriminate.
  - now left.
  - destruct W as [(-> & -> & _)|(-> & -> & _)]; now left.
  - intros H. specialize (H AX). cbn [fst snd v3] in H. lra.
  - intros H. specialize (H AX). cbn [fst snd v3] in H. lra.
  - apply (k_front b c 100 (Voxel 101 (slab (-(1)) (1 # 2))) (0%Q, 0%Q)); [now right|reflexivity].
  - apply (k_front b c 100 v p); [now right|exact S].
  - exists (1 # 4); split; [lra|intros []; reflexivity].
  - exists (1 # 4); split; [lra|]. intros []; cbn [v3 fst snd]; ring.
  - intros X Y HX HY. exact (k_lines (snd p) X Y HX HY).
  - intros w2 e1 e2 X Y Hw _ H1 H2 O1 O2. rewrite Dn. cbn [kT t_objs In] in Hw. unfold kE in H1, H2. cbn [kA w_obj o_ptr] in H1.
    destruct Hw as [<-|[<-|[]]]; cbn [kB kC w_obj o_ptr] in H2; pose proof (tri_apart _ _ _ _ _ _ H1 H2 O1 O2) as T; change (kz 100 b) with (snd b) in T; change (kz 100 c) with (snd c) in T; lra.
Qed.
Lemma k_boxes b c s t : wf s -> wf t -> Forall (fun e => inside (fst e) s /\ inside (snd e) s) (sides (tri (snd b))) ->
  Forall (fun e => inside (fst e) t /\ inside (snd e) t) (sides (tri (snd c))) -> sound_boxes (kh b c) 100 kQ (kT s t).
Proof.
  intros Ws Wt Fs Ft.
  assert (Self : forall x : aab, within x x) by (intros x i; split; apply Qle_refl).
  split.
  - intros w Hw. cbn [t_objs kQ kT app In] in Hw.
    destruct Hw as [<-|[<-|[<-|[]]]]; cbn [kA kB kC w_obj o_box w_voxels].
    + split; [intros []; vm_compute; discriminate|]. constructor; [|constructor]. split; [intros []; vm_compute; discriminate|apply Self].
    + split; [exact Ws|]. constructor; [|constructor]. split; [exact Ws|apply Self].
    + split; [exact Wt|]. constructor; [|constructor]. split; [exact Wt|apply Self].
  - intros w v e Hw Hv Lo F. cbn [t_objs kQ kT app In] in Hw.
    destruct Hw as [<-|[<-|[<-|[]]]]; cbn [w_voxels kA kB kC In] in Hv; destruct Hv as [<-|[]]; cbn [v_box].
    + apply (front_inside (kh b c) 100 _ (sides (tri 0)) _ e F Lo eq_refl). cbn [sides tri]. each; split; intros []; split; vm_compute; discriminate.
    + apply (front_inside (kh b c) 100 _ (sides (tri (snd b))) _ e F Lo eq_refl). exact Fs.
    + apply (front_inside (kh b c) 100 _ (sides (tri (snd c))) _ e F Lo eq_refl). exact Ft.
Qed.
Definition vq : voxel := Voxel 101 (slab (-(1)) (1 # 2)).
Definition expect (h : heap) (lod : Z) (v1 v2 : nat) (x : Q) : bool :=
  let a := segs_at h lod v1 in let b := segs_at h lod v2 in match SegDist_single (seg_buffer a) (seg_buffer b) (length a) (length b) with Some d => Qeq_bool d x | None => false end.
Lemma expect_spec far h lod v1 v2 x : expect h lod (v_ptr v1) (v_ptr v2) x = true -> (pair_value far h lod v1 v2 == x)%Q.
Proof.
  unfold expect, pair_value, seg_value. cbv zeta. cbn [vp_v1 vp_v2]. destruct (SegDist_single _ _ _ _) as [d|]; intros F; [|discriminate F]. cbn [number]. now apply Qeq_bool_iff.
Qed.
Lemma k_compared s t w1 w2 v1 v2 : compared kQ (kT s t) w1 w2 v1 v2 -> w1 = kA /\ v1 = vq /\ (w2 = kB s /\ v2 = Voxel 201 s \/ w2 = kC t /\ v2 = Voxel 202 t).
Proof.
  intros ([<-|[]] & I2 & _ & [<-|[]] & V2). split; [reflexivity|]. split; [reflexivity|].
  destruct I2 as [<-|[<-|[]]]; destruct V2 as [<-|[]]; [left|right]; auto.
Qed.
Lemma k_ranges far b c s t n xb xc : expect (kh b c) 100 101 201 xb = true -> expect (kh b c) 100 101 202 xc = true ->
  (xb <= maxdist (distance (slab (-(1)) (1 # 2)) s))%Q -> (xc <= maxdist (distance (slab (-(1)) (1 # 2)) t))%Q ->
  (nb_dist n <= maxdist (distance s (slab (-(1)) (1 # 2))))%Q -> (nb_dist n <= maxdist (distance t (slab (-(1)) (1 # 2))))%Q ->
  sound_ranges far (kh b c) 100 kQ (kT s t) (fun _ => n).
Proof.
  intros Eb Ec Lb Lc Nb Nc. split.
  - intros w1 w2 v1 v2 H _. apply k_compared in H as (-> & -> & [(-> & ->)|(-> & ->)]); cbn [vq v_box].
    + rewrite (expect_spec far (kh b c) 100 vq (Voxel 201 s) xb Eb). exact Lb.
    + rewrite (expect_spec far (kh b c) 100 vq (Voxel 202 t) xc Ec). exact Lc.
  - intros w1 w2 v1 v2 H F. apply k_compared in H as (-> & -> & [(-> & ->)|(-> & ->)]); discriminate F.
  - intros w1 w2 [<-|[]] [<-|[<-|[]]] _; assumption.
Qed.

(** *** A coarse level that is nearer *)
Definition cs1 : aab := slab (3 # 4) 9.
Definition cs2 : aab := slab (5 # 2) 4.
Lemma kT_ok : tile_ok (kT cs1 cs2).
Proof.
  split.
  - intros [|[|i]] w E; cbn in E; [injection E as <-; reflexivity|injection E as <-; reflexivity|destruct i; discriminate E].
  - split; [each; vm_compute; discriminate|vm_compute; reflexivity].
  - each; intros []; vm_compute; reflexivity.
  - each; intros []; try split; vm_compute; discriminate.
  - each; intros []; try split; vm_compute; discriminate.
Qed.
Notation cb := (1%Q, 4%Q).
Notation cc := (3%Q, 3%Q).
Lemma c_answer far : only_answer (option_map (nn_refine (levels_of far (kh cb cc) [50; 100])) (mbb_nn 10 kQ (kT cs1 cs2))) kA (kB cs1).
Proof. vm_compute. split; reflexivity. Qed.
(** C142 is false: boxes and ranges are right and all levels are searched, but at the coarse level one
    object comes too near and the object that is nearest at the full level is removed. *)
Theorem nn_end_coarse_refuted : exists fuel h t1 t2 E n w1 w3, tile_ok t2 /\ (forall lod, In lod [50; 100] -> loaded_edges h lod t1 t2 (E lod)) /\ sound_boxes h 100 t1 t2 /\
  (forall far, sound_ranges far h 100 t1 t2 (fun _ => n)) /\
  t_objs t1 = [w1] /\ is_nearest h 100 t2 (E 100) w1 n /\ In w3 (t_objs t2) /\
  (forall e1 e2 X Y, In e1 (E 100%Z w1) -> In e2 (E 100%Z w3) -> on_edge e1 X -> on_edge e2 Y -> nb_dist n < dist2 X Y)%Q /\
  forall far dist, distances_of h dist -> exists s, nn_all fuel far h dist [50; 100] t1 t2 = Some s /\ answer s w1 w3.
Proof.
  exists 10%nat, (kh cb cc), kQ, (kT cs1 cs2), (kE cb cc), (kN (kC cs2) (Voxel 202 cs2) 3), kA, (kB cs1).
  assert (L : forall lod, In lod [50; 100] -> loaded_edges (kh cb cc) lod kQ (kT cs1 cs2) (kE cb cc lod)) by (intros lod [<-|[<-|[]]]; apply k_loaded; auto).
  split; [exact kT_ok|]. split; [exact L|]. split.
  { apply k_boxes; [intros []; vm_compute; discriminate|intros []; vm_compute; discriminate| |]; cbn [sides tri]; each; split; intros []; split; vm_compute; discriminate. }
  split; [intros far; apply (k_ranges far cb cc cs1 cs2 _ 16 9); vm_compute; (reflexivity || discriminate)|]. split; [reflexivity|].
  split; [apply (k_nearest cb cc cs1 cs2 (kC cs2) (Voxel 202 cs2) cc); [right; auto| |]; vm_compute; discriminate|]. split; [now left|]. split.
  { intros e1 e2 X Y H1 H2 O1 O2. pose proof (tri_apart 0 4 e1 e2 X Y H1 H2 O1 O2) as T. change (nb_dist _) with 9%Q. lra. }
  intros far dist D. pose proof (c_answer far) as A. destruct (mbb_nn 10 kQ (kT cs1 cs2)) as [cs|] eqn:Ec; [|destruct A]. cbn [option_map] in A.
  exists (nn_refine (levels_of far (kh cb cc) [50; 100]) cs). split; [|exact (only_answer_spec _ _ _ A)].
  exact (nn_all_value 10 far (kh cb cc) dist [50; 100] kQ (kT cs1 cs2) (kE cb cc) cs kT_ok L D Ec).
Qed.
Print Assumptions nn_end_coarse_refuted.

(** The hypotheses of [nn_end_nearest_partial] are met: two levels, the middle triangle is found. *)
Definition ps1 : aab := slab (5 # 2) 4.
Definition ps2 : aab := slab (7 # 2) 5.
Notation pb := (7 # 2, 3%Q).
Notation pc := (5%Q, 4%Q).
Lemma pT_ok : tile_ok (kT ps1 ps2).
Proof.
  split.
  - intros [|[|i]] w E; cbn in E; [injection E as <-; reflexivity|injection E as <-; reflexivity|destruct i; discriminate E].
  - split; [each; vm_compute; discriminate|vm_compute; reflexivity].
  - each; intros []; vm_compute; reflexivity.
  - each; intros []; try split; vm_compute; discriminate.
  - each; intros []; try split; vm_compute; discriminate.
Qed.
Lemma p_found far : option_map (fun cs : list centry => (map (fun e : centry => length (snd e)) cs, fst (nn_refine (levels_of far (kh pb pc) [50; 100]) cs))) (mbb_nn 10 kQ (kT ps1 ps2)) = Some ([2%nat], []).
Proof. vm_compute. reflexivity. Qed.
Example nn_end_sample far dist : distances_of (kh pb pc) dist -> exists rest settled c, nn_all 10 far (kh pb pc) dist [50; 100] kQ (kT ps1 ps2) = Some (rest, settled) /\
  In (kA, [c]) settled /\ c_wrapper c = kB ps1.
Proof.
  intros D.
  assert (L : forall lod, In lod [50; 100] -> loaded_edges (kh pb pc) lod kQ (kT ps1 ps2) (kE pb pc lod)) by (intros lod [<-|[<-|[]]]; apply k_loaded; auto).
  pose proof (p_found far) as Pf. destruct (mbb_nn 10 kQ (kT ps1 ps2)) as [cs|] eqn:Ec; [|discriminate Pf].
  pose proof (nn_all_value 10 far (kh pb pc) dist [50; 100] kQ (kT ps1 ps2) (kE pb pc) cs pT_ok L D Ec) as V.
  destruct (nn_refine (levels_of far (kh pb pc) [50; 100]) cs) as [rest settled] eqn:Er.
  exists rest, settled.
  set (n := kN (kB ps1) (Voxel 201 ps1) 3).
  destruct (nn_end_nearest_partial 10 far (kh pb pc) dist [50; 100] kQ (kT ps1 ps2) (kE pb pc) (fun _ => n) rest settled ltac:(discriminate) pT_ok L D) with (w1 := kA) as [(c & Hc & Ew)|(cl & Hcl & (c & Hc & Ew) & All)].
  - apply k_boxes; [intros []; vm_compute; discriminate|intros []; vm_compute; discriminate| |]; cbn [sides tri]; each; split; intros []; split; vm_compute; discriminate.
  - apply (k_ranges far pb pc ps1 ps2 _ 9 16); vm_compute; (reflexivity || discriminate).
  - intros lod w1 w2 v1 v2 Hl H F. apply k_compared in H as (-> & -> & [(-> & ->)|(-> & ->)]); (split; [reflexivity|]); cbn [last];
      destruct Hl as [<-|[<-|[]]]; try apply Qle_refl.
    + rewrite (expect_spec far (kh pb pc) 50 vq (Voxel 201 ps1) (49 # 4)) by (vm_compute; reflexivity). rewrite (expect_spec far (kh pb pc) 100 vq (Voxel 201 ps1) 9) by (vm_compute; reflexivity). lra.
    + rewrite (expect_spec far (kh pb pc) 50 vq (Voxel 202 ps2) 25) by (vm_compute; reflexivity). rewrite (expect_spec far (kh pb pc) 100 vq (Voxel 202 ps2) 16) by (vm_compute; reflexivity). lra.
  - intros w1 [<-|[]]. apply (k_nearest pb pc ps1 ps2 (kB ps1) (Voxel 201 ps1) pb); [left; auto| |]; vm_compute; discriminate.
  - exact V.
  - now left.
  - exists c. auto.
  - exfalso. assert (Nl : rest = []); [|rewrite Nl in Hcl; destruct Hcl].
    cbn [option_map] in Pf. rewrite Er in Pf. cbn [fst] in Pf.
    exact (f_equal (fun o : option (list nat * list centry) => match o with Some x => snd x | None => [] end) Pf).
Qed.
