(** Proofs about the distances of whole batches. *)
From Coq Require Import ZArith QArith List Bool Lia Lqa Permutation Arith.
From Verif Require Import Arr AabModel AabProofs JoinModel JoinProofs BatchModel BatchProofs SegDistModel SegDistProofs EndModel EndProofs EndDistModel.
From Verif Require VoxelModel PropBatch.
Import ListNotations.
Open Scope Z_scope.

Notation segment := (SegDistProofs.point * SegDistProofs.point)%type.
Definition sholds (h : heap) (lod : Z) (v : nat) (S : list segment) : Prop :=
  VoxelModel.v_size (h v) lod = Some (Z.of_nat (length S)) /\ VoxelModel.v_data (h v) lod = Some (map Some (seg_buffer S)).
Lemma seg_buffer_length S : length (seg_buffer S) = (6 * length S)%nat.
Proof. induction S as [|[[[a b] c] [[d e] f]] S IH]; [reflexivity|]. unfold seg_buffer in *. cbn [flat_map]. rewrite app_length, IH. cbn [seg_floats length]. lia. Qed.
Lemma lsize_sholds h lod v S : sholds h lod v S -> lsize h lod v = Z.of_nat (length S).
Proof. intros [H _]. unfold lsize. now rewrite H. Qed.
Lemma ldata_sholds h lod v S k : sholds h lod v S -> (k < 6 * length S)%nat -> ldata h lod v (Z.of_nat k) = Some (nth k (seg_buffer S) 0%Q).
Proof.
  intros [_ H] L. unfold ldata. rewrite H. unfold aget. replace (Z.of_nat k <? 0) with false by (symmetry; apply Z.ltb_ge; lia). rewrite Nat2Z.id.
  rewrite nth_error_map, (nth_error_nth' _ 0%Q) by (rewrite seg_buffer_length; exact L). reflexivity.
Qed.

Section Batch.
  Variables (junk : Z -> Q) (h : heap) (lod : Z) (ps : list (nat * nat)) (segs : nat -> list segment).
  Hypothesis Sz : forall v, 0 <= lsize h lod v.
  Hypothesis Hold : forall p, In p ps -> sholds h lod (fst p) (segs (fst p)) /\ sholds h lod (snd p) (segs (snd p)).
  Hypothesis Room : 6 * PropBatch.sizes (lsize h lod) (voxels_of ps) < 2 ^ 32.

  Definition sleads (os : Z * Z) (S : list segment) : Prop :=
    0 <= fst os /\ snd os = Z.of_nat (length S) /\ 6 * (fst os + snd os) < 2 ^ 32 /\
    forall k, (k < 6 * length S)%nat -> cell junk (sbuffer h lod ps) (6 * fst os + Z.of_nat k) = nth k (seg_buffer S) 0%Q.
  Lemma squad_leads p : In p ps -> sleads (fst (quad (fst (spacked h lod ps)) p)) (segs (fst p)) /\ sleads (snd (quad (fst (spacked h lod ps)) p)) (segs (snd p)).
  Proof.
    intros I. destruct (PropBatch.packing_exact (option Q) (2 ^ 32) 6 (lsize h lod) (ldata h lod) ps (voxels_of ps)
      (sort_by (fun b => Z.of_nat (fst b)) (fst (spacked h lod ps))) (or_introl eq_refl) ltac:(lia) Sz (NoDup_nodup _ _) (voxels_of_in ps) Room (sort_by_perm _ _)) as (Pm & _ & F).
    apply In_nth_error in I as (i & Ei). pose proof (nth_error_In _ _ Ei) as I. destruct (F i p Ei) as (o1 & o2 & Eq & D1 & D2 & L1 & B1 & L2 & B2 & _).
    unfold offset_size in Eq. rewrite nth_error_map, Ei in Eq. cbn [option_map] in Eq. fold (spacked h lod ps) in Eq, B1, B2.
    apply (f_equal (fun o => match o with Some x => x | None => ((0, 0), (0, 0)) end)) in Eq. cbv beta iota in Eq. rewrite Eq.
    destruct (Hold p I) as [H1 H2]. rewrite (lsize_sholds _ _ _ _ H1) in D1, B1 |- *. rewrite (lsize_sholds _ _ _ _ H2) in D2, B2 |- *. cbn [fst snd].
    pose proof (Z.mod_pos_bound (6 * snd (spacked h lod ps)) (2 ^ 32) ltac:(lia)) as Tot. unfold allocated in B1, B2.
    split; (split; [assumption|]; split; [reflexivity|]; cbn [fst snd]; split; [lia|]); intros k Lk.
    - specialize (D1 (Z.of_nat k) ltac:(lia)). unfold operand in D1. cbn [fst] in D1. unfold u32max in D1. rewrite Z.mod_small in D1 by lia.
      unfold cell, sbuffer. replace (6 * o1 + Z.of_nat k) with (o1 * 6 + Z.of_nat k) by lia. rewrite D1, (ldata_sholds h lod _ _ k H1 Lk). reflexivity.
    - specialize (D2 (Z.of_nat k) ltac:(lia)). unfold operand in D2. cbn [fst] in D2. unfold u32max in D2. rewrite Z.mod_small in D2 by lia.
      unfold cell, sbuffer. replace (6 * o2 + Z.of_nat k) with (o2 * 6 + Z.of_nat k) by lia. rewrite D2, (ldata_sholds h lod _ _ k H2 Lk). reflexivity.
  Qed.
  Lemma sfloats_leads os S : sleads os S -> sfloats junk (sbuffer h lod ps) os = seg_buffer S.
  Proof.
    intros (L0 & E & B & D). unfold sfloats. apply (nth_ext _ _ 0%Q 0%Q); rewrite map_length, seq_length.
    - rewrite E, seg_buffer_length. lia.
    - intros k Lk. rewrite (map_nth_seq k) by exact Lk. rewrite <- D by lia. unfold u32max. rewrite Z.mod_small by lia. f_equal. lia.
  Qed.
  Lemma cpu_distance_value i p : nth_error ps i = Some p ->
    cpu_distance junk h lod ps (Z.of_nat i) = SegDist_single (seg_buffer (segs (fst p))) (seg_buffer (segs (snd p))) (length (segs (fst p))) (length (segs (snd p))).
  Proof.
    intros E. unfold cpu_distance, aget. replace (Z.of_nat i <? 0) with false by (symmetry; apply Z.ltb_ge; lia). rewrite Nat2Z.id, E.
    destruct (squad_leads p (nth_error_In _ _ E)) as [L1 L2]. cbv zeta. rewrite (sfloats_leads _ _ L1), (sfloats_leads _ _ L2).
    destruct L1 as (_ & -> & _). destruct L2 as (_ & -> & _). rewrite !Nat2Z.id. reflexivity.
  Qed.
End Batch.

(** geometry_computer.cpp:109-146 on [threads] threads, in any interleaving. *)
Definition distance_run (h : heap) (threads lod : Z) (cs : list centry) (ds : list dist_t) : Prop := exists junk tr,
  interleaved (snd (distance_runs (Z.of_nat (length (all_pairs cs))) threads)) tr /\ ds = cpu_distances junk h threads tr lod cs.
Section Runs.
  Variables (h : heap) (lod : Z) (segs : nat -> list segment) (addrs : list nat).
  Hypothesis Sz : forall v, 0 <= lsize h lod v.
  Hypothesis Hold : forall v, In v addrs -> sholds h lod v (segs v).
  Hypothesis Room : 6 * PropBatch.sizes (lsize h lod) addrs < 2 ^ 32.
  Lemma sknown_room cs : within_ok (known addrs) cs -> 6 * PropBatch.sizes (lsize h lod) (voxels_of (ptrs cs)) < 2 ^ 32.
  Proof.
    intros W. assert (PropBatch.sizes (lsize h lod) (voxels_of (ptrs cs)) <= PropBatch.sizes (lsize h lod) addrs); [|lia].
    apply sizes_incl; [exact Sz|apply NoDup_nodup|]. intros v H. apply voxels_of_in in H as (p & I & E). destruct (known_pairs addrs cs p W I). destruct E as [-> | ->]; assumption.
  Qed.
  Lemma distances_exact threads cs ds i vp : 0 < threads -> distance_run h threads lod cs ds -> within_ok (known addrs) cs -> nth_error (all_pairs cs) i = Some vp ->
    nth_error ds i = Some (let a := segs (v_ptr (vp_v1 vp)) in let b := segs (v_ptr (vp_v2 vp)) in SegDist_single (seg_buffer a) (seg_buffer b) (length a) (length b)).
  Proof.
    intros Ht (junk & tr & IL & ->) W E. assert (Li : (i < length (ptrs cs))%nat) by (rewrite ptrs_length; apply nth_error_Some; congruence).
    unfold cpu_distances. rewrite <- ptrs_length in IL.
    rewrite nth_error_map, (nth_error_nth' (seq 0 _) 0%nat), seq_nth by (rewrite ?seq_length; exact Li). cbn [option_map]. rewrite Nat.add_0_l.
    rewrite (proj2 (proj2 (PropBatch.distance_batch_complete (Z.of_nat (length (ptrs cs))) threads tr ltac:(lia) Ht IL)) _ _ (Z.of_nat i) ltac:(lia)).
    rewrite (cpu_distance_value junk h lod (ptrs cs) segs Sz (fun p Hp => conj (Hold _ (proj1 (known_pairs addrs cs p W Hp))) (Hold _ (proj2 (known_pairs addrs cs p W Hp)))) (sknown_room cs W) i (v_ptr (vp_v1 vp), v_ptr (vp_v2 vp))).
    - reflexivity.
    - rewrite ptrs_nth, E. reflexivity.
  Qed.
End Runs.

(** * The levels of a within join *)
Section WithinLevels.
  Variables (md far : Q) (h : heap) (dist : Z -> list centry -> list dist_t) (top : Z) (val : Z -> vpair -> Q).
  Hypothesis Val : forall lod a b, ends a = ends b -> val lod a = val lod b.
  (** What holds of the candidates from level to level: one candidate each, nothing marked, ranges above
      the limit. *)
  Definition open_entry (e : centry) : Prop := (length (snd e) <= 1)%nat /\ no_marks e /\ Forall (fun vp => (md <= maxdist (vp_dist vp))%Q) (flat_map c_pairs (snd e)).
  Definition near (lod : Z) (vp : vpair) : Prop := has_edges h lod vp = true /\ (val lod vp < md)%Q.

  Lemma has_edges_ends lod a b : ends a = ends b -> has_edges h lod a = has_edges h lod b.
  Proof. unfold ends. intros E. injection E as E1 E2. unfold has_edges. now rewrite E1, E2. Qed.
  Lemma near_ends lod a b : ends a = ends b -> near lod a -> near lod b.
  Proof. intros E [H1 H2]. split; [now rewrite <- (has_edges_ends lod a b E)|now rewrite <- (Val lod a b E)]. Qed.
  Lemma settles_near lod highest vp : (md <= maxdist (vp_dist vp))%Q -> settles md highest (has_edges h lod) (val lod) vp <-> near lod vp.
  Proof.
    intros L. unfold settles, near, refine_range. destruct highest; cbn [maxdist]; [reflexivity|].
    destruct (Qltb_spec (val lod vp) (maxdist (vp_dist vp))); [reflexivity|]. split; intros [A B]; (split; [exact A|]); [|exfalso]; lra.
  Qed.
  (** Pairs that are not settled keep the property. *)
  Lemma within_pairs_kept highest filled g f ps : forall idx ps' idx', reads f idx ps g ->
    within_round_pairs md highest filled f idx false ps = (ps', idx', false) ->
    Forall (fun vp => vp_intersect vp = false) ps -> Forall (fun vp => (md <= maxdist (vp_dist vp))%Q) ps ->
    map ends ps' = map ends ps /\ Forall (fun vp => vp_intersect vp = false) ps' /\ Forall (fun vp => (md <= maxdist (vp_dist vp))%Q) ps'.
  Proof.
    induction ps as [|vp r IH]; intros idx ps' idx' R E M B; cbn [within_round_pairs] in E.
    - injection E as <- _. repeat split; constructor.
    - apply reads_cons in R as [R1 R2]. inversion M as [|? ? M1 M2]; inversion B as [|? ? B1 B2]; subst. cbn [negb andb] in E.
      destruct (filled vp).
      + destruct (Qltb_spec (maxdist (refine_range highest (vp_dist vp) (f idx))) md) as [Lt|Ge].
        * exfalso. destruct (within_pairs_own md highest filled g f r (S idx) true R2) as (q' & det' & Eq & _ & D). rewrite Eq in E.
          assert (det' = true) by (apply D; now left). congruence.
        * destruct (within_round_pairs md highest filled f (S idx) false r) as [[r' i'] d'] eqn:Er in E. injection E as <- <- ->.
          destruct (IH (S idx) r' i' R2 Er M2 B2) as (H1 & H2 & H3). cbn [map ends vp_v1 vp_v2]. rewrite H1. split; [reflexivity|].
          split; [constructor; [exact M1|exact H2]|constructor; [cbn [vp_dist]; lra|exact H3]].
      + destruct (within_round_pairs md highest filled f (S idx) false r) as [[r' i'] d'] eqn:Er in E. injection E as <- <- ->.
        destruct (IH (S idx) r' i' R2 Er M2 B2) as (H1 & H2 & H3). cbn [map]. rewrite H1. split; [reflexivity|]. split; constructor; assumption.
  Qed.
  Lemma within_entries_kept highest filled g f cs : forall idx, reads f idx (all_pairs cs) g -> Forall open_entry cs ->
    Forall2 (fun e e' => fst e' = fst e /\ (entry_hit e' = true <-> exists vp, In vp (flat_map c_pairs (snd e)) /\ settles md highest filled g vp) /\
      (entry_hit e' = false -> open_entry e' /\ map ends (flat_map c_pairs (snd e')) = map ends (flat_map c_pairs (snd e)))) cs (within_round_entries md highest filled f idx cs).
  Proof.
    induction cs as [|e r IH]; intros idx R F; cbn [within_round_entries]; [constructor|].
    unfold all_pairs in R. cbn [flat_map] in R. apply reads_app in R as [R1 R2].
    inversion F as [|? ? Fe Fr]; subst. destruct Fe as (Fe & Me & Be).
    destruct e as [w cl]. cbn [snd fst] in *. destruct cl as [|c [|c' cl]]; cbn [within_round_infos length] in *; try lia.
    - constructor; [|apply IH; auto; cbn in R2; now rewrite Nat.add_0_r in R2]. split; [reflexivity|]. cbn [flat_map entry_hit snd existsb].
      split; [split; [intros H; discriminate H|intros [vp [[] _]]]|]. intros _. split; [|reflexivity]. split; [cbn; lia|]. split; [exact Me|constructor].
    - unfold no_marks in Me. cbn [snd flat_map] in *. rewrite app_nil_r in *.
      destruct (within_pairs_own md highest filled g f (c_pairs c) idx false R1) as (ps' & det' & E & H1 & H2). rewrite E.
      assert (Z : existsb vp_intersect (c_pairs c) = false).
      { destruct (existsb vp_intersect (c_pairs c)) eqn:Eb; [|reflexivity]. apply existsb_exists in Eb as (vp & Hv & Ev).
        rewrite (proj1 (Forall_forall _ _) Me vp Hv) in Ev. discriminate Ev. }
      rewrite Z in H1. cbn [orb negb andb] in H1.
      constructor; [|apply IH; auto]. split; [reflexivity|]. cbn [entry_hit snd existsb c_pairs flat_map]. rewrite orb_false_r, app_nil_r, H1. split.
      + rewrite H2. split; [intros [H|H]; [discriminate H|exact H]|now right].
      + intros Ed. rewrite Ed in E. destruct (within_pairs_kept highest filled g f (c_pairs c) idx ps' _ R1 E Me Be) as (K1 & K2 & K3).
        split; [|now rewrite app_nil_r]. split; [cbn [snd length]; lia|]. split; [unfold no_marks; cbn [snd flat_map c_pairs]; now rewrite app_nil_r|].
        cbn [snd flat_map c_pairs]. now rewrite app_nil_r.
  Qed.
  Variables (okp : voxel * voxel -> Prop) (all : list Z).
  Hypothesis Reads : forall lod cs i vp, In lod all -> within_ok okp cs -> nth_error (all_pairs cs) i = Some vp -> number far (nth_error (dist lod cs) i) = val lod vp.
  Definition close (lods : list Z) (cs : list centry) (w : wrapper) : Prop :=
    exists lod e vp, In lod lods /\ In e cs /\ fst e = w /\ In vp (flat_map c_pairs (snd e)) /\ near lod vp.
  Lemma Forall2_left {A B} (R : A -> B -> Prop) l l' : Forall2 R l l' -> forall x, In x l -> exists y, In y l' /\ R x y.
  Proof. induction 1 as [|a b l l' H F IH]; intros x []; [subst; exists b; split; [now left|exact H]|]. destruct (IH x H0) as (y & Hy & K). exists y. split; [now right|exact K]. Qed.
  Lemma Forall2_right {A B} (R : A -> B -> Prop) l l' : Forall2 R l l' -> forall y, In y l' -> exists x, In x l /\ R x y.
  Proof. induction 1 as [|a b l l' H F IH]; intros y []; [subst; exists a; split; [now left|exact H]|]. destruct (IH y H0) as (x & Hx & K). exists x. split; [now right|exact K]. Qed.
  Lemma within_levels_spec lods : forall cs found, (forall lod, In lod lods -> In lod all) -> Forall open_entry cs -> within_ok okp cs -> forall w,
    In w (map fst (snd (within_levels md far h dist top lods (cs, found)))) <-> In w (map fst found) \/ close lods cs w.
  Proof.
    induction lods as [|lod lods IH]; intros cs found Sub O W w; cbn [within_levels fst snd].
    { split; [now left|]. intros [H|(lod & e & vp & [] & _)]. exact H. }
    destruct (Nat.eqb_spec (get_pair_num cs) 0) as [Z|Z].
    { split; [now left|]. intros [H|(l & e & vp & _ & He & _ & Hv & _)]; [exact H|]. exfalso. unfold get_pair_num in Z. apply length_zero_iff_nil in Z.
      assert (I : In vp (all_pairs cs)) by (apply in_flat_map; eauto). rewrite Z in I. destruct I. }
    assert (Sub' : forall l, In l lods -> In l all) by (intros l Hl; apply Sub; now right).
    destruct (existsb (has_edges h lod) (all_pairs cs)) eqn:Ex; cbn [negb].
    - unfold within_enter. cbn [fst snd].
      set (f := fun i => number far (nth_error (dist lod cs) i)).
      assert (R : reads f 0 (all_pairs cs) (val lod)) by (intros i vp Ei; exact (Reads lod cs i vp (Sub lod (or_introl eq_refl)) W Ei)).
      pose proof (within_entries_kept (lod =? top) (has_edges h lod) (val lod) f cs 0 R O) as K. clear R.
      set (r := within_round_entries _ _ _ _ _ _) in *. clearbody r. unfold update_candidate_list_intersect.
      assert (O' : Forall open_entry (filter (fun e => negb (entry_hit e)) r)).
      { apply Forall_forall. intros e' He'. apply filter_In in He' as [He' Hn]. apply negb_true_iff in Hn.
        destruct (Forall2_right _ _ _ K e' He') as (e & He & _ & _ & K3). exact (proj1 (K3 Hn)). }
      assert (W' : within_ok okp (filter (fun e => negb (entry_hit e)) r)).
      { intros e' x He' Hx. apply filter_In in He' as [He' Hn]. apply negb_true_iff in Hn.
        destruct (Forall2_right _ _ _ K e' He') as (e & He & _ & _ & K3). destruct (K3 Hn) as [_ En]. unfold entry_ends in Hx. rewrite En in Hx. exact (W e x He Hx). }
      rewrite (IH _ (found ++ filter entry_hit r) Sub' O' W' w). rewrite map_app, in_app_iff.
      assert (Nr : forall e vp, In e cs -> In vp (flat_map c_pairs (snd e)) -> settles md (lod =? top) (has_edges h lod) (val lod) vp <-> near lod vp).
      { intros e vp He Hv. apply settles_near. destruct (proj1 (Forall_forall _ _) O e He) as (_ & _ & B). exact (proj1 (Forall_forall _ _) B vp Hv). }
      split.
      + intros [[H|H]|H].
        * now left.
        * right. apply in_map_iff in H as (e' & <- & He'). apply filter_In in He' as [He' Hh]. destruct (Forall2_right _ _ _ K e' He') as (e & He & K1 & K2 & _).
          destruct (proj1 K2 Hh) as (vp & Hv & St). exists lod, e, vp. split; [now left|]. split; [exact He|]. split; [now symmetry|]. split; [exact Hv|]. exact (proj1 (Nr e vp He Hv) St).
        * right. destruct H as (l & e' & vp & Hl & He' & Ew & Hv & N). apply filter_In in He' as [He' Hn]. apply negb_true_iff in Hn.
          destruct (Forall2_right _ _ _ K e' He') as (e & He & K1 & _ & K3). destruct (K3 Hn) as [_ En].
          apply (in_map ends) in Hv. rewrite En in Hv. apply in_map_iff in Hv as (vp0 & E0 & Hv0).
          exists l, e, vp0. split; [now right|]. split; [exact He|]. split; [congruence|]. split; [exact Hv0|]. exact (near_ends l vp vp0 (eq_sym E0) N).
      + intros [H|H]; [now left; left|]. destruct H as (l & e & vp & Hl & He & Ew & Hv & N). destruct (Forall2_left _ _ _ K e He) as (e' & He' & K1 & K2 & K3).
        destruct (entry_hit e') eqn:Hh.
        * left. right. apply in_map_iff. exists e'. split; [congruence|]. apply filter_In. now split.
        * destruct Hl as [<-|Hl].
          { assert (X : false = true) by (apply K2; exists vp; split; [exact Hv|exact (proj2 (Nr e vp He Hv) N)]). discriminate X. }
          destruct (K3 eq_refl) as [_ En]. right. apply (in_map ends) in Hv. rewrite <- En in Hv. apply in_map_iff in Hv as (vp0 & E0 & Hv0).
          exists l, e', vp0. split; [exact Hl|]. split; [apply filter_In; split; [exact He'|now rewrite Hh]|]. split; [congruence|]. split; [exact Hv0|]. exact (near_ends l vp vp0 (eq_sym E0) N).
    - rewrite (IH cs found Sub' O W w). split.
      + intros [H|(l & e & vp & Hl & H)]; [now left|]. right. exists l, e, vp. split; [now right|exact H].
      + intros [H|(l & e & vp & [<-|Hl] & He & Ew & Hv & N)]; [now left| |right; exists l, e, vp; auto].
        exfalso. destruct N as [N _]. assert (X : existsb (has_edges h lod) (all_pairs cs) = true); [|rewrite X in Ex; discriminate Ex].
        apply existsb_exists. exists vp. split; [apply in_flat_map; eauto|exact N].
  Qed.
End WithinLevels.
