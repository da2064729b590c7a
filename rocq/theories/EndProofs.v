(** Proofs about whole intersection joins. *)
From Coq Require Import ZArith QArith List Bool Lia Permutation Arith.
From Verif Require Import Arr AabModel AabProofs OctreeModel OctreeProofs JoinModel JoinProofs BatchModel BatchProofs SegDistModel TriIntModel TriIntProofs TriSetProofs EndModel.
From Verif Require VoxelModel PropBatch.
Import ListNotations.
Open Scope Z_scope.

(** * The contents of voxels *)
Definition holds (h : heap) (lod : Z) (v : nat) (T : list triangle) : Prop :=
  VoxelModel.v_size (h v) lod = Some (Z.of_nat (length T)) /\ VoxelModel.v_data (h v) lod = Some (map Some (tri_buffer T)).
Lemma tri_buffer_length T : length (tri_buffer T) = (9 * length T)%nat.
Proof. induction T as [|[[[[a b] c] [[d e] f]] [[g h] k]] T IH]; [reflexivity|]. unfold tri_buffer in *. cbn [flat_map]. rewrite app_length, IH. cbn [tri_floats length]. lia. Qed.
Lemma lsize_holds h lod v T : holds h lod v T -> lsize h lod v = Z.of_nat (length T).
Proof. intros [H _]. unfold lsize. now rewrite H. Qed.
Lemma ldata_holds h lod v T k : holds h lod v T -> (k < 9 * length T)%nat -> ldata h lod v (Z.of_nat k) = Some (nth k (tri_buffer T) 0%Q).
Proof.
  intros [_ H] L. unfold ldata. rewrite H. unfold aget. replace (Z.of_nat k <? 0) with false by (symmetry; apply Z.ltb_ge; lia). rewrite Nat2Z.id.
  rewrite nth_error_map, (nth_error_nth' _ 0%Q) by (rewrite tri_buffer_length; exact L). reflexivity.
Qed.

(** * Packing *)
Definition voxels_of (ps : list (nat * nat)) : list nat := nodup Nat.eq_dec (flat_map (fun p => [fst p; snd p]) ps).
Lemma voxels_of_in ps v : In v (voxels_of ps) <-> exists p, In p ps /\ (v = fst p \/ v = snd p).
Proof.
  unfold voxels_of. rewrite nodup_In, in_flat_map. split; intros (p & I & H); exists p; (split; [exact I|]); cbn in *; intuition congruence.
Qed.
Lemma sort_by_perm {A} (key : A -> Z) l : Permutation (sort_by key l) l.
Proof.
  assert (I : forall x l, Permutation (insert_by key x l) (x :: l)).
  { intros x m. induction m as [|y m IH]; cbn [insert_by]; [reflexivity|]. destruct (key x <=? key y); [reflexivity|]. rewrite IH. apply perm_swap. }
  induction l as [|x l IH]; [reflexivity|]. cbn [sort_by fold_right]. fold (sort_by key l). rewrite I. now apply perm_skip.
Qed.

Lemma map_nth_seq {A} k : forall (f : nat -> A) n d, (k < n)%nat -> nth k (map f (seq 0 n)) d = f k.
Proof. intros f n d L. rewrite (nth_indep _ d (f 0%nat)) by now rewrite map_length, seq_length. rewrite map_nth, seq_nth by exact L. reflexivity. Qed.

Section Batch.
  Variables (junk : Z -> Q) (h : heap) (lod : Z) (ps : list (nat * nat)) (tris : nat -> list triangle).
  Hypothesis Sz : forall v, 0 <= lsize h lod v.
  Hypothesis Hold : forall p, In p ps -> holds h lod (fst p) (tris (fst p)) /\ holds h lod (snd p) (tris (snd p)).
  Hypothesis Room : 9 * PropBatch.sizes (lsize h lod) (voxels_of ps) < 2 ^ 32.

  (** The quadruple of a pair leads to its triangles. *)
  Definition leads (os : Z * Z) (T : list triangle) : Prop :=
    0 <= fst os /\ snd os = Z.of_nat (length T) /\ 9 * (fst os + snd os) <= 9 * snd (packed h lod ps) /\ 9 * (fst os + snd os) < 2 ^ 32 /\
    forall k, (k < 9 * length T)%nat -> cell junk (buffer h lod ps) (9 * fst os + Z.of_nat k) = nth k (tri_buffer T) 0%Q.
  Lemma quad_leads p : In p ps -> leads (fst (quad (fst (packed h lod ps)) p)) (tris (fst p)) /\ leads (snd (quad (fst (packed h lod ps)) p)) (tris (snd p)).
  Proof.
    intros I. destruct (PropBatch.packing_exact (option Q) (2 ^ 64) 9 (lsize h lod) (ldata h lod) ps (voxels_of ps)
      (sort_by (fun b => Z.of_nat (fst b)) (fst (packed h lod ps))) (or_intror eq_refl) ltac:(lia) Sz (NoDup_nodup _ _) (voxels_of_in ps) Room (sort_by_perm _ _)) as (Pm & _ & F).
    apply In_nth_error in I as (i & Ei). pose proof (nth_error_In _ _ Ei) as I. destruct (F i p Ei) as (o1 & o2 & Eq & D1 & D2 & L1 & B1 & L2 & B2 & _).
    unfold offset_size in Eq. rewrite nth_error_map, Ei in Eq. cbn [option_map] in Eq. fold (packed h lod ps) in Eq, B1, B2.
    apply (f_equal (fun o => match o with Some x => x | None => ((0, 0), (0, 0)) end)) in Eq. cbv beta iota in Eq. rewrite Eq.
    destruct (Hold p I) as [H1 H2]. rewrite (lsize_holds _ _ _ _ H1) in D1, B1 |- *. rewrite (lsize_holds _ _ _ _ H2) in D2, B2 |- *. cbn [fst snd].
    assert (Tot : 0 <= snd (packed h lod ps) /\ 9 * snd (packed h lod ps) < 2 ^ 32).
    { rewrite PropBatch.sizes_total, <- (total_perm (lsize h lod) _ _ Pm) in Room. fold (packed h lod ps) in Room.
      pose proof (total_nonneg (lsize h lod) Sz (map fst (fst (packed h lod ps)))) as Tn.
      destruct (layout_fold (lsize h lod) Sz (2 ^ 64) ltac:(unfold u32max; lia) ps ([], 0)) as [[_ [_ T0]] _];
        [split; [constructor|split; [exact Logic.I|reflexivity]]|fold (layout (2 ^ 64) (lsize h lod) ps); fold (packed h lod ps); unfold keys, u32max; lia|].
      fold (layout (2 ^ 64) (lsize h lod) ps) in T0. fold (packed h lod ps) in T0. unfold keys in T0. rewrite T0. split; [exact Tn|exact Room]. }
    unfold allocated in B1, B2. rewrite Z.mod_small in B1, B2 by lia.
    split; (split; [assumption|]; split; [reflexivity|]; cbn [fst snd]; split; [lia|]; split; [lia|]); intros k Lk.
    - specialize (D1 (Z.of_nat k) ltac:(lia)). unfold operand in D1. cbn [fst] in D1. unfold u32max in D1. rewrite Z.mod_small in D1 by lia.
      unfold cell, buffer. replace (9 * o1 + Z.of_nat k) with (o1 * 9 + Z.of_nat k) by lia. rewrite D1, (ldata_holds h lod _ _ k H1 Lk). reflexivity.
    - specialize (D2 (Z.of_nat k) ltac:(lia)). unfold operand in D2. cbn [fst] in D2. unfold u32max in D2. rewrite Z.mod_small in D2 by lia.
      unfold cell, buffer. replace (9 * o2 + Z.of_nat k) with (o2 * 9 + Z.of_nat k) by lia. rewrite D2, (ldata_holds h lod _ _ k H2 Lk). reflexivity.
  Qed.

  (** What the test says of a pair. *)
  Definition meets (p : nat * nat) : Prop := exists t1 t2, In t1 (tris (fst p)) /\ In t2 (tris (snd p)) /\ tri_pair t1 t2 = true.
  Lemma floats_leads os T : leads os T -> floats junk (buffer h lod ps) os = tri_buffer T.
  Proof.
    intros (L0 & S & _ & B & D). unfold floats. apply (nth_ext _ _ 0%Q 0%Q); rewrite map_length, seq_length.
    - rewrite S, tri_buffer_length. lia.
    - intros k Lk. rewrite (map_nth_seq k) by exact Lk. rewrite <- D by lia.
      unfold u32max. rewrite Z.mod_small by lia. f_equal. lia.
  Qed.
  Lemma cpu_value_iff i p : nth_error ps i = Some p -> cpu_value junk h lod ps (Z.of_nat i) = true <-> meets p.
  Proof.
    intros E. unfold cpu_value, aget. replace (Z.of_nat i <? 0) with false by (symmetry; apply Z.ltb_ge; lia). rewrite Nat2Z.id, E.
    destruct (quad_leads p (nth_error_In _ _ E)) as [L1 L2]. cbv zeta. rewrite (floats_leads _ _ L1), (floats_leads _ _ L2).
    destruct L1 as (_ & -> & _). destruct L2 as (_ & -> & _). rewrite !Nat2Z.id. apply single_iff.
  Qed.

  (** ** The device *)
  Lemma os_list_at os : forall i q, nth_error os i = Some q ->
    let l := flat_map (fun q : (Z * Z) * (Z * Z) => let '((o1, s1), (o2, s2)) := q in map Z.to_nat [o1; s1; o2; s2]) os in
    os_at l (i * 4) = Z.to_nat (fst (fst q)) /\ os_at l (i * 4 + 1) = Z.to_nat (snd (fst q)) /\
    os_at l (i * 4 + 2) = Z.to_nat (fst (snd q)) /\ os_at l (i * 4 + 3) = Z.to_nat (snd (snd q)).
  Proof.
    induction os as [|[[a b] [c d]] os IH]; intros [|i] q E; cbn [nth_error] in E; try discriminate E.
    - injection E as <-. cbn. auto.
    - specialize (IH i q E). cbn zeta in IH |- *. cbn [flat_map map app]. replace (S i * 4)%nat with (4 + i * 4)%nat by lia.
      unfold os_at in *. cbn [Nat.add nth]. exact IH.
  Qed.
  Lemma data_at os T k : leads os T -> (k < 9 * length T)%nat -> nth (9 * Z.to_nat (fst os) + k) (device_data junk h lod ps) 0%Q = nth k (tri_buffer T) 0%Q.
  Proof.
    intros (L0 & S & A & B & D) Lk. unfold device_data. rewrite map_nth_seq by lia. rewrite <- D by exact Lk. f_equal. lia.
  Qed.
  Lemma vec_data_at os T s j : leads os T -> (s < length T)%nat -> (j <= 6)%nat ->
    vec_at (device_data junk h lod ps) (9 * (Z.to_nat (fst os) + s) + j) = vec_at (tri_buffer T) (9 * s + j).
  Proof.
    intros L Ls Lj. unfold vec_at. rewrite <- !(data_at os T _ L) by lia. f_equal; f_equal; lia.
  Qed.
  Lemma tri_int_data os1 T1 os2 T2 i j : leads os1 T1 -> leads os2 T2 -> (i < length T1)%nat -> (j < length T2)%nat ->
    tri_int_at (device_data junk h lod ps) (device_data junk h lod ps) (Z.to_nat (fst os1) + i) (Z.to_nat (fst os2) + j) =
    tri_pair (nth i T1 none_tri) (nth j T2 none_tri).
  Proof.
    intros L1 L2 Hi Hj. rewrite <- tri_int_at_pair by assumption. unfold tri_int_at.
    rewrite (vec_data_at os1 T1 i 3 L1), (vec_data_at os1 T1 i 6 L1), (vec_data_at os2 T2 j 3 L2), (vec_data_at os2 T2 j 6 L2) by (assumption || lia).
    pose proof (vec_data_at os1 T1 i 0 L1 Hi ltac:(lia)) as A. pose proof (vec_data_at os2 T2 j 0 L2 Hj ltac:(lia)) as B. rewrite !Nat.add_0_r in A, B.
    rewrite A, B. reflexivity.
  Qed.
  Lemma kernel_value_iff i p : nth_error ps i = Some p -> tri_kernel (device_data junk h lod ps) (os_list h lod ps) i = true <-> meets p.
  Proof.
    intros E. destruct (quad_leads p (nth_error_In _ _ E)) as [L1 L2].
    assert (O : nth_error (offset_size (fst (packed h lod ps)) ps) i = Some (quad (fst (packed h lod ps)) p))
      by (unfold offset_size; now rewrite nth_error_map, E).
    destruct (os_list_at _ i _ O) as (A & B & C & D). fold (os_list h lod ps) in A, B, C, D.
    unfold tri_kernel. rewrite A, B, C, D. pose proof L1 as (_ & -> & _). pose proof L2 as (_ & -> & _). rewrite !Nat2Z.id. clear A B C D O.
    rewrite find_from_iff. unfold meets. split.
    - intros (s1 & H1 & F). apply find_from_iff in F as (s2 & H2 & F). rewrite (tri_int_data _ _ _ _ s1 s2 L1 L2) in F by lia.
      exists (nth s1 (tris (fst p)) none_tri), (nth s2 (tris (snd p)) none_tri). split; [apply nth_In; lia|]. split; [apply nth_In; lia|exact F].
    - intros (t1 & t2 & I1 & I2 & F). apply (In_nth _ _ none_tri) in I1 as (s1 & H1 & <-). apply (In_nth _ _ none_tri) in I2 as (s2 & H2 & <-).
      exists s1. split; [lia|]. apply find_from_iff. exists s2. split; [lia|]. rewrite (tri_int_data _ _ _ _ s1 s2 L1 L2) by lia. exact F.
  Qed.
End Batch.

(** * Entering the results *)
Definition mark1 (b : bool) (vp : vpair) : vpair := VPair (vp_v1 vp) (vp_v2 vp) (vp_dist vp) (vp_intersect vp || b).
Fixpoint marks (f : nat -> bool) (idx : nat) (ps : list vpair) : list vpair :=
  match ps with [] => [] | vp :: r => mark1 (f idx) vp :: marks f (S idx) r end.
Lemma marks_app f a : forall idx b, marks f idx (a ++ b) = marks f idx a ++ marks f (idx + length a) b.
Proof.
  induction a as [|x a IH]; intros idx b; cbn [app marks length]; [now rewrite Nat.add_0_r|].
  rewrite IH. now replace (S idx + length a)%nat with (idx + S (length a))%nat by lia.
Qed.
Lemma marks_nth f ps : forall idx i, nth_error (marks f idx ps) i = option_map (mark1 (f (idx + i)%nat)) (nth_error ps i).
Proof.
  induction ps as [|x ps IH]; intros idx [|i]; cbn [marks nth_error option_map]; try reflexivity.
  - now rewrite Nat.add_0_r.
  - rewrite IH. now replace (S idx + i)%nat with (idx + S i)%nat by lia.
Qed.
Lemma marks_ends f ps : forall idx, map ends (marks f idx ps) = map ends ps.
Proof. induction ps as [|x ps IH]; intros idx; cbn [marks map]; [reflexivity|]. now rewrite IH. Qed.
Lemma mark_pairs_marks f ps : forall idx, mark_pairs f idx ps = (marks f idx ps, (idx + length ps)%nat).
Proof.
  induction ps as [|x ps IH]; intros idx; cbn [mark_pairs marks length]; [now rewrite Nat.add_0_r|].
  rewrite IH. unfold mark1. now replace (S idx + length ps)%nat with (idx + S (length ps))%nat by lia.
Qed.
Lemma mark_infos_marks f cl : forall idx, let r := mark_infos f idx cl in
  flat_map c_pairs (fst r) = marks f idx (flat_map c_pairs cl) /\ snd r = (idx + length (flat_map c_pairs cl))%nat.
Proof.
  induction cl as [|c cl IH]; intros idx; cbn [mark_infos flat_map]; [cbn; split; [reflexivity|now rewrite Nat.add_0_r]|].
  rewrite mark_pairs_marks. specialize (IH (idx + length (c_pairs c))%nat).
  destruct (mark_infos f (idx + length (c_pairs c)) cl) as [r' n']. cbn zeta in IH |- *. cbn [fst snd] in IH |- *.
  cbn [flat_map c_pairs]. destruct IH as [-> ->]. rewrite marks_app, app_length. split; [reflexivity|lia].
Qed.
Lemma mark_entries_marks f cs : forall idx, let r := mark_entries f idx cs in
  all_pairs r = marks f idx (all_pairs cs) /\ Forall2 like cs r.
Proof.
  induction cs as [|e cs IH]; intros idx; cbn [mark_entries]; [split; [reflexivity|constructor]|].
  pose proof (mark_infos_marks f (snd e) idx) as M. destruct (mark_infos f idx (snd e)) as [cl' n']. cbn zeta in M. cbn [fst snd] in M. destruct M as [M1 ->].
  specialize (IH (idx + length (flat_map c_pairs (snd e)))%nat). cbn zeta in IH |- *. destruct IH as [I1 I2]. unfold all_pairs in *. cbn [flat_map snd]. rewrite I1, M1, marks_app.
  split; [reflexivity|]. constructor; [|exact I2]. split; [reflexivity|]. unfold entry_ends. cbn [snd]. rewrite M1. symmetry. apply marks_ends.
Qed.
Lemma Forall2_in_l {A B} (R : A -> B -> Prop) l m : Forall2 R l m -> forall x, In x l -> exists y, In y m /\ R x y.
Proof. induction 1 as [|x y l m H F IH]; [intros z []|]; intros z [<-|I]; [exists y; split; [now left|exact H]|]. destruct (IH z I) as (y' & I' & H'). exists y'. split; [now right|exact H']. Qed.
Lemma Forall2_in_r {A B} (R : A -> B -> Prop) l m : Forall2 R l m -> forall y, In y m -> exists x, In x l /\ R x y.
Proof. induction 1 as [|x y l m H F IH]; [intros z []|]; intros z [<-|I]; [exists x; split; [now left|exact H]|]. destruct (IH z I) as (y' & I' & H'). exists y'. split; [now right|exact H']. Qed.

Section Levels.
  Variable statuses : Z -> list centry -> list bool.
  Variable hit : Z -> voxel -> voxel -> bool.
  (** The pairs that may occur. *)
  Variable okp : voxel * voxel -> Prop.
  Definition within_ok (cs : list centry) : Prop := forall e x, In e cs -> In x (entry_ends e) -> okp x.
  Definition st_sound (lod : Z) : Prop := forall cs i vp, within_ok cs -> nth_error (all_pairs cs) i = Some vp ->
    nth i (statuses lod cs) false = true -> hit lod (vp_v1 vp) (vp_v2 vp) = true.
  Definition st_complete (lod : Z) : Prop := forall cs i vp, within_ok cs -> nth_error (all_pairs cs) i = Some vp ->
    hit lod (vp_v1 vp) (vp_v2 vp) = true -> nth i (statuses lod cs) false = true.
  (** An entry with a pair that is hit at a level. *)
  Definition hit_at (lods : list Z) (e : centry) : Prop := exists lod, In lod lods /\ truly (hit lod) e.

  Lemma enter_spec lod s : st_sound lod -> within_ok (fst s) -> Forall no_marks (fst s) ->
    let s' := enter (statuses lod (fst s)) s in
    within_ok (fst s') /\ Forall no_marks (fst s') /\
    (forall e, In e (fst s) -> exists e', like e e' /\ (In e' (fst s') \/ In e' (snd s'))) /\
    (forall e, In e (snd s) -> In e (snd s')) /\
    (forall e, In e (snd s') -> In e (snd s) \/ truly (hit lod) e /\ exists e0, In e0 (fst s) /\ like e0 e) /\
    (forall e, In e (fst s') -> exists e0, In e0 (fst s) /\ like e0 e) /\
    (st_complete lod -> Forall (fun e => ~ truly (hit lod) e) (fst s')).
  Proof.
    intros Sound W F. destruct s as [cs found]. cbn [fst snd] in *. set (st := statuses lod cs). unfold enter. cbn [fst snd].
    set (f := fun i => nth i st false). destruct (mark_entries_marks f cs 0) as [A L]. set (r := mark_entries f 0 cs) in *. clearbody r.
    assert (NM : forall vp, In vp (all_pairs cs) -> vp_intersect vp = false).
    { intros vp H. apply in_flat_map in H as (e & He & H). rewrite Forall_forall in F. specialize (F e He). unfold no_marks in F. rewrite Forall_forall in F. now apply F. }
    assert (HR : forall e vp, In e r -> In vp (flat_map c_pairs (snd e)) -> exists i vp0, nth_error (all_pairs cs) i = Some vp0 /\ vp = mark1 (f i) vp0).
    { intros e vp He Hv. assert (H : In vp (all_pairs r)) by (apply in_flat_map; eauto). rewrite A in H. apply In_nth_error in H as (i & H).
      rewrite marks_nth in H. cbn [Nat.add] in H. destruct (nth_error (all_pairs cs) i) as [vp0|] eqn:E; cbn [option_map] in H; [|discriminate H].
      injection H as <-. eauto. }
    unfold update_candidate_list_intersect. cbn [fst snd]. split; [|split; [|split; [|split; [|split; [|split]]]]].
    - intros e x He Hx. apply filter_In in He as [He _]. destruct (Forall2_in_r _ _ _ L e He) as (e0 & H0 & [_ E]). apply (W e0 x H0). now rewrite E.
    - apply Forall_forall. intros e He. apply filter_In in He as [_ He]. apply negb_true_iff in He. apply Forall_forall. intros vp Hv.
      destruct (vp_intersect vp) eqn:Ev; [|reflexivity]. assert (entry_hit e = true) by (apply entry_hit_spec; eauto). congruence.
    - intros e He. destruct (Forall2_in_l _ _ _ L e He) as (e' & H' & K). exists e'. split; [exact K|]. rewrite in_app_iff, !filter_In.
      destruct (entry_hit e'); [right; right|left]; auto.
    - intros e He. apply in_or_app. now left.
    - intros e He. apply in_app_iff in He as [He|He]; [now left|right]. apply filter_In in He as [He Hh]. split.
      + apply entry_hit_spec in Hh as (vp & Hv & Ev). destruct (HR e vp He Hv) as (i & vp0 & E0 & ->).
        cbn [mark1 vp_intersect] in Ev. rewrite (NM vp0 (nth_error_In _ _ E0)) in Ev. cbn [orb] in Ev.
        exists (ends vp0). split; [unfold entry_ends; apply in_map_iff; exists (mark1 (f i) vp0); split; [reflexivity|exact Hv]|].
        cbn [ends fst snd]. apply (Sound cs i vp0 W E0 Ev).
      + destruct (Forall2_in_r _ _ _ L e He) as (e0 & H0 & K). eauto.
    - intros e He. apply filter_In in He as [He _]. destruct (Forall2_in_r _ _ _ L e He) as (e0 & H0 & K). eauto.
    - intros Comp. apply Forall_forall. intros e He (x & Hx & Hh). apply filter_In in He as [He Hn]. apply negb_true_iff in Hn.
      unfold entry_ends in Hx. apply in_map_iff in Hx as (vp & <- & Hv). destruct (HR e vp He Hv) as (i & vp0 & E0 & ->).
      cbn [ends mark1 vp_v1 vp_v2 fst snd] in Hh. pose proof (Comp cs i vp0 W E0 Hh) as C.
      assert (entry_hit e = true); [|congruence]. apply entry_hit_spec. exists (mark1 (f i) vp0). split; [exact Hv|].
      cbn [mark1 vp_intersect]. unfold f, st. rewrite C. apply orb_true_r.
  Qed.

  Lemma levels_sound lods : forall s, (forall lod, In lod lods -> st_sound lod) -> within_ok (fst s) -> Forall no_marks (fst s) ->
    let s' := levels statuses lods s in
    (forall e, In e (snd s) -> In e (snd s')) /\
    (forall e, In e (snd s') -> In e (snd s) \/ hit_at lods e /\ exists e0, In e0 (fst s) /\ like e0 e).
  Proof.
    induction lods as [|lod lods IH]; intros s Sound W F; cbn [levels]; [split; auto|].
    destruct (Nat.eqb_spec (get_pair_num (fst s)) 0) as [Z|Z]; [split; auto|].
    destruct (enter_spec lod s (Sound lod (or_introl eq_refl)) W F) as (W' & F' & A & B & C & D & _).
    destruct (IH (enter (statuses lod (fst s)) s) (fun l H => Sound l (or_intror H)) W' F') as (B' & C'). cbn zeta. split; [auto|].
    intros e He. destruct (C' e He) as [H|[(l & Il & T) (e0 & H0 & K)]].
    - destruct (C e H) as [H'|[T H']]; [now left|right]. split; [exists lod; split; [now left|exact T]|exact H'].
    - right. split; [exists l; split; [now right|exact T]|]. destruct (D e0 H0) as (e1 & H1 & K1). exists e1. split; [exact H1|]. eapply like_trans; eauto.
  Qed.
  Lemma hit_at_like e e' lods : like e e' -> hit_at lods e -> hit_at lods e'.
  Proof. intros L (l & I & T). exists l. split; [exact I|]. eapply like_truly; eauto. Qed.
  Lemma levels_complete lods : forall s, (forall lod, In lod lods -> st_sound lod /\ st_complete lod) -> within_ok (fst s) -> Forall no_marks (fst s) ->
    forall e, In e (fst s) -> hit_at lods e -> exists e', like e e' /\ In e' (snd (levels statuses lods s)).
  Proof.
    induction lods as [|lod lods IH]; intros s Sound W F e He (l & Il & T); [destruct Il|]. cbn [levels].
    destruct (Nat.eqb_spec (get_pair_num (fst s)) 0) as [Z|Z].
    { exfalso. destruct T as (x & Hx & _). unfold get_pair_num in Z. apply length_zero_iff_nil in Z. unfold entry_ends in Hx.
      apply in_map_iff in Hx as (vp & _ & Hv). assert (H : In vp (all_pairs (fst s))) by (apply in_flat_map; eauto). rewrite Z in H. destruct H. }
    destruct (enter_spec lod s (proj1 (Sound lod (or_introl eq_refl))) W F) as (W' & F' & A & B & C & D & X).
    destruct (A e He) as (e' & K & [H|H]).
    - destruct Il as [<-|Il].
      + exfalso. specialize (X (proj2 (Sound lod (or_introl eq_refl)))). rewrite Forall_forall in X. apply (X e' H). eapply like_truly; eauto.
      + destruct (IH (enter (statuses lod (fst s)) s) (fun l' H' => Sound l' (or_intror H')) W' F' e' H) as (e2 & K2 & H2).
        { apply (hit_at_like e e' lods K). exists l. split; [exact Il|exact T]. }
        exists e2. split; [eapply like_trans; eauto|exact H2].
    - exists e'. split; [exact K|]. apply (proj1 (levels_sound lods (enter (statuses lod (fst s)) s) (fun l' H' => proj1 (Sound l' (or_intror H'))) W' F')). exact H.
  Qed.
End Levels.

(** * Candidates *)
Lemma mbb_intersect_pairs fuel t1 t2 cs : tile_ok t2 -> mbb_intersect fuel t1 t2 = Some cs ->
  forall e x, In e cs -> In x (entry_ends e) -> In (fst e) (t_objs t1) /\ In (fst x) (w_voxels (fst e)) /\
    intersect (v_box (fst x)) (v_box (snd x)) = true /\
    exists w2, In w2 (t_objs t2) /\ o_ptr (w_obj w2) <> o_ptr (w_obj (fst e)) /\ In (snd x) (w_voxels w2).
Proof.
  intros O E e x He Hx. unfold mbb_intersect in E.
  destruct (tile_octree fuel 400 t2) as [tree|] eqn:Et; cbn [bind] in E; [|discriminate E].
  destruct (tile_tree_facts fuel 400 t2 tree O Et) as [I _].
  destruct (map_opt _ (t_objs t1)) as [l|] eqn:El in E; cbn [bind] in E; [|discriminate E]. injection E as <-.
  destruct (map_opt_in _ _ _ El) as [_ L2].
  unfold somes in He. apply in_flat_map in He as [[e'|] [He H0]]; [|destruct H0]. destruct H0 as [->|[]].
  destruct (L2 _ He) as [w1 [Hw1 Ee]]. clear El L2 He. unfold intersect_entry in Ee.
  destruct (sort_by _ (query_intersect tree (w_obj w1))) as [|i0 ids] eqn:Es; [discriminate Ee|].
  destruct (map_opt _ (skip_dups _ _ _)) as [m|] eqn:Em in Ee; cbn [bind] in Ee; [|discriminate Ee]. injection Ee as <-.
  cbn [fst]. split; [exact Hw1|]. unfold entry_ends in Hx. cbn [snd] in Hx. apply in_map_iff in Hx as (vp & <- & Hv).
  apply in_flat_map in Hv as (c & Hc & Hv). apply filter_In in Hc as [Hc _]. destruct (map_opt_in _ _ _ Em) as [_ M2].
  destruct (M2 c Hc) as (i & Hi & Ei). apply (proj1 (skip_dups_in _ _ _)) in Hi.
  assert (Hq : In i (query_intersect tree (w_obj w1))) by (apply (sort_by_in (fun i => i)); rewrite Es; exact Hi).
  destruct (query_intersect_sound tree _ _ _ I Hq) as [o [Ho [Eo [Do _]]]]. apply in_map_iff in Ho as [w2 [<- Hw2]].
  rewrite <- Eo, (tile_wrapper t2 w2 O Hw2) in Ei. cbn [bind] in Ei. injection Ei as <-. cbn [c_pairs] in Hv.
  apply overlap_pairs_spec in Hv as (v1 & v2 & H1 & H2 & X & ->). cbn [ends vp_v1 vp_v2 fst snd]. split; [exact H1|]. split; [exact X|].
  exists w2. auto.
Qed.

(** * Runs of a level *)
(** TriInt.cu:311-350 on a device: the threads of the grid in any order, any former contents. *)
Definition device_run (h : heap) (lod : Z) (cs : list centry) (st : list bool) : Prop := exists junk order old,
  Permutation order (tri_grid (N.to_nat 1024%N) (length (all_pairs cs))) /\ length old = length (all_pairs cs) /\ st = gpu_statuses junk h order old lod cs.
(** geometry_computer.cpp:171-195 on [threads] threads, in any interleaving. *)
Definition cpu_run (h : heap) (threads lod : Z) (cs : list centry) (st : list bool) : Prop := exists junk tr,
  interleaved (snd (intersect_runs (Z.of_nat (length (all_pairs cs))) threads)) tr /\ st = cpu_statuses junk h threads tr lod cs.

Lemma ptrs_nth cs i : nth_error (ptrs cs) i = option_map (fun vp => (v_ptr (vp_v1 vp), v_ptr (vp_v2 vp))) (nth_error (all_pairs cs) i).
Proof. unfold ptrs. apply nth_error_map. Qed.
Lemma ptrs_length cs : length (ptrs cs) = length (all_pairs cs).
Proof. unfold ptrs. apply map_length. Qed.
Lemma sizes_incl size : (forall v : nat, 0 <= size v) -> forall l m, NoDup l -> incl l m -> PropBatch.sizes size l <= PropBatch.sizes size m.
Proof.
  intros S. assert (N : forall m, 0 <= PropBatch.sizes size m) by (intros m; rewrite PropBatch.sizes_total; now apply total_nonneg).
  induction l as [|x l IH]; intros m D I; [apply N|].
  inversion D as [|? ? Nx Dl]; subst. destruct (in_split x m (I x (or_introl eq_refl))) as (a & b & ->).
  assert (J : incl l (a ++ b)).
  { intros y Hy. specialize (I y (or_intror Hy)). rewrite in_app_iff in *. cbn [In] in I. destruct I as [I|[<-|I]]; auto. contradiction. }
  specialize (IH (a ++ b) Dl J). rewrite !PropBatch.sizes_total in *. rewrite total_app in *. cbn [total]. lia.
Qed.

Section Runs.
  Variables (h : heap) (lod : Z) (tris : nat -> list triangle) (addrs : list nat).
  Hypothesis Sz : forall v, 0 <= lsize h lod v.
  Hypothesis Hold : forall v, In v addrs -> holds h lod v (tris v).
  Hypothesis Room : 9 * PropBatch.sizes (lsize h lod) addrs < 2 ^ 32.
  Definition known (x : voxel * voxel) : Prop := In (v_ptr (fst x)) addrs /\ In (v_ptr (snd x)) addrs.
  Definition tested (v1 v2 : voxel) : bool := existsb (fun t1 => existsb (tri_pair t1) (tris (v_ptr v2))) (tris (v_ptr v1)).
  Lemma tested_iff v1 v2 : tested v1 v2 = true <-> exists t1 t2, In t1 (tris (v_ptr v1)) /\ In t2 (tris (v_ptr v2)) /\ tri_pair t1 t2 = true.
  Proof.
    unfold tested. rewrite existsb_exists. split.
    - intros (t1 & I1 & H). apply existsb_exists in H as (t2 & I2 & H). eauto.
    - intros (t1 & t2 & I1 & I2 & H). exists t1. split; [exact I1|]. apply existsb_exists. eauto.
  Qed.
  Lemma known_pairs cs p : within_ok known cs -> In p (ptrs cs) -> In (fst p) addrs /\ In (snd p) addrs.
  Proof.
    intros W H. unfold ptrs in H. apply in_map_iff in H as (vp & <- & H). apply in_flat_map in H as (e & He & H).
    apply (W e (ends vp) He). unfold entry_ends. now apply in_map.
  Qed.
  Lemma known_room cs : within_ok known cs -> 9 * PropBatch.sizes (lsize h lod) (voxels_of (ptrs cs)) < 2 ^ 32.
  Proof.
    intros W. assert (PropBatch.sizes (lsize h lod) (voxels_of (ptrs cs)) <= PropBatch.sizes (lsize h lod) addrs); [|lia].
    apply sizes_incl; [exact Sz|apply NoDup_nodup|]. intros v H. apply voxels_of_in in H as (p & I & E). destruct (known_pairs cs p W I). destruct E as [-> | ->]; assumption.
  Qed.
  Lemma device_exact cs st i vp : device_run h lod cs st -> within_ok known cs -> nth_error (all_pairs cs) i = Some vp ->
    nth i st false = tested (vp_v1 vp) (vp_v2 vp).
  Proof.
    intros (junk & order & old & P & L & ->) W E. assert (Li : (i < length (ptrs cs))%nat) by (rewrite ptrs_length; apply nth_error_Some; congruence).
    unfold gpu_statuses. rewrite <- ptrs_length in P, L.
    destruct (tri_batch_spec (device_data junk h lod (ptrs cs)) (os_list h lod (ptrs cs)) (length (ptrs cs)) order old L) as [LL T].
    rewrite (nth_indep _ false true) by (rewrite LL; exact Li). rewrite (T i Li).
    assert (X : existsb (Nat.eqb i) order = true).
    { apply existsb_exists. exists i. split; [|apply Nat.eqb_refl]. apply (Permutation_in i (Permutation_sym P)). apply grid_covers; [apply Nat.ltb_lt; vm_compute; reflexivity|exact Li]. }
    rewrite X. apply Bool.eq_iff_eq_true.
    rewrite (kernel_value_iff junk h lod (ptrs cs) tris Sz (fun p Hp => conj (Hold _ (proj1 (known_pairs cs p W Hp))) (Hold _ (proj2 (known_pairs cs p W Hp)))) (known_room cs W) i (v_ptr (vp_v1 vp), v_ptr (vp_v2 vp))).
    - unfold meets. cbn [fst snd]. symmetry. apply tested_iff.
    - rewrite ptrs_nth, E. reflexivity.
  Qed.
  Lemma cpu_exact threads cs st i vp : 0 < threads -> cpu_run h threads lod cs st -> within_ok known cs -> nth_error (all_pairs cs) i = Some vp ->
    nth i st false = (Z.of_nat i <? threads * (Z.of_nat (length (all_pairs cs)) / threads)) && tested (vp_v1 vp) (vp_v2 vp).
  Proof.
    intros Ht (junk & tr & IL & ->) W E. assert (Li : (i < length (ptrs cs))%nat) by (rewrite ptrs_length; apply nth_error_Some; congruence).
    unfold cpu_statuses. rewrite map_nth_seq by exact Li. rewrite <- ptrs_length in IL |- *.
    rewrite (PropBatch.intersect_batch_covers_partial (Z.of_nat (length (ptrs cs))) threads tr ltac:(lia) Ht IL _ _ (Z.of_nat i) ltac:(lia)).
    destruct (Z.of_nat i <? _); [|reflexivity]. cbn [andb]. apply Bool.eq_iff_eq_true.
    rewrite (cpu_value_iff junk h lod (ptrs cs) tris Sz (fun p Hp => conj (Hold _ (proj1 (known_pairs cs p W Hp))) (Hold _ (proj2 (known_pairs cs p W Hp)))) (known_room cs W) i (v_ptr (vp_v1 vp), v_ptr (vp_v2 vp))).
    - unfold meets. cbn [fst snd]. symmetry. apply tested_iff.
    - rewrite ptrs_nth, E. reflexivity.
  Qed.
End Runs.

(** * Triangles and facets *)
Fixpoint parse (l : list Q) : list triangle :=
  match l with
  | a :: b :: c :: x :: y :: z :: u :: v :: w :: r => ((a, b, c), (x, y, z), (u, v, w)) :: parse r
  | _ => []
  end.
Definition read_all (l : list (option Q)) : list Q := map (fun o => match o with Some q => q | None => 0%Q end) l.
(** The triangles in the buffer of a voxel. *)
Definition tris_at (h : heap) (lod : Z) (v : nat) : list triangle :=
  match VoxelModel.v_data (h v) lod with Some l => parse (read_all l) | None => [] end.
Lemma parse_buffer T : parse (tri_buffer T) = T.
Proof. induction T as [|[[[[a b] c] [[d e] f]] [[g h] k]] T IH]; [reflexivity|]. unfold tri_buffer in *. cbn [flat_map tri_floats app parse]. now rewrite IH. Qed.
Lemma read_all_some l : read_all (map Some l) = l.
Proof. unfold read_all. rewrite map_map. apply map_id. Qed.
