(** C144-C146: the edges and facets of a level in the voxels, and in the answers. *)
From Coq Require Import ZArith QArith List Bool Lia Lqa Permutation Arith.
From Verif Require Import Arr AabModel OctreeModel JoinModel EndModel PropEnd PropEndDist PpmcModel PpmcTopo PpmcStar PpmcRound PpmcCheck PpmcLevels PpmcObject PipeModel PropPipe.
From Verif Require CodecModel PpmcGrid PpmcEnc ConvexModel PropPpmc PropPpmcLevels VoxelModel PropVoxel PpmcTot EndProofs.
Import ListNotations.
Close Scope Q_scope.
Close Scope Z_scope.
Open Scope nat_scope.

(** * Specification *)
(** A list of half-edges with one of every edge. *)
Definition each_edge_once (m : mesh) (es : list dart) : Prop :=
  NoDup es /\ (forall u v, In (u, v) es -> m u v <> None /\ ~ In (v, u) es) /\ (forall u v, m u v <> None -> In (u, v) es \/ In (v, u) es).
(** A list of half-edges with one of every facet. *)
Definition each_facet_once (m : mesh) (fs : list dart) : Prop :=
  NoDup fs /\ (forall d, In d fs -> m (fst d) (snd d) <> None) /\
  (forall d, m (fst d) (snd d) <> None -> exists f, In f fs /\ forb m f d) /\
  (forall f f', In f fs -> In f' fs -> forb m f f' -> f = f').
(** The convex hull of some points. *)
Fixpoint weighted (ws : list Q) (ps : list vec) (i : axis) : Q :=
  match ws, ps with w :: ws', p :: ps' => (w * p i + weighted ws' ps' i)%Q | _, _ => 0%Q end.
Definition in_hull (ps : list vec) (X : vec) : Prop := exists ws, length ws = length ps /\ Forall (fun w => 0 <= w)%Q ws /\
  (fold_right Qplus 0 ws == 1)%Q /\ forall i, (X i == weighted ws ps i)%Q.
(** The points of the surface of a mesh: those of a facet are spanned by its corners. *)
Definition on_surface {P} (value : P -> vec) (m : mesh) (pos : nat -> P) (X : vec) : Prop :=
  exists d lp, is_loop m d lp /\ in_hull (map (fun e => value (pos (snd e))) lp) X.
(** All facets are triangles. *)
Definition triangulated (m : mesh) : Prop := forall d lp, is_loop m d lp -> length lp = 3.

(** * Renaming *)
Section Same.
  Context {P : Type} (value : P -> vec).
  Variables (m : mesh) (pos : nat -> P) (m' : mesh) (pos' : nat -> P) (sg : nat -> nat).
  Hypothesis S : same_mesh m pos m' pos' sg.
  Let sd (d : dart) : dart := (sg (fst d), sg (snd d)).

  Lemma sd_inj a b : sd a = sd b -> a = b.
  Proof. destruct S as (I & _). destruct a, b. unfold sd. cbn [fst snd]. intro E. injection E as E1 E2. rewrite (I _ _ E1), (I _ _ E2). reflexivity. Qed.
  Lemma dart_iff d : m' (fst (sd d)) (snd (sd d)) <> None <-> m (fst d) (snd d) <> None.
  Proof. destruct S as (_ & E & _). unfold sd. cbn [fst snd]. rewrite E. destruct (m (fst d) (snd d)); cbn [option_map]; split; congruence. Qed.
  Lemma dart_from d : m' (fst d) (snd d) <> None -> exists d0, d = sd d0 /\ m (fst d0) (snd d0) <> None.
  Proof.
    intro H. destruct S as (_ & _ & F & _). destruct (F _ _ H) as (u & v & E1 & E2). exists (u, v).
    assert (E : d = sd (u, v)) by (destruct d; cbn [fst snd] in *; unfold sd; cbn [fst snd]; congruence). split; [exact E|]. apply dart_iff. rewrite <- E. exact H.
  Qed.
  Lemma nxt_iff d : nxt m' (sd d) = option_map sd (nxt m d).
  Proof. destruct S as (_ & E & _). unfold nxt, sd. cbn [fst snd]. rewrite E. destruct (m (fst d) (snd d)); reflexivity. Qed.
  Lemma pull es : (forall d, In d es -> m' (fst d) (snd d) <> None) -> exists es0, es = map sd es0 /\ forall d, In d es0 -> m (fst d) (snd d) <> None.
  Proof.
    induction es as [|d es IH]; intro H; [exists []; split; [reflexivity|intros d []]|].
    destruct IH as (es0 & -> & H0); [intros x Hx; apply H; right; exact Hx|]. destruct (dart_from d (H d (or_introl eq_refl))) as (d0 & -> & Hd).
    exists (d0 :: es0). split; [reflexivity|]. intros x [<-|Hx]; auto.
  Qed.
  Lemma nodup_pull es0 : NoDup (map sd es0) -> NoDup es0.
  Proof. induction es0 as [|d l IH]; intro N; [constructor|]. cbn [map] in N. inversion N; subst. constructor; [|auto]. intro I. apply H1. apply in_map. exact I. Qed.
  Lemma in_sd d es0 : In (sd d) (map sd es0) <-> In d es0.
  Proof. split; [|apply in_map]. intro H. apply in_map_iff in H. destruct H as (x & E & H). apply sd_inj in E. congruence. Qed.
  Lemma forb_sd d x : forb m d x -> forb m' (sd d) (sd x).
  Proof. induction 1 as [d|d d1 d2 E _ IH]; [constructor|]. econstructor; [|exact IH]. rewrite nxt_iff, E. reflexivity. Qed.
  Lemma forb_back a x : forb m' a x -> forall d, a = sd d -> exists y, x = sd y /\ forb m d y.
  Proof.
    induction 1 as [a|a b c E _ IH]; intros d ->; [exists d; split; [reflexivity|constructor]|].
    rewrite nxt_iff in E. destruct (nxt m d) as [e|] eqn:En; [|discriminate E]. injection E as E. destruct (IH e (eq_sym E)) as (y & Ey & Fy).
    exists y. split; [exact Ey|]. econstructor; eauto.
  Qed.
  Lemma pos_at d : wf m -> m (fst d) (snd d) <> None -> pos' (sg (fst d)) = pos (fst d) /\ pos' (sg (snd d)) = pos (snd d).
  Proof.
    intros W H. destruct S as (_ & _ & _ & X). split; apply X; [exists (snd d); exact H|exists (fst d); apply (wf_sym m W); exact H].
  Qed.
  Lemma edges_pull es : each_edge_once m' es -> exists es0, es = map sd es0 /\ each_edge_once m es0.
  Proof.
    intros (N & D & A). destruct (pull es) as (es0 & -> & D0); [intros [u v] H; apply D; exact H|]. exists es0. split; [reflexivity|].
    split; [apply nodup_pull; exact N|]. split.
    - intros u v H. split; [apply (D0 (u, v)); exact H|]. intro K. apply (proj2 (in_sd _ _)) in H, K. unfold sd in H, K. cbn [fst snd] in H, K. exact (proj2 (D _ _ H) K).
    - intros u v H. apply (proj2 (dart_iff (u, v))) in H. destruct (A _ _ H) as [K|K]; [left|right]; apply in_sd; exact K.
  Qed.
  Lemma facets_pull fs : each_facet_once m' fs -> exists fs0, fs = map sd fs0 /\ each_facet_once m fs0.
  Proof.
    intros (N & D & A & U). destruct (pull fs D) as (fs0 & -> & D0). exists fs0. split; [reflexivity|].
    split; [apply nodup_pull; exact N|]. split; [exact D0|]. split.
    - intros d H. apply (proj2 (dart_iff d)) in H. destruct (A _ H) as (f & If & Ff). apply in_map_iff in If. destruct If as (f0 & <- & I0).
      destruct (forb_back _ _ Ff f0 eq_refl) as (y & Ey & Fy). apply sd_inj in Ey. subst y. eauto.
    - intros f f' Hf Hf' F. apply sd_inj. apply U; [apply in_map; exact Hf|apply in_map; exact Hf'|apply forb_sd; exact F].
  Qed.
End Same.

(** The first three corners of a facet. *)
Definition first_corners {P} (value : P -> vec) (m : mesh) (pos : nat -> P) (d : dart) (f : facet) : Prop :=
  exists a b, m (fst d) (snd d) = Some a /\ m (snd d) a = Some b /\ f = (value (pos (snd d)), value (pos a), value (pos b)).

Lemma all_some_spec {A B} (f : A -> option B) l : (forall a, In a l -> exists b, f a = Some b) -> exists bs, all_some f l = Some bs /\ Forall2 (fun a b => f a = Some b) l bs.
Proof.
  induction l as [|a l IH]; intro H; [exists []; split; [reflexivity|constructor]|].
  destruct IH as (bs & E & F); [intros x Hx; apply H; right; exact Hx|]. destruct (H a (or_introl eq_refl)) as (b & Eb).
  exists (b :: bs). cbn [all_some]. rewrite Eb, E. cbn [bind]. split; [reflexivity|]. constructor; auto.
Qed.

(** What is handed to the voxels of a decoded object, in terms of the level itself. *)
Lemma shown_level {P} (value : P -> vec) m pos m' pos' sg lod vs es fs : wf m -> same_mesh m pos m' pos' sg -> each_edge_once m' es -> each_facet_once m' fs ->
  exists sm es0 fs0, shown P value lod m' pos' vs es fs = Some sm /\ VoxelModel.m_lod sm = lod /\ each_edge_once m es0 /\ each_facet_once m fs0 /\
    VoxelModel.m_edges sm = map (fun d => (value (pos (snd d)), value (pos (fst d)))) es0 /\ Forall2 (first_corners value m pos) fs0 (VoxelModel.m_facets sm).
Proof.
  intros W S HE HF.
  destruct (edges_pull m pos m' pos' sg S es HE) as (es0 & -> & E0). destruct (facets_pull m pos m' pos' sg S fs HF) as (fs0 & -> & F0).
  set (sd := fun d : dart => (sg (fst d), sg (snd d)) : dart) in *.
  assert (FC : forall d, m (fst d) (snd d) <> None -> exists f, facet_corners P value m' pos' (sd d) = Some f /\ first_corners value m pos d f).
  { intros d Hd. destruct (m (fst d) (snd d)) as [a|] eqn:E1; [|congruence]. assert (H1 : m (snd d) a <> None) by (eapply wf_nxt; eauto).
    destruct (m (snd d) a) as [b|] eqn:E2; [|congruence].
    assert (N1 : nxt m d = Some (snd d, a)) by (unfold nxt; rewrite E1; reflexivity). assert (N2 : nxt m (snd d, a) = Some (a, b)) by (unfold nxt; cbn [fst snd]; rewrite E2; reflexivity).
    exists (value (pos (snd d)), value (pos a), value (pos b)). split; [|exists a, b; auto].
    unfold facet_corners. pose proof (nxt_iff m pos m' pos' sg S d) as K1. rewrite N1 in K1. cbn [option_map fst snd] in K1. fold (sd d) in K1. rewrite K1. cbn [bind].
    pose proof (nxt_iff m pos m' pos' sg S (snd d, a)) as K2. rewrite N2 in K2. cbn [option_map fst snd] in K2. rewrite K2. cbn [bind]. unfold sd. cbn [fst snd].
    assert (D0 : m (fst d) (snd d) <> None) by congruence.
    assert (D1 : m (snd d) a <> None) by congruence. assert (D2 : m a b <> None) by (eapply wf_nxt; eauto).
    pose proof (proj2 (pos_at m pos m' pos' sg S d W D0)) as Q1. pose proof (proj2 (pos_at m pos m' pos' sg S (snd d, a) W D1)) as Q2.
    pose proof (proj2 (pos_at m pos m' pos' sg S (a, b) W D2)) as Q3. cbn [fst snd] in Q2, Q3. rewrite Q1, Q2, Q3. reflexivity. }
  destruct (all_some_spec (facet_corners P value m' pos') (map sd fs0)) as (facets & EF & FF).
  { intros a Ha. apply in_map_iff in Ha. destruct Ha as (d & <- & Hd). destruct (FC d (proj1 (proj2 F0) d Hd)) as (f & Ef & _). eauto. }
  exists (VoxelModel.Mesh lod (map (fun v => value (pos' v)) vs) (map (edge_ends P value pos') (map sd es0)) facets), es0, fs0.
  unfold shown. rewrite EF. cbn [bind VoxelModel.m_lod VoxelModel.m_edges VoxelModel.m_facets]. split; [reflexivity|]. split; [reflexivity|]. split; [exact E0|]. split; [exact F0|]. split.
  - rewrite map_map. apply map_ext_in. intros d Hd. unfold edge_ends, sd. cbn [fst snd].
    destruct (pos_at m pos m' pos' sg S d W) as [-> ->]; [|reflexivity]. destruct d as [u v]. apply (proj1 (proj2 E0) u v Hd).
  - assert (D : forall d, In d fs0 -> m (fst d) (snd d) <> None) by (apply F0). clear -FC FF D. revert facets FF. induction fs0 as [|d l IH]; intros facets FF; inversion FF; subst; constructor.
    + destruct (FC d (D d (or_introl eq_refl))) as (f & E & K). assert (f = y) by congruence. subst. exact K.
    + apply IH; [|assumption]. intros x Hx. apply D. right. exact Hx.
Qed.

(** * Edges *)
(** The heap holds what the voxels [vx] hold at the level. *)
Definition in_memory (h : heap) (lod : Z) (w : wrapper) (vx : list VoxelModel.voxel) : Prop :=
  Forall2 (fun jv v => VoxelModel.v_data (h (v_ptr jv)) lod = VoxelModel.v_data v lod /\ VoxelModel.v_size (h (v_ptr jv)) lod = VoxelModel.v_size v lod) (w_voxels w) vx.
(** Voxels that can be filled at a level. *)
Definition fillable (lod : Z) (vx : list VoxelModel.voxel) : Prop := vx <> [] /\
  (length vx = 1 \/ Forall (fun v => VoxelModel.v_core v <> None) vx) /\ (forall v, hd_error vx = Some v -> VoxelModel.v_data v lod = None).

Lemma filled_stores sm t vx : fillable (VoxelModel.m_lod sm) vx -> exists vx' parts ds, VoxelModel.fill_voxel sm t vx = Some vx' /\ PropVoxel.mesh_floats sm t ds /\ Permutation (concat parts) ds /\
  forall h w, in_memory h (VoxelModel.m_lod sm) w vx' -> Forall2 (fun v part => PropVoxel.stores (VoxelModel.m_lod sm) (h (v_ptr v)) part) (w_voxels w) parts.
Proof.
  intros (N & C & D). destruct (PropVoxel.voxel_fill_partition sm t vx N C D) as (vx' & parts & ds & E & Fd & P & L & Lp & H).
  exists vx', parts, ds. split; [exact E|]. split; [exact Fd|]. split; [exact P|].
  assert (G : forall (vs vs' : list VoxelModel.voxel) (parts : list (list (list Q))), length vs' = length vs -> length parts = length vs ->
    (forall j v v' part, nth_error vs j = Some v -> nth_error vs' j = Some v' -> nth_error parts j = Some part -> PropVoxel.stores (VoxelModel.m_lod sm) v' part) ->
    Forall2 (PropVoxel.stores (VoxelModel.m_lod sm)) vs' parts).
  { clear. intros vs. induction vs as [|v vs IH]; intros [|v' vs'] [|part parts] L1 L2 H; try discriminate L1; try discriminate L2; constructor.
    - exact (H 0 v v' part eq_refl eq_refl eq_refl).
    - apply IH; [now injection L1|now injection L2|]. intros j. exact (H (S j)). }
  specialize (G vx vx' parts L Lp (fun j v v' part a b c => proj1 (H j v v' part a b c))).
  intros h w M. unfold in_memory in M. clear -G M. revert parts G. induction M as [|jv v' l l' [H1 H2] _ IH]; intros parts G; inversion G; subst; constructor; [|now apply IH].
  destruct H3 as [A B]. split; [rewrite H2; exact A|rewrite H1; exact B].
Qed.

(** C144.  The voxels of a decoded object, filled with edges, hold the edges of the level, every one once and
    nothing else, with the positions of the level, however the decoder named the vertices and in
    whatever order and direction CGAL runs over the edges. *)
Theorem level_edges_in_voxels : forall (P : Type) (value : P -> vec) m pos m' pos' sg lod vs es fs vx,
  wf m -> same_mesh m pos m' pos' sg -> each_edge_once m' es -> each_facet_once m' fs -> fillable lod vx ->
  exists sm vx' es0, shown P value lod m' pos' vs es fs = Some sm /\ VoxelModel.fill_voxel sm VoxelModel.DT_Segment vx = Some vx' /\
    each_edge_once m es0 /\ forall h w, in_memory h lod w vx' -> carries_edges h lod w (map (fun d => (value (pos (snd d)), value (pos (fst d)))) es0).
Proof.
  intros P value m pos m' pos' sg lod vs es fs vx W S HE HF HV.
  destruct (shown_level value m pos m' pos' sg lod vs es fs W S HE HF) as (sm & es0 & fs0 & E & El & E0 & F0 & Ee & Ef).
  rewrite <- El in HV. destruct (filled_stores sm VoxelModel.DT_Segment vx HV) as (vx' & parts & ds & Ev & Fd & Pm & St). rewrite El in St.
  exists sm, vx', es0. split; [exact E|]. split; [exact Ev|]. split; [exact E0|]. intros h w Hm. exists parts, ds. split; [exact (St h w Hm)|]. split; [|exact Pm].
  cbn [PropVoxel.mesh_floats] in Fd. rewrite Ee in Fd. exact Fd.
Qed.
Print Assumptions level_edges_in_voxels.

(** * Facets *)
Definition finite (m : mesh) : Prop := exists all : list dart, forall p q, m p q <> None -> In (p, q) all.
Lemma loop_exists m d : wf m -> finite m -> m (fst d) (snd d) <> None -> exists lp, is_loop m d lp.
Proof. intros W (all & B) H. destruct (PpmcTot.loop_total all (length all) m d W B H (le_n _)) as (lp & E). exists lp. eapply loop_is_loop; eauto. Qed.

Lemma hull3 p q r X : in_hull [p; q; r] X <-> in_facet (p, q, r) X.
Proof.
  split.
  - intros (ws & L & F & S & E). destruct ws as [|a [|b [|c [|? ?]]]]; try discriminate L. inversion F as [|? ? A F1]; subst. inversion F1 as [|? ? B F2]; subst. inversion F2 as [|? ? C _]; subst.
    cbn [fold_right weighted] in S, E. exists a, b, c. split; [exact A|]. split; [exact B|]. split; [exact C|]. split; [lra|]. intro i. rewrite E. ring.
  - intros (a & b & c & A & B & C & S & E). exists [a; b; c]. split; [reflexivity|]. split; [repeat constructor; assumption|]. cbn [fold_right weighted]. split; [lra|]. intro i. rewrite E. ring.
Qed.
Lemma hull_prefix ps qs X : in_hull ps X -> in_hull (ps ++ qs) X.
Proof.
  intros (ws & L & F & S & E). exists (ws ++ repeat 0%Q (length qs)). split; [rewrite !app_length, repeat_length; lia|]. split.
  { apply Forall_app. split; [exact F|]. apply Forall_forall. intros x Hx. apply repeat_spec in Hx. subst. apply Qle_refl. }
  assert (Z1 : forall n, (fold_right Qplus 0 (repeat 0 n) == 0)%Q) by (induction n as [|n IH]; cbn [repeat fold_right]; [reflexivity|rewrite IH; reflexivity]).
  assert (Z2 : forall qs i, (weighted (repeat 0%Q (length qs)) qs i == 0)%Q) by (induction qs0 as [|q l IH]; intro i; cbn [length repeat weighted]; [reflexivity|rewrite IH; ring]).
  split.
  - rewrite fold_right_app. clear -S Z1. assert (G : forall ws a, (fold_right Qplus a ws == fold_right Qplus 0 ws + a)%Q) by (induction ws0 as [|w l IH]; intro a; cbn [fold_right]; [ring|rewrite IH; ring]).
    rewrite G, S, Z1. reflexivity.
  - intro i. rewrite E. clear -L Z2. revert ps L. induction ws as [|w ws IH]; intros [|p ps] L; try discriminate L; cbn [app weighted].
    + cbn [length]. rewrite Z2. reflexivity.
    + rewrite (IH ps); [reflexivity|]. now injection L.
Qed.

Lemma loop_starts {P} (value : P -> vec) m pos d lp f : wf m -> is_loop m d lp -> first_corners value m pos d f ->
  exists qs, map (fun e => value (pos (snd e))) lp = (let '(p, q, r) := f in [p; q; r]) ++ qs.
Proof.
  intros W L (a & b & E1 & E2 & ->). pose proof (il_path _ _ _ L) as Pt. destruct (il_head _ _ _ L) as (r & -> & _). destruct d as [u v]. cbn [fst snd] in *.
  cbn [path] in Pt. destruct Pt as [_ (d1 & N1 & Pt)]. unfold nxt in N1. cbn [fst snd] in N1. rewrite E1 in N1. injection N1 as <-.
  destruct r as [|y r]; cbn [path] in Pt.
  { injection Pt as -> ->. rewrite (wf_irr m W) in E1. discriminate E1. }
  destruct Pt as [-> (d2 & N2 & Pt)]. unfold nxt in N2. cbn [fst snd] in N2. rewrite E2 in N2. injection N2 as <-.
  destruct r as [|y r]; cbn [path] in Pt.
  { injection Pt as -> ->. exfalso. eapply wf_deg; eauto. }
  destruct Pt as [-> _]. exists (map (fun e => value (pos (snd e))) r). reflexivity.
Qed.

(** C145, the part that holds.  One triangle is stored for every facet of the level; all of them lie on
    the surface of the level; and they cover it if all facets are triangles. *)
Theorem level_triangles_in_voxels : forall (P : Type) (value : P -> vec) m pos m' pos' sg lod vs es fs vx,
  wf m -> finite m -> same_mesh m pos m' pos' sg -> each_edge_once m' es -> each_facet_once m' fs -> fillable lod vx ->
  exists sm vx' fs0 T, shown P value lod m' pos' vs es fs = Some sm /\ VoxelModel.fill_voxel sm VoxelModel.DT_Triangle vx = Some vx' /\
    each_facet_once m fs0 /\ length T = length fs0 /\ (forall h w, in_memory h lod w vx' -> carries h lod w T) /\
    (forall f X, In f T -> in_facet f X -> on_surface value m pos X) /\
    (triangulated m -> forall X, on_surface value m pos X -> exists f, In f T /\ in_facet f X).
Proof.
  intros P value m pos m' pos' sg lod vs es fs vx W Fin S HE HF HV.
  destruct (shown_level value m pos m' pos' sg lod vs es fs W S HE HF) as (sm & es0 & fs0 & E & El & E0 & F0 & Ee & Ef).
  rewrite <- El in HV. destruct (filled_stores sm VoxelModel.DT_Triangle vx HV) as (vx' & parts & ds & Ev & Fd & Pm & St). rewrite El in St.
  exists sm, vx', fs0, (VoxelModel.m_facets sm). split; [exact E|]. split; [exact Ev|]. split; [exact F0|].
  split; [clear -Ef; induction Ef; cbn [length]; auto|]. split.
  { intros h w Hm. exists parts, ds. split; [exact (St h w Hm)|]. split; [exact Fd|exact Pm]. }
  destruct F0 as (_ & FD & FA & _). split.
  - intros f X I HX. destruct (EndProofs.Forall2_in_r _ _ _ Ef f I) as (d & Id & Fc). destruct (loop_exists m d W Fin (FD d Id)) as (lp & L).
    destruct (loop_starts value m pos d lp f W L Fc) as (qs & Eq). exists d, lp. split; [exact L|]. rewrite Eq. apply hull_prefix. destruct f as [[p q] r]. apply hull3. exact HX.
  - intros Tri X (d & lp & L & H). pose proof (Tri d lp L) as L3. destruct d as [u v].
    destruct (loop_short m u v lp W L ltac:(lia)) as (x & E1 & E2 & E3). destruct (FA (u, v) (il_dart _ _ _ _ L (il_in _ _ _ L))) as (f0 & I0 & Fb).
    assert (EL : lp = [(u, v); (v, x); (x, u)]).
    { pose proof (il_path _ _ _ L) as Pt. destruct lp as [|l1 [|l2 [|l3 [|? ?]]]]; try discriminate L3. cbn [path] in Pt.
      destruct Pt as [-> (e1 & N1 & -> & e2 & N2 & -> & e3 & N3 & _)]. unfold nxt in N1. cbn [fst snd] in N1. rewrite E1 in N1. injection N1 as <-.
      unfold nxt in N2. cbn [fst snd] in N2. rewrite E2 in N2. injection N2 as <-. reflexivity. }
    pose proof (il_forb_back _ _ _ _ _ W L (il_in _ _ _ L) Fb) as J. rewrite EL in J, H. cbn [map fst snd] in H. apply hull3 in H.
    destruct (EndProofs.Forall2_in_l _ _ _ Ef f0 I0) as (f & If & (a & b & C1 & C2 & ->)). exists (value (pos (snd f0)), value (pos a), value (pos b)). split; [exact If|].
    destruct H as (p & q & r & A & B & C & Sm & HX). cbn [In] in J. destruct J as [<-|[<-|[<-|[]]]]; cbn [fst snd] in *.
    + assert (a = x) by congruence. subst a. assert (b = u) by congruence. subst b. exists p, q, r. auto.
    + assert (a = u) by congruence. subst a. assert (b = v) by congruence. subst b. exists q, r, p. repeat (split; [assumption|]). split; [lra|]. intro i. rewrite HX. ring.
    + assert (a = v) by congruence. subst a. assert (b = x) by congruence. subst b. exists r, p, q. repeat (split; [assumption|]). split; [lra|]. intro i. rewrite HX. ring.
Qed.
Print Assumptions level_triangles_in_voxels.

(** * The covering fails for levels below the finest one *)
(** The same half-edges, from the same finite list of them. *)
Lemma mesh_from_edges (m t : mesh) n : wf m -> (forall p q, m p q <> None -> p < n) -> (forall p q, t p q <> None -> p < n /\ q < n) ->
  PropPpmc.edge_list m n = PropPpmc.edge_list t n -> forall u v, m u v = t u v.
Proof.
  intros W B B' E u v.
  assert (OI : forall a b : mesh, PropPpmc.edge_list a n = PropPpmc.edge_list b n -> u < n -> v < n -> a u v <> None -> a u v = b u v).
  { intros a b Em Hu Hv Hm. assert (I := PropPpmcLevels.edge_list_in a n u v Hm Hu Hv). rewrite Em in I. unfold PropPpmc.edge_list in I. apply in_map_iff in I. destruct I as (d & Ed & _). injection Ed as E1 E2. subst d. cbn [fst snd] in E2. auto. }
  destruct (m u v) eqn:E1.
  - assert (K1 : m u v <> None) by congruence. assert (K2 := B _ _ (wf_sym m W _ _ K1)). assert (K3 := B _ _ K1). rewrite <- E1. apply OI; auto.
  - destruct (t u v) eqn:E2; [|reflexivity]. assert (K1 : t u v <> None) by congruence. destruct (B' _ _ K1). rewrite <- E1, <- E2. symmetry. apply OI; auto.
Qed.
Lemma walk_same (m t : mesh) : (forall u v, m u v = t u v) -> forall n h d, walk m h d n = walk t h d n.
Proof.
  intros E. assert (N : forall d, nxt m d = nxt t d) by (intro d; unfold nxt; rewrite E; reflexivity).
  induction n as [|n IH]; intros h d; cbn [walk]; [reflexivity|]. rewrite N. destruct (nxt t d); cbn [bind]; [|reflexivity]. destruct (deq _ _); [reflexivity|]. rewrite IH. reflexivity.
Qed.
Lemma faces_below fs n : forallb (fun d => (fst d <? n) && (snd d <? n)) (darts_of fs) = true -> forall p q, of_faces fs p q <> None -> p < n /\ q < n.
Proof. intros H p q K. apply of_faces_in in K. rewrite forallb_forall in H. specialize (H _ K). cbn [fst snd] in H. apply andb_true_iff in H. destruct H as [H1 H2]. apply Nat.ltb_lt in H1, H2. auto. Qed.
Lemma faces_triangles fs : wf (of_faces fs) -> forallb (fun d => match of_faces fs (fst d) (snd d) with Some a => match of_faces fs (snd d) a with Some b => b =? fst d | None => false end | None => true end) (darts_of fs) = true ->
  triangulated (of_faces fs).
Proof.
  intros W H d lp L. rewrite forallb_forall in H. set (m := of_faces fs) in *.
  assert (K : forall u v w, m u v = Some w -> m v w = Some u).
  { intros u v w E. assert (I : m u v <> None) by congruence. apply of_faces_in in I. specialize (H _ I). cbn [fst snd] in H. rewrite E in H. destruct (m v w); [|discriminate H]. apply Nat.eqb_eq in H. congruence. }
  assert (D := il_dart _ _ _ _ L (il_in _ _ _ L)). destruct d as [u v]. cbn [fst snd] in D. destruct (m u v) as [w|] eqn:E1; [|congruence].
  pose proof (K _ _ _ E1) as E2. pose proof (K _ _ _ E2) as E3. pose proof (il_path _ _ _ L) as Pt. destruct (il_head _ _ _ L) as (r & -> & N).
  cbn [path] in Pt. destruct Pt as [_ (e1 & N1 & Pt)]. unfold nxt in N1. cbn [fst snd] in N1. rewrite E1 in N1. injection N1 as <-.
  destruct r as [|y r]; cbn [path] in Pt.
  { injection Pt as -> ->. exfalso. rewrite (wf_irr m W) in E1. discriminate E1. }
  destruct Pt as [-> (e2 & N2 & Pt)]. unfold nxt in N2. cbn [fst snd] in N2. rewrite E2 in N2. injection N2 as <-.
  destruct r as [|y r]; cbn [path] in Pt.
  { injection Pt as -> ->. exfalso. eapply wf_deg; eauto. }
  destruct Pt as [-> (e3 & N3 & Pt)]. unfold nxt in N3. cbn [fst snd] in N3. rewrite E3 in N3. injection N3 as <-.
  destruct r as [|y r]; [reflexivity|]. cbn [path] in Pt. destruct Pt as [-> _]. exfalso. apply N. cbn [In]. auto.
Qed.

(** A square pyramid; the square is made of four triangles around a vertex in its middle. *)
Definition pyramid : list (list nat) := [[1;0;4];[2;1;4];[3;2;4];[0;3;4];[0;1;5];[1;2;5];[2;3;5];[3;0;5]].
Definition pyr_grid (v : nat) : CodecModel.vec := nth v [(0,0,0);(4,0,0);(4,4,0);(0,4,0);(2,2,0);(2,2,4)]%Z (0,0,0)%Z.
Definition pyr_pos (v : nat) : PpmcGrid.pt := PpmcGrid.gpQ PropPpmcLevels.ex_fv (0, 0, 0)%Z 1065353216%Z (pyr_grid v).
Definition pt_value (p : PpmcGrid.pt) : vec := v3 (fst (fst p)) (snd (fst p)) (snd p).
Definition pyr_gate (k : nat) (m : mesh) : dart := match m 1 0 with Some 4 => (1, 0) | _ => PropPpmcLevels.first_gate 6 k m end.
Notation pyr_all := (compressAll PpmcGrid.pt (PpmcGrid.qzQ PropPpmcLevels.ex_fv (0, 0, 0)%Z 1065353216%Z) PpmcGrid.baryQ 100
  (fun _ => ConvexModel.ringConvex 6 100 (fun v => pt_value (pyr_pos v))) pyr_gate 5 0 pyr_pos (of_faces pyramid) 5000 7).
(** The level one round below the finest one: the vertex in the middle is gone. *)
Definition square_pyramid : list (list nat) := [[1;0;3;2];[0;1;5];[1;2;5];[2;3;5];[3;0;5]].
Lemma pyr_runs : is_some pyr_all = true /\
  match pyr_all with Some x => length (snd x) = 3 /\ length (fst x) = 4 /\ PropPpmc.edge_list (nth 2 (fst x) no_mesh) 6 = PropPpmc.edge_list (of_faces square_pyramid) 6 | None => False end.
Proof. vm_compute. repeat split; reflexivity. Qed.
Lemma pyramid_good : wf (of_faces pyramid) /\ connected (of_faces pyramid) /\ triangulated (of_faces pyramid).
Proof.
  assert (G : good pyramid = true) by (vm_compute; reflexivity). destruct (good_spec _ G) as [W C]. split; [exact W|]. split; [exact C|].
  apply faces_triangles; [exact W|vm_compute; reflexivity].
Qed.

Lemma square_uncovered m : wf m -> (forall u v, m u v = of_faces square_pyramid u v) ->
  forall fs T, each_facet_once m fs -> Forall2 (first_corners pt_value m pyr_pos) fs T ->
  exists X, on_surface pt_value m pyr_pos X /\ forall f, In f T -> ~ in_facet f X.
Proof.
  intros W EQ fs T (_ & FD & FA & FU) FT. set (t := of_faces square_pyramid) in *.
  set (base := [(1, 0); (0, 3); (3, 2); (2, 1)]).
  assert (L : is_loop m (1, 0) base).
  { apply (loop_is_loop 10). unfold loop. rewrite (walk_same m t EQ). vm_compute. reflexivity. }
  destruct (FA (1, 0)) as (f & If & Ff); [cbn [fst snd]; rewrite EQ; vm_compute; discriminate|].
  pose proof (il_forb_back _ _ _ _ _ W L (il_in _ _ _ L) Ff) as Jf.
  assert (SIDE : forall d, In d fs -> d = f \/ In d [(0,1);(1,5);(5,0);(1,2);(2,5);(5,1);(2,3);(3,5);(5,2);(3,0);(0,5);(5,3)]).
  { intros d Hd. destruct (in_dec PpmcEnc.dart_dec d base) as [Hb|Hb].
    - left. symmetry. apply FU; auto. destruct (il_forb _ _ _ L f Jf) as [_ B1]. destruct (il_forb _ _ _ L d Hb) as [B2 _]. eapply forb_trans; eauto.
    - right. pose proof (FD d Hd) as K. rewrite EQ in K. apply of_faces_in in K. destruct d as [u v]. cbn [fst snd] in K. vm_compute in K. cbn [In base] in *. tauto. }
  assert (HULL : forall w0 w3 w2 w1 X, (0 <= w0 /\ 0 <= w3 /\ 0 <= w2 /\ 0 <= w1 /\ w0 + w3 + w2 + w1 == 1)%Q ->
    (forall i, X i == w0 * pt_value (pyr_pos 0%nat) i + w3 * pt_value (pyr_pos 3%nat) i + w2 * pt_value (pyr_pos 2%nat) i + w1 * pt_value (pyr_pos 1%nat) i)%Q -> on_surface pt_value m pyr_pos X).
  { intros w0 w3 w2 w1 X (H0 & H3 & H2 & H1 & S) E. exists (1, 0), base. split; [exact L|]. exists [w0; w3; w2; w1]. split; [reflexivity|]. split; [repeat constructor; assumption|].
    split; [cbn [fold_right]; lra|]. intro i. rewrite E. cbn [base map snd weighted]. ring. }
  assert (OUT : (forall X d0, X AZ == 1 # 2 -> (forall a b, m (fst f) (snd f) = Some a -> m (snd f) a = Some b -> ~ in_facet (pt_value (pyr_pos (snd f)), pt_value (pyr_pos a), pt_value (pyr_pos b)) X) ->
    d0 = f -> 1 < X AX * 2 < 9 -> 1 < X AY * 2 < 9 -> forall g, In g T -> ~ in_facet g X)%Q).
  { intros X d0 HZ HF -> HX HY g Ig. destruct (EndProofs.Forall2_in_r _ _ _ FT g Ig) as (d & Id & (a & b & E1 & E2 & ->)).
    destruct (SIDE d Id) as [-> | J]; [exact (HF a b E1 E2)|]. intros (p & q & r & Hp & Hq & Hr & S & E). pose proof (E AX) as Ex. pose proof (E AY) as Ey. pose proof (E AZ) as Ez. clear E.
    rewrite EQ in E1, E2. cbn [In] in J.
    do 12 (destruct J as [<-|J]; [cbn [fst snd] in *; vm_compute in E1; injection E1 as <-; vm_compute in E2; injection E2 as <-;
      cbn -[Qmult Qplus Qeq] in Ex, Ey, Ez; unfold QuantModel.getPos, inject_Z in Ex, Ey, Ez; lra|]). destruct J. }
  cbn [In base] in Jf. destruct Jf as [<-|[<-|[<-|[<-|[]]]]].
  - exists (v3 (7 # 2) (3 # 2) (1 # 2)). split; [refine (HULL (1#4)%Q 0%Q (1#4)%Q (1#2)%Q _ _ _); [lra|intro i; destruct i; reflexivity]|]. eapply OUT; [reflexivity| |reflexivity|cbn; lra|cbn; lra].
    intros a b E1 E2 (p & q & r & Hp & Hq & Hr & S & E). pose proof (E AX) as Ex. pose proof (E AY) as Ey. clear E. rewrite EQ in E1, E2.
    cbn [fst snd] in *. vm_compute in E1. injection E1 as <-. vm_compute in E2. injection E2 as <-. cbn -[Qmult Qplus Qeq] in Ex, Ey. unfold QuantModel.getPos, inject_Z in Ex, Ey. lra.
  - exists (v3 (3 # 2) (3 # 2) (1 # 2)). split; [refine (HULL (1#2)%Q (1#4)%Q 0%Q (1#4)%Q _ _ _); [lra|intro i; destruct i; reflexivity]|]. eapply OUT; [reflexivity| |reflexivity|cbn; lra|cbn; lra].
    intros a b E1 E2 (p & q & r & Hp & Hq & Hr & S & E). pose proof (E AX) as Ex. pose proof (E AY) as Ey. clear E. rewrite EQ in E1, E2.
    cbn [fst snd] in *. vm_compute in E1. injection E1 as <-. vm_compute in E2. injection E2 as <-. cbn -[Qmult Qplus Qeq] in Ex, Ey. unfold QuantModel.getPos, inject_Z in Ex, Ey. lra.
  - exists (v3 (3 # 2) (7 # 2) (1 # 2)). split; [refine (HULL (1#4)%Q (1#2)%Q (1#4)%Q 0%Q _ _ _); [lra|intro i; destruct i; reflexivity]|]. eapply OUT; [reflexivity| |reflexivity|cbn; lra|cbn; lra].
    intros a b E1 E2 (p & q & r & Hp & Hq & Hr & S & E). pose proof (E AX) as Ex. pose proof (E AY) as Ey. clear E. rewrite EQ in E1, E2.
    cbn [fst snd] in *. vm_compute in E1. injection E1 as <-. vm_compute in E2. injection E2 as <-. cbn -[Qmult Qplus Qeq] in Ex, Ey. unfold QuantModel.getPos, inject_Z in Ex, Ey. lra.
  - exists (v3 (7 # 2) (7 # 2) (1 # 2)). split; [refine (HULL 0%Q (1#4)%Q (1#2)%Q (1#4)%Q _ _ _); [lra|intro i; destruct i; reflexivity]|]. eapply OUT; [reflexivity| |reflexivity|cbn; lra|cbn; lra].
    intros a b E1 E2 (p & q & r & Hp & Hq & Hr & S & E). pose proof (E AX) as Ex. pose proof (E AY) as Ey. clear E. rewrite EQ in E1, E2.
    cbn [fst snd] in *. vm_compute in E1. injection E1 as <-. vm_compute in E2. injection E2 as <-. cbn -[Qmult Qplus Qeq] in Ex, Ey. unfold QuantModel.getPos, inject_Z in Ex, Ey. lra.
Qed.

(** C145 is false.  The pyramid compressed has triangles only; at the level one round below the finest
    one its square is one facet, of which one half is stored: whatever order CGAL runs over the facets
    in, and at whichever half-edge each of them starts, a point of the surface of the level lies in none of
    the triangles stored. *)
Theorem level_triangles_cover_refuted : exists M ms rs, pyr_all = Some (ms, rs) /\ M = of_faces pyramid /\ wf M /\ connected M /\ triangulated M /\ finite M /\
  length rs = 3 /\ wf (nth 2 ms no_mesh) /\ finite (nth 2 ms no_mesh) /\
  forall fs T, each_facet_once (nth 2 ms no_mesh) fs -> Forall2 (first_corners pt_value (nth 2 ms no_mesh) pyr_pos) fs T ->
  exists X, on_surface pt_value (nth 2 ms no_mesh) pyr_pos X /\ forall f, In f T -> ~ in_facet f X.
Proof.
  destruct pyramid_good as (W & C & Tr). destruct pyr_runs as [S R]. destruct (PropPpmcLevels.some_ex _ S) as ([ms rs] & E). apply (PropPpmcLevels.some_get _ _ _ E) in R. cbn [fst snd] in R. destruct R as (R1 & R2 & R3).
  assert (B : forall p q, of_faces pyramid p q <> None -> p < 6 /\ q < 6) by (apply faces_below; vm_compute; reflexivity).
  assert (G : forall k m, wf m -> (forall v, vertex m v -> vertex (of_faces pyramid) v) -> (exists a b, m a b <> None) -> m (fst (pyr_gate k m)) (snd (pyr_gate k m)) <> None).
  { intros k m Wm V (a & b & H). assert (L : forall p q, m p q <> None -> p < 6) by (intros p q K; destruct (V p) as (x & Hx); [exists q; exact K|]; apply (B _ _ Hx)).
    assert (I := PropPpmcLevels.edge_list_in m 6 a b H (L a b H) (L b a (wf_sym m Wm _ _ H))).
    assert (FG : m (fst (PropPpmcLevels.first_gate 6 k m)) (snd (PropPpmcLevels.first_gate 6 k m)) <> None).
    { unfold PropPpmcLevels.first_gate. destruct (rev (map fst (PropPpmc.edge_list m 6))) as [|d l] eqn:El.
      - apply (f_equal (@length _)) in El. rewrite rev_length, map_length in El. destruct (PropPpmc.edge_list m 6); [destruct I|discriminate El].
      - assert (J : In d (map fst (PropPpmc.edge_list m 6))) by (apply in_rev; rewrite El; left; auto).
        apply in_map_iff in J. destruct J as (x & <- & J). unfold PropPpmc.edge_list in J. apply in_map_iff in J. destruct J as (y & <- & J). apply filter_In in J. destruct J as [_ J]. cbn [fst].
        destruct (m (fst y) (snd y)); [discriminate|discriminate J]. }
    unfold pyr_gate. destruct (m 1 0) as [c|] eqn:E10; [|exact FG]. do 5 (destruct c as [|c]; [first [exact FG|cbn [fst snd]; congruence]|]). exact FG. }
  destruct (compressAll_spec _ _ _ _ _ _ 5 0 _ _ _ G _ _ ms rs (fun v Hv => Hv) W C ltac:(vm_compute; discriminate) E) as (_ & _ & _ & S4).
  assert (I2 : In (nth 2 ms no_mesh) ms) by (apply nth_In; rewrite R2; lia). destruct (S4 _ I2) as (W2 & _ & _ & V2).
  assert (B2 : forall p q, nth 2 ms no_mesh p q <> None -> p < 6) by (intros p q K; destruct (V2 p) as (x & Hx); [exists q; exact K|]; apply (B _ _ Hx)).
  exists (of_faces pyramid), ms, rs. split; [exact E|]. split; [reflexivity|]. split; [exact W|]. split; [exact C|]. split; [exact Tr|].
  split; [exists (list_prod (seq 0 6) (seq 0 6)); intros p q K; apply B in K; apply in_prod; apply in_seq; lia|]. split; [exact R1|]. split; [exact W2|].
  split; [exists (list_prod (seq 0 6) (seq 0 6)); intros p q K; apply in_prod; apply in_seq; [apply B2 in K; lia|apply (wf_sym _ W2) in K; apply B2 in K; lia]|].
  apply square_uncovered; [exact W2|]. apply (mesh_from_edges _ _ 6 W2 B2); [|exact R3]. apply faces_below. vm_compute. reflexivity.
Qed.
Print Assumptions level_triangles_cover_refuted.

(** The hypotheses of the two theorems: a tetrahedron, decoded with other names for its vertices, and
    a voxel that holds nothing yet. *)
Definition tetra : mesh := of_faces [[0;1;2];[0;2;3];[0;3;1];[1;3;2]].
Definition tetra' : mesh := fun p q => match p, q with S u, S v => option_map S (tetra u v) | _, _ => None end.
Definition tetra_pos (v : nat) : vec := nth v [v3 0 0 0; v3 4 0 0; v3 0 4 0; v3 0 0 4] (v3 0 0 0).
Definition tetra_edges : list dart := [(1,2);(3,2);(1,3);(1,4);(3,4);(4,2)].
Definition tetra_facets : list dart := [(1,2);(3,4);(2,1);(4,3)].
Lemma tetra_darts p q : tetra' p q <> None -> In (p, q) [(1,2);(2,3);(3,1);(1,3);(3,4);(4,1);(1,4);(4,2);(2,1);(2,4);(4,3);(3,2)].
Proof.
  destruct p as [|u]; [intro H; exfalso; apply H; reflexivity|]. destruct q as [|v]; [intro H; exfalso; apply H; reflexivity|]. cbn [tetra']. intro H.
  assert (K : tetra u v <> None) by (intro E; rewrite E in H; apply H; reflexivity). apply of_faces_in in K. vm_compute in K.
  repeat (destruct K as [K|K]; [apply (f_equal (fun d => (S (fst d), S (snd d)))) in K; cbn [fst snd] in K; rewrite <- K; cbn [In]; tauto|]). destruct K.
Qed.
Lemma tetra_loop d lp : loop 5 tetra' d = Some lp -> is_loop tetra' d lp.
Proof. apply loop_is_loop. Qed.
Example level_theorems_apply : wf tetra /\ finite tetra /\ triangulated tetra /\ same_mesh tetra tetra_pos tetra' (fun v => tetra_pos (pred v)) S /\
  each_edge_once tetra' tetra_edges /\ each_facet_once tetra' tetra_facets /\ fillable 100 [blank].
Proof.
  assert (G : good [[0;1;2];[0;2;3];[0;3;1];[1;3;2]] = true) by (vm_compute; reflexivity). destruct (good_spec _ G) as [W _].
  split; [exact W|]. split; [exists (list_prod (seq 0 4) (seq 0 4)); intros p q K; apply (faces_below _ 4) in K; [apply in_prod; apply in_seq; lia|vm_compute; reflexivity]|].
  split; [apply faces_triangles; [exact W|vm_compute; reflexivity]|]. split; [|split; [|split]].
  - split; [intros u v E; injection E; auto|]. split; [reflexivity|]. split; [|reflexivity]. intros [|u] [|v] H; try (exfalso; apply H; reflexivity). exists u, v. auto.
  - split; [repeat constructor; cbn [In]; intuition discriminate|]. split.
    + intros u v H. cbn [In tetra_edges] in H. repeat (destruct H as [H|H]; [injection H as <- <-; split; [vm_compute; discriminate|cbn [In tetra_edges]; intuition discriminate]|]). destruct H.
    + intros u v H. apply tetra_darts in H. cbn [In] in H. cbn [In tetra_edges]. repeat (destruct H as [H|H]; [injection H as <- <-; tauto|]). destruct H.
  - split; [repeat constructor; cbn [In]; intuition discriminate|]. split; [|split].
    + intros d H. cbn [In tetra_facets] in H. repeat (destruct H as [<-|H]; [vm_compute; discriminate|]). destruct H.
    + intros [u v] H. cbn [fst snd] in H. apply tetra_darts in H.
      assert (K : forall f lp, In f tetra_facets -> loop 5 tetra' f = Some lp -> In (u, v) lp -> exists f, In f tetra_facets /\ forb tetra' f (u, v)).
      { intros f lp I L J. exists f. split; [exact I|]. apply (il_forb _ _ _ (tetra_loop f lp L) _ J). }
      cbn [In] in H. repeat (destruct H as [H|H]; [rewrite <- H in K |- *;
        first [apply (K (1, 2) [(1,2);(2,3);(3,1)]); [cbn [In tetra_facets]; tauto|reflexivity|cbn [In]; tauto]
              |apply (K (3, 4) [(3,4);(4,1);(1,3)]); [cbn [In tetra_facets]; tauto|reflexivity|cbn [In]; tauto]
              |apply (K (2, 1) [(2,1);(1,4);(4,2)]); [cbn [In tetra_facets]; tauto|reflexivity|cbn [In]; tauto]
              |apply (K (4, 3) [(4,3);(3,2);(2,4)]); [cbn [In tetra_facets]; tauto|reflexivity|cbn [In]; tauto]]|]). destruct H.
    + intros f f' Hf Hf' F. cbn [In tetra_facets] in Hf, Hf'.
      assert (K : forall lp, loop 5 tetra' f = Some lp -> In f' lp) by (intros lp L; eapply il_forb_in; [apply tetra_loop; exact L|exact F]).
      destruct Hf as [<-|[<-|[<-|[<-|[]]]]]; specialize (K _ eq_refl); cbn [In] in K; destruct Hf' as [<-|[<-|[<-|[<-|[]]]]]; first [reflexivity|intuition discriminate].
  - split; [discriminate|]. split; [left; reflexivity|]. intros v H. injection H as <-. reflexivity.
Qed.
