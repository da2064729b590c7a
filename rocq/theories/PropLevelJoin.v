(** C146: what joins report about the surfaces of the levels of compressed objects. *)
From Coq Require Import ZArith QArith List Bool Lia Lqa Permutation Arith.
From Verif Require Import Arr AabModel OctreeModel JoinModel JoinProofs EndModel EndDistModel EndDistProofs PropEnd PropEndDist PpmcModel PpmcTopo PpmcStar PpmcRound PpmcCheck PpmcLevels PpmcObject PipeModel PropPipe PropLevel.
From Verif Require BatchModel TriIntModel PpmcEnc BatchModel CodecModel PropBatch PpmcGrid VoxelModel PropVoxel EndProofs AabProofs.
Import ListNotations.
Close Scope Q_scope.
Close Scope Z_scope.
Open Scope nat_scope.

Section Join.
  Variables (P : Type) (value : P -> vec) (qz : Z * Z * Z -> Z -> P -> CodecModel.vec) (gp : Z * Z * Z -> Z -> CodecModel.vec -> P) (bary : list P -> P) (lim : nat) (bpv : Z -> Z) (fuel : nat).

  (** An object as the compressor took it in, with the levels and rounds it made of it. *)
  Record origin := Origin { g_src : source P; g_levels : list mesh; g_rounds : list CodecModel.round }.
  (** The level that belongs to a number up to 100. *)
  Definition level (g : origin) (lod : Z) : mesh := nth (rounds_at (Z.to_nat lod) (length (g_rounds g))) (g_levels g) no_mesh.
  (** How an object came to a level in memory: the machine, the levels asked for until then, the order in which
      CGAL runs over vertices, edges and facets, and the voxels before they are filled. *)
  Record way := Way { y_machine : machine; y_reqs : list Z; y_vs : list nat; y_es : list dart; y_fs : list dart; y_voxels : list VoxelModel.voxel }.
  (** What it shows there. *)
  Definition seen (g : origin) (lod : Z) (y : way) : option VoxelModel.mesh :=
    do bytes <- bytes_of P qz bary lim bpv fuel (g_src g);
    do (x, _) <- advance_levels P qz gp bary lim bpv fuel (y_machine y) bytes (y_reqs y);
    shown P value lod (fst x) (snd x) (y_vs y) (y_es y) (y_fs y).
  (** The object is in memory at level [lod], decoded from its bytes, with its edges or its facets. *)
  Definition arrived (t : VoxelModel.data_type) (h : heap) (lod : Z) (w : wrapper) (g : origin) (y : way) : Prop :=
    compressible P qz gp bary lim bpv fuel (g_src g) (g_levels g) (g_rounds g) /\ finite (s_mesh (g_src g)) /\
    machine_ok (y_machine y) (s_base (g_src g)) (g_rounds g) /\ (0 <= lod <= 100)%Z /\ In lod (y_reqs y) /\ Forall (fun r => r <= lod)%Z (y_reqs y) /\
    fillable lod (y_voxels y) /\
    (forall bytes m' pos' more, bytes_of P qz bary lim bpv fuel (g_src g) = Some bytes -> advance_levels P qz gp bary lim bpv fuel (y_machine y) bytes (y_reqs y) = Some (m', pos', more) ->
      each_edge_once m' (y_es y) /\ each_facet_once m' (y_fs y)) /\
    (forall sm vx', seen g lod y = Some sm -> VoxelModel.fill_voxel sm t (y_voxels y) = Some vx' -> in_memory h lod w vx').

  Lemma highest_is lod reqs : (0 <= lod)%Z -> In lod reqs -> Forall (fun r => r <= lod)%Z reqs -> LodProofs.highest reqs = lod.
  Proof.
    intros H0 I F. unfold LodProofs.highest. assert (A : (fold_right Z.max 0 reqs <= lod)%Z) by (clear I; induction F; cbn [fold_right]; lia).
    assert (B : (lod <= fold_right Z.max 0 reqs)%Z) by (clear F A; induction reqs as [|r l IH]; [destruct I|]; cbn [fold_right]; destruct I as [->|I]; [lia|specialize (IH I); lia]). lia.
  Qed.

  Lemma arrived_shows t h lod w g y : arrived t h lod w g y ->
    exists sm es0 fs0, seen g lod y = Some sm /\ wf (level g lod) /\ finite (level g lod) /\ each_edge_once (level g lod) es0 /\ each_facet_once (level g lod) fs0 /\
      VoxelModel.m_edges sm = map (fun d => (value (s_pos (g_src g) (snd d)), value (s_pos (g_src g) (fst d)))) es0 /\
      Forall2 (first_corners value (level g lod) (s_pos (g_src g))) fs0 (VoxelModel.m_facets sm) /\
      exists parts ds, PropVoxel.mesh_floats sm t ds /\ Permutation (concat parts) ds /\ Forall2 (fun v part => PropVoxel.stores lod (h (v_ptr v)) part) (w_voxels w) parts.
  Proof.
    intros (C & Fin & MO & Hl & I & F & Fl & It & Mem). destruct g as [s ms rs]. cbn [g_src g_levels g_rounds] in *.
    destruct (decoded P qz gp bary lim bpv fuel s ms rs C) as (bytes & EB & _ & D).
    assert (F100 : Forall (fun r => r <= 100)%Z (y_reqs y)) by (eapply Forall_impl; [|exact F]; cbn; intros; lia).
    destruct (D (y_machine y) (y_reqs y) MO F100) as (m' & pos' & more & sg & D1 & D2 & _). rewrite (highest_is lod _ (proj1 Hl) I F) in D2.
    destruct (It _ _ _ _ EB D1) as [HE HF].
    pose proof (cp_levels _ _ _ _ _ _ _ _ _ _ C) as L. unfold levels_of in L.
    destruct (compressAll_spec _ _ _ _ _ _ _ _ _ _ _ (cp_gate _ _ _ _ _ _ _ _ _ _ C) _ _ _ _ (fun v Hv => Hv) (cp_wf _ _ _ _ _ _ _ _ _ _ C) (cp_con _ _ _ _ _ _ _ _ _ _ C) (cp_dep _ _ _ _ _ _ _ _ _ _ C) L) as (_ & S2 & _ & S4).
    set (m := level (Origin s ms rs) lod). assert (Im : In m ms).
    { unfold m, level. cbn [g_levels g_rounds]. apply nth_In. rewrite S2. pose proof (rounds_at_le (Z.to_nat lod) (length rs) ltac:(lia)). lia. }
    destruct (S4 _ Im) as (W & _ & _ & V).
    assert (Fm : finite m).
    { destruct Fin as (all & A). exists (list_prod (map fst all) (map fst all)). intros p q K. apply in_prod.
      - destruct (V p) as (x & Hx); [exists q; exact K|]. apply in_map_iff. exists (p, x). split; [reflexivity|apply A; exact Hx].
      - destruct (V q) as (x & Hx); [exists p; apply (wf_sym m W); exact K|]. apply in_map_iff. exists (q, x). split; [reflexivity|apply A; exact Hx]. }
    destruct (shown_level value m (s_pos s) m' pos' sg lod (y_vs y) (y_es y) (y_fs y) W D2 HE HF) as (sm & es0 & fs0 & E & El & E0 & F0 & Ee & Ef).
    assert (Se : seen (Origin s ms rs) lod y = Some sm) by (unfold seen; cbn [g_src]; rewrite EB; cbn [bind]; rewrite D1; cbn [bind fst snd]; exact E).
    rewrite <- El in Fl. destruct (filled_stores sm t (y_voxels y) Fl) as (vx' & parts & ds & Ev & Fd & Pm & St). rewrite El in St. specialize (Mem sm vx' Se Ev).
    exists sm, es0, fs0. split; [exact Se|]. split; [exact W|]. split; [exact Fm|]. split; [exact E0|]. split; [exact F0|]. split; [exact Ee|]. split; [exact Ef|].
    exists parts, ds. split; [exact Fd|]. split; [exact Pm|]. exact (St h w Mem).
  Qed.

  (** C146, intersections.  The objects of two tiles have come from the compressor through their bytes into
      memory at every level of the join, and at no level three corners in a row of a facet are in line.  Then whatever is reported,
      on a device or on any number of threads: at one of the levels the surface of the object and that of another
      object, as the compressor had these levels, have a point in common. *)
  Theorem reported_levels_intersect : forall fuel' h lods t1 t2 (g : wrapper -> origin) (y : Z -> wrapper -> way) statuses out, tile_ok t2 ->
    (forall lod v, 0 <= lsize h lod v)%Z -> (forall lod, In lod lods -> 9 * PropBatch.sizes (lsize h lod) (addresses t1 t2) < 2 ^ 32)%Z ->
    (forall lod w, In lod lods -> In w (t_objs t1 ++ t_objs t2) -> arrived VoxelModel.DT_Triangle h lod w (g w) (y lod w)) ->
    (forall lod w d f, In lod lods -> In w (t_objs t1 ++ t_objs t2) -> first_corners value (level (g w) lod) (s_pos (g_src (g w))) d f -> proper f) ->
    (forall lod cs, any_run h lod cs (statuses lod cs)) ->
    intersect_all fuel' statuses lods t1 t2 = Some out ->
    forall w1, In w1 out -> In w1 (t_objs t1) /\ exists w2 lod X, In w2 (t_objs t2) /\ o_ptr (w_obj w2) <> o_ptr (w_obj w1) /\ In lod lods /\
      on_surface value (level (g w1) lod) (s_pos (g_src (g w1))) X /\ on_surface value (level (g w2) lod) (s_pos (g_src (g w2))) X.
  Proof.
    intros fuel' h lods t1 t2 g y statuses out O Sz Room Ar Pr R E w1 H.
    set (M := fun lod w => match seen (g w) lod (y lod w) with Some sm => VoxelModel.m_facets sm | None => [] end).
    assert (L : loaded h lods t1 t2 M).
    { constructor; [exact Sz| |exact Room]. intros lod w Hl Hw. destruct (arrived_shows _ _ _ _ _ _ (Ar lod w Hl Hw)) as (sm & _ & _ & Es & _ & _ & _ & _ & _ & _ & parts & ds & Fd & Pm & St).
      exists parts, ds. split; [exact St|]. split; [|exact Pm]. unfold M. rewrite Es. exact Fd. }
    assert (SF : forall lod w f X, In lod lods -> In w (t_objs t1 ++ t_objs t2) -> In f (M lod w) -> proper f /\ (in_facet f X -> on_surface value (level (g w) lod) (s_pos (g_src (g w))) X)).
    { intros lod w f X Hl Hw If. destruct (arrived_shows _ _ _ _ _ _ (Ar lod w Hl Hw)) as (sm & es0 & fs0 & Es & W & Fin & _ & (_ & FD & _) & _ & Ef & _).
      unfold M in If. rewrite Es in If. destruct (EndProofs.Forall2_in_r _ _ _ Ef f If) as (d & Id & Fc). split; [exact (Pr lod w d f Hl Hw Fc)|]. intro HX.
      destruct (loop_exists _ d W Fin (FD d Id)) as (lp & Lp). destruct (loop_starts value _ _ d lp f W Lp Fc) as (qs & Eq). exists d, lp. split; [exact Lp|]. rewrite Eq. apply hull_prefix. destruct f as [[p q] r]. apply hull3. exact HX. }
    destruct (intersection_end_sound fuel' h lods t1 t2 M statuses out O L) with (w1 := w1) as (I1 & w2 & lod & f1 & f2 & I2 & Ne & Hl & F1 & F2 & X & X1 & X2).
    - intros lod w Hl Hw. apply Forall_forall. intros f If. exact (proj1 (SF lod w f (fun _ => 0%Q) Hl Hw If)).
    - exact R.
    - exact E.
    - exact H.
    - split; [exact I1|]. exists w2, lod, X. split; [exact I2|]. split; [exact Ne|]. split; [exact Hl|].
      split; [exact (proj2 (SF lod w1 f1 X Hl (in_or_app _ _ _ (or_introl I1)) F1) X1)|exact (proj2 (SF lod w2 f2 X Hl (in_or_app _ _ _ (or_intror I2)) F2) X2)].
  Qed.

  (** * Distances *)
  Lemma hull_self ps p : In p ps -> in_hull ps p.
  Proof.
    induction ps as [|q ps IH]; intros []; subst.
    - destruct (hull_prefix [p] ps p) as (ws & A); [|exists ws; exact A]. exists [1%Q]. split; [reflexivity|]. split; [repeat constructor; lra|]. split; [cbn; lra|]. intro i. cbn [weighted]. ring.
    - destruct (IH H) as (ws & L & F & S & E). exists (0%Q :: ws). split; [cbn [length]; auto|]. split; [constructor; [lra|exact F]|]. cbn [fold_right weighted]. split; [lra|]. intro i. rewrite E. ring.
  Qed.
  Lemma hull_mix ps a b X t : in_hull ps a -> in_hull ps b -> (0 <= t <= 1)%Q -> (forall i, X i == (1 - t) * a i + t * b i)%Q -> in_hull ps X.
  Proof.
    intros (wa & La & Fa & Sa & Ea) (wb & Lb & Fb & Sb & Eb) Ht EX.
    assert (G : exists ws, length ws = length ps /\ Forall (fun w => 0 <= w)%Q ws /\ (fold_right Qplus 0 ws == (1 - t) * fold_right Qplus 0 wa + t * fold_right Qplus 0 wb)%Q /\
      forall i, (weighted ws ps i == (1 - t) * weighted wa ps i + t * weighted wb ps i)%Q).
    { clear -La Lb Fa Fb Ht. revert wa wb La Lb Fa Fb. induction ps as [|p ps IH]; intros [|x wa] [|z wb] La Lb Fa Fb; try discriminate La; try discriminate Lb.
      - exists []. split; [reflexivity|]. split; [constructor|]. cbn [fold_right weighted]. split; [ring|]. intro i. ring.
      - inversion Fa as [|? ? H1 H2]; subst. inversion Fb as [|? ? H3 H4]; subst. destruct (IH wa wb) as (ws & L & F & S & E); [now injection La|now injection Lb|assumption|assumption|].
        exists (((1 - t) * x + t * z)%Q :: ws). split; [cbn [length]; auto|]. split.
        { constructor; [|exact F]. assert (0 <= (1 - t) * x)%Q by (apply Qmult_le_0_compat; lra). assert (0 <= t * z)%Q by (apply Qmult_le_0_compat; lra). lra. }
        cbn [fold_right weighted]. split; [rewrite S; ring|]. intro i. rewrite E. ring. }
    destruct G as (ws & L & F & S & E). exists ws. split; [exact L|]. split; [exact F|]. split; [rewrite S, Sa, Sb; ring|]. intro i. rewrite EX, E, Ea, Eb. reflexivity.
  Qed.
  Lemma edge_on_surface m (pos : nat -> P) d X : wf m -> finite m -> m (fst d) (snd d) <> None -> on_edge (value (pos (snd d)), value (pos (fst d))) X -> on_surface value m pos X.
  Proof.
    intros W Fin Hd (t & Ht & E). cbn [fst snd] in E. destruct (loop_exists m d W Fin Hd) as (lp & L). exists d, lp. split; [exact L|].
    destruct (path_last _ _ _ _ (il_path _ _ _ L)) as (z & Hz & Ez); [intro K; rewrite K in L; exact (il_in _ _ _ L)|].
    apply (hull_mix _ (value (pos (snd d))) (value (pos (fst d))) X t); [| |exact Ht|exact E].
    - apply hull_self. apply in_map_iff. exists d. split; [reflexivity|exact (il_in _ _ _ L)].
    - apply hull_self. apply in_map_iff. exists z. split; [|exact Hz]. destruct (nxt_inv _ _ _ Ez) as (_ & K). rewrite K. reflexivity.
  Qed.

  (** C146, distances.  With the edges in memory instead, of which none has length zero, the distance computed for a
      pair of voxels with edges is that of a point on the surface of the level of the one object to a point on that
      of the other. *)
  Theorem computed_level_distances : forall h lod t1 t2 (g : wrapper -> origin) (y : wrapper -> way) threads cs ds i vp w1 w2,
    (forall v, 0 <= lsize h lod v)%Z -> (6 * PropBatch.sizes (lsize h lod) (addresses t1 t2) < 2 ^ 32)%Z ->
    (forall w, In w (t_objs t1 ++ t_objs t2) -> arrived VoxelModel.DT_Segment h lod w (g w) (y w)) ->
    (forall w u v, In w (t_objs t1 ++ t_objs t2) -> level (g w) lod u v <> None -> ~ forall i, (value (s_pos (g_src (g w)) u) i == value (s_pos (g_src (g w)) v) i)%Q) ->
    pairs_of t1 t2 cs -> (0 < threads)%Z -> distance_run h threads lod cs ds ->
    In w1 (t_objs t1) -> In w2 (t_objs t2) -> belongs cs i vp w1 w2 -> (0 < lsize h lod (v_ptr (vp_v1 vp)))%Z -> (0 < lsize h lod (v_ptr (vp_v2 vp)))%Z ->
    exists d X Y, nth_error ds i = Some (Some d) /\ on_surface value (level (g w1) lod) (s_pos (g_src (g w1))) X /\ on_surface value (level (g w2) lod) (s_pos (g_src (g w2))) Y /\ (d == AabProofs.dist2 X Y)%Q.
  Proof.
    intros h lod t1 t2 g y threads cs ds i vp w1 w2 Sz Room Ar Lo Pa Ht R I1 I2 B S1 S2.
    set (E := fun w => match seen (g w) lod (y w) with Some sm => VoxelModel.m_edges sm | None => [] end).
    assert (EE : forall w, In w (t_objs t1 ++ t_objs t2) -> forall e, In e (E w) -> exists d, level (g w) lod (fst d) (snd d) <> None /\ e = (value (s_pos (g_src (g w)) (snd d)), value (s_pos (g_src (g w)) (fst d)))).
    { intros w Hw e He. destruct (arrived_shows _ _ _ _ _ _ (Ar w Hw)) as (sm & es0 & fs0 & Es & _ & _ & (_ & ED & _) & _ & Em & _). unfold E in He. rewrite Es, Em in He.
      apply in_map_iff in He. destruct He as ([u v] & <- & Id). exists (u, v). split; [exact (proj1 (ED u v Id))|reflexivity]. }
    assert (L : loaded_edges h lod t1 t2 E).
    { constructor; [exact Sz| | |exact Room].
      - intros w Hw. destruct (arrived_shows _ _ _ _ _ _ (Ar w Hw)) as (sm & _ & _ & Es & _ & _ & _ & _ & _ & _ & parts & dd & Fd & Pm & St).
        exists parts, dd. split; [exact St|]. split; [|exact Pm]. unfold E. rewrite Es. exact Fd.
      - intros w Hw. apply Forall_forall. intros e He. destruct (EE w Hw e He) as (d & Hd & ->). intro K. apply (Lo w _ _ Hw Hd). intro j. symmetry. exact (K j). }
    destruct (distance_end_attained h lod t1 t2 E threads cs ds i vp w1 w2 L Pa Ht R I1 I2 B S1 S2) as (d & e1 & e2 & X & Y & Ed & G1 & G2 & X1 & Y1 & V).
    assert (J1 : In w1 (t_objs t1 ++ t_objs t2)) by (apply in_or_app; now left). assert (J2 : In w2 (t_objs t1 ++ t_objs t2)) by (apply in_or_app; now right).
    exists d, X, Y. split; [exact Ed|]. destruct (EE w1 J1 e1 G1) as (d1 & H1 & ->). destruct (EE w2 J2 e2 G2) as (d2 & H2 & ->).
    destruct (arrived_shows _ _ _ _ _ _ (Ar w1 J1)) as (_ & _ & _ & _ & W1 & N1 & _). destruct (arrived_shows _ _ _ _ _ _ (Ar w2 J2)) as (_ & _ & _ & _ & W2 & N2 & _).
    split; [exact (edge_on_surface _ _ d1 X W1 N1 H1 X1)|]. split; [exact (edge_on_surface _ _ d2 Y W2 N2 H2 Y1)|exact V].
  Qed.
End Join.
Print Assumptions reported_levels_intersect.
Print Assumptions computed_level_distances.

(** * The hypotheses can be met *)
(** Every closed mesh has its lists of edges and facets. *)
Lemma edges_exist m : wf m -> finite m -> exists es, each_edge_once m es.
Proof.
  intros W (all & A). exists (nodup PpmcEnc.dart_dec (filter (fun d => (fst d <? snd d) && match m (fst d) (snd d) with Some _ => true | None => false end) all)).
  assert (K : forall u v, In (u, v) (nodup PpmcEnc.dart_dec (filter (fun d => (fst d <? snd d) && match m (fst d) (snd d) with Some _ => true | None => false end) all)) <-> u < v /\ m u v <> None).
  { intros u v. rewrite nodup_In, filter_In. cbn [fst snd]. rewrite andb_true_iff, Nat.ltb_lt. split.
    - intros (_ & L & H). split; [exact L|]. destruct (m u v); congruence.
    - intros (L & H). split; [exact (A u v H)|]. split; [exact L|]. destruct (m u v); congruence. }
  split; [apply NoDup_nodup|]. split.
  - intros u v H. apply K in H. destruct H as [L H]. split; [exact H|]. intro H'. apply K in H'. lia.
  - intros u v H. assert (u <> v) by (intros ->; apply H; apply (wf_irr m W)). destruct (Nat.lt_ge_cases u v) as [L|L]; [left|right]; apply K; [auto|]. split; [lia|]. apply (wf_sym m W). exact H.
Qed.
Lemma facets_exist m : wf m -> finite m -> exists fs, each_facet_once m fs.
Proof.
  intros W Fin. pose proof Fin as (all & A).
  assert (G : forall l, exists fs, NoDup fs /\ (forall d, In d fs -> m (fst d) (snd d) <> None) /\ (forall d, In d l -> m (fst d) (snd d) <> None -> exists f, In f fs /\ forb m f d) /\
    (forall f f', In f fs -> In f' fs -> forb m f f' -> f = f')).
  { induction l as [|d l (fs & N & D & C & U)]; [exists []; split; [constructor|]; split; [intros d []|]; split; [intros d []|intros f f' []]|].
    destruct (m (fst d) (snd d)) as [x|] eqn:Ed.
    - destruct (loop_exists m d W Fin ltac:(congruence)) as (lp & L). destruct (Exists_dec (fun f => In f lp) fs (fun f => in_dec PpmcEnc.dart_dec f lp)) as [E|E].
      + apply Exists_exists in E. destruct E as (f & If & Jf). exists fs. split; [exact N|]. split; [exact D|]. split; [|exact U]. intros d' [<-|Hd'] K; [|exact (C d' Hd' K)].
        exists f. split; [exact If|]. apply (il_forb _ _ _ L f Jf).
      + exists (d :: fs). assert (Nf : forall f, In f fs -> ~ In f lp) by (intros f If J; apply E, Exists_exists; eauto).
        split; [constructor; [intro I; exact (Nf d I (il_in _ _ _ L))|exact N]|]. split; [intros d' [<-|Hd']; [congruence|exact (D d' Hd')]|]. split.
        * intros d' [<-|Hd'] K; [exists d; split; [left; reflexivity|constructor]|]. destruct (C d' Hd' K) as (f & If & Ff). exists f. split; [right; exact If|exact Ff].
        * intros f f' [<-|If] [<-|If'] F; [reflexivity| | |exact (U f f' If If' F)].
          -- exfalso. apply (Nf f' If'). eapply il_forb_in; eauto.
          -- exfalso. apply (Nf f If). eapply il_forb_back; [exact W|exact L|exact (il_in _ _ _ L)|exact F].
    - exists fs. split; [exact N|]. split; [exact D|]. split; [|exact U]. intros d' [<-|Hd'] K; [congruence|exact (C d' Hd' K)]. }
  destruct (G all) as (fs & N & D & C & U). exists fs. split; [exact N|]. split; [exact D|]. split; [|exact U]. intros [u v] K. apply C; [exact (A u v K)|exact K].
Qed.
(** They can be renamed with the mesh. *)
Section Push.
  Context {P : Type}. Variables (m : mesh) (pos : nat -> P) (m' : mesh) (pos' : nat -> P) (sg : nat -> nat).
  Hypothesis S : same_mesh m pos m' pos' sg.
  Let sd (d : dart) : dart := (sg (fst d), sg (snd d)).
  Lemma nodup_push es : NoDup es -> NoDup (map sd es).
  Proof. induction 1 as [|d l H _ IH]; [constructor|]. cbn [map]. constructor; [|exact IH]. intro I. apply H. exact (proj1 (in_sd m pos m' pos' sg S d l) I). Qed.
  Lemma edges_push es : each_edge_once m es -> each_edge_once m' (map sd es).
  Proof.
    intros (N & D & A). split; [apply nodup_push; exact N|]. split.
    - intros u v I. apply in_map_iff in I. destruct I as ([a b] & E & I). injection E as <- <-. destruct (D a b I) as [H1 H2]. split; [exact (proj2 (dart_iff m pos m' pos' sg S (a, b)) H1)|].
      intro K. apply H2. exact (proj1 (in_sd m pos m' pos' sg S (b, a) es) K).
    - intros u v H. destruct (dart_from m pos m' pos' sg S (u, v) H) as ([a b] & E & K). injection E as -> ->.
      destruct (A a b K) as [I|I]; [left; exact (in_map sd es (a, b) I)|right; exact (in_map sd es (b, a) I)].
  Qed.
  Lemma facets_push fs : each_facet_once m fs -> each_facet_once m' (map sd fs).
  Proof.
    intros (N & D & A & U). split; [apply nodup_push; exact N|]. split; [|split].
    - intros d I. apply in_map_iff in I. destruct I as (a & <- & I). exact (proj2 (dart_iff m pos m' pos' sg S a) (D a I)).
    - intros d H. destruct (dart_from m pos m' pos' sg S d H) as (a & -> & K). destruct (A a K) as (f & If & Ff). exists (sd f). split; [apply in_map; exact If|exact (forb_sd m pos m' pos' sg S f a Ff)].
    - intros f f' If If' F. apply in_map_iff in If, If'. destruct If as (a & <- & Ia). destruct If' as (b & <- & Ib).
      destruct (forb_back m pos m' pos' sg S _ _ F a eq_refl) as (z & Ez & Fz). apply (sd_inj m pos m' pos' sg S) in Ez. subst z. rewrite (U a b Ia Ib Fz). reflexivity.
  Qed.
End Push.

Lemma finite_count m (l : list dart) n : wf m -> (forall p q, m p q <> None -> p < n) -> NoDup l -> (forall d, In d l -> m (fst d) (snd d) <> None) -> length l <= n * n.
Proof.
  intros W B N H. assert (K : length l <= length (list_prod (seq 0 n) (seq 0 n))).
  { apply NoDup_incl_length; [exact N|]. intros [a b] Hd. specialize (H _ Hd). cbn [fst snd] in H. apply in_prod; apply in_seq; [apply B in H; lia|]. apply (wf_sym m W), B in H. lia. }
  rewrite prod_length, seq_length in K. exact K.
Qed.
(** Every object that can be compressed can arrive at level 100, in whatever has one voxel. *)
Lemma can_arrive P value qz gp bary lim bpv fuel (s : source P) ms rs t N : t = VoxelModel.DT_Triangle \/ t = VoxelModel.DT_Segment ->
  compressible P qz gp bary lim bpv fuel s ms rs -> (forall p q, s_mesh s p q <> None -> p < N) -> exists y h n, (0 < n <= Z.of_nat (N * N))%Z /\ (forall v, lsize h 100 v = n) /\ (forall lod v, 0 <= lsize h lod v)%Z /\
  (forall u v, level P (Origin P s ms rs) 100 u v = s_mesh s u v) /\
  forall w, length (w_voxels w) = 1 -> arrived P value qz gp bary lim bpv fuel t h 100%Z w (Origin P s ms rs) y.
Proof.
  intros Ht C B. pose proof (cp_wf _ _ _ _ _ _ _ _ _ _ C) as W.
  assert (Fin : finite (s_mesh s)).
  { exists (list_prod (seq 0 N) (seq 0 N)). intros p q K. pose proof (B p q K). pose proof (B q p (wf_sym _ W _ _ K)). apply in_prod; apply in_seq; lia. }
  destruct (decoded _ _ _ _ _ _ _ _ _ _ C) as (bytes & EB & _ & D). destruct (D (s_machine s) [100%Z] (cp_machine _ _ _ _ _ _ _ _ _ _ C) ltac:(repeat constructor; lia)) as (m' & pos' & more & sg & D1 & _ & D3).
  destruct (D3 (or_introl eq_refl)) as [_ S]. clear D D3.
  destruct (edges_exist _ W Fin) as (es & HE). destruct (facets_exist _ W Fin) as (fs & HF).
  pose proof (edges_push _ _ _ _ _ S es HE) as HE'. pose proof (facets_push _ _ _ _ _ S fs HF) as HF'.
  set (es' := map (fun d => (sg (fst d), sg (snd d))) es) in *. set (fs' := map (fun d => (sg (fst d), sg (snd d))) fs) in *.
  destruct (shown_level value _ _ _ _ _ 100%Z [] es' fs' W S HE' HF') as (sm & es0 & fs0 & Esm & El & E0 & F0 & Ee & Ef).
  assert (Fl : fillable (VoxelModel.m_lod sm) [blank]).
  { split; [discriminate|]. split; [left; reflexivity|]. intros v H. injection H as <-. reflexivity. }
  destruct Fl as (Fl1 & Fl2 & Fl3). destruct (PropVoxel.voxel_fill_partition sm t [blank] Fl1 Fl2 Fl3) as (vx' & parts & ds & Ev & Fd & Pm & L1 & L2 & H).
  destruct vx' as [|v' [|? ?]]; try discriminate L1. destruct parts as [|part [|? ?]]; try discriminate L2. destruct (H 0 blank v' part eq_refl eq_refl eq_refl) as ([S1 S2] & (_ & _ & U) & _). clear H. rewrite El in *.
  cbn [concat] in Pm. rewrite app_nil_r in Pm. apply Permutation_length in Pm.
  assert (LP : 0 < length part <= N * N).
  { rewrite Pm. pose proof (cp_dep _ _ _ _ _ _ _ _ _ _ C) as Dp.
    assert (F2 : forall A B' (R : A -> B' -> Prop) l l', Forall2 R l l' -> length l' = length l) by (intros A B' R l l'; induction 1; cbn [length]; auto).
    destruct Ht as [-> | ->]; cbn [PropVoxel.mesh_floats] in Fd; rewrite (F2 _ _ _ _ _ Fd).
    - replace (length (VoxelModel.m_facets sm)) with (length fs0) by (symmetry; exact (F2 _ _ _ _ _ Ef)). destruct F0 as (Nd & FD & FA & _). split; [|exact (finite_count _ fs0 N W B Nd FD)].
      destruct (FA (s_d0 s, s_d1 s) Dp) as (f & If & _). destruct fs0; [destruct If|cbn; lia].
    - replace (length (VoxelModel.m_edges sm)) with (length es0) by (rewrite Ee, map_length; reflexivity). destruct E0 as (Nd & ED & EA). split; [|refine (finite_count _ es0 N W B Nd _); intros [u v] I; exact (proj1 (ED u v I))].
      destruct (EA _ _ Dp) as [I|I]; destruct es0; [destruct I|cbn; lia|destruct I|cbn; lia]. }
  exists (Way (s_machine s) [100%Z] [] es' fs' [blank]), (fun _ => v'), (Z.of_nat (length part)).
  split; [lia|]. split; [intro v; unfold lsize; rewrite S1; reflexivity|]. split.
  { intros lod v. unfold lsize. destruct (Z.eq_dec lod 100) as [->|Nl]; [rewrite S1; lia|]. rewrite (proj2 (U lod Nl)). cbn [blank VoxelModel.v_size]. lia. }
  split.
  { intros u v. pose proof (cp_levels _ _ _ _ _ _ _ _ _ _ C) as L. unfold levels_of in L.
    destruct (compressAll_spec _ _ _ _ _ _ _ _ _ _ _ (cp_gate _ _ _ _ _ _ _ _ _ _ C) _ _ _ _ (fun v Hv => Hv) (cp_wf _ _ _ _ _ _ _ _ _ _ C) (cp_con _ _ _ _ _ _ _ _ _ _ C) (cp_dep _ _ _ _ _ _ _ _ _ _ C) L) as (_ & L4 & EM & _).
    unfold level. cbn [g_levels g_rounds]. assert (K : rounds_at (Z.to_nat 100) (length rs) = length rs).
    { unfold rounds_at. change (Z.to_nat 100) with 100. replace (100 * length rs + 99) with (99 + length rs * 100) by lia. rewrite Nat.div_add by lia. reflexivity. }
    rewrite K, (PropPpmcLevels.nth_last no_mesh ms _ L4). apply EM. }
  intros w Hw. unfold arrived. cbn [g_src g_levels g_rounds y_machine y_reqs y_voxels y_es y_fs y_vs].
  split; [exact C|]. split; [exact Fin|]. split; [exact (cp_machine _ _ _ _ _ _ _ _ _ _ C)|]. split; [lia|]. split; [left; reflexivity|]. split; [repeat constructor; lia|].
  split; [split; [exact Fl1|split; [exact Fl2|exact Fl3]]|]. split.
  - intros b2 m2 p2 r2 Eb Em. rewrite EB in Eb. injection Eb as <-. rewrite D1 in Em. injection Em as <- <- <-. auto.
  - intros sm2 vx2 Es2 Ev2. unfold seen in Es2. cbn [g_src y_machine y_reqs y_vs y_es y_fs] in Es2. rewrite EB in Es2. cbn [bind] in Es2. rewrite D1 in Es2. cbn [bind fst snd] in Es2. rewrite Esm in Es2. injection Es2 as <-.
    rewrite Ev in Ev2. injection Ev2 as <-. unfold in_memory. destruct (w_voxels w) as [|jv [|? ?]]; try discriminate Hw. constructor; [auto|constructor].
Qed.

(** Three cut cubes in the tiles of PropEnd, all of them at level 100; the join runs on a device. *)
Definition cube_device (h : heap) (lod : Z) (cs : list centry) : list bool :=
  gpu_statuses (fun _ => 7%Q) h (TriIntModel.tri_grid (N.to_nat 1024) (length (all_pairs cs))) (repeat true (length (all_pairs cs))) lod cs.
Lemma cube_proper (m : mesh) d f : (forall u v, m u v = of_faces PropPpmc.cut_cube u v) -> first_corners pt_value m (s_pos cube_source) d f -> proper f.
Proof.
  intros E (a & b & E1 & E2 & ->). rewrite E in E1, E2. assert (K : of_faces PropPpmc.cut_cube (fst d) (snd d) <> None) by congruence. apply of_faces_in in K. destruct d as [u v]. cbn [fst snd] in *.
  vm_compute in K. repeat (destruct K as [K|K]; [injection K as <- <-; vm_compute in E1; injection E1 as <-; vm_compute in E2; injection E2 as <-; intro H;
    first [specialize (H AX); vm_compute in H; discriminate H|specialize (H AY); vm_compute in H; discriminate H|specialize (H AZ); vm_compute in H; discriminate H]|]). destruct K.
Qed.
Notation cube_arrived := (arrived PpmcGrid.pt pt_value (PpmcGrid.qzQ PropPpmcLevels.ex_fv) (PpmcGrid.gpQ PropPpmcLevels.ex_fv) PpmcGrid.baryQ 100 Z.log2_up 5000).
Example reported_levels_intersect_sample : exists h (g : wrapper -> origin PpmcGrid.pt) (y : Z -> wrapper -> way) out, tile_ok tB /\
  (forall lod v, 0 <= lsize h lod v)%Z /\ (forall lod, In lod [100%Z] -> 9 * PropBatch.sizes (lsize h lod) (addresses tA tB) < 2 ^ 32)%Z /\
  (forall lod w, In lod [100%Z] -> In w (t_objs tA ++ t_objs tB) -> cube_arrived VoxelModel.DT_Triangle h lod w (g w) (y lod w)) /\
  (forall lod w d f, In lod [100%Z] -> In w (t_objs tA ++ t_objs tB) -> first_corners pt_value (level _ (g w) lod) (s_pos (g_src _ (g w))) d f -> proper f) /\
  (forall lod cs, any_run h lod cs (cube_device h lod cs)) /\ intersect_all 10 (cube_device h) [100%Z] tA tB = Some out.
Proof.
  destruct cube_compressible as (ms & C & _).
  destruct (can_arrive _ pt_value _ _ _ _ _ _ _ _ _ VoxelModel.DT_Triangle 8 (or_introl eq_refl) C PropPpmcLevels.cube_lt) as (y & h & n & Hn & Sz & S0 & Lv & Ar). change (Z.of_nat (8 * 8)) with 64%Z in Hn.
  destruct (mbb_intersect 10 tA tB) as [cs|] eqn:Ec; [|vm_compute in Ec; discriminate Ec].
  exists h, (fun _ => Origin _ cube_source ms PropPpmcLevels.cube_rounds), (fun _ _ => y), (map fst (snd (levels (cube_device h) [100%Z] (cs, [])))).
  split; [exact tB_ok|]. split; [exact S0|]. split.
  { intros lod [<-|[]]. change (addresses tA tB) with [101; 102; 201]. unfold PropBatch.sizes. cbn [map fold_right]. rewrite !Sz. change (2 ^ 32)%Z with 4294967296%Z. lia. }
  split.
  { intros lod w [<-|[]] Hw. apply Ar. cbn [t_objs tA tB app In] in Hw. destruct Hw as [<-|[<-|[<-|[]]]]; reflexivity. }
  split; [intros lod w d f [<-|[]] _ Fc; exact (cube_proper _ d f Lv Fc)|]. split.
  - intros lod cs'. left. exists (fun _ => 7%Q). eexists _, _. split; [apply Permutation_refl|]. split; [apply repeat_length|reflexivity].
  - unfold intersect_all. rewrite Ec. reflexivity.
Qed.
Example computed_level_distances_sample : exists h (g : wrapper -> origin PpmcGrid.pt) (y : wrapper -> way),
  (forall v, 0 <= lsize h 100 v)%Z /\ (6 * PropBatch.sizes (lsize h 100) (addresses tA tB) < 2 ^ 32)%Z /\
  (forall w, In w (t_objs tA ++ t_objs tB) -> cube_arrived VoxelModel.DT_Segment h 100%Z w (g w) (y w)) /\
  (forall w u v, In w (t_objs tA ++ t_objs tB) -> level _ (g w) 100 u v <> None -> ~ forall i, (pt_value (s_pos (g_src _ (g w)) u) i == pt_value (s_pos (g_src _ (g w)) v) i)%Q) /\
  pairs_of tA tB s_cands /\ (exists ds, distance_run h 2 100 s_cands ds) /\ belongs s_cands 0 s_pair wA wB /\ (0 < lsize h 100 (v_ptr (vp_v1 s_pair)))%Z /\ (0 < lsize h 100 (v_ptr (vp_v2 s_pair)))%Z.
Proof.
  destruct cube_compressible as (ms & C & _).
  destruct (can_arrive _ pt_value _ _ _ _ _ _ _ _ _ VoxelModel.DT_Segment 8 (or_intror eq_refl) C PropPpmcLevels.cube_lt) as (y & h & n & Hn & Sz & S0 & Lv & Ar). change (Z.of_nat (8 * 8)) with 64%Z in Hn.
  exists h, (fun _ => Origin _ cube_source ms PropPpmcLevels.cube_rounds), (fun _ => y). split; [exact (S0 100%Z)|]. split.
  { change (addresses tA tB) with [101; 102; 201]. unfold PropBatch.sizes. cbn [map fold_right]. rewrite !Sz. change (2 ^ 32)%Z with 4294967296%Z. lia. }
  split; [intros w Hw; apply Ar; cbn [t_objs tA tB app In] in Hw; destruct Hw as [<-|[<-|[<-|[]]]]; reflexivity|]. split.
  { intros w u v _ K H. rewrite Lv in K. apply of_faces_in in K. vm_compute in K.
    repeat (destruct K as [K|K]; [injection K as <- <-; first [specialize (H AX); vm_compute in H; discriminate H|specialize (H AY); vm_compute in H; discriminate H|specialize (H AZ); vm_compute in H; discriminate H]|]). destruct K. }
  split; [exact s_pairs|]. split.
  { exists (cpu_distances (fun _ => 7%Q) h 2 (concat (snd (BatchModel.distance_runs (Z.of_nat (length (all_pairs s_cands))) 2))) 100 s_cands). exists (fun _ => 7%Q). eexists. split; [exact (in_turn _ [] (Forall_nil _))|reflexivity]. }
  split; [split; [reflexivity|split; now left]|]. rewrite !Sz. lia.
Qed.
