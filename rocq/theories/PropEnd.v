(** C126-C128: intersection joins from the meshes to the answer. *)
From Coq Require Import ZArith QArith List Bool Lia Lqa Permutation Arith.
From Verif Require Import Arr AabModel AabProofs OctreeModel JoinModel JoinProofs BatchModel SegDistModel SegDistProofs TriIntModel TriIntProofs TriSetProofs EndModel EndProofs.
From Verif Require VoxelModel PropVoxel PropBatch PropTriInt.
Import ListNotations.
Open Scope Z_scope.

(** * Specification *)
Definition facet : Type := vec * vec * vec.
(** The points of a facet. *)
Definition in_facet (f : facet) (X : vec) : Prop := let '(p, q, r) := f in
  exists a b c, (0 <= a /\ 0 <= b /\ 0 <= c /\ a + b + c == 1 /\ forall i, X i == a * p i + b * q i + c * r i)%Q.
(** Facets of positive area. *)
Definition proper (f : facet) : Prop := let '(p, q, r) := f in ~ (forall i, vcross (vsub q p) (vsub r p) i == 0)%Q.
(** The voxels of an object hold the facets [M] between them. *)
Definition carries (h : heap) (lod : Z) (w : wrapper) (M : list facet) : Prop := exists parts ds,
  Forall2 (fun v part => PropVoxel.stores lod (h (v_ptr v)) part) (w_voxels w) parts /\
  Forall2 PropVoxel.facet_floats M ds /\ Permutation (concat parts) ds.
Definition addresses (t1 t2 : tile) : list nat := map v_ptr (flat_map w_voxels (t_objs t1 ++ t_objs t2)).
(** The objects of two tiles are in memory with the facets [M] at each level; all of them together
    have less than 2^32 floats. *)
Record loaded (h : heap) (lods : list Z) (t1 t2 : tile) (M : Z -> wrapper -> list facet) : Prop := {
  ld_sizes : forall lod v, 0 <= lsize h lod v;
  ld_data : forall lod w, In lod lods -> In w (t_objs t1 ++ t_objs t2) -> carries h lod w (M lod w);
  ld_room : forall lod, In lod lods -> 9 * PropBatch.sizes (lsize h lod) (addresses t1 t2) < 2 ^ 32 }.
(** Two facets of two objects have a point in common. *)
Definition touch (f1 f2 : facet) : Prop := exists X, in_facet f1 X /\ in_facet f2 X.
(** A level computed on a device or on some threads. *)
Definition any_run (h : heap) (lod : Z) (cs : list centry) (st : list bool) : Prop :=
  device_run h lod cs st \/ exists threads, 0 < threads /\ cpu_run h threads lod cs st.
(** A level computed on a device or on a single thread. *)
Definition full_run (h : heap) (lod : Z) (cs : list centry) (st : list bool) : Prop := device_run h lod cs st \/ cpu_run h 1 lod cs st.
(** Two facets in general position: see [triint_sound_partial]. *)
Definition general (f1 f2 : facet) : Prop := let '(p, q, r) := f1 in let '(p', q', r') := f2 in
  (~ vcross (vsub q p) (vsub r p) AZ == 0 /\
   ~ height p (vsub q p) (vsub r p) p' == 0 /\ ~ height p (vsub q p) (vsub r p) q' == 0 /\ ~ height p (vsub q p) (vsub r p) r' == 0 /\
   ~ height p' (vsub q' p') (vsub r' p') p == 0)%Q.

(** * Facets and stored triangles *)
Definition of_facet (f : facet) (t : triangle) : Prop := PropVoxel.facet_floats f (tri_floats t).
Lemma of_facet_vecs f c p r : of_facet f (c, p, r) -> let '(x, y, z) := f in
  (forall i, pt c i == x i) /\ (forall i, pt p i == vsub y x i) /\ (forall i, pt r i == vsub z x i).
Proof.
  destruct f as [[x y] z], c as [[c1 c2] c3], p as [[p1 p2] p3], r as [[r1 r2] r3]. unfold of_facet. cbn [tri_floats PropVoxel.facet_floats].
  intros (A & B & C & D & E & F & G & H & I). unfold vsub. split; [|split]; intros []; cbn [pt v3]; lra.
Qed.
Lemma in_facet_tri f c p r X : of_facet f (c, p, r) -> (in_tri (pt c) (pt p) (pt r) X <-> in_facet f X).
Proof.
  intros H. apply of_facet_vecs in H. destruct f as [[x y] z]. destruct H as (A & B & C). cbn [in_facet]. unfold in_tri, tri_point, bary, vsub in *. split.
  - intros (a & b & (Ha & Hb & S) & E). exists (1 - a - b)%Q, a, b. split; [lra|]. split; [exact Ha|]. split; [exact Hb|]. split; [ring|].
    intros i. rewrite E, A, B, C. ring.
  - intros (a & b & c' & Ha & Hb & Hc & S & E). exists b, c'. split; [lra|]. intros i. rewrite E, A, B, C.
    assert (X1 : (a == 1 - b - c')%Q) by lra. rewrite X1. ring.
Qed.
Lemma cross_compat a b a' b' : (forall i, a i == a' i)%Q -> (forall i, b i == b' i)%Q -> forall i, (vcross a b i == vcross a' b' i)%Q.
Proof. intros A B []; unfold vcross, v3; rewrite !A, !B; reflexivity. Qed.
Lemma height_compat a b c x a' b' c' x' : (forall i, a i == a' i)%Q -> (forall i, b i == b' i)%Q -> (forall i, c i == c' i)%Q -> (forall i, x i == x' i)%Q ->
  (height a b c x == height a' b' c' x')%Q.
Proof. intros A B C X. unfold height, vdot, sum3. rewrite !(cross_compat b c b' c' B C). unfold vsub. rewrite !A, !X. reflexivity. Qed.
Lemma proper_solid f t : of_facet f t -> proper f -> solid t.
Proof.
  destruct t as [[c p] r], f as [[x y] z]. intros H. apply of_facet_vecs in H as (A & B & C). cbn [proper solid]. intros N Z. apply N. intros i.
  rewrite <- (cross_compat _ _ _ _ B C i). apply Z.
Qed.
Lemma pair_touch f1 f2 t1 t2 : of_facet f1 t1 -> of_facet f2 t2 -> proper f1 -> proper f2 -> tri_pair t1 t2 = true -> touch f1 f2.
Proof.
  intros H1 H2 P1 P2 E. pose proof (proper_solid f1 t1 H1 P1) as S1. pose proof (proper_solid f2 t2 H2 P2) as S2.
  destruct t1 as [[c p] r], t2 as [[d q] s]. cbn [tri_pair solid] in *.
  destruct (proj1 (PropTriInt.triint_sound_partial _ _ _ _ _ _ S1 S2) E) as (X & X1 & X2). exists X.
  split; [exact (proj1 (in_facet_tri f1 c p r X H1) X1)|exact (proj1 (in_facet_tri f2 d q s X H2) X2)].
Qed.
Lemma touch_pair f1 f2 t1 t2 : of_facet f1 t1 -> of_facet f2 t2 -> proper f2 -> general f1 f2 -> touch f1 f2 -> tri_pair t1 t2 = true.
Proof.
  intros H1 H2 P2 G (X & X1 & X2). destruct t1 as [[c p] r], t2 as [[d q] s]. pose proof (proper_solid f2 _ H2 P2) as S2.
  apply (proj2 (in_facet_tri f1 c p r X H1)) in X1. apply (proj2 (in_facet_tri f2 d q s X H2)) in X2.
  apply of_facet_vecs in H1, H2. destruct f1 as [[x y] z], f2 as [[x' y'] z']. destruct H1 as (A & B & C), H2 as (A' & B' & C').
  cbn [general tri_pair solid] in *. destruct G as (G1 & G2 & G3 & G4 & G5).
  destruct (TriInt (pt c) (pt p) (pt r) (pt d) (pt q) (pt s)) eqn:E; [reflexivity|exfalso].
  assert (N : ~ vcross (pt p) (pt r) AZ == 0) by (rewrite (cross_compat _ _ _ _ B C AZ); exact G1).
  refine (proj2 (PropTriInt.triint_sound_partial (pt c) (pt p) (pt r) (pt d) (pt q) (pt s) (fun Z => N (Z AZ)) S2) N _ _ _ _ E _).
  - rewrite (height_compat _ _ _ _ _ _ _ _ A B C A'). exact G2.
  - rewrite (height_compat _ _ _ (vadd (pt d) (pt q)) _ _ _ y' A B C); [exact G3|]. intros i. unfold vadd. rewrite A', B'. unfold vsub. ring.
  - rewrite (height_compat _ _ _ (vadd (pt d) (pt s)) _ _ _ z' A B C); [exact G4|]. intros i. unfold vadd. rewrite A', C'. unfold vsub. ring.
  - rewrite (height_compat _ _ _ _ _ _ _ _ A' B' C' A). exact G5.
  - exists X. split; assumption.
Qed.
(** Lists of nine floats are triangles. *)
Lemma nine f d : PropVoxel.facet_floats f d -> exists t, d = tri_floats t.
Proof.
  do 9 (destruct d as [|? d]; [intros []|]). destruct d as [|? d]; [|intros []]. intros _.
  match goal with |- exists t, [?a; ?b; ?c; ?x; ?y; ?z; ?u; ?v; ?w] = _ => exists ((a, b, c), (x, y, z), (u, v, w)); reflexivity end.
Qed.
Lemma nines ds : Forall (fun d => exists t, d = tri_floats t) ds -> exists T, ds = map tri_floats T.
Proof. induction 1 as [|d ds (t & ->) F (T & ->)]; [exists []; reflexivity|exists (t :: T); reflexivity]. Qed.
Lemma stores_tris h lod v part T : part = map tri_floats T -> PropVoxel.stores lod (h v) part -> holds h lod v T /\ tris_at h lod v = T.
Proof.
  intros -> [S D]. rewrite map_length in S. rewrite <- flat_map_concat_map in D. fold (tri_buffer T) in D. split; [split; assumption|].
  unfold tris_at. rewrite D, read_all_some. apply parse_buffer.
Qed.
Lemma carries_voxels h lod w M : carries h lod w M ->
  (forall v, In v (w_voxels w) -> holds h lod (v_ptr v) (tris_at h lod (v_ptr v))) /\
  (forall v t, In v (w_voxels w) -> In t (tris_at h lod (v_ptr v)) -> exists f, In f M /\ of_facet f t) /\
  (forall f, In f M -> exists v t, In v (w_voxels w) /\ In t (tris_at h lod (v_ptr v)) /\ of_facet f t).
Proof.
  intros (parts & ds & S & F & P).
  assert (N : forall part, In part parts -> exists T, part = map tri_floats T).
  { intros part Hp. apply nines. apply Forall_forall. intros d Hd.
    assert (I : In d ds) by (apply (Permutation_in d P); apply in_concat; eauto).
    destruct (Forall2_in_r _ _ _ F d I) as (f & _ & H). exact (nine f d H). }
  split; [|split].
  - intros v Hv. destruct (Forall2_in_l _ _ _ S v Hv) as (part & Hp & St). destruct (N part Hp) as (T & E).
    destruct (stores_tris h lod (v_ptr v) part T E St) as [H ->]. exact H.
  - intros v t Hv Ht. destruct (Forall2_in_l _ _ _ S v Hv) as (part & Hp & St). destruct (N part Hp) as (T & E).
    destruct (stores_tris h lod (v_ptr v) part T E St) as [_ X]. rewrite X in Ht.
    assert (I : In (tri_floats t) ds) by (apply (Permutation_in _ P); apply in_concat; exists part; split; [exact Hp|rewrite E; now apply in_map]).
    destruct (Forall2_in_r _ _ _ F _ I) as (f & Hf & H). exists f. split; [exact Hf|exact H].
  - intros f Hf. destruct (Forall2_in_l _ _ _ F f Hf) as (d & Hd & H). apply (Permutation_in d (Permutation_sym P)) in Hd.
    apply in_concat in Hd as (part & Hp & Hd). destruct (Forall2_in_r _ _ _ S part Hp) as (v & Hv & St). destruct (N part Hp) as (T & E).
    destruct (stores_tris h lod (v_ptr v) part T E St) as [_ X]. rewrite E in Hd. apply in_map_iff in Hd as (t & <- & Ht).
    exists v, t. split; [exact Hv|]. rewrite X. split; [exact Ht|exact H].
Qed.

(** * The joins *)
Lemma address_in t1 t2 w v : In w (t_objs t1 ++ t_objs t2) -> In v (w_voxels w) -> In (v_ptr v) (addresses t1 t2).
Proof. intros Hw Hv. unfold addresses. apply in_map. apply in_flat_map. eauto. Qed.
Lemma loaded_holds h lods t1 t2 M : loaded h lods t1 t2 M -> forall lod v, In lod lods -> In v (addresses t1 t2) -> holds h lod v (tris_at h lod v).
Proof.
  intros L lod v Hl Hv. unfold addresses in Hv. apply in_map_iff in Hv as (jv & <- & Hv). apply in_flat_map in Hv as (w & Hw & Hv).
  exact (proj1 (carries_voxels h lod w _ (ld_data _ _ _ _ _ L lod w Hl Hw)) jv Hv).
Qed.
Lemma start_ok fuel t1 t2 cs : tile_ok t2 -> mbb_intersect fuel t1 t2 = Some cs -> within_ok (known (addresses t1 t2)) cs.
Proof.
  intros O E e x He Hx. destruct (mbb_intersect_pairs fuel t1 t2 cs O E e x He Hx) as (H1 & H2 & _ & w2 & H3 & _ & H4). split.
  - apply (address_in t1 t2 (fst e)); [apply in_or_app; now left|exact H2].
  - apply (address_in t1 t2 w2); [apply in_or_app; now right|exact H4].
Qed.
Lemma start_unmarked fuel t1 t2 cs : mbb_intersect fuel t1 t2 = Some cs -> Forall no_marks cs.
Proof.
  intros E. apply Forall_forall. intros e He. unfold mbb_intersect in E.
  destruct (tile_octree fuel 400 t2) as [tree|] eqn:Et; cbn [bind] in E; [|discriminate E].
  destruct (map_opt _ (t_objs t1)) as [l|] eqn:El in E; cbn [bind] in E; [|discriminate E]. injection E as <-.
  destruct (map_opt_in _ _ _ El) as [_ L2]. unfold somes in He. apply in_flat_map in He as [[e'|] [He H0]]; [|destruct H0]. destruct H0 as [->|[]].
  destruct (L2 _ He) as [w1 [Hw1 Ee]]. clear El L2 He. unfold intersect_entry in Ee.
  destruct (sort_by _ (query_intersect tree (w_obj w1))) as [|i0 ids] eqn:Es; [discriminate Ee|].
  destruct (map_opt _ (skip_dups _ _ _)) as [m|] eqn:Em in Ee; cbn [bind] in Ee; [|discriminate Ee]. injection Ee as <-.
  apply Forall_forall. intros vp Hv. cbn [snd] in Hv. apply in_flat_map in Hv as (c & Hc & Hv). apply filter_In in Hc as [Hc _].
  destruct (map_opt_in _ _ _ Em) as [_ M2]. destruct (M2 c Hc) as (i & _ & Ei).
  destruct (get_wrapper t2 i) as [w2|]; cbn [bind] in Ei; [|discriminate Ei]. injection Ei as <-. cbn [c_pairs] in Hv.
  apply overlap_pairs_spec in Hv as (v1 & v2 & _ & _ & _ & ->). reflexivity.
Qed.

(** An object of the first tile with triangles in overlapping voxels that pass the triangle test. *)
Definition detected (h : heap) (lods : list Z) (t1 t2 : tile) (w1 : wrapper) : Prop :=
  In w1 (t_objs t1) /\ exists w2 v1 v2 lod a b, In w2 (t_objs t2) /\ o_ptr (w_obj w2) <> o_ptr (w_obj w1) /\
    In lod lods /\ In v1 (w_voxels w1) /\ In v2 (w_voxels w2) /\ intersect (v_box v1) (v_box v2) = true /\
    In a (tris_at h lod (v_ptr v1)) /\ In b (tris_at h lod (v_ptr v2)) /\ tri_pair a b = true.
Lemma any_detected fuel h lods t1 t2 M statuses out : tile_ok t2 -> loaded h lods t1 t2 M ->
  (forall lod cs, any_run h lod cs (statuses lod cs)) ->
  intersect_all fuel statuses lods t1 t2 = Some out -> forall w1, In w1 out -> detected h lods t1 t2 w1.
Proof.
  intros O L R E w1 H. unfold intersect_all in E.
  destruct (mbb_intersect fuel t1 t2) as [cs|] eqn:Ec; cbn [bind] in E; [|discriminate E]. injection E as <-.
  apply in_map_iff in H as (e & <- & He).
  destruct (levels_sound statuses (fun lod => tested (tris_at h lod)) (known (addresses t1 t2)) lods (cs, [])) as [_ C].
  { intros lod Hl cs' i vp W Ei St. pose proof (fun v => loaded_holds _ _ _ _ _ L lod v Hl) as Hd.
    destruct (R lod cs') as [D|(threads & Ht & D)].
    - now rewrite (device_exact h lod (tris_at h lod) (addresses t1 t2) (ld_sizes _ _ _ _ _ L lod) Hd (ld_room _ _ _ _ _ L lod Hl) cs' _ i vp D W Ei) in St.
    - rewrite (cpu_exact h lod (tris_at h lod) (addresses t1 t2) (ld_sizes _ _ _ _ _ L lod) Hd (ld_room _ _ _ _ _ L lod Hl) threads cs' _ i vp Ht D W Ei) in St.
      apply andb_true_iff in St. apply St. }
  { exact (start_ok fuel t1 t2 cs O Ec). }
  { exact (start_unmarked fuel t1 t2 cs Ec). }
  destruct (C e He) as [[]|[(lod & Hl & x & Hx & T) (e0 & H0 & [K1 K2])]]. cbn [fst] in H0. rewrite <- K2 in Hx.
  destruct (mbb_intersect_pairs fuel t1 t2 cs O Ec e0 x H0 Hx) as (I1 & I2 & I5 & w2 & I3 & D & I4). rewrite K1 in *. split; [exact I1|].
  apply tested_iff in T as (a & b & Ha & Hb & T). exists w2, (fst x), (snd x), lod, a, b. auto 12.
Qed.

(** C126.  Whatever a join reports on a device or on any number of threads, in whatever order they run
    and whatever was in memory before, an object reported has at one of the levels a facet that has a
    point in common with a facet of another object. *)
Theorem intersection_end_sound : forall fuel h lods t1 t2 M statuses out, tile_ok t2 -> loaded h lods t1 t2 M ->
  (forall lod w, In lod lods -> In w (t_objs t1 ++ t_objs t2) -> Forall proper (M lod w)) ->
  (forall lod cs, any_run h lod cs (statuses lod cs)) ->
  intersect_all fuel statuses lods t1 t2 = Some out ->
  forall w1, In w1 out -> In w1 (t_objs t1) /\ exists w2 lod f1 f2, In w2 (t_objs t2) /\ o_ptr (w_obj w2) <> o_ptr (w_obj w1) /\
    In lod lods /\ In f1 (M lod w1) /\ In f2 (M lod w2) /\ touch f1 f2.
Proof.
  intros fuel h lods t1 t2 M statuses out O L Pr R E w1 H.
  destruct (any_detected fuel h lods t1 t2 M statuses out O L R E w1 H) as (I1 & w2 & v1 & v2 & lod & a & b & I3 & D & Hl & I2 & I4 & _ & Ha & Hb & T).
  split; [exact I1|].
  assert (J1 : In w1 (t_objs t1 ++ t_objs t2)) by (apply in_or_app; now left). assert (J2 : In w2 (t_objs t1 ++ t_objs t2)) by (apply in_or_app; now right).
  destruct (carries_voxels h lod w1 _ (ld_data _ _ _ _ _ L lod _ Hl J1)) as (_ & F1 & _). destruct (F1 _ a I2 Ha) as (f1 & M1 & O1).
  destruct (carries_voxels h lod w2 _ (ld_data _ _ _ _ _ L lod _ Hl J2)) as (_ & F2 & _). destruct (F2 _ b I4 Hb) as (f2 & M2 & O2).
  exists w2, lod, f1, f2. split; [exact I3|]. split; [exact D|]. split; [exact Hl|]. split; [exact M1|]. split; [exact M2|].
  apply (pair_touch f1 f2 a b O1 O2); [|exact (proj1 (Forall_forall _ _) (Pr lod w2 Hl J2) f2 M2)|exact T].
  exact (proj1 (Forall_forall _ _) (Pr lod _ Hl J1) f1 M1).
Qed.
Print Assumptions intersection_end_sound.

(** C127.  On a device, or on a single thread, the answer is exactly the objects that have a voxel
    overlapping one of another object, with triangles in them for which the triangle test says so. *)
Theorem intersection_end_exact : forall fuel h lods t1 t2 M statuses out, tile_ok t2 -> loaded h lods t1 t2 M ->
  Forall (fun w => thick (o_box (w_obj w))) (t_objs t1) ->
  Forall (fun w => Forall (fun v => within (v_box v) (o_box (w_obj w))) (w_voxels w)) (t_objs t1) ->
  (forall lod cs, full_run h lod cs (statuses lod cs)) ->
  intersect_all fuel statuses lods t1 t2 = Some out ->
  forall w1, In w1 out <-> detected h lods t1 t2 w1.
Proof.
  intros fuel h lods t1 t2 M statuses out O L Th Vx R E w1. split.
  { apply (any_detected fuel h lods t1 t2 M statuses out O L); [|exact E]. intros lod cs. destruct (R lod cs) as [D|D]; [now left|right; exists 1; split; [lia|exact D]]. }
  unfold intersect_all in E.
  destruct (mbb_intersect fuel t1 t2) as [cs|] eqn:Ec; cbn [bind] in E; [|discriminate E]. injection E as <-.
  assert (St : forall lod cs' i vp, In lod lods -> within_ok (known (addresses t1 t2)) cs' -> nth_error (all_pairs cs') i = Some vp ->
    nth i (statuses lod cs') false = tested (tris_at h lod) (vp_v1 vp) (vp_v2 vp)).
  { intros lod cs' i vp Hl W Ei. pose proof (fun v => loaded_holds _ _ _ _ _ L lod v Hl) as Hd.
    destruct (R lod cs') as [D|D].
    - exact (device_exact h lod (tris_at h lod) (addresses t1 t2) (ld_sizes _ _ _ _ _ L lod) Hd (ld_room _ _ _ _ _ L lod Hl) cs' _ i vp D W Ei).
    - rewrite (cpu_exact h lod (tris_at h lod) (addresses t1 t2) (ld_sizes _ _ _ _ _ L lod) Hd (ld_room _ _ _ _ _ L lod Hl) 1 cs' _ i vp ltac:(lia) D W Ei).
      rewrite Z.div_1_r. replace (Z.of_nat i <? _) with true; [reflexivity|]. symmetry. apply Z.ltb_lt.
      assert ((i < length (all_pairs cs'))%nat) by (apply nth_error_Some; congruence). lia. }
  assert (Sd : forall lod, In lod lods -> st_sound statuses (fun lod => tested (tris_at h lod)) (known (addresses t1 t2)) lod /\
    st_complete statuses (fun lod => tested (tris_at h lod)) (known (addresses t1 t2)) lod).
  { intros lod Hl. split; intros cs' i vp W Ei X; [rewrite <- (St lod cs' i vp Hl W Ei)|rewrite (St lod cs' i vp Hl W Ei)]; exact X. }
  pose proof (start_ok fuel t1 t2 cs O Ec) as W. pose proof (start_unmarked fuel t1 t2 cs Ec) as U.
  intros (Hw1 & w2 & v1 & v2 & lod & a & b & H2 & D & Hl & V1 & V2 & X & Ha & Hb & T).
  set (hits := fun u v => intersect (v_box u) (v_box v) && tested (tris_at h lod) u v).
  destruct (mbb_intersect_spec hits fuel t1 t2 cs O Th Vx) as [_ Cd]; [|exact Ec|].
  { intros u1 u2 x y _ _ _ _ Hh. unfold hits in Hh. apply andb_true_iff in Hh. apply Hh. }
  destruct (proj2 (Cd w1)) as (e & He & <- & x & Hx & Hh).
  { split; [exact Hw1|]. exists w2, v1, v2. split; [exact H2|]. split; [exact D|]. split; [exact V1|]. split; [exact V2|].
    unfold hits. rewrite X. cbn [andb]. apply tested_iff. eauto. }
  unfold hits in Hh. apply andb_true_iff in Hh as [_ Hh].
  destruct (levels_complete statuses _ (known (addresses t1 t2)) lods (cs, []) Sd W U e He) as (e' & [K _] & He').
  { exists lod. split; [exact Hl|]. exists x. split; [exact Hx|exact Hh]. }
  apply in_map_iff. exists e'. split; [now rewrite K|exact He'].
Qed.
Print Assumptions intersection_end_exact.

(** In terms of facets, for objects of one voxel: facets in general position with a common point inside
    both boxes are found. *)
Theorem intersection_end_reports : forall fuel h lods t1 t2 M statuses out w1 w2 v1 v2 lod f1 f2 X, tile_ok t2 -> loaded h lods t1 t2 M ->
  Forall (fun w => thick (o_box (w_obj w))) (t_objs t1) ->
  Forall (fun w => Forall (fun v => within (v_box v) (o_box (w_obj w))) (w_voxels w)) (t_objs t1) ->
  (forall lod cs, full_run h lod cs (statuses lod cs)) ->
  intersect_all fuel statuses lods t1 t2 = Some out ->
  In w1 (t_objs t1) -> In w2 (t_objs t2) -> o_ptr (w_obj w2) <> o_ptr (w_obj w1) -> w_voxels w1 = [v1] -> w_voxels w2 = [v2] ->
  In lod lods -> In f1 (M lod w1) -> In f2 (M lod w2) -> proper f2 -> general f1 f2 ->
  in_facet f1 X -> in_facet f2 X -> strictly_inside X (v_box v1) -> strictly_inside X (v_box v2) -> In w1 out.
Proof.
  intros fuel h lods t1 t2 M statuses out w1 w2 v1 v2 lod f1 f2 X O L Th Vx R E Hw1 Hw2 D Ev1 Ev2 Hl F1 F2 Pr G X1 X2 S1 S2.
  apply (intersection_end_exact fuel h lods t1 t2 M statuses out O L Th Vx R E). split; [exact Hw1|].
  destruct (carries_voxels h lod w1 _ (ld_data _ _ _ _ _ L lod w1 Hl (in_or_app _ _ _ (or_introl Hw1)))) as (_ & _ & C1).
  destruct (carries_voxels h lod w2 _ (ld_data _ _ _ _ _ L lod w2 Hl (in_or_app _ _ _ (or_intror Hw2)))) as (_ & _ & C2).
  destruct (C1 f1 F1) as (v & a & Iv & Ia & Oa). destruct (C2 f2 F2) as (v' & b & Iv' & Ib & Ob).
  rewrite Ev1 in Iv. rewrite Ev2 in Iv'. destruct Iv as [->|[]], Iv' as [->|[]]. exists w2, v, v', lod, a, b. rewrite Ev1, Ev2.
  split; [exact Hw2|]. split; [exact D|]. split; [exact Hl|]. split; [now left|]. split; [now left|]. split.
  { apply intersect_spec. intros i. destruct (S1 i), (S2 i). split; lra. }
  split; [exact Ia|]. split; [exact Ib|]. apply (touch_pair f1 f2 a b Oa Ob Pr G). exists X. split; assumption.
Qed.
Print Assumptions intersection_end_reports.

(** Objects come to be in memory like this by filling their voxels from their meshes (C41). *)
Theorem filled_objects_carry : forall m vs vs' h w, vs <> [] ->
  (length vs = 1%nat \/ Forall (fun v => VoxelModel.v_core v <> None) vs) ->
  (forall v, hd_error vs = Some v -> VoxelModel.v_data v (VoxelModel.m_lod m) = None) ->
  VoxelModel.fill_voxel m VoxelModel.DT_Triangle vs = Some vs' -> Forall2 (fun jv v' => h (v_ptr jv) = v') (w_voxels w) vs' ->
  carries h (VoxelModel.m_lod m) w (VoxelModel.m_facets m).
Proof.
  intros m vs vs' h w N C D E F. destruct (PropVoxel.voxel_fill_partition m VoxelModel.DT_Triangle vs N C D) as (ws & parts & ds & E' & Fd & P & L & Lp & H).
  assert (ws = vs') as -> by congruence. exists parts, ds. split; [|split; [exact Fd|exact P]].
  assert (G : forall (vs vs' : list VoxelModel.voxel) (parts : list (list (list Q))), length vs' = length vs -> length parts = length vs ->
    (forall j v v' part, nth_error vs j = Some v -> nth_error vs' j = Some v' -> nth_error parts j = Some part -> PropVoxel.stores (VoxelModel.m_lod m) v' part) ->
    Forall2 (PropVoxel.stores (VoxelModel.m_lod m)) vs' parts).
  { clear. intros vs. induction vs as [|v vs IH]; intros [|v' vs'] [|part parts] L1 L2 H; try discriminate L1; try discriminate L2; constructor.
    - exact (H 0%nat v v' part eq_refl eq_refl eq_refl).
    - apply IH; [now injection L1|now injection L2|]. intros j. exact (H (S j)). }
  specialize (G vs vs' parts L Lp (fun j v v' part a b c => proj1 (H j v v' part a b c))).
  clear -F G. revert parts G. induction F as [|jv v' l l' Hh F IH]; intros parts G; inversion G; subst; constructor; [assumption|]. now apply IH.
Qed.
Print Assumptions filled_objects_carry.

(** * Threads *)
(** C128.  The answer does not depend on the order of threads, on what was in memory, and it is the same
    on a device and on a single thread; several threads never add anything. *)
Theorem intersection_end_agree_partial : forall fuel h lods t1 t2 M st1 st2 out1 out2, tile_ok t2 -> loaded h lods t1 t2 M ->
  Forall (fun w => thick (o_box (w_obj w))) (t_objs t1) ->
  Forall (fun w => Forall (fun v => within (v_box v) (o_box (w_obj w))) (w_voxels w)) (t_objs t1) ->
  (forall lod cs, any_run h lod cs (st1 lod cs)) -> (forall lod cs, full_run h lod cs (st2 lod cs)) ->
  intersect_all fuel st1 lods t1 t2 = Some out1 -> intersect_all fuel st2 lods t1 t2 = Some out2 ->
  (forall w, In w out1 -> In w out2) /\
  ((forall lod cs, full_run h lod cs (st1 lod cs)) -> forall w, In w out2 -> In w out1).
Proof.
  intros fuel h lods t1 t2 M st1 st2 out1 out2 O L Th Vx R1 R2 E1 E2. split.
  - intros w H. apply (intersection_end_exact fuel h lods t1 t2 M st2 out2 O L Th Vx R2 E2). exact (any_detected fuel h lods t1 t2 M st1 out1 O L R1 E1 w H).
  - intros R w H. apply (intersection_end_exact fuel h lods t1 t2 M st1 out1 O L Th Vx R E1).
    exact (proj1 (intersection_end_exact fuel h lods t1 t2 M st2 out2 O L Th Vx R2 E2 w) H).
Qed.
Print Assumptions intersection_end_agree_partial.

(** Missing from it: with more than one thread.  If there are fewer pairs of voxels than threads nothing
    is ever reported, whatever the objects are. *)
Theorem intersection_end_few_pairs_lost : forall fuel h threads lods t1 t2 statuses cs out,
  (forall lod cs, cpu_run h threads lod cs (statuses lod cs)) -> mbb_intersect fuel t1 t2 = Some cs ->
  Z.of_nat (get_pair_num cs) < threads -> intersect_all fuel statuses lods t1 t2 = Some out -> out = [].
Proof.
  intros fuel h threads lods t1 t2 statuses cs out R Ec Hp E. unfold intersect_all in E. rewrite Ec in E. cbn [bind] in E. injection E as <-.
  pose proof (start_unmarked fuel t1 t2 cs Ec) as U. clear Ec. revert cs U Hp.
  induction lods as [|lod lods IH]; intros cs U Hp; cbn [levels]; [reflexivity|].
  destruct (Nat.eqb_spec (get_pair_num (fst (cs, @nil centry))) 0) as [Z0|Z0]; [reflexivity|]. cbn [fst] in *.
  assert (St : forall i, nth i (statuses lod cs) false = false).
  { intros i. destruct (R lod cs) as (junk & tr & IL & ->). unfold cpu_statuses.
    destruct (Nat.lt_ge_cases i (length (ptrs cs))) as [Li|Li]; [|apply nth_overflow; rewrite map_length, seq_length; exact Li].
    rewrite map_nth_seq by exact Li. unfold get_pair_num in Hp. rewrite <- ptrs_length in IL, Hp.
    rewrite (PropBatch.intersect_batch_covers_partial (Z.of_nat (length (ptrs cs))) threads tr ltac:(lia) ltac:(lia) IL _ _ (Z.of_nat i) ltac:(lia)).
    rewrite Z.div_small by lia. rewrite Z.mul_0_r. replace (Z.of_nat i <? 0) with false by (symmetry; apply Z.ltb_ge; lia). reflexivity. }
  unfold enter. cbn [fst snd]. destruct (mark_entries_marks (fun i => nth i (statuses lod cs) false) cs 0%nat) as [A L2].
  set (r := mark_entries (fun i => nth i (statuses lod cs) false) 0 cs) in *. clearbody r.
  assert (U' : Forall no_marks r).
  { apply Forall_forall. intros e He. apply Forall_forall. intros vp Hv. assert (H : In vp (all_pairs r)) by (apply in_flat_map; eauto).
    rewrite A in H. apply In_nth_error in H as (i & H). rewrite marks_nth in H. cbn [Nat.add] in H.
    destruct (nth_error (all_pairs cs) i) as [vp0|] eqn:Ei; cbn [option_map] in H; [|discriminate H]. injection H as <-.
    cbn [mark1 vp_intersect]. rewrite St, orb_false_r. apply nth_error_In in Ei. apply in_flat_map in Ei as (e0 & H0 & H1).
    pose proof (proj1 (Forall_forall _ _) U e0 H0) as U0. exact (proj1 (Forall_forall _ _) U0 vp0 H1). }
  assert (Nh : forall e, In e r -> entry_hit e = false).
  { intros e He. destruct (entry_hit e) eqn:Eh; [|reflexivity]. apply entry_hit_spec in Eh as (vp & Hv & Ev).
    pose proof (proj1 (Forall_forall _ _) U' e He) as U0. pose proof (proj1 (Forall_forall _ _) U0 vp Hv). congruence. }
  assert (K : filter (fun e => negb (entry_hit e)) r = r /\ filter entry_hit r = []).
  { clear -Nh. induction r as [|e r IH]; [split; reflexivity|]. destruct IH as [I1 I2]; [intros; apply Nh; now right|].
    cbn [filter]. rewrite (Nh e (or_introl eq_refl)). cbn [negb]. rewrite I1, I2. split; reflexivity. }
  unfold update_candidate_list_intersect. destruct K as [-> ->]. cbn [app]. apply IH; [exact U'|].
  unfold get_pair_num in *. rewrite A. replace (length (marks _ 0 (all_pairs cs))) with (length (all_pairs cs)); [exact Hp|].
  rewrite <- (map_length ends (all_pairs cs)), <- (map_length ends (marks _ _ _)), marks_ends. reflexivity.
Qed.
Print Assumptions intersection_end_few_pairs_lost.

(** ** Example: two triangles crossing each other and a third one far away *)
Definition cube (lo hi : Q) : aab := Aab (v3 lo lo lo) (v3 hi hi hi).
Definition fA : facet := (v3 0 0 0, v3 4 0 1, v3 0 4 1).
Definition fB : facet := (v3 1 1 (-(3)), v3 2 1 4, v3 1 3 3).
Definition fC : facet := (v3 20 20 20, v3 24 20 21, v3 20 24 21).
Definition wA : wrapper := Wrapper (Wobj 1 0 (cube (-(1)) 5) 200) [Voxel 101 (cube (-(1)) 5)].
Definition wC : wrapper := Wrapper (Wobj 2 1 (cube 19 25) 200) [Voxel 102 (cube 19 25)].
Definition wB : wrapper := Wrapper (Wobj 3 0 (cube (-(4)) 5) 200) [Voxel 201 (cube (-(4)) 5)].
Definition tA : tile := Tile (cube (-(1)) 25) [wA; wC].
Definition tB : tile := Tile (cube (-(4)) 5) [wB].
Definition one (l : list Q) : VoxelModel.voxel :=
  VoxelModel.Voxel None None (fun lod => if lod =? 100 then Some (map Some l) else None) (fun lod => if lod =? 100 then Some 1 else None).
Definition dA : list Q := [0; 0; 0; 4; 0; 1; 0; 4; 1]%Q.
Definition dB : list Q := [1; 1; -(3); 1; 0; 7; 0; 2; 6]%Q.
Definition dC : list Q := [20; 20; 20; 4; 0; 1; 0; 4; 1]%Q.
Definition eh (v : nat) : VoxelModel.voxel := if Nat.eqb v 101 then one dA else if Nat.eqb v 102 then one dC else one dB.
Definition eM (lod : Z) (w : wrapper) : list facet := [match o_ptr (w_obj w) with 1%nat => fA | 2%nat => fC | _ => fB end].
Definition on_device (lod : Z) (cs : list centry) : list bool :=
  gpu_statuses (fun _ => 7%Q) eh (tri_grid (N.to_nat 1024) (length (all_pairs cs))) (repeat true (length (all_pairs cs))) lod cs.
Ltac each := repeat (apply Forall_cons || apply Forall_nil).
Lemma tB_ok : tile_ok tB.
Proof.
  split.
  - intros [|i] w E; cbn in E; [injection E as <-; reflexivity|destruct i; discriminate E].
  - split; [each; vm_compute; discriminate|vm_compute; reflexivity].
  - each; intros []; vm_compute; reflexivity.
  - each; intros []; try split; vm_compute; discriminate.
  - each; intros []; try split; vm_compute; discriminate.
Qed.
Lemma e_loaded : loaded eh [100] tA tB eM.
Proof.
  split.
  - intros lod v. unfold lsize, eh. destruct (Nat.eqb v 101), (Nat.eqb v 102); cbn [one VoxelModel.v_size]; destruct (lod =? 100); lia.
  - intros lod w [<-|[]] Hw. cbn [t_objs tA tB app In] in Hw. destruct Hw as [<-|[<-|[<-|[]]]]; unfold carries; cbn [wA wB wC w_voxels].
    + exists [[dA]], [dA]. split; [repeat constructor|]. split; [|apply Permutation_refl]. constructor; [|constructor]. cbn. repeat split; reflexivity.
    + exists [[dC]], [dC]. split; [repeat constructor|]. split; [|apply Permutation_refl]. constructor; [|constructor]. cbn. repeat split; reflexivity.
    + exists [[dB]], [dB]. split; [repeat constructor|]. split; [|apply Permutation_refl]. constructor; [|constructor]. cbn. repeat split; reflexivity.
  - intros lod [<-|[]]. vm_compute. reflexivity.
Qed.
Lemma e_device : forall lod cs, full_run eh lod cs (on_device lod cs).
Proof. intros lod cs. left. eexists _, _, _. split; [apply Permutation_refl|]. split; [apply repeat_length|reflexivity]. Qed.
Lemma e_proper : forall lod w, In lod [100] -> In w (t_objs tA ++ t_objs tB) -> Forall proper (eM lod w).
Proof.
  intros lod w _ Hw. cbn [t_objs tA tB app In] in Hw. destruct Hw as [<-|[<-|[<-|[]]]]; each; intros H; specialize (H AX); vm_compute in H; discriminate H.
Qed.
Lemma e_boxes : Forall (fun w => thick (o_box (w_obj w))) (t_objs tA) /\
  Forall (fun w => Forall (fun v => within (v_box v) (o_box (w_obj w))) (w_voxels w)) (t_objs tA).
Proof. split; each; intros []; try split; try (vm_compute; reflexivity); vm_compute; discriminate. Qed.
Example e_runs : option_map (map (fun w => o_ptr (w_obj w))) (intersect_all 10 on_device [100] tA tB) = Some [1%nat].
Proof. vm_compute. reflexivity. Qed.
Example e_sample : tile_ok tB /\ loaded eh [100] tA tB eM /\ (forall lod cs, any_run eh lod cs (on_device lod cs)) /\
  (forall lod w, In lod [100] -> In w (t_objs tA ++ t_objs tB) -> Forall proper (eM lod w)).
Proof.
  split; [exact tB_ok|]. split; [exact e_loaded|]. split; [|exact e_proper]. intros lod cs. destruct (e_device lod cs) as [D|D]; [now left|right; exists 1; split; [lia|exact D]].
Qed.
Definition eX : vec := v3 (41 # 27) 1 (17 # 27).
Example e_reports_sample : general fA fB /\ proper fB /\ in_facet fA eX /\ in_facet fB eX /\ strictly_inside eX (cube (-(1)) 5) /\ strictly_inside eX (cube (-(4)) 5).
Proof.
  split; [vm_compute; repeat split; discriminate|]. split; [intros H; specialize (H AX); vm_compute in H; discriminate H|].
  split; [exists (1 - (41 # 108) - (1 # 4))%Q, (41 # 108), (1 # 4)|split; [exists (13 # 27), (14 # 27), 0%Q|]].
  - split; [vm_compute; discriminate|]. split; [vm_compute; discriminate|]. split; [vm_compute; discriminate|]. split; [vm_compute; reflexivity|]. intros []; vm_compute; reflexivity.
  - split; [vm_compute; discriminate|]. split; [vm_compute; discriminate|]. split; [vm_compute; discriminate|]. split; [vm_compute; reflexivity|]. intros []; vm_compute; reflexivity.
  - split; intros []; split; vm_compute; reflexivity.
Qed.

(** C128 is false: on two threads, however they run, the crossing of the sample is not reported, though
    on a device it is. *)
Theorem intersection_end_threads_refuted : exists fuel h lods t1 t2 M w1, tile_ok t2 /\ loaded h lods t1 t2 M /\
  (exists st out, (forall lod cs, full_run h lod cs (st lod cs)) /\ intersect_all fuel st lods t1 t2 = Some out /\ In w1 out) /\
  forall st out, (forall lod cs, cpu_run h 2 lod cs (st lod cs)) -> intersect_all fuel st lods t1 t2 = Some out -> out = [].
Proof.
  exists 10%nat, eh, [100], tA, tB, eM, wA. split; [exact tB_ok|]. split; [exact e_loaded|]. split.
  - destruct (mbb_intersect 10 tA tB) as [cs|] eqn:Ec; [|vm_compute in Ec; discriminate Ec].
    destruct (intersect_all 10 on_device [100] tA tB) as [out|] eqn:E; [|unfold intersect_all in E; rewrite Ec in E; cbn [bind] in E; discriminate E].
    exists on_device, out. split; [exact e_device|]. split; [exact E|].
    destruct e_reports_sample as (G & P & X1 & X2 & S1 & S2). destruct e_boxes as [B1 B2].
    apply (intersection_end_reports 10 eh [100] tA tB eM on_device out wA wB (Voxel 101 (cube (-(1)) 5)) (Voxel 201 (cube (-(4)) 5)) 100 fA fB eX
      tB_ok e_loaded B1 B2 e_device E); try (now left); try assumption; try reflexivity. discriminate.
  - intros st out R E. destruct (mbb_intersect 10 tA tB) as [cs|] eqn:Ec; [|vm_compute in Ec; discriminate Ec].
    apply (intersection_end_few_pairs_lost 10 eh 2 [100] tA tB st cs out R Ec); [|exact E].
    assert (N : option_map get_pair_num (mbb_intersect 10 tA tB) = Some 1%nat) by (vm_compute; reflexivity). rewrite Ec in N. cbn [option_map] in N. injection N as ->. lia.
Qed.
Print Assumptions intersection_end_threads_refuted.
(** The hypotheses of [filled_objects_carry]: a mesh of one facet and an empty voxel. *)
Definition blank : VoxelModel.voxel := VoxelModel.Voxel None None (fun _ => None) (fun _ => None).
Example filled_sample : exists v', VoxelModel.fill_voxel (VoxelModel.Mesh 100 [] [] [fA]) VoxelModel.DT_Triangle [blank] = Some [v'] /\
  VoxelModel.v_data v' 100 = Some (map Some [0; 0; 0; 4 - 0; 0 - 0; 1 - 0; 0 - 0; 4 - 0; 1 - 0]%Q) /\
  Forall2 (fun jv v => (fun _ => v') (v_ptr jv) = v) (w_voxels wA) [v'].
Proof. eexists. split; [reflexivity|]. split; [reflexivity|repeat constructor]. Qed.
(** Both kinds of full runs exist for every level and table. *)
Lemma one_thread_run h lod cs : exists st, cpu_run h 1 lod cs st.
Proof.
  assert (G : forall l, interleaved [l] l).
  { induction l as [|x l IH]; [apply il_done; repeat constructor|]. exact (il_step [] x l [] l IH). }
  eexists. exists (fun _ => 0%Q), (concat (snd (intersect_runs (Z.of_nat (length (all_pairs cs))) 1))). split; [|reflexivity].
  unfold intersect_runs. cbn [snd]. unfold intersect_chunks. change (Z.to_nat 1) with 1%nat. cbn [chunks_from].
  destruct (_ <=? _); cbn [map concat]; [apply il_done; constructor|]. rewrite app_nil_r. apply G.
Qed.
