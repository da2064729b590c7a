(** C129, C130: distances from the edges of the objects to the answer. *)
From Coq Require Import ZArith QArith List Bool Lia Lqa Permutation Arith.
From Verif Require Import Arr AabModel AabProofs OctreeModel JoinModel JoinProofs BatchModel SegDistModel SegDistProofs EndModel EndProofs EndDistModel EndDistProofs PropEnd.
From Verif Require VoxelModel PropVoxel PropBatch PropSegDist.
Import ListNotations.
Open Scope Z_scope.

(** * Specification *)
Definition edge : Type := vec * vec.
(** The points of an edge. *)
Definition on_edge (e : edge) (X : vec) : Prop := exists t, (0 <= t <= 1 /\ forall i, X i == (1 - t) * fst e i + t * snd e i)%Q.
Definition long (e : edge) : Prop := ~ (forall i, fst e i == snd e i)%Q.
(** The sides of a facet. *)
Definition side (f : facet) (e : edge) : Prop := let '(p, q, r) := f in e = (p, q) \/ e = (q, r) \/ e = (r, p) \/ e = (q, p) \/ e = (r, q) \/ e = (p, r).
(** The voxels of an object hold the edges [E] between them. *)
Definition carries_edges (h : heap) (lod : Z) (w : wrapper) (E : list edge) : Prop := exists parts ds,
  Forall2 (fun v part => PropVoxel.stores lod (h (v_ptr v)) part) (w_voxels w) parts /\
  Forall2 PropVoxel.edge_floats E ds /\ Permutation (concat parts) ds.
Record loaded_edges (h : heap) (lod : Z) (t1 t2 : tile) (E : wrapper -> list edge) : Prop := {
  le_sizes : forall v, 0 <= lsize h lod v;
  le_data : forall w, In w (t_objs t1 ++ t_objs t2) -> carries_edges h lod w (E w);
  le_long : forall w, In w (t_objs t1 ++ t_objs t2) -> Forall long (E w);
  le_room : 6 * PropBatch.sizes (lsize h lod) (addresses t1 t2) < 2 ^ 32 }.
(** The candidates pair voxels of objects of the first tile with voxels of objects of the second. *)
Definition pairs_of (t1 t2 : tile) (cs : list centry) : Prop := forall e c vp, In e cs -> In c (snd e) -> In vp (c_pairs c) ->
  In (fst e) (t_objs t1) /\ In (vp_v1 vp) (w_voxels (fst e)) /\ In (c_wrapper c) (t_objs t2) /\ In (vp_v2 vp) (w_voxels (c_wrapper c)).
(** Pair number [i] belongs to the objects [w1] and [w2]. *)
Definition belongs (cs : list centry) (i : nat) (vp : vpair) (w1 w2 : wrapper) : Prop :=
  nth_error (all_pairs cs) i = Some vp /\ In (vp_v1 vp) (w_voxels w1) /\ In (vp_v2 vp) (w_voxels w2).
(** The floats of the edge are in the buffer of the voxel, among those of its first 10000 edges. *)
Definition near_front (h : heap) (lod : Z) (v : voxel) (e : edge) : Prop := exists l k,
  VoxelModel.v_data (h (v_ptr v)) lod = Some (map Some l) /\ Z.of_nat k < 10000 /\ PropVoxel.edge_floats e (firstn 6 (skipn (6 * k) l)).

(** * Edges and stored segments *)
Definition of_edge (e : edge) (s : segment) : Prop := PropVoxel.edge_floats e (seg_floats s).
Lemma of_edge_vecs e s : long e -> of_edge e s -> (forall i, pt (fst s) i == fst e i)%Q /\ (forall i, pt (snd s) i == snd e i)%Q.
Proof.
  destruct s as [[[a b] c] [[x y] z]]. unfold of_edge. cbn [seg_floats PropVoxel.edge_floats fst snd]. intros L (A & B & C & D & E & _ & F). specialize (F L).
  split; intros []; cbn [pt v3]; assumption.
Qed.
Lemma six e d : PropVoxel.edge_floats e d -> exists s, d = seg_floats s.
Proof.
  do 6 (destruct d as [|? d]; [intros []|]). destruct d as [|? d]; [|intros []]. intros _.
  match goal with |- exists t, [?a; ?b; ?c; ?x; ?y; ?z] = _ => exists ((a, b, c), (x, y, z)); reflexivity end.
Qed.
Lemma sixes ds : Forall (fun d => exists s, d = seg_floats s) ds -> exists S, ds = map seg_floats S.
Proof. induction 1 as [|d ds (t & ->) F (T & ->)]; [exists []; reflexivity|exists (t :: T); reflexivity]. Qed.
Fixpoint sparse (l : list Q) : list segment := match l with
  | a :: b :: c :: x :: y :: z :: r => ((a, b, c), (x, y, z)) :: sparse r
  | _ => [] end.
Lemma sparse_buffer S : sparse (seg_buffer S) = S.
Proof. induction S as [|[[[a b] c] [[d e] f]] S IH]; [reflexivity|]. unfold seg_buffer in *. cbn [flat_map seg_floats app sparse]. now rewrite IH. Qed.
Definition segs_at (h : heap) (lod : Z) (v : nat) : list segment :=
  match VoxelModel.v_data (h v) lod with Some l => sparse (map (fun o => match o with Some x => x | None => 0%Q end) l) | None => [] end.
Lemma unwrap l : map (fun o : option Q => match o with Some x => x | None => 0%Q end) (map Some l) = l.
Proof. rewrite map_map. apply map_id. Qed.
Lemma stores_segs h lod v part S : part = map seg_floats S -> PropVoxel.stores lod (h v) part -> sholds h lod v S /\ segs_at h lod v = S.
Proof.
  intros -> [A D]. rewrite map_length in A. rewrite <- flat_map_concat_map in D. fold (seg_buffer S) in D. split; [split; assumption|].
  unfold segs_at. rewrite D, unwrap. apply sparse_buffer.
Qed.
Lemma carries_segs h lod w E : carries_edges h lod w E ->
  (forall v, In v (w_voxels w) -> sholds h lod (v_ptr v) (segs_at h lod (v_ptr v))) /\
  (forall v s, In v (w_voxels w) -> In s (segs_at h lod (v_ptr v)) -> exists e, In e E /\ of_edge e s).
Proof.
  intros (parts & ds & S & F & P).
  assert (N : forall part, In part parts -> exists T, part = map seg_floats T).
  { intros part Hp. apply sixes. apply Forall_forall. intros d Hd.
    assert (I : In d ds) by (apply (Permutation_in d P); apply in_concat; eauto).
    destruct (Forall2_in_r _ _ _ F d I) as (f & _ & H). exact (six f d H). }
  split.
  - intros v Hv. destruct (Forall2_in_l _ _ _ S v Hv) as (part & Hp & St). destruct (N part Hp) as (T & E0).
    destruct (stores_segs h lod (v_ptr v) part T E0 St) as [H ->]. exact H.
  - intros v t Hv Ht. destruct (Forall2_in_l _ _ _ S v Hv) as (part & Hp & St). destruct (N part Hp) as (T & E0).
    destruct (stores_segs h lod (v_ptr v) part T E0 St) as [_ X]. rewrite X in Ht.
    assert (I : In (seg_floats t) ds) by (apply (Permutation_in _ P); apply in_concat; exists part; split; [exact Hp|rewrite E0; now apply in_map]).
    destruct (Forall2_in_r _ _ _ F _ I) as (f & Hf & H). exists f. split; [exact Hf|exact H].
Qed.
Lemma loaded_sholds h lod t1 t2 E : loaded_edges h lod t1 t2 E -> forall v, In v (addresses t1 t2) -> sholds h lod v (segs_at h lod v).
Proof.
  intros L v Hv. unfold addresses in Hv. apply in_map_iff in Hv as (jv & <- & Hv). apply in_flat_map in Hv as (w & Hw & Hv).
  exact (proj1 (carries_segs h lod w _ (le_data _ _ _ _ _ L w Hw)) jv Hv).
Qed.
Lemma pairs_known t1 t2 cs : pairs_of t1 t2 cs -> within_ok (known (addresses t1 t2)) cs.
Proof.
  intros H e x He Hx. unfold ends in Hx. apply in_map_iff in Hx as (vp & <- & Hx). apply in_flat_map in Hx as (c & Hc & Hx).
  destruct (H e c vp He Hc Hx) as (A & B & C & D). split; cbn [fst snd].
  - apply (address_in t1 t2 (fst e)); [apply in_or_app; now left|exact B].
  - apply (address_in t1 t2 (c_wrapper c)); [apply in_or_app; now right|exact D].
Qed.
Lemma vdot_compat a b a' b' : (forall i, a i == a' i)%Q -> (forall i, b i == b' i)%Q -> (vdot a b == vdot a' b')%Q.
Proof. intros A B. unfold vdot, sum3. rewrite !A, !B. reflexivity. Qed.
Lemma dist2_compat a b a' b' : (forall i, a i == a' i)%Q -> (forall i, b i == b' i)%Q -> (dist2 a b == dist2 a' b')%Q.
Proof. intros A B. unfold dist2, sum3. rewrite !A, !B. reflexivity. Qed.
Lemma segment_long e s : long e -> of_edge e s -> ~ (forall i, vsub (pt (snd s)) (pt (fst s)) i == 0)%Q.
Proof. intros L H Z. destruct (of_edge_vecs e s L H) as [A B]. apply L. intros i. specialize (Z i). unfold vsub in Z. rewrite A, B in Z. lra. Qed.
Lemma point_on_edge e s t : long e -> of_edge e s -> SegDistProofs.unit t -> on_edge e (at_ (pt (fst s)) (vsub (pt (snd s)) (pt (fst s))) t).
Proof.
  intros L H U. destruct (of_edge_vecs e s L H) as [A B]. exists t. split; [exact U|]. intros i. unfold at_, vsub. rewrite A, B. ring.
Qed.
Lemma pair_attained e1 e2 s1 s2 d : long e1 -> long e2 -> of_edge e1 s1 -> of_edge e2 s2 -> pair_dist s1 s2 = Some d ->
  exists X Y, on_edge e1 X /\ on_edge e2 Y /\ (d == dist2 X Y)%Q.
Proof.
  intros L1 L2 H1 H2 E. unfold pair_dist in E. cbv zeta in E.
  pose proof (PropSegDist.segdist_attained (pt (fst s1)) (pt (fst s2)) (vsub (pt (snd s1)) (pt (fst s1))) (vsub (pt (snd s2)) (pt (fst s2)))) as P.
  rewrite E in P. destruct P as (_ & _ & t & u & Ut & Uu & V).
  eexists _, _. split; [exact (point_on_edge e1 s1 t L1 H1 Ut)|]. split; [exact (point_on_edge e2 s2 u L2 H2 Uu)|exact V].
Qed.
Lemma pair_some e1 e2 s1 s2 : long e1 -> long e2 -> of_edge e1 s1 -> of_edge e2 s2 -> pair_dist s1 s2 <> None.
Proof.
  intros L1 L2 H1 H2 E. unfold pair_dist in E. cbv zeta in E. apply (proj1 (SegDist_none _ _ _ _)) in E as [E|E].
  - exact (segment_long e1 s1 L1 H1 E).
  - exact (segment_long e2 s2 L2 H2 E).
Qed.
Lemma front_in {A} n (x : A) l : In x (firstn n l) -> In x l.
Proof. intros H. rewrite <- (firstn_skipn n l). apply in_or_app. now left. Qed.
Lemma front_nonempty {A} (l : list A) : l <> [] -> exists x, In x (firstn (N.to_nat 10000%N) l).
Proof. destruct l as [|x l]; [congruence|]. intros _. exists x. destruct (N.to_nat 10000) as [|n] eqn:E; [lia|]. now left. Qed.

(** * The distances *)
(** C129.  However many threads work and in whatever order, and whatever was in memory before, the
    distance stored for a pair of voxels that have edges is the squared distance of a point on an edge of
    the one object and a point on an edge of the other. *)
Theorem distance_end_attained : forall h lod t1 t2 E threads cs ds i vp w1 w2, loaded_edges h lod t1 t2 E -> pairs_of t1 t2 cs ->
  0 < threads -> distance_run h threads lod cs ds ->
  In w1 (t_objs t1) -> In w2 (t_objs t2) -> belongs cs i vp w1 w2 -> 0 < lsize h lod (v_ptr (vp_v1 vp)) -> 0 < lsize h lod (v_ptr (vp_v2 vp)) ->
  exists d e1 e2 X Y, nth_error ds i = Some (Some d) /\ In e1 (E w1) /\ In e2 (E w2) /\ on_edge e1 X /\ on_edge e2 Y /\ (d == dist2 X Y)%Q.
Proof.
  intros h lod t1 t2 E threads cs ds i vp w1 w2 L P Ht R I1 I2 (Ei & V1 & V2) S1 S2.
  assert (J1 : In w1 (t_objs t1 ++ t_objs t2)) by (apply in_or_app; now left). assert (J2 : In w2 (t_objs t1 ++ t_objs t2)) by (apply in_or_app; now right).
  pose proof (distances_exact h lod (segs_at h lod) (addresses t1 t2) (le_sizes _ _ _ _ _ L) (loaded_sholds _ _ _ _ _ L) (le_room _ _ _ _ _ L) threads cs ds i vp Ht R (pairs_known _ _ _ P) Ei) as D.
  cbv zeta in D. destruct (carries_segs h lod w1 _ (le_data _ _ _ _ _ L w1 J1)) as [H1 F1]. destruct (carries_segs h lod w2 _ (le_data _ _ _ _ _ L w2 J2)) as [H2 F2].
  specialize (H1 _ V1). specialize (H2 _ V2). rewrite (lsize_sholds _ _ _ _ H1) in S1. rewrite (lsize_sholds _ _ _ _ H2) in S2.
  pose proof (proj1 (Forall_forall _ _) (le_long _ _ _ _ _ L w1 J1)) as L1. pose proof (proj1 (Forall_forall _ _) (le_long _ _ _ _ _ L w2 J2)) as L2.
  set (a := segs_at h lod (v_ptr (vp_v1 vp))) in *. set (b := segs_at h lod (v_ptr (vp_v2 vp))) in *.
  pose proof (PropSegDist.segdist_single_minimum a b) as M. cbv zeta in M. destruct (SegDist_single _ _ _ _) as [d|] in M, D.
  - destruct M as [(s1 & s2 & M1 & M2 & Es) _]. destruct (F1 _ s1 V1 (front_in _ _ _ M1)) as (e1 & G1 & O1). destruct (F2 _ s2 V2 (front_in _ _ _ M2)) as (e2 & G2 & O2).
    destruct (pair_attained e1 e2 s1 s2 d (L1 _ G1) (L2 _ G2) O1 O2 Es) as (X & Y & X1 & Y1 & V). exists d, e1, e2, X, Y. auto 8.
  - exfalso. destruct (front_nonempty a) as (s1 & M1); [intros Z; rewrite Z in S1; cbn [length] in S1; lia|].
    destruct (front_nonempty b) as (s2 & M2); [intros Z; rewrite Z in S2; cbn [length] in S2; lia|]. specialize (M s1 s2 M1 M2).
    destruct (F1 _ s1 V1 (front_in _ _ _ M1)) as (e1 & G1 & O1). destruct (F2 _ s2 V2 (front_in _ _ _ M2)) as (e2 & G2 & O2).
    exact (pair_some e1 e2 s1 s2 (L1 _ G1) (L2 _ G2) O1 O2 M).
Qed.
Print Assumptions distance_end_attained.

Lemma side_in_facet f e X : side f e -> on_edge e X -> in_facet f X.
Proof.
  destruct f as [[p q] r]. intros H (t & Ht & V). cbn [side in_facet] in *.
  destruct H as [->|[->|[->|[->|[->| ->]]]]]; cbn [fst snd] in V;
    [exists (1 - t)%Q, t, 0%Q|exists 0%Q, (1 - t)%Q, t|exists t, 0%Q, (1 - t)%Q|exists t, (1 - t)%Q, 0%Q|exists 0%Q, t, (1 - t)%Q|exists (1 - t)%Q, 0%Q, t];
    (split; [lra|]; split; [lra|]; split; [lra|]; split; [ring|]; intros i; rewrite V; ring).
Qed.
(** C129.  So it is never below the distance of the two surfaces. *)
Theorem distance_end_not_below : forall h lod t1 t2 E (M : wrapper -> list facet) threads cs ds i vp w1 w2 d m, loaded_edges h lod t1 t2 E -> pairs_of t1 t2 cs ->
  (forall w, In w (t_objs t1 ++ t_objs t2) -> forall e, In e (E w) -> exists f, In f (M w) /\ side f e) ->
  0 < threads -> distance_run h threads lod cs ds ->
  In w1 (t_objs t1) -> In w2 (t_objs t2) -> belongs cs i vp w1 w2 -> 0 < lsize h lod (v_ptr (vp_v1 vp)) -> 0 < lsize h lod (v_ptr (vp_v2 vp)) ->
  nth_error ds i = Some (Some d) ->
  (forall f1 f2 X Y, In f1 (M w1) -> In f2 (M w2) -> in_facet f1 X -> in_facet f2 Y -> m <= dist2 X Y)%Q -> (m <= d)%Q.
Proof.
  intros h lod t1 t2 E M threads cs ds i vp w1 w2 d m L P Sd Ht R I1 I2 B S1 S2 Ed Low.
  destruct (distance_end_attained h lod t1 t2 E threads cs ds i vp w1 w2 L P Ht R I1 I2 B S1 S2) as (d' & e1 & e2 & X & Y & Ed' & G1 & G2 & X1 & Y1 & V).
  rewrite Ed in Ed'. injection Ed' as <-. rewrite V.
  destruct (Sd w1 (in_or_app _ _ _ (or_introl I1)) e1 G1) as (f1 & M1 & D1). destruct (Sd w2 (in_or_app _ _ _ (or_intror I2)) e2 G2) as (f2 & M2 & D2).
  exact (Low f1 f2 X Y M1 M2 (side_in_facet _ _ _ D1 X1) (side_in_facet _ _ _ D2 Y1)).
Qed.
Print Assumptions distance_end_not_below.

Lemma edge_param e s X : long e -> of_edge e s -> on_edge e X -> exists t, SegDistProofs.unit t /\ (forall i, X i == at_ (pt (fst s)) (vsub (pt (snd s)) (pt (fst s))) t i)%Q.
Proof. intros L H (t & Ht & V). destruct (of_edge_vecs e s L H) as [A B]. exists t. split; [exact Ht|]. intros i. rewrite V. unfold at_, vsub. rewrite A, B. ring. Qed.
(** The points of the line through an edge. *)
Definition on_line (e : edge) (X : vec) : Prop := exists t, (forall i, X i == (1 - t) * fst e i + t * snd e i)%Q.
Lemma line_point e s t : long e -> of_edge e s -> on_line e (at_ (pt (fst s)) (vsub (pt (snd s)) (pt (fst s))) t).
Proof. intros L H. destruct (of_edge_vecs e s L H) as [A B]. exists t. intros i. unfold at_, vsub. rewrite A, B. ring. Qed.

Lemma buffer_at S : forall k e, PropVoxel.edge_floats e (firstn 6 (skipn (6 * k) (seg_buffer S))) -> exists s, nth_error S k = Some s /\ of_edge e s.
Proof.
  induction S as [|[[[a b] c] [[x y] z]] S IH]; intros k e H.
  - rewrite skipn_nil in H. destruct H.
  - destruct k as [|k].
    + exists ((a, b, c), (x, y, z)). split; [reflexivity|exact H].
    + replace (6 * Datatypes.S k)%nat with (6 + 6 * k)%nat in H by lia. exact (IH k e H).
Qed.
Lemma front_edge S k e : (k < N.to_nat 10000)%nat -> PropVoxel.edge_floats e (firstn 6 (skipn (6 * k) (seg_buffer S))) -> exists s, In s (firstn (N.to_nat 10000%N) S) /\ of_edge e s.
Proof.
  intros Hk H. destruct (buffer_at S k e H) as (s & E & O). exists s. split; [|exact O].
  apply nth_error_split in E as (l1 & l2 & -> & Len). rewrite firstn_app. apply in_or_app. right.
  destruct (N.to_nat 10000 - length l1)%nat as [|n] eqn:En; [lia|]. now left.
Qed.

Lemma near_front_seg h lod t1 t2 E v w e : loaded_edges h lod t1 t2 E -> In w (t_objs t1 ++ t_objs t2) -> In v (w_voxels w) -> near_front h lod v e ->
  exists s, In s (firstn (N.to_nat 10000%N) (segs_at h lod (v_ptr v))) /\ of_edge e s.
Proof.
  intros L Hw Hv (l & k & A & B & C). destruct (proj1 (carries_segs h lod w _ (le_data _ _ _ _ _ L w Hw)) v Hv) as [_ D1].
  rewrite D1 in A. apply (f_equal (fun o => match o with Some l => map (fun o : option Q => match o with Some z => z | None => 0%Q end) l | None => [] end)) in A.
  cbv beta iota in A. rewrite !unwrap in A. rewrite <- A in C. exact (front_edge _ k e ltac:(lia) C).
Qed.
(** The answer for two buffers is at most the distance of nearest points on the lines of two edges. *)
Lemma single_at_most a b s1 s2 e1 e2 X Y : In s1 (firstn (N.to_nat 10000%N) a) -> In s2 (firstn (N.to_nat 10000%N) b) -> of_edge e1 s1 -> of_edge e2 s2 -> long e1 -> long e2 ->
  on_edge e1 X -> on_edge e2 Y -> (forall X' Y', on_line e1 X' -> on_line e2 Y' -> dist2 X Y <= dist2 X' Y')%Q ->
  exists d, SegDist_single (seg_buffer a) (seg_buffer b) (length a) (length b) = Some d /\ (d <= dist2 X Y)%Q.
Proof.
  intros M1 M2 O1 O2 L1 L2 X1 Y1 Line. pose proof (PropSegDist.segdist_single_minimum a b) as Mi. cbv zeta in Mi.
  destruct (pair_dist s1 s2) as [dd|] eqn:Ep; [|exfalso; exact (pair_some e1 e2 s1 s2 L1 L2 O1 O2 Ep)].
  destruct (SegDist_single _ _ _ _) as [d|]; [|rewrite (Mi s1 s2 M1 M2) in Ep; discriminate Ep]. exists d. split; [reflexivity|]. destruct Mi as [_ Mi].
  specialize (Mi s1 s2 dd M1 M2 Ep). unfold pair_dist in Ep. cbv zeta in Ep.
  destruct (edge_param e1 s1 X L1 O1 X1) as (t0 & T0 & TX). destruct (edge_param e2 s2 Y L2 O2 Y1) as (u0 & U0 & UY).
  destruct (PropSegDist.segdist_minimal_partial _ _ _ _ dd t0 u0 Ep T0) as [_ Mn].
  { intros t u. rewrite <- (dist2_compat _ _ _ _ TX UY). apply Line; [exact (line_point e1 s1 t L1 O1)|exact (line_point e2 s2 u L2 O2)]. }
  specialize (Mn t0 u0 T0 U0). rewrite <- (dist2_compat _ _ _ _ TX UY) in Mn. lra.
Qed.

(** C130, the part that holds: if points on two edges, which are among the first 10000 of their voxels,
    are nearest of all points of the two surfaces and also nearest on the lines of the edges, their
    distance is what is stored.  Missing: surfaces nearest inside of a facet; see below. *)
Theorem distance_end_surface_partial : forall h lod t1 t2 E (M : wrapper -> list facet) threads cs ds i vp w1 w2 d e1 e2 X Y, loaded_edges h lod t1 t2 E -> pairs_of t1 t2 cs ->
  (forall w, In w (t_objs t1 ++ t_objs t2) -> forall e, In e (E w) -> exists f, In f (M w) /\ side f e) ->
  0 < threads -> distance_run h threads lod cs ds ->
  In w1 (t_objs t1) -> In w2 (t_objs t2) -> belongs cs i vp w1 w2 -> nth_error ds i = Some (Some d) ->
  long e1 -> long e2 -> near_front h lod (vp_v1 vp) e1 -> near_front h lod (vp_v2 vp) e2 -> on_edge e1 X -> on_edge e2 Y ->
  (forall f1 f2 X' Y', In f1 (M w1) -> In f2 (M w2) -> in_facet f1 X' -> in_facet f2 Y' -> dist2 X Y <= dist2 X' Y')%Q ->
  (forall X' Y', on_line e1 X' -> on_line e2 Y' -> dist2 X Y <= dist2 X' Y')%Q ->
  (d == dist2 X Y)%Q.
Proof.
  intros h lod t1 t2 E M threads cs ds i vp w1 w2 d e1 e2 X Y L P Sd Ht R I1 I2 B Ed L1 L2 N1 N2 X1 Y1 Low Line.
  destruct B as (Ei & V1 & V2).
  assert (J1 : In w1 (t_objs t1 ++ t_objs t2)) by (apply in_or_app; now left). assert (J2 : In w2 (t_objs t1 ++ t_objs t2)) by (apply in_or_app; now right).
  pose proof (distances_exact h lod (segs_at h lod) (addresses t1 t2) (le_sizes _ _ _ _ _ L) (loaded_sholds _ _ _ _ _ L) (le_room _ _ _ _ _ L) threads cs ds i vp Ht R (pairs_known _ _ _ P) Ei) as D.
  cbv zeta in D. rewrite Ed in D.
  destruct (near_front_seg h lod t1 t2 E _ w1 e1 L J1 V1 N1) as (s1 & M1 & O1). destruct (near_front_seg h lod t1 t2 E _ w2 e2 L J2 V2 N2) as (s2 & M2 & O2).
  set (a := segs_at h lod (v_ptr (vp_v1 vp))) in *. set (b := segs_at h lod (v_ptr (vp_v2 vp))) in *.
  destruct (single_at_most a b s1 s2 e1 e2 X Y M1 M2 O1 O2 L1 L2 X1 Y1 Line) as (d0 & E0 & Le).
  pose proof (PropSegDist.segdist_single_minimum a b) as Mi. cbv zeta in Mi. rewrite E0 in Mi, D.
  injection D as <-. destruct Mi as [(z1 & z2 & Z1 & Z2 & Ez) _]. apply Qle_antisym; [exact Le|].
  destruct (proj2 (carries_segs h lod w1 _ (le_data _ _ _ _ _ L w1 J1)) _ z1 V1 (front_in _ _ _ Z1)) as (g1 & G1 & P1).
    destruct (proj2 (carries_segs h lod w2 _ (le_data _ _ _ _ _ L w2 J2)) _ z2 V2 (front_in _ _ _ Z2)) as (g2 & G2 & P2).
    destruct (pair_attained g1 g2 z1 z2 d (proj1 (Forall_forall _ _) (le_long _ _ _ _ _ L w1 J1) _ G1) (proj1 (Forall_forall _ _) (le_long _ _ _ _ _ L w2 J2) _ G2) P1 P2 Ez) as (X' & Y' & H1 & H2 & ->).
    destruct (Sd w1 J1 g1 G1) as (f1 & K1 & D1). destruct (Sd w2 J2 g2 G2) as (f2 & K2 & D2).
    exact (Low f1 f2 X' Y' K1 K2 (side_in_facet _ _ _ D1 H1) (side_in_facet _ _ _ D2 H2)).
Qed.
Print Assumptions distance_end_surface_partial.

(** * Within joins *)
Lemma within_row_open md v1 v2s : forall acc, let ps := fst (within_row md v1 v2s acc) in
  forall vp, In vp ps -> In vp acc \/ (vp_v1 vp = v1 /\ In (vp_v2 vp) v2s /\ vp_intersect vp = false /\ (md <= maxdist (vp_dist vp))%Q).
Proof.
  induction v2s as [|v2 r IH]; intros acc ps vp H; unfold ps in H; clear ps; cbn [within_row] in H; [now left|].
  destruct (Qltb_spec md (mindist (distance (v_box v1) (v_box v2)))) as [L|L].
  - destruct (IH acc vp H) as [K|(A & B & C)]; [now left|right]. split; [exact A|]. split; [now right|exact C].
  - destruct (Qleb_spec (maxdist (distance (v_box v1) (v_box v2))) md) as [L2|L2]; [now left|].
    destruct (IH _ vp H) as [K|(A & B & C)].
    + apply in_app_or in K as [K|[<-|[]]]; [now left|right]. cbn [vp_v1 vp_v2 vp_intersect vp_dist]. split; [reflexivity|]. split; [now left|]. split; [reflexivity|lra].
    + right. split; [exact A|]. split; [now right|exact C].
Qed.
Lemma within_pairs_open md v2s v1s : forall acc, let ps := fst (within_pairs md v1s v2s acc) in
  forall vp, In vp ps -> In vp acc \/ (In (vp_v1 vp) v1s /\ In (vp_v2 vp) v2s /\ vp_intersect vp = false /\ (md <= maxdist (vp_dist vp))%Q).
Proof.
  induction v1s as [|v1 r IH]; intros acc ps vp H; unfold ps in H; clear ps; cbn [within_pairs] in H; [now left|].
  pose proof (within_row_open md v1 v2s acc) as R. cbv zeta in R. destruct (within_row md v1 v2s acc) as [acc' det]. cbn [fst] in R.
  destruct det; [destruct H|]. destruct (IH acc' vp H) as [K|(A & B & C)].
  - destruct (R vp K) as [K'|(A & B & C)]; [now left|right]. split; [left; now symmetry|]. split; assumption.
  - right. split; [now right|]. split; assumption.
Qed.
(** What the filter leaves: pairs of voxels of the two objects, not marked, with a range above the limit. *)
Lemma mbb_within_start fuel t1 t2 md cs det : mbb_within fuel t1 t2 md = Some (cs, det) -> forall e c vp, In e cs -> In c (snd e) -> In vp (c_pairs c) ->
  In (fst e) (t_objs t1) /\ In (vp_v1 vp) (w_voxels (fst e)) /\ In (c_wrapper c) (t_objs t2) /\ In (vp_v2 vp) (w_voxels (c_wrapper c)) /\
  vp_intersect vp = false /\ (md <= maxdist (vp_dist vp))%Q.
Proof.
  intros E e c vp He Hc Hv. unfold mbb_within in E.
  destruct (tile_octree fuel 400 t2) as [tree|]; cbn [bind] in E; [|discriminate E].
  destruct (map_opt _ (t_objs t1)) as [l|] eqn:El in E; cbn [bind] in E; [|discriminate E]. injection E as <- <-.
  apply in_flat_map in He as [[w1 [cl dl]] [Hl He]]. cbn [fst snd] in He. destruct (map_opt_in _ _ _ El) as [_ L2]. destruct (L2 _ Hl) as [w1' [Hw Ee]].
  destruct (within_entry tree t2 md w1') as [[cl' dl']|] eqn:Ew; cbn [bind] in Ee; [|discriminate Ee]. injection Ee as -> -> ->.
  assert (Ex : e = (w1, cl)) by (destruct cl; [destruct He|destruct He as [He|[]]; now symmetry]). subst e. cbn [fst snd] in *. clear He.
  unfold within_entry in Ew. destruct (map_opt _ (skip_dups _ _ _)) as [m|] eqn:Em in Ew; cbn [bind] in Ew; [|discriminate Ew]. injection Ew as <- <-.
  apply in_flat_map in Hc as [[w2 [ps d]] [Hm Hc]]. cbn [fst snd] in Hc. destruct (map_opt_in _ _ _ Em) as [_ M2]. destruct (M2 _ Hm) as [x [_ Ex]].
  destruct (get_wrapper t2 (fst x)) as [w|] eqn:Eg; cbn [bind] in Ex; [|discriminate Ex]. injection Ex as -> Ep.
  assert (Ec : c = CInfo w2 (Range 0 0) ps) by (destruct ps; [destruct Hc|destruct Hc as [Hc|[]]; now symmetry]). subst c. cbn [c_pairs c_wrapper] in *.
  pose proof (within_pairs_open md (w_voxels w2) (w_voxels w1) []) as O. cbv zeta in O. rewrite Ep in O. cbn [fst] in O. destruct (O vp Hv) as [[]|(A & B & C & D)].
  split; [exact Hw|]. split; [exact A|]. split; [exact (get_wrapper_in _ _ _ Eg)|]. auto.
Qed.
(** The distances of the levels: computed on the processor. *)
Definition distances_of (h : heap) (dist : Z -> list centry -> list dist_t) : Prop :=
  forall lod cs, exists threads, 0 < threads /\ distance_run h threads lod cs (dist lod cs).
Definition seg_value (far : Q) (h : heap) (lod : Z) (vp : vpair) : Q :=
  let a := segs_at h lod (v_ptr (vp_v1 vp)) in let b := segs_at h lod (v_ptr (vp_v2 vp)) in
  number far (Some (SegDist_single (seg_buffer a) (seg_buffer b) (length a) (length b))).
Lemma within_all_iff fuel md far h dist lods t1 t2 E cs det out : (forall lod, In lod lods -> loaded_edges h lod t1 t2 (E lod)) ->
  distances_of h dist -> mbb_within fuel t1 t2 md = Some (cs, det) -> Forall (fun e => (length (snd e) <= 1)%nat) cs ->
  within_all fuel md far h dist lods t1 t2 = Some out -> forall w, In w out <-> close md h (seg_value far h) lods cs w.
Proof.
  intros L D Ec One Eo w. unfold within_all in Eo. rewrite Ec in Eo. cbn [bind] in Eo. injection Eo as <-.
  pose proof (mbb_within_start fuel t1 t2 md cs det Ec) as St.
  assert (P : pairs_of t1 t2 cs) by (intros e c vp A B C; destruct (St e c vp A B C) as (K1 & K2 & K3 & K4 & _); auto).
  rewrite (within_levels_spec md far h dist (last lods 0) (seg_value far h) ltac:(intros lod a b X; unfold ends in X; injection X as X1 X2; unfold seg_value; now rewrite X1, X2)
    (known (addresses t1 t2)) lods).
  - split; [intros [[]|H]; exact H|now right].
  - intros lod cs' i vp Hl W Ei. destruct (D lod cs') as (threads & Ht & R).
    rewrite (distances_exact h lod (segs_at h lod) (addresses t1 t2) (le_sizes _ _ _ _ _ (L lod Hl)) (loaded_sholds _ _ _ _ _ (L lod Hl)) (le_room _ _ _ _ _ (L lod Hl)) threads cs' _ i vp Ht R W Ei).
    reflexivity.
  - auto.
  - apply Forall_forall. intros e He. split; [exact (proj1 (Forall_forall _ _) One e He)|]. split.
    + apply Forall_forall. intros vp Hv. apply in_flat_map in Hv as (c & Hc & Hv). destruct (St e c vp He Hc Hv) as (_ & _ & _ & _ & K & _). exact K.
    + apply Forall_forall. intros vp Hv. apply in_flat_map in Hv as (c & Hc & Hv). destruct (St e c vp He Hc Hv) as (_ & _ & _ & _ & _ & K). exact K.
  - exact (pairs_known t1 t2 cs P).
Qed.
(** C131.  If every object has at most one candidate, each object reported has at one of the levels a
    point on an edge whose squared distance from a point on an edge of another object is below the limit. *)
Theorem within_end_sound_partial : forall fuel md far h dist lods t1 t2 E cs det out, (forall lod, In lod lods -> loaded_edges h lod t1 t2 (E lod)) ->
  distances_of h dist -> mbb_within fuel t1 t2 md = Some (cs, det) -> Forall (fun e => (length (snd e) <= 1)%nat) cs ->
  within_all fuel md far h dist lods t1 t2 = Some out ->
  forall w1, In w1 out -> In w1 (t_objs t1) /\ exists w2 lod e1 e2 X Y, In w2 (t_objs t2) /\ In lod lods /\
    In e1 (E lod w1) /\ In e2 (E lod w2) /\ on_edge e1 X /\ on_edge e2 Y /\ (dist2 X Y < md)%Q.
Proof.
  intros fuel md far h dist lods t1 t2 E cs det out L D Ec One Eo w1 H.
  apply (within_all_iff fuel md far h dist lods t1 t2 E cs det out L D Ec One Eo) in H as (lod & e & vp & Hl & He & <- & Hv & Hn & Lt).
  apply in_flat_map in Hv as (c & Hc & Hv). destruct (mbb_within_start fuel t1 t2 md cs det Ec e c vp He Hc Hv) as (I1 & V1 & I2 & V2 & _). split; [exact I1|].
  unfold has_edges in Hn. apply andb_prop in Hn as [S1 S2]. apply Z.ltb_lt in S1, S2.
  (* a batch of this one pair *)
  assert (J1 : In (fst e) (t_objs t1 ++ t_objs t2)) by (apply in_or_app; now left). assert (J2 : In (c_wrapper c) (t_objs t1 ++ t_objs t2)) by (apply in_or_app; now right).
  specialize (L lod Hl). destruct (carries_segs h lod _ _ (le_data _ _ _ _ _ L _ J1)) as [H1 F1]. destruct (carries_segs h lod _ _ (le_data _ _ _ _ _ L _ J2)) as [H2 F2].
  specialize (H1 _ V1). specialize (H2 _ V2). rewrite (lsize_sholds _ _ _ _ H1) in S1. rewrite (lsize_sholds _ _ _ _ H2) in S2.
  pose proof (proj1 (Forall_forall _ _) (le_long _ _ _ _ _ L _ J1)) as L1. pose proof (proj1 (Forall_forall _ _) (le_long _ _ _ _ _ L _ J2)) as L2.
  unfold seg_value in Lt. cbv zeta in Lt. set (a := segs_at h lod (v_ptr (vp_v1 vp))) in *. set (b := segs_at h lod (v_ptr (vp_v2 vp))) in *.
  pose proof (PropSegDist.segdist_single_minimum a b) as M. cbv zeta in M. destruct (SegDist_single _ _ _ _) as [d|] in M, Lt; cbn [number] in Lt.
  - destruct M as [(s1 & s2 & M1 & M2 & Es) _]. destruct (F1 _ s1 V1 (front_in _ _ _ M1)) as (e1 & G1 & O1). destruct (F2 _ s2 V2 (front_in _ _ _ M2)) as (e2 & G2 & O2).
    destruct (pair_attained e1 e2 s1 s2 d (L1 _ G1) (L2 _ G2) O1 O2 Es) as (X & Y & X1 & Y1 & V). exists (c_wrapper c), lod, e1, e2, X, Y. rewrite <- V. auto 10.
  - exfalso. destruct (front_nonempty a) as (s1 & M1); [intros Z; rewrite Z in S1; cbn [length] in S1; lia|].
    destruct (front_nonempty b) as (s2 & M2); [intros Z; rewrite Z in S2; cbn [length] in S2; lia|]. specialize (M s1 s2 M1 M2).
    destruct (F1 _ s1 V1 (front_in _ _ _ M1)) as (e1 & G1 & O1). destruct (F2 _ s2 V2 (front_in _ _ _ M2)) as (e2 & G2 & O2).
    exact (pair_some e1 e2 s1 s2 (L1 _ G1) (L2 _ G2) O1 O2 M).
Qed.
Print Assumptions within_end_sound_partial.

(** C131.  And an object is reported if nearest points on two edges are below the limit, unless the
    filter has dropped the pair as determined (C26). *)
Theorem within_end_reports_partial : forall fuel md far h dist lods t1 t2 E cs det out lod w1 w2 v1 v2 e1 e2 X Y, tile_ok t2 ->
  Forall (fun w => Forall (fun v => within (v_box v) (o_box (w_obj w))) (w_voxels w)) (t_objs t1) ->
  (forall lod, In lod lods -> loaded_edges h lod t1 t2 (E lod)) ->
  distances_of h dist -> mbb_within fuel t1 t2 md = Some (cs, det) -> Forall (fun e => (length (snd e) <= 1)%nat) cs ->
  within_all fuel md far h dist lods t1 t2 = Some out ->
  In lod lods -> In w1 (t_objs t1) -> In w2 (t_objs t2) -> o_ptr (w_obj w2) <> o_ptr (w_obj w1) -> ~ In (w1, w2) det ->
  In v1 (w_voxels w1) -> In v2 (w_voxels w2) -> long e1 -> long e2 -> near_front h lod v1 e1 -> near_front h lod v2 e2 ->
  on_edge e1 X -> on_edge e2 Y -> inside X (v_box v1) -> inside Y (v_box v2) -> (dist2 X Y < md)%Q ->
  (forall X' Y', on_line e1 X' -> on_line e2 Y' -> dist2 X Y <= dist2 X' Y')%Q -> In w1 out.
Proof.
  intros fuel md far h dist lods t1 t2 E cs det out lod w1 w2 v1 v2 e1 e2 X Y O Vx L D Ec One Eo Hl I1 I2 Ne Nd V1 V2 L1 L2 N1 N2 X1 Y1 B1 B2 Lt Line.
  apply (within_all_iff fuel md far h dist lods t1 t2 E cs det out L D Ec One Eo).
  destruct (mbb_within_complete fuel t1 t2 md cs det w1 w2 v1 v2 X Y O Vx Ec I1 I2 Ne V1 V2 B1 B2 ltac:(lra)) as [K|(cl & c & vp & Hc1 & Hc2 & _ & Hc4 & [P1 P2])]; [contradiction|].
  specialize (L lod Hl).
  destruct (near_front_seg h lod t1 t2 _ v1 w1 e1 L (in_or_app _ _ _ (or_introl I1)) V1 N1) as (s1 & M1 & O1).
  destruct (near_front_seg h lod t1 t2 _ v2 w2 e2 L (in_or_app _ _ _ (or_intror I2)) V2 N2) as (s2 & M2 & O2).
  destruct (single_at_most _ _ s1 s2 e1 e2 X Y M1 M2 O1 O2 L1 L2 X1 Y1 Line) as (d & E0 & Le).
  exists lod, (w1, cl), vp. split; [exact Hl|]. split; [exact Hc1|]. split; [reflexivity|]. split; [apply in_flat_map; exists c; split; assumption|]. split.
  - unfold has_edges. rewrite P1, P2.
    assert (S : forall v, In v (addresses t1 t2) -> (exists s, In s (segs_at h lod v)) -> (0 <? lsize h lod v) = true).
    { intros v Hv (s & Hs). rewrite (lsize_sholds _ _ _ _ (loaded_sholds h lod t1 t2 _ L v Hv)). apply Z.ltb_lt. destruct (segs_at h lod v); [destruct Hs|cbn [length]; lia]. }
    rewrite (S (v_ptr v1)), (S (v_ptr v2)); [reflexivity| | | |].
    + apply (address_in t1 t2 w2); [apply in_or_app; now right|exact V2].
    + exists s2. exact (front_in _ _ _ M2).
    + apply (address_in t1 t2 w1); [apply in_or_app; now left|exact V1].
    + exists s1. exact (front_in _ _ _ M1).
  - unfold seg_value. rewrite P1, P2. cbv zeta. rewrite E0. cbn [number]. lra.
Qed.
Print Assumptions within_end_reports_partial.

(** ** Example: the crossing triangles of [PropEnd], by their edges *)
Definition floats_of (es : list edge) : list Q := flat_map (fun e : edge => [fst e AX; fst e AY; fst e AZ; snd e AX; snd e AY; snd e AZ]) es.
Definition sides (f : facet) : list edge := let '(p, q, r) := f in [(p, q); (q, r); (r, p)].
Definition three (f : facet) : VoxelModel.voxel :=
  VoxelModel.Voxel None None (fun lod => if lod =? 100 then Some (map Some (floats_of (sides f))) else None) (fun lod => if lod =? 100 then Some 3 else None).
Definition sh (v : nat) : VoxelModel.voxel := if Nat.eqb v 101 then three fA else if Nat.eqb v 102 then three fC else three fB.
Definition sM (w : wrapper) : list facet := eM 100 w.
Definition sE (w : wrapper) : list edge := flat_map sides (sM w).
Definition on_cpu (lod : Z) (cs : list centry) : list dist_t := cpu_distances (fun _ => 7%Q) sh 2 (concat (snd (distance_runs (Z.of_nat (length (all_pairs cs))) 2))) lod cs.
Lemma long_sides f : In f [fA; fB; fC] -> Forall long (sides f).
Proof. intros [<-|[<-|[<-|[]]]]; cbn [sides fA fB fC]; each; intros H; (specialize (H AX); vm_compute in H; discriminate H) || (specialize (H AY); vm_compute in H; discriminate H). Qed.
Lemma side_floats e : long e -> PropVoxel.edge_floats e [fst e AX; fst e AY; fst e AZ; snd e AX; snd e AY; snd e AZ].
Proof. intros L. cbn [PropVoxel.edge_floats]. do 5 (split; [reflexivity|]). split; [intros H; contradiction|reflexivity]. Qed.
Lemma three_carries (h : heap) w f v : Forall long (sides f) -> w_voxels w = [v] -> h (v_ptr v) = three f -> carries_edges h 100 w (sides f).
Proof.
  intros Lg E S.
  exists [map (fun e : edge => [fst e AX; fst e AY; fst e AZ; snd e AX; snd e AY; snd e AZ]) (sides f)], (map (fun e : edge => [fst e AX; fst e AY; fst e AZ; snd e AX; snd e AY; snd e AZ]) (sides f)).
  split; [|split].
  - rewrite E. constructor; [|constructor]. rewrite S. split; cbn [three VoxelModel.v_size VoxelModel.v_data Z.eqb Pos.eqb].
    + destruct f as [[p q] r]. reflexivity.
    + unfold floats_of. rewrite flat_map_concat_map. reflexivity.
  - clear -Lg. induction (sides f) as [|e l IH]; cbn [map]; [constructor|]. inversion Lg; subst. constructor; [now apply side_floats|now apply IH].
  - cbn [concat]. rewrite app_nil_r. apply Permutation_refl.
Qed.
Lemma s_loaded : loaded_edges sh 100 tA tB sE.
Proof.
  split.
  - intros v. unfold lsize, sh. destruct (Nat.eqb v 101), (Nat.eqb v 102); cbn; lia.
  - intros w Hw. cbn [t_objs tA tB app In] in Hw. unfold sE.
    destruct Hw as [<-|[<-|[<-|[]]]]; cbn [sM eM wA wB wC w_obj o_ptr flat_map app]; rewrite ?app_nil_r.
    + apply (three_carries sh wA fA (Voxel 101 (cube (-(1)) 5))); [apply long_sides; now left|reflexivity|reflexivity].
    + apply (three_carries sh wC fC (Voxel 102 (cube 19 25))); [apply long_sides; now right; right; left|reflexivity|reflexivity].
    + apply (three_carries sh wB fB (Voxel 201 (cube (-(4)) 5))); [apply long_sides; now right; left|reflexivity|reflexivity].
  - intros w Hw. cbn [t_objs tA tB app In] in Hw. unfold sE.
    destruct Hw as [<-|[<-|[<-|[]]]]; cbn [sM eM wA wB wC w_obj o_ptr flat_map app]; rewrite ?app_nil_r; apply long_sides; cbn [In]; tauto.
  - vm_compute. reflexivity.
Qed.
Lemma s_sides : forall w, In w (t_objs tA ++ t_objs tB) -> forall e, In e (sE w) -> exists f, In f (sM w) /\ side f e.
Proof.
  intros w _ e H. unfold sE in H. apply in_flat_map in H as (f & Hf & H). exists f. split; [exact Hf|]. destruct f as [[p q] r]. cbn [sides In side] in *.
  destruct H as [<-|[<-|[<-|[]]]]; auto.
Qed.
Lemma in_turn ws : forall pre, Forall (fun w : list Z => w = []) pre -> interleaved (pre ++ ws) (concat ws).
Proof.
  induction ws as [|w ws IH]; intros pre F; cbn [concat].
  - rewrite app_nil_r. now apply il_done.
  - induction w as [|x w IHw]; cbn [app].
    + replace (pre ++ [] :: ws) with ((pre ++ [[]]) ++ ws) by (rewrite <- app_assoc; reflexivity). apply IH. apply Forall_app. split; [exact F|now constructor].
    + now apply il_step.
Qed.
Lemma s_runs : distances_of sh on_cpu.
Proof.
  intros lod cs. exists 2. split; [lia|]. exists (fun _ => 7%Q), (concat (snd (distance_runs (Z.of_nat (length (all_pairs cs))) 2))).
  split; [exact (in_turn _ [] (Forall_nil _))|unfold on_cpu; reflexivity].
Qed.
Lemma tA_voxels : Forall (fun w => Forall (fun v => within (v_box v) (o_box (w_obj w))) (w_voxels w)) (t_objs tA).
Proof. exact (proj2 e_boxes). Qed.
Notation s_start := (mbb_within 10 tA tB (1 # 10)).
Definition s_pair : vpair := VPair (Voxel 101 (cube (-(1)) 5)) (Voxel 201 (cube (-(4)) 5)) (distance (cube (-(1)) 5) (cube (-(4)) 5)) false.
Definition s_cands : list centry := [(wA, [CInfo wB (Range 0 0) [s_pair]])].
Lemma s_filter : s_start = Some (s_cands, []).
Proof. vm_compute. reflexivity. Qed.
Lemma s_pairs : pairs_of tA tB s_cands.
Proof. intros e c vp [<-|[]] [<-|[]] [<-|[]]. cbn [fst c_wrapper s_pair vp_v1 vp_v2 t_objs tA tB w_voxels wA wB In]. auto. Qed.
(** The answer for the sides of the two triangles is above 1/5. *)
Lemma s_far : match SegDist_single (floats_of (sides fA)) (floats_of (sides fB)) 3 3 with Some d => Qltb (1 # 5) d | None => false end = true.
Proof. vm_compute. reflexivity. Qed.

(** C130 is false: two facets that cross each other, an edge of the one passing through the inside of
    the other.  Their distance is stored as more than 1/5, whatever the threads do. *)
Theorem distance_end_surface_refuted : exists h lod t1 t2 E M cs vp w1 w2 f1 f2 X, loaded_edges h lod t1 t2 E /\ pairs_of t1 t2 cs /\
  (forall w, In w (t_objs t1 ++ t_objs t2) -> forall e, In e (E w) -> exists f, In f (M w) /\ side f e) /\
  In w1 (t_objs t1) /\ In w2 (t_objs t2) /\ belongs cs 0 vp w1 w2 /\ In f1 (M w1) /\ In f2 (M w2) /\ in_facet f1 X /\ in_facet f2 X /\
  forall threads ds, 0 < threads -> distance_run h threads lod cs ds -> exists d, nth_error ds 0 = Some (Some d) /\ (1 # 5 < d)%Q.
Proof.
  exists sh, 100, tA, tB, sE, sM, s_cands, s_pair, wA, wB, fA, fB, eX. split; [exact s_loaded|]. split; [exact s_pairs|]. split; [exact s_sides|].
  split; [now left|]. split; [now left|]. split; [split; [reflexivity|split; now left]|]. split; [now left|]. split; [now left|].
  destruct e_reports_sample as (_ & _ & X1 & X2 & _). split; [exact X1|]. split; [exact X2|].
  intros threads ds Ht R.
  pose proof (distances_exact sh 100 (segs_at sh 100) (addresses tA tB) (le_sizes _ _ _ _ _ s_loaded) (loaded_sholds _ _ _ _ _ s_loaded) (le_room _ _ _ _ _ s_loaded) threads s_cands ds 0 s_pair Ht R (pairs_known _ _ _ s_pairs) eq_refl) as D.
  rewrite D. pose proof s_far as F.
  change (SegDist_single (floats_of (sides fA)) (floats_of (sides fB)) 3 3) with
    (let a := segs_at sh 100 (v_ptr (vp_v1 s_pair)) in let b := segs_at sh 100 (v_ptr (vp_v2 s_pair)) in SegDist_single (seg_buffer a) (seg_buffer b) (length a) (length b)) in F.
  cbv zeta in *. destruct (SegDist_single _ _ _ _) as [d|]; [|discriminate F]. exists d. split; [reflexivity|]. destruct (Qltb_spec (1 # 5) d); [assumption|discriminate F].
Qed.
Print Assumptions distance_end_surface_refuted.
Lemma s_value far : (1 # 5 < seg_value far sh 100 s_pair)%Q.
Proof.
  pose proof s_far as F.
  change (SegDist_single (floats_of (sides fA)) (floats_of (sides fB)) 3 3) with
    (let a := segs_at sh 100 (v_ptr (vp_v1 s_pair)) in let b := segs_at sh 100 (v_ptr (vp_v2 s_pair)) in SegDist_single (seg_buffer a) (seg_buffer b) (length a) (length b)) in F.
  unfold seg_value. cbv zeta in *. destruct (SegDist_single _ _ _ _) as [d|]; [|discriminate F]. cbn [number]. destruct (Qltb_spec (1 # 5) d); [assumption|discriminate F].
Qed.
(** C131 is false as it stands: the crossing objects are not reported for a limit of 1/10, nor has the
    filter found them. *)
Theorem within_end_crossing_refuted : exists fuel md h t1 t2 E M w1 w2 f1 f2 X, tile_ok t2 /\ loaded_edges h 100 t1 t2 E /\ (0 < md)%Q /\
  (forall w, In w (t_objs t1 ++ t_objs t2) -> forall e, In e (E w) -> exists f, In f (M w) /\ side f e) /\
  In w1 (t_objs t1) /\ In w2 (t_objs t2) /\ In f1 (M w1) /\ In f2 (M w2) /\ in_facet f1 X /\ in_facet f2 X /\
  (exists cs, mbb_within fuel t1 t2 md = Some (cs, [])) /\
  forall far dist out, distances_of h dist -> within_all fuel md far h dist [100] t1 t2 = Some out -> ~ In w1 out.
Proof.
  exists 10%nat, (1 # 10), sh, tA, tB, sE, sM, wA, wB, fA, fB, eX. split; [exact tB_ok|]. split; [exact s_loaded|]. split; [vm_compute; reflexivity|]. split; [exact s_sides|].
  split; [now left|]. split; [now left|]. split; [now left|]. split; [now left|].
  destruct e_reports_sample as (_ & _ & X1 & X2 & _). split; [exact X1|]. split; [exact X2|]. split; [exists s_cands; exact s_filter|].
  intros far dist out D E H.
  apply (within_all_iff 10 (1 # 10) far sh dist [100] tA tB (fun _ => sE) s_cands [] out) in H; [|intros lod [<-|[]]; exact s_loaded|exact D|exact s_filter|each; cbn; lia|exact E].
  destruct H as (lod & e & vp & [<-|[]] & [<-|[]] & _ & Hv & _ & Lt). cbn [snd flat_map c_pairs app In] in Hv. destruct Hv as [<-|[]].
  pose proof (s_value far). lra.
Qed.
Print Assumptions within_end_crossing_refuted.

(** ** Example: two parallel triangles 3 apart *)
Definition slab (lo hi : Q) : aab := Aab (v3 (-(1)) (-(1)) lo) (v3 5 5 hi).
Definition gA : facet := (v3 0 0 0, v3 4 0 0, v3 0 4 0).
Definition gB : facet := (v3 0 0 3, v3 4 0 3, v3 0 4 3).
Definition uA : wrapper := Wrapper (Wobj 1 0 (slab (-(1)) (1 # 2)) 200) [Voxel 101 (slab (-(1)) (1 # 2))].
Definition uB : wrapper := Wrapper (Wobj 3 0 (slab (5 # 2) 4) 200) [Voxel 201 (slab (5 # 2) 4)].
Definition lA : tile := Tile (slab (-(1)) (1 # 2)) [uA].
Definition lB : tile := Tile (slab (5 # 2) 4) [uB].
Definition gh (v : nat) : VoxelModel.voxel := if Nat.eqb v 101 then three gA else three gB.
Definition gE (w : wrapper) : list edge := match o_ptr (w_obj w) with 1%nat => sides gA | _ => sides gB end.
Lemma long_gsides f : In f [gA; gB] -> Forall long (sides f).
Proof. intros [<-|[<-|[]]]; cbn [sides gA gB]; each; intros H; (specialize (H AX); vm_compute in H; discriminate H) || (specialize (H AY); vm_compute in H; discriminate H). Qed.
Lemma g_loaded : loaded_edges gh 100 lA lB gE.
Proof.
  split.
  - intros v. unfold lsize, gh. destruct (Nat.eqb v 101); cbn; lia.
  - intros w Hw. cbn [t_objs lA lB app In] in Hw. destruct Hw as [<-|[<-|[]]].
    + apply (three_carries gh uA gA (Voxel 101 (slab (-(1)) (1 # 2)))); [apply long_gsides; now left|reflexivity|reflexivity].
    + apply (three_carries gh uB gB (Voxel 201 (slab (5 # 2) 4))); [apply long_gsides; now right; left|reflexivity|reflexivity].
  - intros w Hw. cbn [t_objs lA lB app In] in Hw. destruct Hw as [<-|[<-|[]]]; apply long_gsides; cbn [In]; tauto.
  - vm_compute. reflexivity.
Qed.
Definition g_pair : vpair := VPair (Voxel 101 (slab (-(1)) (1 # 2))) (Voxel 201 (slab (5 # 2) 4)) (distance (slab (-(1)) (1 # 2)) (slab (5 # 2) 4)) false.
Definition g_cands : list centry := [(uA, [CInfo uB (Range 0 0) [g_pair]])].
Lemma g_filter md : md = 5%Q \/ md = 10%Q -> mbb_within 10 lA lB md = Some (g_cands, []).
Proof. intros [-> | ->]; vm_compute; reflexivity. Qed.
Lemma lB_ok : tile_ok lB.
Proof.
  split.
  - intros [|i] w E; cbn in E; [injection E as <-; reflexivity|destruct i; discriminate E].
  - split; [each; vm_compute; discriminate|vm_compute; reflexivity].
  - each; intros []; vm_compute; reflexivity.
  - each; intros []; try split; vm_compute; discriminate.
  - each; intros []; try split; vm_compute; discriminate.
Qed.
Lemma g_value : match SegDist_single (floats_of (sides gA)) (floats_of (sides gB)) 3 3 with Some d => Qeq_bool d 9 | None => false end = true.
Proof. vm_compute. reflexivity. Qed.
Lemma g_seg_value far : (seg_value far gh 100 g_pair == 9)%Q.
Proof.
  pose proof g_value as F.
  change (SegDist_single (floats_of (sides gA)) (floats_of (sides gB)) 3 3) with
    (let a := segs_at gh 100 (v_ptr (vp_v1 g_pair)) in let b := segs_at gh 100 (v_ptr (vp_v2 g_pair)) in SegDist_single (seg_buffer a) (seg_buffer b) (length a) (length b)) in F.
  unfold seg_value. cbv zeta in *. destruct (SegDist_single _ _ _ _) as [d|]; [|discriminate F]. cbn [number]. now apply Qeq_bool_iff.
Qed.
(** C132 is false: max_dist is compared with squared distances.  Two objects 3 apart are not reported for
    the limit 5, nor has the filter found them. *)
Theorem within_end_limit_refuted : exists fuel md h t1 t2 E w1 w2 e1 e2 X Y r, tile_ok t2 /\ loaded_edges h 100 t1 t2 E /\
  In w1 (t_objs t1) /\ In w2 (t_objs t2) /\ o_ptr (w_obj w2) <> o_ptr (w_obj w1) /\ In e1 (E w1) /\ In e2 (E w2) /\ on_edge e1 X /\ on_edge e2 Y /\
  (dist2 X Y == r * r /\ 0 <= r /\ r < md)%Q /\
  (exists cs, mbb_within fuel t1 t2 md = Some (cs, [])) /\
  forall far dist out, distances_of h dist -> within_all fuel md far h dist [100] t1 t2 = Some out -> ~ In w1 out.
Proof.
  exists 10%nat, 5%Q, gh, lA, lB, gE, uA, uB, (v3 0 0 0, v3 4 0 0), (v3 0 0 3, v3 4 0 3), (v3 1 0 0), (v3 1 0 3), 3%Q.
  split; [exact lB_ok|]. split; [exact g_loaded|]. split; [now left|]. split; [now left|]. split; [discriminate|]. split; [now left|]. split; [now left|].
  split; [exists (1 # 4); split; [lra|intros []; reflexivity]|]. split; [exists (1 # 4); split; [lra|intros []; reflexivity]|]. split; [split; [reflexivity|lra]|].
  split; [exists g_cands; apply g_filter; now left|]. intros far dist out D E H.
  apply (within_all_iff 10 5 far gh dist [100] lA lB (fun _ => gE) g_cands [] out) in H; [|intros lod [<-|[]]; exact g_loaded|exact D|apply g_filter; now left|each; cbn; lia|exact E].
  destruct H as (lod & e & vp & [<-|[]] & [<-|[]] & _ & Hv & _ & Lt). cbn [snd flat_map c_pairs app In] in Hv. destruct Hv as [<-|[]].
  rewrite (g_seg_value far) in Lt. lra.
Qed.
Print Assumptions within_end_limit_refuted.

(** The hypotheses of the theorems above are met: on the sample the join with limit 10 reports. *)
Lemma g_lines X' Y' : on_line (v3 0 0 0, v3 4 0 0) X' -> on_line (v3 0 0 3, v3 4 0 3) Y' -> (dist2 (v3 1 0 0) (v3 1 0 3) <= dist2 X' Y')%Q.
Proof.
  intros (t & Ht) (u & Hu). rewrite (dist2_compat _ _ _ _ Ht Hu). unfold dist2, sum3. cbn [fst snd v3].
  pose proof (sq_nonneg (4 * t - 4 * u)). lra.
Qed.
Definition g_cpu (lod : Z) (cs : list centry) : list dist_t := cpu_distances (fun _ => 7%Q) gh 2 (concat (snd (distance_runs (Z.of_nat (length (all_pairs cs))) 2))) lod cs.
Lemma g_runs : distances_of gh g_cpu.
Proof.
  intros lod cs. exists 2. split; [lia|]. exists (fun _ => 7%Q), (concat (snd (distance_runs (Z.of_nat (length (all_pairs cs))) 2))).
  split; [exact (in_turn _ [] (Forall_nil _))|unfold g_cpu; reflexivity].
Qed.
Lemma g_front : near_front gh 100 (Voxel 101 (slab (-(1)) (1 # 2))) (v3 0 0 0, v3 4 0 0) /\ near_front gh 100 (Voxel 201 (slab (5 # 2) 4)) (v3 0 0 3, v3 4 0 3).
Proof.
  split; [exists (floats_of (sides gA)), 0%nat|exists (floats_of (sides gB)), 0%nat]; (split; [reflexivity|]; split; [cbn; lia|]);
    (apply (side_floats (v3 0 0 0, v3 4 0 0)) || apply (side_floats (v3 0 0 3, v3 4 0 3))); intros H; specialize (H AX); vm_compute in H; discriminate H.
Qed.
Example within_end_sample far : exists out, within_all 10 10 far gh g_cpu [100] lA lB = Some out /\ In uA out.
Proof.
  destruct (within_all 10 10 far gh g_cpu [100] lA lB) as [out|] eqn:E; [|unfold within_all in E; rewrite (g_filter 10 (or_intror eq_refl)) in E; cbn [bind] in E; discriminate E].
  exists out. split; [reflexivity|]. destruct g_front as [F1 F2].
  apply (within_end_reports_partial 10 10 far gh g_cpu [100] lA lB (fun _ => gE) g_cands [] out 100 uA uB (Voxel 101 (slab (-(1)) (1 # 2))) (Voxel 201 (slab (5 # 2) 4))
    (v3 0 0 0, v3 4 0 0) (v3 0 0 3, v3 4 0 3) (v3 1 0 0) (v3 1 0 3) lB_ok); try (now left); try assumption.
  - each; intros []; try split; vm_compute; discriminate.
  - intros lod [<-|[]]. exact g_loaded.
  - exact g_runs.
  - apply g_filter. now right.
  - each; cbn; lia.
  - discriminate.
  - intros [].
  - intros H; specialize (H AX); vm_compute in H; discriminate H.
  - intros H; specialize (H AX); vm_compute in H; discriminate H.
  - exists (1 # 4); split; [lra|intros []; reflexivity].
  - exists (1 # 4); split; [lra|intros []; reflexivity].
  - intros []; split; vm_compute; discriminate.
  - intros []; split; vm_compute; discriminate.
  - vm_compute. reflexivity.
  - exact g_lines.
Qed.
Example distance_end_sample : loaded_edges sh 100 tA tB sE /\ pairs_of tA tB s_cands /\ distance_run sh 2 100 s_cands (on_cpu 100 s_cands) /\ belongs s_cands 0 s_pair wA wB /\
  0 < lsize sh 100 101 /\ 0 < lsize sh 100 201.
Proof.
  split; [exact s_loaded|]. split; [exact s_pairs|]. split; [|split; [split; [reflexivity|split; now left]|split; reflexivity]].
  exists (fun _ => 7%Q), (concat (snd (distance_runs (Z.of_nat (length (all_pairs s_cands))) 2))). split; [exact (in_turn _ [] (Forall_nil _))|unfold on_cpu; reflexivity].
Qed.

(** C129.  The tables of candidates that the filters of both distance joins produce are of this kind. *)
Theorem distance_end_filters : forall fuel t1 t2,
  (forall md cs det, mbb_within fuel t1 t2 md = Some (cs, det) -> pairs_of t1 t2 cs) /\ (forall cs, mbb_nn fuel t1 t2 = Some cs -> pairs_of t1 t2 cs).
Proof.
  intros fuel t1 t2. split.
  - intros md cs det E e c vp He Hc Hv. destruct (mbb_within_start fuel t1 t2 md cs det E e c vp He Hc Hv) as (K1 & K2 & K3 & K4 & _). auto.
  - intros cs E e c vp He Hc Hv. unfold mbb_nn in E. destruct (tile_octree fuel 400 t2) as [tree|]; cbn [bind] in E; [|discriminate E].
    destruct (map_opt _ (t_objs t1)) as [l|] eqn:El in E; cbn [bind] in E; [|discriminate E]. injection E as <-. apply filter_In in He as [He _].
    destruct (map_opt_in _ _ _ El) as [_ L2]. destruct (L2 e He) as [w1 [Hw Ew]]. destruct (nn_entry tree t2 w1) as [cl|] eqn:En; cbn [bind] in Ew; [|discriminate Ew].
    injection Ew as <-. cbn [fst snd] in *. unfold nn_entry in En. destruct (map_opt _ (skip_dups _ _ _)) as [m|] eqn:Em in En; cbn [bind] in En; [|discriminate En]. injection En as <-.
    assert (Fm : forall x, In x m -> In (fst x) (t_objs t2)).
    { intros x Hx. destruct (map_opt_in _ _ _ Em) as [_ M2]. destruct (M2 x Hx) as [y [_ Ey]].
      destruct (get_wrapper t2 (fst y)) as [w2|] eqn:Eg; cbn [bind] in Ey; [|discriminate Ey]. injection Ey as <-. exact (get_wrapper_in _ _ _ Eg). }
    assert (FR : forall l cl, (forall x, In x l -> In (fst x) (t_objs t2)) -> Forall (fun c => from w1 c /\ In (c_wrapper c) (t_objs t2)) cl ->
      Forall (fun c => from w1 c /\ In (c_wrapper c) (t_objs t2)) (fold_left (nn_candidate w1) l cl)).
    { induction l0 as [|x r IH]; intros cl Hx F; cbn [fold_left]; [exact F|]. apply IH; [intros; apply Hx; now right|].
      apply (nn_candidate_from w1 cl x (fun w => In w (t_objs t2))); [apply Hx; now left|exact F]. }
    destruct (proj1 (Forall_forall _ _) (FR m [] Fm (Forall_nil _)) c Hc) as [Fc C2]. destruct (proj1 (Forall_forall _ _) Fc vp Hv) as [V1 V2]. auto.
Qed.
Print Assumptions distance_end_filters.
Example distance_end_filters_sample : exists cs, mbb_within 10 tA tB (1 # 10) = Some (cs, []) /\ all_pairs cs = [s_pair].
Proof. exists s_cands. split; [exact s_filter|reflexivity]. Qed.

(** The hypotheses of [distance_end_surface_partial] are met by the parallel triangles: 9 is stored. *)
Example distance_end_surface_sample threads ds d : 0 < threads -> distance_run gh threads 100 g_cands ds -> nth_error ds 0 = Some (Some d) -> (d == 9)%Q.
Proof.
  intros Ht R Ed. destruct g_front as [F1 F2].
  assert (P : pairs_of lA lB g_cands) by (intros e c vp [<-|[]] [<-|[]] [<-|[]]; cbn [fst c_wrapper g_pair vp_v1 vp_v2 t_objs lA lB w_voxels uA uB In]; auto).
  set (M := fun w : wrapper => match o_ptr (w_obj w) with 1%nat => [gA] | _ => [gB] end).
  assert (Sd : forall w, In w (t_objs lA ++ t_objs lB) -> forall e, In e (gE w) -> exists f, In f (M w) /\ side f e).
  { intros w Hw e He. cbn [t_objs lA lB app In] in Hw. destruct Hw as [<-|[<-|[]]]; [exists gA|exists gB]; (split; [now left|]); cbn [side gA gB];
      cbn [gE uA uB w_obj o_ptr sides gA gB In] in He; destruct He as [<-|[<-|[<-|[]]]]; auto. }
  transitivity (dist2 (v3 1 0 0) (v3 1 0 3)); [|vm_compute; reflexivity].
  apply (distance_end_surface_partial gh 100 lA lB gE M threads g_cands ds 0 g_pair uA uB d (v3 0 0 0, v3 4 0 0) (v3 0 0 3, v3 4 0 3) (v3 1 0 0) (v3 1 0 3) g_loaded P Sd Ht R);
    try (now left); try assumption.
  - split; [reflexivity|split; now left].
  - intros H; specialize (H AX); vm_compute in H; discriminate H.
  - intros H; specialize (H AX); vm_compute in H; discriminate H.
  - exists (1 # 4); split; [lra|intros []; reflexivity].
  - exists (1 # 4); split; [lra|intros []; reflexivity].
  - intros f1 f2 X' Y' [<-|[]] [<-|[]] (a & b & c & _ & _ & _ & _ & HX) (a' & b' & c' & _ & _ & _ & S & HY).
    assert (Zx : (X' AZ == 0)%Q) by (rewrite HX; cbn [v3 gA]; ring). assert (Zy : (Y' AZ == 3)%Q) by (rewrite HY; cbn [v3 gB]; lra).
    unfold dist2, sum3. rewrite Zx, Zy. cbn [v3]. pose proof (sq_nonneg (X' AX - Y' AX)). pose proof (sq_nonneg (X' AY - Y' AY)). lra.
  - exact g_lines.
Qed.
