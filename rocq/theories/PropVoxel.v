(** C41, C42, C69: the voxels of an object. *)
From Coq Require Import QArith ZArith List Bool Lia Lqa Permutation.
From Verif Require Import Arr AabModel AabProofs VoxelModel VoxelProofs.
Import ListNotations.
Open Scope Z_scope.

(** The floats of one edge: its ends, the second one moved by 0.1 along z if both ends coincide. *)
Definition edge_floats (e : vec * vec) (d : list Q) : Prop := match d with
  | [a; b; c; x; y; z] => (a == fst e AX /\ b == fst e AY /\ c == fst e AZ /\ x == snd e AX /\ y == snd e AY /\
      ((forall i, fst e i == snd e i) -> z == snd e AZ + (1 # 10)) /\ (~ (forall i, fst e i == snd e i) -> z == snd e AZ))%Q
  | _ => False end.
(** The floats of one facet: a corner and the vectors to the two next ones. *)
Definition facet_floats (f : vec * vec * vec) (d : list Q) : Prop := match d with
  | [a; b; c; x; y; z; u; v; w] => let '(p, q, r) := f in
      (a == p AX /\ b == p AY /\ c == p AZ /\ a + x == q AX /\ b + y == q AY /\ c + z == q AZ /\ a + u == r AX /\ b + v == r AY /\ c + w == r AZ)%Q
  | _ => False end.
(** [ds] lists the floats of all primitives of the wanted kind, in order. *)
Definition mesh_floats (m : mesh) (t : data_type) (ds : list (list Q)) : Prop :=
  match t with DT_Segment => Forall2 edge_floats (m_edges m) ds | DT_Triangle => Forall2 facet_floats (m_facets m) ds end.

(** A voxel holds exactly the data [part] at a level: announced size and a buffer of that length, all written. *)
Definition stores (lod : Z) (v : voxel) (part : list (list Q)) : Prop :=
  v_size v lod = Some (Z.of_nat (length part)) /\ v_data v lod = Some (map Some (concat part)).
(** Nothing but the entry of the level changes. *)
Definition untouched (lod : Z) (v v' : voxel) : Prop :=
  v_core v' = v_core v /\ v_box v' = v_box v /\ forall l, l <> lod -> v_data v' l = v_data v l /\ v_size v' l = v_size v l.

Lemma mesh_floats_primitives m t : mesh_floats m t (primitives m t).
Proof.
  destruct t; cbn [mesh_floats primitives].
  - induction (m_edges m) as [|[p q] r IH]; constructor; [|exact IH]. unfold edge_floats, segment_datum, fst, snd.
    do 5 (split; [reflexivity|]). unfold Qeqv. split.
    + intros H. replace (all3 (fun a => Qeq_bool (p a) (q a))) with true; [reflexivity|]. symmetry. apply all3_iff. intros a. apply Qeq_bool_iff. apply H.
    + intros H. destruct (all3 (fun a => Qeq_bool (p a) (q a))) eqn:E; [|apply Qplus_0_r].
      exfalso. apply H. intros i. apply Qeq_bool_iff. rewrite all3_iff in E. apply E.
  - induction (m_facets m) as [|[[p q] s] r IH]; constructor; [|exact IH]. unfold facet_floats, triangle_datum. repeat split; try reflexivity; ring.
Qed.

(** C41.  Filling the voxels of a mesh distributes its edges (or triangles): [ds] are the floats of all
    of them; each one goes to exactly one voxel, one whose core is nearest to its first point; sizes and
    buffers are exact; other levels, cores and boxes stay as they are. *)
Theorem voxel_fill_partition : forall m t vs, vs <> [] ->
  (length vs = 1%nat \/ Forall (fun v => v_core v <> None) vs) ->
  (forall v, hd_error vs = Some v -> v_data v (m_lod m) = None) ->
  exists vs' parts ds, fill_voxel m t vs = Some vs' /\ mesh_floats m t ds /\ Permutation (concat parts) ds /\
    length vs' = length vs /\ length parts = length vs /\
    forall j v v' part, nth_error vs j = Some v -> nth_error vs' j = Some v' -> nth_error parts j = Some part ->
      stores (m_lod m) v' part /\ untouched (m_lod m) v v' /\
      forall d i v2 c c2, In d part -> nth_error vs i = Some v2 -> v_core v = Some c -> v_core v2 = Some c2 ->
        (dist2 c (head_point d) <= dist2 c2 (head_point d))%Q.
Proof.
  intros m t vs NE HC Hd. destruct vs as [|v0 [|v1 r]]; [congruence| |].
  - set (vs' := [set_data (set_size v0 (m_lod m) (Z.of_nat (length (primitives m t)))) (m_lod m) (map Some (concat (primitives m t)))]).
    exists vs', [primitives m t], (primitives m t). split.
    { unfold fill_voxel. rewrite (Hd v0 eq_refl). unfold vs', fill_segments, fill_triangles.
      destruct t; cbn [primitives]; rewrite map_length, flat_map_concat_map; reflexivity. }
    split; [apply mesh_floats_primitives|]. split; [cbn; rewrite app_nil_r; reflexivity|]. split; [reflexivity|]. split; [reflexivity|].
    intros [|j] v v' part E1 E2 E3; [|destruct j; discriminate]. inversion E1; inversion E2; inversion E3; subst.
    split; [split; cbn; unfold put; rewrite Z.eqb_refl; reflexivity|]. split.
    { split; [reflexivity|]. split; [reflexivity|]. intros l Hl. cbn. unfold put. destruct (Z.eqb_spec l (m_lod m)); [congruence|auto]. }
    intros d [|i] v2 c c2 _ Ei Ec Ec2; [|destruct i; discriminate]. inversion Ei; subst. assert (c2 = c) as -> by congruence. apply Qle_refl.
  - destruct HC as [HC|HC]; [discriminate|]. destruct (cores_of_total _ HC) as [cores Ec].
    set (vs := v0 :: v1 :: r) in *. assert (L2 : (2 <= length vs)%nat) by (cbn; lia).
    destruct (fill_spec m t vs cores L2 Ec) as [vs' [E [L H]]]. { intros v Hv. apply Hd. exact Hv. }
    destruct (cores_of_spec _ _ Ec) as [Lc Xc]. assert (NEc : cores <> []) by (destruct cores; [cbn in Lc; lia|congruence]).
    set (ds := primitives m t) in *. set (gs := map (group_of cores) ds) in *.
    exists vs', (map (fun j => sel j gs ds) (seq 0 (length vs))), ds.
    split; [exact E|]. split; [apply mesh_floats_primitives|]. split.
    { apply sel_perm; [unfold gs; apply map_length|]. apply Forall_forall. intros g Hg. unfold gs in Hg. apply in_map_iff in Hg. destruct Hg as [d [<- _]].
      unfold group_of. destruct (gid_spec cores (head_point d) NEc) as [k [Ek K]]. rewrite Ek, Nat2Z.id. apply closest_lt in K. lia. }
    split; [exact L|]. split; [rewrite map_length, seq_length; reflexivity|].
    intros j v v' part E1 E2 E3. destruct (H j v E1) as [w [Ew [K Hw]]]. assert (w = v') as -> by congruence.
    assert (Lj : (j < length vs)%nat) by (apply nth_error_Some; congruence).
    assert (Pj : part = sel j gs ds).
    { rewrite nth_error_map in E3. rewrite (nth_error_nth' _ 0%nat) in E3 by (rewrite seq_length; lia). rewrite seq_nth in E3 by lia. cbn in E3. congruence. }
    subst part. split.
    { destruct Hw as [A B]. split; [exact A|]. rewrite B, Nat.mul_0_r. cbn [repeat]. rewrite app_nil_r. reflexivity. }
    split; [exact K|].
    intros d i v2 c c2 Hin Ei E4 E5. unfold sel in Hin. apply in_map_iff in Hin. destruct Hin as [[g d'] [Ed Hf]]. cbn in Ed. subst d'.
    apply filter_In in Hf. destruct Hf as [Hf Hg]. cbn in Hg. apply Nat.eqb_eq in Hg. subst g.
    assert (Gj : group_of cores d = j).
    { clear -Hf. unfold gs in Hf. induction ds as [|a ds IH]; cbn in Hf; [destruct Hf|]. destruct Hf as [Hf|Hf]; [congruence|auto]. }
    destruct (gid_spec cores (head_point d) NEc) as [k [Ek [c' [N1 N2]]]]. unfold group_of in Gj. rewrite Ek, Nat2Z.id in Gj. subst k.
    destruct (Xc j v E1) as [c1 [Q1 Q1']]. destruct (Xc i v2 Ei) as [c3 [Q3 Q3']].
    assert (c1 = c') as -> by congruence. assert (c' = c) as -> by congruence. assert (c3 = c2) as -> by congruence.
    apply (N2 i). exact Q3'.
Qed.
Print Assumptions voxel_fill_partition.

(** C41, second half: filling again at the same level changes nothing. *)
Theorem voxel_fill_once : forall m t t' vs vs', vs <> [] ->
  (length vs = 1%nat \/ Forall (fun v => v_core v <> None) vs) -> (forall v, hd_error vs = Some v -> v_data v (m_lod m) = None) ->
  fill_voxel m t vs = Some vs' -> fill_voxel m t' vs' = Some vs'.
Proof.
  intros m t t' vs vs' NE HC Hd E. destruct (voxel_fill_partition m t vs NE HC Hd) as [ws [parts [ds [E' [_ [_ [L [Lp H]]]]]]]].
  assert (ws = vs') as -> by congruence. destruct vs as [|v vs]; [congruence|]. destruct vs' as [|v' vs']; [discriminate|]. destruct parts as [|p parts]; [discriminate|].
  destruct (H 0%nat v v' p eq_refl eq_refl eq_refl) as [[_ D] _]. unfold fill_voxel. rewrite D. reflexivity.
Qed.
Print Assumptions voxel_fill_once.

(** ** Examples *)
Definition two_voxels : list voxel := [Voxel (Some (v3 0 0 0)) None (fun _ => None) (fun _ => None); Voxel (Some (v3 10 0 0)) None (fun _ => None) (fun _ => None)].
Definition tiny_mesh : mesh := Mesh 100 [v3 0 0 0; v3 9 0 0; v3 8 1 0] [(v3 0 0 0, v3 9 0 0); (v3 9 0 0, v3 8 1 0); (v3 8 1 0, v3 0 0 0)] [(v3 0 0 0, v3 9 0 0, v3 8 1 0)].
Example voxel_fill_example : two_voxels <> [] /\ Forall (fun v => v_core v <> None) two_voxels /\ (forall v, hd_error two_voxels = Some v -> v_data v (m_lod tiny_mesh) = None) /\
  match fill_voxel tiny_mesh DT_Segment two_voxels with Some [a; b] => v_size a 100 = Some 1 /\ v_size b 100 = Some 2 | _ => False end.
Proof.
  split; [discriminate|]. split; [repeat constructor; discriminate|]. split; [intros v H; inversion H; reflexivity|]. vm_compute. auto.
Qed.

(** ** C42 *)
(** Every edge and facet starts at a vertex. *)
Definition starts_at_vertex (m : mesh) : Prop :=
  (forall e, In e (m_edges m) -> In (fst e) (m_vertices m)) /\ (forall f, In f (m_facets m) -> In (fst (fst f)) (m_vertices m)).

Lemma head_vertex m t d : starts_at_vertex m -> In d (primitives m t) -> exists p, In p (m_vertices m) /\ head_point d = v3 (p AX) (p AY) (p AZ).
Proof.
  intros [A B] H. destruct t; cbn in H; apply in_map_iff in H.
  - destruct H as [[p q] [<- H]]. exists p. split; [apply (A _ H)|reflexivity].
  - destruct H as [[[p q] r] [<- H]]. exists p. split; [apply (B _ H)|reflexivity].
Qed.
Lemma inside_v3 p b : inside p b -> inside (v3 (p AX) (p AY) (p AZ)) b.
Proof. intros H [| |]; apply H. Qed.

Lemma generate_home rand sk size m vs : generate_voxels rand sk size m = Some vs ->
  Forall (fun v => v_data v = fun _ => None) vs /\ (length vs = 1%nat \/ Forall (fun v => v_core v <> None) vs) /\
  forall p, In p (m_vertices m) -> vertex_home vs p.
Proof.
  unfold generate_voxels. destruct (_ <? size).
  - intros E. inversion E; subst vs. destruct (voxels_of_cores_home m []) as [vs [E' H]]. cbn in E'. inversion E'; subst vs. exact H.
  - destruct (get_skeleton_points _ _ _) as [cores|]; [|discriminate]. cbn [bind]. intros E.
    destruct (voxels_of_cores_home m cores) as [vs' [E' H]]. assert (vs' = vs) as -> by congruence. exact H.
Qed.

(** C42, what holds: whatever the skeleton and the random numbers, when the voxels of a mesh are made and
    then filled at the same level, the first point of every primitive lies in the box of its voxel.
    Missing: the other points of the primitive, and other levels of detail. *)
Theorem voxel_boxes_partial : forall rand sk size m t vs, starts_at_vertex m -> m_vertices m <> [] ->
  generate_voxels rand sk size m = Some vs ->
  exists vs' parts ds, fill_voxel m t vs = Some vs' /\ mesh_floats m t ds /\ Permutation (concat parts) ds /\
    length vs' = length vs /\ length parts = length vs /\
    forall j v' part, nth_error vs' j = Some v' -> nth_error parts j = Some part ->
      stores (m_lod m) v' part /\ forall d, In d part -> exists b, v_box v' = Some b /\ inside (head_point d) b.
Proof.
  intros rand sk size m t vs SV NV G. destruct (generate_home _ _ _ _ _ G) as [HD [HC HH]].
  assert (NE : vs <> []). { destruct (m_vertices m) as [|p r]; [congruence|]. destruct (HH p (or_introl eq_refl)) as [l1 [v [l2 [b [E _]]]]]. rewrite E. destruct l1; discriminate. }
  assert (Hd : forall v, hd_error vs = Some v -> v_data v (m_lod m) = None).
  { intros v Hv. destruct HD; inversion Hv; subst. rewrite H. reflexivity. }
  destruct (voxel_fill_partition m t vs NE HC Hd) as [vs' [parts [ds [E [M [P [L [Lp H]]]]]]]].
  destruct (Nat.eq_dec (length vs) 1) as [L1|L1].
  - destruct vs as [|v [|? ?]]; cbn in L1; try lia. destruct vs' as [|v' [|? ?]]; cbn in L; try lia. destruct parts as [|pt [|? ?]]; cbn in Lp; try lia.
    destruct (H 0%nat v v' pt eq_refl eq_refl eq_refl) as [S [U _]].
    assert (S' : v' = set_data (set_size v (m_lod m) (Z.of_nat (length (primitives m t)))) (m_lod m) (map Some (concat (primitives m t)))).
    { unfold fill_voxel in E. rewrite (Hd v eq_refl) in E. unfold fill_segments, fill_triangles in E.
      destruct t; cbn [primitives]; rewrite map_length, <- flat_map_concat_map; inversion E; reflexivity. }
    exists [v'], [primitives m t], (primitives m t). split; [exact E|]. split; [apply mesh_floats_primitives|]. split; [cbn; rewrite app_nil_r; reflexivity|].
    split; [reflexivity|]. split; [reflexivity|]. intros [|j] w part E1 E2; [|destruct j; discriminate]. inversion E1; inversion E2; subst w part.
    split. { rewrite S'. split; cbn; unfold put; rewrite Z.eqb_refl; reflexivity. }
    intros d Hdd. destruct (head_vertex m t d SV Hdd) as [p [Ip Ep]]. destruct (HH p Ip) as [l1 [v1 [l2 [b [Ev [Eb [Ib _]]]]]]].
    assert (v1 = v) as ->. { destruct l1 as [|? [|? ?]]; cbn in Ev; inversion Ev; auto. }
    exists b. split; [destruct U as [_ [U _]]; congruence|]. rewrite Ep. apply inside_v3. exact Ib.
  - assert (L2 : (2 <= length vs)%nat) by (destruct vs as [|? [|? ?]]; cbn in *; [congruence|lia|lia]).
    destruct HC as [HC|HC]; [lia|]. destruct (cores_of_total _ HC) as [cores Ec].
    destruct (fill_spec m t vs cores L2 Ec) as [ws [E' [L' H']]]. { intros v Hv. apply Hd. destruct vs; exact Hv. }
    assert (ws = vs') as -> by congruence.
    destruct (cores_of_spec _ _ Ec) as [Lc Xc]. assert (NEc : cores <> []) by (destruct cores; [cbn in Lc; lia|congruence]).
    clear ds M P parts Lp H. set (ds := primitives m t) in *. set (gs := map (group_of cores) ds) in *.
    exists vs', (map (fun j => sel j gs ds) (seq 0 (length vs))), ds.
    split; [exact E|]. split; [apply mesh_floats_primitives|]. split.
    { apply sel_perm; [unfold gs; apply map_length|]. apply Forall_forall. intros g Hg. unfold gs in Hg. apply in_map_iff in Hg. destruct Hg as [d [<- _]].
      unfold group_of. destruct (gid_spec cores (head_point d) NEc) as [k [Ek K]]. rewrite Ek, Nat2Z.id. apply closest_lt in K. lia. }
    split; [exact L'|]. split; [rewrite map_length, seq_length; reflexivity|].
    intros j v' part E2 E3. assert (Lj : (j < length vs)%nat) by (rewrite <- L'; apply nth_error_Some; congruence).
    destruct (nth_error vs j) as [v|] eqn:E1; [|apply nth_error_None in E1; lia].
    destruct (H' j v E1) as [w [Ew [K Hw]]]. assert (w = v') as -> by congruence.
    assert (Pj : part = sel j gs ds).
    { rewrite nth_error_map in E3. rewrite (nth_error_nth' _ 0%nat) in E3 by (rewrite seq_length; lia). rewrite seq_nth in E3 by lia. cbn in E3. congruence. }
    subst part. split.
    { destruct Hw as [A B]. split; [exact A|]. rewrite B, Nat.mul_0_r. cbn [repeat]. rewrite app_nil_r. reflexivity. }
    intros d Hin. unfold sel in Hin. apply in_map_iff in Hin. destruct Hin as [[g d'] [Ed Hf]]. cbn in Ed. subst d'.
    apply filter_In in Hf. destruct Hf as [Hf Hg]. cbn in Hg. apply Nat.eqb_eq in Hg. subst g.
    assert (Gj : group_of cores d = j /\ In d ds).
    { clear -Hf. unfold gs in Hf. induction ds as [|a ds IH]; cbn in Hf; [destruct Hf|]. destruct Hf as [Hf|Hf]; [inversion Hf; split; [auto|left; auto]|]. destruct (IH Hf). split; [auto|right; auto]. }
    destruct Gj as [Gj Hds]. destruct (head_vertex m t d SV Hds) as [p [Ip Ep]].
    destruct (HH p Ip) as [l1 [v1 [l2 [b [Ev [Eb [Ib [One|[c [cores' [cs1 [cs2 [Qc [Qcs [F Lcs]]]]]]]]]]]]]]]; [rewrite One in L2; cbn in L2; lia|].
    assert (cores' = cores) as -> by congruence.
    destruct (gid_first cores (head_point d) NEc) as [m1 [e [m2 [Eg S]]]].
    unfold group_of in Gj. rewrite Eg, Nat2Z.id in Gj.
    assert (S' : first_closest cores p e m1 m2) by (rewrite Ep in S; exact S).
    destruct (first_unique p _ _ _ _ _ _ _ S' F) as [Len _].
    assert (v1 = v). { rewrite Ev, nth_error_app2 in E1 by lia. replace (j - length l1)%nat with 0%nat in E1 by lia. cbn in E1. congruence. }
    subst v1. exists b. split; [destruct K as [_ [K _]]; congruence|]. rewrite Ep. apply inside_v3. exact Ib.
Qed.
Print Assumptions voxel_boxes_partial.

(** A prism of length [h] over a convex polygon with 500 corners on a parabola: 1000 vertices, 2994
    edges, 1996 triangles; as the compressor does, voxels of about 500 vertices. *)
Definition h : Z := 1000000.
Definition corner (x : Z) (i : nat) : vec := let n := Z.of_nat (i mod 500) in v3 (inject_Z x) (inject_Z n) (inject_Z (n * (499 - n))).
Definition prism : mesh :=
  let ring := seq 0 500 in let fan := seq 2 497 in
  Mesh 100 (map (corner 0) ring ++ map (corner h) ring)
    (map (fun i => (corner 0 i, corner 0 (S i))) ring ++ map (fun i => (corner h i, corner h (S i))) ring ++
     map (fun i => (corner 0 i, corner h i)) ring ++ map (fun i => (corner 0 i, corner h (S i))) ring ++
     map (fun i => (corner 0 0, corner 0 i)) fan ++ map (fun i => (corner h 0, corner h i)) fan)
    (map (fun i => (corner 0 i, corner h i, corner h (S i))) ring ++ map (fun i => (corner 0 i, corner h (S i), corner 0 (S i))) ring ++
     map (fun i => (corner 0 0, corner 0 i, corner 0 (S i))) (seq 1 498) ++ map (fun i => (corner h 0, corner h (S i), corner h i)) (seq 1 498)).
(** A skeleton along the axis of the prism; rand() returns 0 and then 1. *)
Definition axis_points : list vec := map (fun x => v3 (inject_Z x) 250 30000) [h / 2; 0; h].
Definition dice (k : nat) : Z := Z.of_nat k.
Lemma prism_proper : starts_at_vertex prism /\ m_vertices prism <> [].
Proof.
  assert (C : forall x i, corner x i = corner x (i mod 500)). { intros x i. unfold corner. rewrite Nat.mod_mod by lia. reflexivity. }
  assert (V : forall x i, (x = 0 \/ x = h) -> In (corner x i) (m_vertices prism)).
  { intros x i H. rewrite C. cbn [prism m_vertices]. apply in_app_iff. pose proof (Nat.mod_upper_bound i 500).
    destruct H as [-> | ->]; [left|right]; apply in_map, in_seq; lia. }
  split; [|intro E; assert (X := V 0 0%nat (or_introl eq_refl)); rewrite E in X; destruct X].
  split.
  - intros e H. cbn [prism m_edges] in H. rewrite !in_app_iff, !in_map_iff in H.
    destruct H as [[i [<- _]]|[[i [<- _]]|[[i [<- _]]|[[i [<- _]]|[[i [<- _]]|[i [<- _]]]]]]]; apply V; auto.
  - intros e H. cbn [prism m_facets] in H. rewrite !in_app_iff, !in_map_iff in H.
    destruct H as [[i [<- _]]|[[i [<- _]]|[[i [<- _]]|[i [<- _]]]]]; apply V; auto.
Qed.

(** A point beside the prism, half way, one unit off its lower edge; and the middle of that edge. *)
Definition visitor : vec := v3 (inject_Z (h / 2)) (-1) 0.
Definition along (e : vec * vec) (s : Q) : vec := fun a => (fst e a + s * (snd e a - fst e a))%Q.
Definition far_box (v : voxel) : bool := match v_box v with Some b => Qle_bool (inject_Z (10 ^ 11)) (mindist (distance b (Aab visitor visitor))) | None => false end.
Lemma prism_boxes : match generate_voxels dice (Some axis_points) 500 prism with Some vs => forallb far_box vs = true /\ length vs = 2%nat | None => False end.
Proof. vm_compute. auto. Qed.
Lemma prism_edge : In (corner 0 0, corner h 0) (m_edges prism).
Proof. cbn [prism m_edges]. rewrite !in_app_iff. right. right. left. apply in_map_iff. exists 0%nat. split; [reflexivity|]. apply in_seq. lia. Qed.

(** C42 is false: a mesh, a skeleton and random numbers such that the voxels made and filled leave an
    edge sticking out of all boxes, and something at distance one from that edge is at a distance of
    more than 300000 (squared 10^11) from every box. *)
Theorem voxel_boxes_refuted : exists rand sk m vs vs' e q, starts_at_vertex m /\ In e (m_edges m) /\
  generate_voxels rand sk 500 m = Some vs /\ fill_voxel m DT_Segment vs = Some vs' /\ length vs' = 2%nat /\
  (dist2 (along e (1 # 2)) q <= 1)%Q /\
  forall v, In v vs' -> exists b, v_box v = Some b /\ ~ inside (along e (1 # 2)) b /\ (inject_Z (10 ^ 11) <= mindist (distance b (Aab q q)))%Q.
Proof.
  pose proof prism_boxes as H. destruct (generate_voxels dice (Some axis_points) 500 prism) as [vs|] eqn:G; [|destruct H]. destruct H as [F L].
  destruct (voxel_boxes_partial _ _ _ _ DT_Segment _ (proj1 prism_proper) (proj2 prism_proper) G) as [vs' [_ [_ [E [_ [_ [L' _]]]]]]].
  destruct (generate_home _ _ _ _ _ G) as [HD [HC HH]].
  destruct (voxel_fill_partition prism DT_Segment vs) as [ws [parts [ds [E' [_ [_ [Lw [Lp H]]]]]]]].
  { destruct vs; discriminate. } { exact HC. } { intros v Hv. destruct HD; inversion Hv; subst. rewrite H. reflexivity. }
  assert (ws = vs') as -> by congruence.
  exists dice, (Some axis_points), prism, vs, vs', (corner 0 0, corner h 0), visitor.
  split; [exact (proj1 prism_proper)|]. split; [exact prism_edge|]. split; [exact G|]. split; [exact E|]. split; [congruence|].
  assert (D : (dist2 (along (corner 0 0, corner h 0) (1 # 2)) visitor <= 1)%Q) by (vm_compute; discriminate).
  split; [exact D|].
  intros v' Hv. apply In_nth_error in Hv. destruct Hv as [j Ej]. assert (Lj : (j < length vs')%nat) by (apply nth_error_Some; congruence).
  destruct (nth_error vs j) as [v|] eqn:Ev; [|apply nth_error_None in Ev; lia]. destruct (nth_error parts j) as [pt|] eqn:Ept; [|apply nth_error_None in Ept; lia].
  destruct (H j v v' pt Ev Ej Ept) as [_ [[_ [Eb _]] _]].
  rewrite forallb_forall in F. specialize (F v (nth_error_In _ _ Ev)). unfold far_box in F. destruct (v_box v) as [b|] eqn:Ebv; [|discriminate].
  exists b. split; [exact Eb|]. apply Qle_bool_iff in F. split; [|exact F].
  intros I. pose proof (mindist_lower b (Aab visitor visitor) _ visitor I) as M.
  assert (Iv : inside visitor (Aab visitor visitor)) by (intros a; split; apply Qle_refl). specialize (M Iv).
  assert (X : (inject_Z (10 ^ 11) <= 1)%Q) by (eapply Qle_trans; [exact F|]; eapply Qle_trans; [exact M|exact D]). vm_compute in X. congruence.
Qed.
Print Assumptions voxel_boxes_refuted.

Example voxel_boxes_example : starts_at_vertex prism /\ m_vertices prism <> [] /\ exists vs, generate_voxels dice (Some axis_points) 500 prism = Some vs.
Proof.
  split; [exact (proj1 prism_proper)|]. split; [exact (proj2 prism_proper)|].
  pose proof prism_boxes as H. destruct (generate_voxels dice (Some axis_points) 500 prism) as [vs|]; [exists vs; reflexivity|destruct H].
Qed.

(** ** C69 *)
(** Sampling from more points than wanted is safe; between one and [nc] points are kept, in their order,
    and never the first one.  Missing: exactly [nc] points, and the case of as many points as wanted. *)
Theorem skeleton_sampling_partial : forall (A : Type) rand (pts : list A) nc, 0 < nc < Z.of_nat (length pts) ->
  exists r, get_skeleton_points rand (Some pts) nc = Some r /\ subseq r (tl pts) /\ (1 <= length r)%nat /\ Z.of_nat (length r) <= nc.
Proof. intros A. exact skeleton_spec. Qed.
Print Assumptions skeleton_sampling_partial.
Example skeleton_example : get_skeleton_points dice (Some [10; 11; 12; 13; 14]) 3 = Some [11; 12; 13].
Proof. vm_compute. reflexivity. Qed.

(** C69 is false: with exactly as many points as wanted, a value of rand() makes the code index one
    past the end of the array; and it can keep a single point although three are wanted and five exist. *)
Theorem skeleton_sampling_refuted : exists rand (pts : list Z) nc, 0 < nc <= Z.of_nat (length pts) /\ (forall k, 0 <= rand k) /\ get_skeleton_points rand (Some pts) nc = None.
Proof. exists dice, [10; 11], 2. split; [cbn; lia|]. split; [intros k; unfold dice; lia|]. vm_compute. reflexivity. Qed.
Print Assumptions skeleton_sampling_refuted.
Theorem skeleton_sampling_few_refuted : exists rand (pts : list Z) nc r, 0 < nc < Z.of_nat (length pts) /\ (forall k, 0 <= rand k) /\
  get_skeleton_points rand (Some pts) nc = Some r /\ Z.of_nat (length r) < nc.
Proof. exists (fun _ => 0), [10; 11; 12; 13; 14], 3, [11]. split; [cbn; lia|]. split; [lia|]. split; [vm_compute; reflexivity|cbn; lia]. Qed.
Print Assumptions skeleton_sampling_few_refuted.
