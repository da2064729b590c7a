(** Proofs about the voxels: where each datum goes, what the boxes hold, which skeleton points are kept. *)
From Coq Require Import QArith ZArith List Bool Lia Lqa Permutation.
From Verif Require Import Arr AabModel AabProofs VoxelModel.
Import ListNotations.
Open Scope Z_scope.

(** ** The nearest core *)
(** What is wanted of the chosen index, in terms of positions and squared distances only. *)
Definition closest (cores : list vec) (p : vec) (j : nat) : Prop :=
  exists c, nth_error cores j = Some c /\ forall i c', nth_error cores i = Some c' -> (dist2 c p <= dist2 c' p)%Q.

Lemma sq_dist2 c p : sq_distance c p = dist2 c p.
Proof. reflexivity. Qed.

Lemma nearest_spec p : forall cores all k b d,
  nth_error all b = Some d -> (b < k)%nat ->
  (forall i c, (i < k)%nat -> nth_error all i = Some c -> (dist2 d p <= dist2 c p)%Q) ->
  skipn k all = cores ->
  exists j c, nearest (Z.of_nat k) cores p (Some (Z.of_nat b, dist2 d p)) = Some (Z.of_nat j, dist2 c p) /\
    nth_error all j = Some c /\ forall i c', nth_error all i = Some c' -> (dist2 c p <= dist2 c' p)%Q.
Proof.
  induction cores as [|c r IH]; intros all k b d Hb L M E.
  - exists b, d. split; [reflexivity|]. split; [exact Hb|]. intros i c' Hi. apply (M i c'); auto.
    assert (length all <= k)%nat. { rewrite <- (firstn_skipn k all), E, app_nil_r, firstn_length. lia. }
    assert (i < length all)%nat by (apply nth_error_Some; congruence). lia.
  - assert (Hk : nth_error all k = Some c).
    { rewrite <- (firstn_skipn k all), E. assert (length (firstn k all) = k).
      { rewrite firstn_length. assert (~ length all <= k)%nat; [|lia]. intro. rewrite skipn_all2 in E by lia. discriminate. }
      rewrite nth_error_app2 by lia. rewrite H, Nat.sub_diag. reflexivity. }
    assert (E' : skipn (S k) all = r).
    { clear -E. revert k E. induction all as [|a all IH]; intros [|k] E; cbn in *; try discriminate; [congruence|]. apply IH. exact E. }
    cbn [nearest]. rewrite sq_dist2. replace (Z.of_nat k + 1) with (Z.of_nat (S k)) by lia.
    destruct (Qltb_spec (dist2 c p) (dist2 d p)).
    + apply IH with (1 := Hk); auto. intros i c' Hi E1. destruct (Nat.eq_dec i k) as [->|].
      * assert (c' = c) as -> by congruence. apply Qle_refl.
      * apply Qle_trans with (dist2 d p); [apply Qlt_le_weak; auto|]. apply (M i); auto. lia.
    + apply IH with (1 := Hb); auto. intros i c' Hi E1. destruct (Nat.eq_dec i k) as [->|].
      * assert (c' = c) as -> by congruence. apply Qnot_lt_le. auto.
      * apply (M i); auto. lia.
Qed.

Lemma gid_spec cores p : cores <> [] -> exists j, gid cores p = Z.of_nat j /\ closest cores p j.
Proof.
  destruct cores as [|c r]; [congruence|]. intros _. unfold gid. cbn [nearest]. rewrite sq_dist2.
  destruct (nearest_spec p r (c :: r) 1 0 c) as [j [c' [E [H M]]]]; auto; try lia.
  - intros i c' Hi E. assert (i = 0)%nat as -> by lia. inversion E. apply Qle_refl.
  - change (Z.of_nat 1) with (0 + 1) in E. change (Z.of_nat 0) with 0 in E. rewrite E. exists j. split; [reflexivity|]. exists c'. auto.
Qed.

Lemma closest_lt cores p j : closest cores p j -> (j < length cores)%nat.
Proof. intros [c [H _]]. apply nth_error_Some. congruence. Qed.

(** ** Grouping of the data *)
Definition sel {A} (j : nat) (gs : list nat) (ds : list A) : list A := map snd (filter (fun x => fst x =? j)%nat (combine gs ds)).

Lemma sel_cons {A} j g gs (d : A) ds : sel j (g :: gs) (d :: ds) = if (g =? j)%nat then d :: sel j gs ds else sel j gs ds.
Proof. unfold sel. cbn [combine filter fst]. destruct (g =? j)%nat; reflexivity. Qed.

Lemma sel_perm {A} n : forall gs (ds : list A), length gs = length ds -> Forall (fun g => g < n)%nat gs ->
  Permutation (concat (map (fun j => sel j gs ds) (seq 0 n))) ds.
Proof.
  induction gs as [|g gs IH]; intros [|d ds] L F; try discriminate.
  - clear. induction (seq 0 n); cbn; auto.
  - inversion F; subst. cbn [length] in L.
    transitivity (d :: concat (map (fun j => sel j gs ds) (seq 0 n))); [|constructor; apply IH; auto].
    assert (Hn : forall l, ~ In g l -> concat (map (fun j => sel j (g :: gs) (d :: ds)) l) = concat (map (fun j => sel j gs ds) l)).
    { induction l as [|x l IHl]; intros N; [reflexivity|]. cbn [map concat]. rewrite sel_cons.
      destruct (Nat.eqb_spec g x); [subst; exfalso; apply N; left; auto|]. rewrite IHl; auto. intro; apply N; right; auto. }
    assert (Hi : forall l, In g l -> NoDup l -> Permutation (concat (map (fun j => sel j (g :: gs) (d :: ds)) l)) (d :: concat (map (fun j => sel j gs ds) l))).
    { induction l as [|x l IHl]; intros I N; [destruct I|]. inversion N; subst. cbn [map concat]. rewrite sel_cons.
      destruct (Nat.eqb_spec g x).
      - subst. rewrite Hn; auto.
      - destruct I as [->|I]; [congruence|]. rewrite (IHl I); auto. rewrite Permutation_middle. reflexivity. }
    apply Hi; [apply in_seq; lia|apply seq_NoDup].
Qed.

Definition count (j : nat) (gs : list nat) : nat := length (filter (fun g => g =? j)%nat gs).
Lemma count_cons j g gs : count j (g :: gs) = ((if (g =? j)%nat then 1 else 0) + count j gs)%nat.
Proof. unfold count. cbn [filter]. destruct (g =? j)%nat; reflexivity. Qed.

Lemma nth_error_upd {A} (l : list A) i j v : (i < length l)%nat ->
  nth_error (upd l i v) j = if (i =? j)%nat then Some v else nth_error l j.
Proof.
  revert i j. induction l as [|x l IH]; intros [|i] [|j] H; cbn [upd nth_error length Nat.eqb] in *; try lia; auto.
  apply IH. lia.
Qed.

Lemma aget_nat {A} (l : list A) j : aget l (Z.of_nat j) = nth_error l j.
Proof. unfold aget. destruct (Z.ltb_spec (Z.of_nat j) 0); [lia|]. rewrite Nat2Z.id. reflexivity. Qed.
Lemma aset_nat {A} (l : list A) j v : (j < length l)%nat -> aset l (Z.of_nat j) v = Some (upd l j v).
Proof. intros. rewrite aset_upd by lia. rewrite Nat2Z.id. reflexivity. Qed.

(** Data of w floats each, at least three. *)
Section Data.
Variable w : nat.
Variable cores : list vec.

Definition head_point (d : list Q) : vec := match d with x :: y :: z :: _ => v3 x y z | _ => v3 0 0 0 end.
Definition group_of (d : list Q) : nat := Z.to_nat (gid cores (head_point d)).

Lemma point_at_concat pre d post : (3 <= w)%nat -> length d = w -> Forall (fun x => length x = w) pre ->
  point_at (concat pre ++ d ++ post) (Z.of_nat (length pre) * Z.of_nat w) = Some (head_point d).
Proof.
  intros W3 L F.
  assert (LC : length (concat pre) = (length pre * w)%nat). { clear -F. induction F; cbn [concat length]; [reflexivity|]. rewrite app_length, IHF, H. lia. }
  unfold point_at. rewrite <- Nat2Z.inj_mul.
  replace (Z.of_nat (length pre * w) + 1) with (Z.of_nat (length pre * w + 1)) by lia.
  replace (Z.of_nat (length pre * w) + 2) with (Z.of_nat (length pre * w + 2)) by lia.
  rewrite !aget_nat. rewrite (nth_error_app2 (concat pre) (d ++ post) (n := length pre * w)) by lia.
  rewrite (nth_error_app2 (concat pre) (d ++ post) (n := length pre * w + 1)) by lia.
  rewrite (nth_error_app2 (concat pre) (d ++ post) (n := length pre * w + 2)) by lia. rewrite LC.
  replace (length pre * w - length pre * w)%nat with 0%nat by lia.
  replace (length pre * w + 1 - length pre * w)%nat with 1%nat by lia.
  replace (length pre * w + 2 - length pre * w)%nat with 2%nat by lia.
  destruct d as [|x [|y [|z d]]]; cbn [length] in L; try lia. reflexivity.
Qed.

Definition counts_are (cnt : list Z) (f : nat -> nat) : Prop := forall j, (j < length cores)%nat -> nth_error cnt j = Some (Z.of_nat (f j)).

Lemma group_data_spec : (3 <= w)%nat -> cores <> [] -> forall ds pre cnt f,
  Forall (fun x => length x = w) pre -> Forall (fun x => length x = w) ds ->
  length cnt = length cores -> counts_are cnt f ->
  exists cnt', group_data (length ds) (Z.of_nat (length pre)) (Z.of_nat w) cores (concat pre ++ concat ds) cnt =
      Some (map (fun d => Z.of_nat (group_of d)) ds, cnt') /\
    length cnt' = length cores /\ counts_are cnt' (fun j => f j + count j (map group_of ds))%nat.
Proof.
  intros W3 NE. induction ds as [|d ds IH]; intros pre cnt f Fp Fd L C.
  - exists cnt. split; [reflexivity|]. split; [exact L|]. intros j Hj. rewrite (C j Hj). f_equal. cbn. lia.
  - inversion Fd; subst x l. cbn [length group_data concat].
    rewrite point_at_concat by auto. cbn [bind].
    destruct (gid_spec cores (head_point d) NE) as [g [Eg Cg]]. pose proof (closest_lt _ _ _ Cg) as Lg.
    assert (Gd : group_of d = g). { unfold group_of. rewrite Eg. apply Nat2Z.id. }
    rewrite Eg, aget_nat, (C g Lg). cbn [bind]. rewrite aset_nat by lia. cbn [bind].
    destruct (IH (pre ++ [d]) (upd cnt g (Z.of_nat (f g) + 1)) (fun j => (f j + if (g =? j)%nat then 1 else 0)%nat)) as [cnt' [E [L' C']]].
    + apply Forall_app; auto.
    + auto.
    + rewrite upd_length; auto.
    + intros j Hj. rewrite nth_error_upd by lia. destruct (Nat.eqb_spec g j); [subst; f_equal; lia|]. rewrite (C j Hj). f_equal. lia.
    + rewrite app_length in E. cbn [length] in E. replace (Z.of_nat (length pre + 1)) with (Z.of_nat (length pre) + 1) in E by lia.
      rewrite concat_app in E. cbn [concat] in E. rewrite app_nil_r, <- app_assoc in E. rewrite E. cbn [bind map].
      exists cnt'. rewrite Gd. split; [reflexivity|]. split; [exact L'|].
      intros j Hj. rewrite (C' j Hj). f_equal. rewrite count_cons. lia.
Qed.

(** ** Copying *)
Definition len_ok (l : list (list Q)) : Prop := Forall (fun x => length x = w) l.
Lemma concat_len l : len_ok l -> length (concat l) = (length l * w)%nat.
Proof. induction 1; cbn [concat length]; [reflexivity|]. rewrite app_length, IHForall, H. lia. Qed.

Lemma memcpy_spec dn pre d post k : len_ok dn -> len_ok pre -> length d = w ->
  memcpy (map Some (concat dn) ++ repeat None (w * S k)) (Z.of_nat (length dn) * Z.of_nat w)
    (concat pre ++ d ++ post) (Z.of_nat (length pre) * Z.of_nat w) (Z.of_nat w) =
  Some (map Some (concat (dn ++ [d])) ++ repeat None (w * k)).
Proof.
  intros Fd Fp L. unfold memcpy. pose proof (concat_len _ Fd) as Ld. pose proof (concat_len _ Fp) as Lp.
  rewrite <- !Nat2Z.inj_mul, <- !Nat2Z.inj_add.
  rewrite !app_length, map_length, repeat_length, Ld, Lp.
  replace (0 <=? Z.of_nat (length dn * w)) with true by (symmetry; apply Z.leb_le; lia).
  replace (0 <=? Z.of_nat (length pre * w)) with true by (symmetry; apply Z.leb_le; lia).
  replace (Z.of_nat (length dn * w + w) <=? Z.of_nat (length dn * w + w * S k)) with true by (symmetry; apply Z.leb_le; lia).
  replace (Z.of_nat (length pre * w + w) <=? Z.of_nat (length pre * w + (length d + length post))) with true by (symmetry; apply Z.leb_le; lia).
  cbn [andb]. rewrite !Nat2Z.id. f_equal.
  rewrite firstn_app, map_length, Ld, Nat.sub_diag. cbn [firstn].
  rewrite firstn_all2 by (rewrite map_length; lia). rewrite app_nil_r.
  rewrite concat_app, map_app, <- app_assoc. f_equal. cbn [concat]. rewrite app_nil_r. f_equal.
  - rewrite skipn_app, Lp, Nat.sub_diag, skipn_all2 by lia. cbn [skipn app].
    rewrite firstn_app, L, Nat.sub_diag. cbn [firstn]. rewrite firstn_all2 by lia. rewrite app_nil_r. reflexivity.
  - rewrite skipn_app, map_length, Ld. rewrite skipn_all2 by (rewrite map_length; lia). cbn [app].
    replace (length dn * w + w - length dn * w)%nat with w by lia.
    replace (w * S k)%nat with (w + w * k)%nat by lia. rewrite repeat_app, skipn_app, repeat_length, Nat.sub_diag.
    rewrite skipn_all2 by (rewrite repeat_length; lia). reflexivity.
Qed.

(** What a voxel keeps: everything except the entry of one level. *)
Definition kept (lod : Z) (v v' : voxel) : Prop :=
  v_core v' = v_core v /\ v_box v' = v_box v /\ forall l, l <> lod -> v_data v' l = v_data v l /\ v_size v' l = v_size v l.
Lemma kept_refl lod v : kept lod v v. Proof. repeat split; auto. Qed.
Lemma kept_trans lod a b c : kept lod a b -> kept lod b c -> kept lod a c.
Proof.
  intros [A [B C]] [D [E F]]. split; [congruence|]. split; [congruence|].
  intros l Hl. destruct (C l Hl), (F l Hl). split; congruence.
Qed.

Definition holds (lod : Z) (dn : list (list Q)) (free : nat) (v : voxel) : Prop :=
  v_size v lod = Some (Z.of_nat (length dn)) /\ v_data v lod = Some (map Some (concat dn) ++ repeat None (w * free)).

Lemma copy_data_spec lod : forall ds gs pre vs dn, length gs = length ds -> len_ok pre -> len_ok ds -> (forall j, len_ok (dn j)) ->
  Forall (fun g => g < length vs)%nat gs ->
  (forall j v, nth_error vs j = Some v -> holds lod (dn j) (count j gs) v) ->
  exists vs', copy_data lod (Z.of_nat w) (Z.of_nat (length pre)) (map Z.of_nat gs) (concat pre ++ concat ds) vs = Some vs' /\
    length vs' = length vs /\
    forall j v, nth_error vs j = Some v -> exists v', nth_error vs' j = Some v' /\ kept lod v v' /\ holds lod (dn j ++ sel j gs ds) 0 v'.
Proof.
  induction ds as [|d ds IH]; intros [|g gs] pre vs dn L Fp Fd Fn Fg H; try discriminate.
  - exists vs. split; [reflexivity|]. split; [reflexivity|]. intros j v E. exists v. split; [exact E|]. split; [apply kept_refl|].
    change (sel j [] []) with (@nil (list Q)). rewrite app_nil_r. exact (H j v E).
  - cbn [length] in L. inversion Fd; subst x l. inversion Fg; subst x l. cbn [map copy_data concat]. rewrite aget_nat.
    destruct (nth_error vs g) as [v|] eqn:Ev; [|apply nth_error_None in Ev; lia]. cbn [bind].
    destruct (H g v Ev) as [Hs Hd]. rewrite Hd, Hs. cbn [bind]. rewrite count_cons, Nat.eqb_refl.
    change (1 + count g gs)%nat with (S (count g gs)). rewrite memcpy_spec; auto. cbn [bind]. rewrite aset_nat by auto. cbn [bind].
    set (v1 := set_size _ _ _). replace (Z.of_nat (length pre) + 1) with (Z.of_nat (length (pre ++ [d]))) by (rewrite app_length; cbn [length]; lia).
    assert (K1 : kept lod v v1).
    { split; [reflexivity|]. split; [reflexivity|]. intros l Hl. cbn. unfold put. destruct (Z.eqb_spec l lod); [congruence|auto]. }
    destruct (IH gs (pre ++ [d]) (upd vs g v1) (fun j => if (g =? j)%nat then dn g ++ [d] else dn j)) as [vs' [E [L' S']]].
    + lia.
    + apply Forall_app; split; auto.
    + auto.
    + intros j. destruct (g =? j)%nat; [|apply Fn]. apply Forall_app; split; [apply Fn|]. constructor; [assumption|constructor].
    + rewrite upd_length. auto.
    + intros j v2 E2. rewrite nth_error_upd in E2 by auto. destruct (Nat.eqb_spec g j) as [<-|N].
      * inversion E2; subst v2. split; cbn; unfold put; rewrite Z.eqb_refl.
        -- f_equal. rewrite app_length. cbn [length]. lia.
        -- reflexivity.
      * destruct (H j v2 E2) as [A B]. split; [exact A|]. rewrite B, count_cons. apply Nat.eqb_neq in N. rewrite N. reflexivity.
    + rewrite concat_app in E. cbn [concat] in E. rewrite app_nil_r, <- app_assoc in E. rewrite E.
      exists vs'. split; [reflexivity|]. rewrite upd_length in L'. split; [exact L'|].
      intros j v2 E2. rewrite sel_cons. destruct (Nat.eqb_spec g j) as [<-|N].
      * assert (v2 = v) as -> by congruence. destruct (S' g v1) as [v' [E' [K' H']]].
        { rewrite nth_error_upd by auto. rewrite Nat.eqb_refl. reflexivity. }
        exists v'. split; [exact E'|]. split; [eapply kept_trans; eauto|]. rewrite Nat.eqb_refl, <- app_assoc in H'. exact H'.
      * destruct (S' j v2) as [v' [E' [K' H']]].
        { rewrite nth_error_upd by auto. apply Nat.eqb_neq in N. rewrite N. exact E2. }
        exists v'. split; [exact E'|]. split; [exact K'|]. apply Nat.eqb_neq in N. rewrite N in H'. exact H'.
Qed.

Lemma allocate_spec lod : forall vs cnt f o, length cnt = length vs ->
  (forall j, (j < length vs)%nat -> nth_error cnt j = Some (Z.of_nat (f (o + j)%nat))) ->
  exists vs', allocate lod (Z.of_nat w) vs cnt = Some vs' /\ length vs' = length vs /\
    forall j v, nth_error vs j = Some v -> exists v', nth_error vs' j = Some v' /\ kept lod v v' /\ holds lod [] (f (o + j)%nat) v'.
Proof.
  induction vs as [|v vs IH]; intros [|c cnt] f o L C; try discriminate.
  - exists []. split; [reflexivity|]. split; [reflexivity|]. intros [|j] v E; discriminate.
  - cbn [length] in *. destruct (IH cnt f (S o)) as [vs' [E [L' H]]]; [lia| |].
    { intros j Hj. specialize (C (S j) ltac:(lia)). cbn in C. rewrite C. do 3 f_equal. lia. }
    cbn [allocate]. rewrite E. cbn [bind]. eexists. split; [reflexivity|]. split; [cbn; lia|].
    intros [|j] v1 E1; cbn in E1.
    + inversion E1; subst v1. eexists. split; [reflexivity|]. split.
      * split; [reflexivity|]. split; [reflexivity|]. intros l Hl. cbn. unfold put. destruct (Z.eqb_spec l lod); [congruence|auto].
      * specialize (C 0%nat ltac:(lia)). cbn in C. inversion C; subst c. split; cbn; unfold put; rewrite Z.eqb_refl; [reflexivity|].
        f_equal. rewrite <- Nat2Z.inj_mul, Nat2Z.id. f_equal. lia.
    + destruct (H j v1 E1) as [v' [E' [K H']]]. exists v'. split; [exact E'|]. split; [exact K|].
      replace (o + S j)%nat with (S o + j)%nat by lia. exact H'.
Qed.
End Data.

(** ** The data of a mesh, by what they are: one list of floats per edge or facet. *)
Definition width (t : data_type) : nat := match t with DT_Segment => 6 | DT_Triangle => 9 end.
Definition primitives (m : mesh) (t : data_type) : list (list Q) :=
  match t with DT_Segment => map segment_datum (m_edges m) | DT_Triangle => map triangle_datum (m_facets m) end.

Lemma primitives_len m t : len_ok (width t) (primitives m t).
Proof. destruct t; apply Forall_forall; intros x H; apply in_map_iff in H; destruct H as [y [<- _]]; [destruct y as [p q]|destruct y as [[p q] r]]; reflexivity. Qed.

Lemma cores_of_spec vs cores : cores_of vs = Some cores -> length cores = length vs /\
  forall j v, nth_error vs j = Some v -> exists c, v_core v = Some c /\ nth_error cores j = Some c.
Proof.
  revert cores. induction vs as [|v vs IH]; intros cores E; cbn in E.
  - inversion E. split; [reflexivity|]. intros [|j] v H; discriminate.
  - destruct (v_core v) as [c|] eqn:Ec; [|discriminate]. cbn in E. destruct (cores_of vs) as [cs|]; [|discriminate]. cbn in E. inversion E.
    destruct (IH cs eq_refl) as [L H]. split; [cbn; lia|]. intros [|j] v1 H1; cbn in *.
    + inversion H1; subst. exists c. auto.
    + apply H; auto.
Qed.
Lemma cores_of_total vs : Forall (fun v => v_core v <> None) vs -> exists cores, cores_of vs = Some cores.
Proof.
  induction 1 as [|v vs H F [cs E]]; [exists []; reflexivity|]. destruct (v_core v) as [c|] eqn:Ec; [|congruence].
  exists (c :: cs). cbn. rewrite Ec, E. reflexivity.
Qed.

Lemma fill_spec m t vs cores : (2 <= length vs)%nat -> cores_of vs = Some cores ->
  (forall v, nth_error vs 0 = Some v -> v_data v (m_lod m) = None) ->
  exists vs', fill_voxel m t vs = Some vs' /\ length vs' = length vs /\
    forall j v, nth_error vs j = Some v -> exists v', nth_error vs' j = Some v' /\ kept (m_lod m) v v' /\
      holds (width t) (m_lod m) (sel j (map (group_of cores) (primitives m t)) (primitives m t)) 0 v'.
Proof.
  intros L2 Ec Hd. destruct (cores_of_spec _ _ Ec) as [Lc _].
  assert (NE : cores <> []). { destruct cores; [cbn in Lc; lia|congruence]. }
  set (w := width t). assert (W3 : (3 <= w)%nat) by (unfold w; destruct t; cbn; lia).
  pose proof (primitives_len m t) as Fp. fold w in Fp.
  destruct (group_data_spec w cores W3 NE (primitives m t) [] (repeat 0 (length vs)) (fun _ => 0%nat)) as [cnt [Eg [Lcnt C]]].
  { constructor. } { exact Fp. } { rewrite repeat_length. lia. }
  { intros j Hj. clear -Hj Lc. rewrite Lc in Hj. clear Lc. revert j Hj. induction (length vs) as [|n IH]; intros [|j] Hj; cbn [repeat nth_error] in *; try lia; auto. apply IH. lia. }
  destruct (allocate_spec w (m_lod m) vs cnt (fun j => count j (map (group_of cores) (primitives m t))) 0) as [vs1 [Ea [L1 H1]]].
  { lia. } { intros j Hj. rewrite (C j); [reflexivity|lia]. }
  destruct (copy_data_spec w (m_lod m) (primitives m t) (map (group_of cores) (primitives m t)) [] vs1 (fun _ => [])) as [vs2 [Ecp [L2' H2]]].
  { rewrite map_length. reflexivity. } { constructor. } { exact Fp. } { constructor. }
  { apply Forall_forall. intros g Hg. apply in_map_iff in Hg. destruct Hg as [d [<- _]]. unfold group_of.
    destruct (gid_spec cores (head_point d) NE) as [k [E K]]. rewrite E, Nat2Z.id. apply closest_lt in K. lia. }
  { intros j v E. assert (j < length vs)%nat by (rewrite <- L1; apply nth_error_Some; congruence).
    destruct (nth_error vs j) as [v0|] eqn:E0; [|apply nth_error_None in E0; lia].
    destruct (H1 j v0 E0) as [v' [E' [_ H']]]. assert (v' = v) as -> by congruence. exact H'. }
  exists vs2. assert (E : fill_voxel m t vs = Some vs2).
  { destruct vs as [|v0 [|v1 r]]; [cbn in L2; lia|cbn in L2; lia|]. unfold fill_voxel. rewrite (Hd v0 eq_refl).
    assert (B : (length (primitives m t), Z.of_nat w, concat (primitives m t)) =
       match t with DT_Segment => (length (m_edges m), 6, fill_segments m) | DT_Triangle => (length (m_facets m), 9, fill_triangles m) end).
    { unfold w, fill_segments, fill_triangles. destruct t; cbn [primitives width]; rewrite map_length, flat_map_concat_map; reflexivity. }
    cbv zeta. rewrite <- B. rewrite Ec. cbn [bind].
    cbn [concat app] in Eg, Ecp. change (Z.of_nat (length [])) with 0 in Eg. change (Z.of_nat (length [])) with 0 in Ecp.
    rewrite Eg. cbn [bind]. rewrite Ea. cbn [bind]. rewrite map_map in Ecp. exact Ecp. }
  split; [exact E|]. split; [congruence|].
  intros j v Ev. destruct (H1 j v Ev) as [v1 [E1 [K1 _]]]. destruct (H2 j v1 E1) as [v2 [E2 [K2 HH]]].
  exists v2. split; [exact E2|]. split; [eapply kept_trans; eauto|]. exact HH.
Qed.

(** ** The first of the nearest cores, as a split of the list *)
Definition first_closest (cores : list vec) (p c : vec) (l1 l2 : list vec) : Prop :=
  cores = l1 ++ c :: l2 /\ Forall (fun x => (dist2 c p < dist2 x p)%Q) l1 /\ Forall (fun x => (dist2 c p <= dist2 x p)%Q) l2.

Lemma nearest_first p : forall cores l1 c l2,
  Forall (fun x => (dist2 c p < dist2 x p)%Q) l1 -> Forall (fun x => (dist2 c p <= dist2 x p)%Q) l2 ->
  exists m1 d m2, nearest (Z.of_nat (length (l1 ++ c :: l2))) cores p (Some (Z.of_nat (length l1), dist2 c p)) = Some (Z.of_nat (length m1), dist2 d p) /\
    first_closest (l1 ++ c :: l2 ++ cores) p d m1 m2.
Proof.
  induction cores as [|x r IH]; intros l1 c l2 F1 F2.
  - exists l1, c, l2. split; [reflexivity|]. split; [rewrite app_nil_r; reflexivity|]. auto.
  - cbn [nearest]. rewrite sq_dist2.
    replace (Z.of_nat (length (l1 ++ c :: l2)) + 1) with (Z.of_nat (length (l1 ++ c :: l2 ++ [x]))) by (rewrite !app_length; cbn [length]; rewrite app_length; cbn [length]; lia).
    destruct (Qltb_spec (dist2 x p) (dist2 c p)).
    + destruct (IH (l1 ++ c :: l2) x []) as [m1 [d [m2 [E S]]]].
      * apply Forall_app; split; [|constructor; [exact q|]].
        -- eapply Forall_impl; [|exact F1]. intros a Ha. eapply Qlt_trans; eauto.
        -- eapply Forall_impl; [|exact F2]. intros a Ha. eapply Qlt_le_trans; eauto.
      * constructor.
      * replace ((l1 ++ c :: l2) ++ [x]) with (l1 ++ c :: l2 ++ [x]) in E by (rewrite <- app_assoc; reflexivity).
        exists m1, d, m2. split; [exact E|]. rewrite <- app_assoc in S. exact S.
    + destruct (IH l1 c (l2 ++ [x])) as [m1 [d [m2 [E S]]]]; auto.
      * apply Forall_app; split; auto. constructor; [|constructor]. apply Qnot_lt_le. auto.
      * exists m1, d, m2. split; [exact E|]. rewrite <- app_assoc in S. exact S.
Qed.

Lemma gid_first cores p : cores <> [] -> exists l1 c l2, gid cores p = Z.of_nat (length l1) /\ first_closest cores p c l1 l2.
Proof.
  destruct cores as [|c r]; [congruence|]. intros _. unfold gid. cbn [nearest]. rewrite sq_dist2.
  destruct (nearest_first p r [] c []) as [m1 [d [m2 [E S]]]]; try constructor.
  change (Z.of_nat (length ([] ++ [c]))) with (0 + 1) in E. change (Z.of_nat (length [])) with 0 in E. rewrite E.
  exists m1, d, m2. split; [reflexivity|exact S].
Qed.

Lemma first_unique p : forall l1 l1' cores c c' l2 l2', first_closest cores p c l1 l2 -> first_closest cores p c' l1' l2' -> length l1 = length l1' /\ c = c'.
Proof.
  induction l1 as [|a l1 IH]; intros [|b l1'] cores c c' l2 l2' [E [A B]] [E' [A' B']].
  - rewrite E in E'. cbn in E'. inversion E'. auto.
  - rewrite E in E'. cbn in E'. inversion E'; subst. inversion A'; subst. exfalso.
    rewrite Forall_forall in B. specialize (B c'). assert (In c' (l1' ++ c' :: l2')) by (apply in_app_iff; right; left; auto).
    apply B in H. apply (Qlt_irrefl (dist2 c' p)). eapply Qlt_le_trans; eauto.
  - rewrite E in E'. cbn in E'. inversion E'; subst. inversion A; subst. exfalso.
    rewrite Forall_forall in B'. specialize (B' c). assert (In c (l1 ++ c :: l2)) by (apply in_app_iff; right; left; auto).
    apply B' in H. apply (Qlt_irrefl (dist2 c p)). eapply Qlt_le_trans; eauto.
  - rewrite E in E'. cbn in E'. inversion E'; subst. inversion A; inversion A'; subst.
    destruct (IH l1' (l1 ++ c :: l2) c c' l2 l2') as [L ->].
    + split; [reflexivity|]. auto.
    + split; [congruence|]. auto.
    + split; [cbn; congruence|reflexivity].
Qed.

(** ** Assigning the vertices *)
Definition mine (cores : list vec) (j : nat) (p : vec) : bool := (Z.to_nat (gid cores p) =? j)%nat.
Lemma assign_vertices_spec lod cores : cores <> [] -> forall ps vs, length vs = length cores ->
  (forall j v, nth_error vs j = Some v -> exists n, v_size v lod = Some n) ->
  exists vs', assign_vertices lod cores vs ps = Some vs' /\ length vs' = length vs /\
    forall j v n, nth_error vs j = Some v -> v_size v lod = Some n -> exists v', nth_error vs' j = Some v' /\
      v_core v' = v_core v /\ v_data v' = v_data v /\ v_size v' lod = Some (n + Z.of_nat (length (filter (mine cores j) ps))) /\
      v_box v' = fold_left acc_point (filter (mine cores j) ps) (v_box v).
Proof.
  intros NE. induction ps as [|p ps IH]; intros vs L Hn.
  - exists vs. split; [reflexivity|]. split; [reflexivity|]. intros j v n E En. exists v. split; [exact E|].
    split; [reflexivity|]. split; [reflexivity|]. split; [|reflexivity]. rewrite En. f_equal. cbn. lia.
  - destruct (gid_spec cores p NE) as [g [Eg Cg]]. pose proof (closest_lt _ _ _ Cg) as Lg.
    cbn [assign_vertices]. unfold assign_vertex. rewrite Eg, aget_nat.
    destruct (nth_error vs g) as [v|] eqn:Ev; [|apply nth_error_None in Ev; lia]. cbn [bind].
    destruct (Hn g v Ev) as [n En]. rewrite En. cbn [bind]. rewrite aset_nat by lia. cbn [bind].
    set (v1 := set_size _ _ _).
    assert (S1 : v_size v1 lod = Some (n + 1)) by (cbn; unfold put; rewrite Z.eqb_refl; reflexivity).
    destruct (IH (upd vs g v1)) as [vs' [E [L' H]]].
    + rewrite upd_length. exact L.
    + intros j v2 E2. rewrite nth_error_upd in E2 by lia. destruct (Nat.eqb_spec g j); [inversion E2; subst; eauto|eauto].
    + exists vs'. rewrite upd_length in L'. split; [exact E|]. split; [exact L'|].
      intros j v2 n2 E2 N2. cbn [filter]. assert (Em : mine cores j p = (g =? j)%nat) by (unfold mine; rewrite Eg, Nat2Z.id; reflexivity). rewrite Em.
      destruct (Nat.eqb_spec g j) as [<-|N].
      * assert (v2 = v) as -> by congruence. assert (n2 = n) as -> by congruence.
        destruct (H g v1 (n + 1)) as [v' [E' [A [B [C D]]]]].
        { rewrite nth_error_upd by lia. rewrite Nat.eqb_refl. reflexivity. } { exact S1. }
        exists v'. split; [exact E'|]. split; [exact A|]. split; [exact B|].
        split; [rewrite C; f_equal; cbn [length]; lia|]. rewrite D. reflexivity.
      * destruct (H j v2 n2) as [v' [E' [A [B [C D]]]]].
        { rewrite nth_error_upd by lia. apply Nat.eqb_neq in N. rewrite N. exact E2. } { exact N2. }
        exists v'. auto.
Qed.

Lemma acc_points ps : forall b, fold_left acc_point ps b = fold_left acc (map IPoint ps) b.
Proof. induction ps as [|p ps IH]; intros b; [reflexivity|]. cbn. rewrite <- IH. reflexivity. Qed.
Lemma acc_points_inside ps p : In p ps -> exists b, fold_left acc_point ps None = Some b /\ inside p b.
Proof.
  intros H. rewrite acc_points. destruct (accumulate_least (map IPoint ps)) as [b [E [C _]]].
  { intro X. apply map_eq_nil in X. subst. destruct H. }
  exists b. split; [exact E|]. rewrite Forall_forall in C. apply (C (IPoint p)). apply in_map. exact H.
Qed.

(** What the voxels of a mesh are: each vertex has a voxel whose core is the first nearest one among
    all voxels and whose box contains the vertex. *)
Definition vertex_home (vs : list voxel) (p : vec) : Prop :=
  exists l1 v l2 b, vs = l1 ++ v :: l2 /\ v_box v = Some b /\ inside p b /\
    (vs = [v] \/ exists c cores cs1 cs2, v_core v = Some c /\ cores_of vs = Some cores /\ first_closest cores p c cs1 cs2 /\ length cs1 = length l1).

Lemma cores_of_app a b : cores_of (a ++ b) = do x <- cores_of a; do y <- cores_of b; Some (x ++ y).
Proof.
  induction a as [|v a IH]; cbn.
  - destruct (cores_of b); reflexivity.
  - rewrite IH. destruct (v_core v); cbn; [|reflexivity]. destruct (cores_of a); cbn; [|reflexivity]. destruct (cores_of b); reflexivity.
Qed.
Lemma cores_of_filter f vs cores : cores_of vs = Some cores -> exists cs, cores_of (filter f vs) = Some cs /\ (forall Q : vec -> Prop, Forall Q cores -> Forall Q cs).
Proof.
  revert cores. induction vs as [|v vs IH]; intros cores E; cbn in E.
  - inversion E. exists []. auto.
  - destruct (v_core v) as [c|] eqn:Ec; [|discriminate]. cbn in E. destruct (cores_of vs) as [cs|] eqn:E1; [|discriminate]. cbn in E. inversion E; subst.
    destruct (IH cs eq_refl) as [cs' [E' F]]. cbn [filter]. destruct (f v).
    + exists (c :: cs'). split; [cbn; rewrite Ec, E'; reflexivity|]. intros Q H. inversion H; subst. constructor; auto.
    + exists cs'. split; [exact E'|]. intros Q H. inversion H; subst. auto.
Qed.

Lemma cores_of_map lod cores : cores_of (map (fun c => Voxel (Some c) None (fun _ => None) (put (fun _ => None) lod 0)) cores) = Some cores.
Proof. induction cores as [|c r IH]; cbn in *; [reflexivity|]. rewrite IH. reflexivity. Qed.
Lemma cores_of_same a b : length a = length b -> (forall j v w, nth_error a j = Some v -> nth_error b j = Some w -> v_core w = v_core v) -> cores_of b = cores_of a.
Proof.
  revert b. induction a as [|v a IH]; intros [|w b] L H; try discriminate; [reflexivity|]. cbn.
  rewrite (H 0%nat v w eq_refl eq_refl). rewrite (IH b); [reflexivity|cbn in L; lia|]. intros j x y E1 E2. apply (H (S j)); auto.
Qed.

Lemma voxels_of_cores_home m cores : exists vs, voxels_of_cores m cores = Some vs /\
  Forall (fun v => v_data v = fun _ => None) vs /\ (length vs = 1%nat \/ Forall (fun v => v_core v <> None) vs) /\
  forall p, In p (m_vertices m) -> vertex_home vs p.
Proof.
  assert (One : forall v, v_data v = (fun _ => None) -> exists vs, Some [set_size (set_box v (bounding_box m)) (m_lod m) (Z.of_nat (length (m_edges m)))] = Some vs /\
     Forall (fun v => v_data v = fun _ => None) vs /\ (length vs = 1%nat \/ Forall (fun v => v_core v <> None) vs) /\ forall p, In p (m_vertices m) -> vertex_home vs p).
  { intros v Hv. eexists. split; [reflexivity|]. split; [repeat constructor; exact Hv|]. split; [left; reflexivity|]. intros p Hp.
    destruct (acc_points_inside _ _ Hp) as [b [Eb Ib]]. exists [], (set_size (set_box v (bounding_box m)) (m_lod m) (Z.of_nat (length (m_edges m)))), [], b.
    split; [reflexivity|]. split; [exact Eb|]. split; [exact Ib|]. left. reflexivity. }
  destruct cores as [|c0 [|c1 cr]]; [apply (One new_voxel); reflexivity|
    apply (One (Voxel (Some c0) None (fun _ => None) (put (fun _ => None) (m_lod m) 0))); reflexivity|].
  set (cores := c0 :: c1 :: cr). set (f := fun c => Voxel (Some c) None (fun _ => None) (put (fun _ => None) (m_lod m) 0)).
  set (vs0 := map f cores).
  assert (V : voxels_of_cores m cores = do vs' <- assign_vertices (m_lod m) cores vs0 (m_vertices m); Some (filter (has_data (m_lod m)) vs')) by reflexivity.
  rewrite V. clear V.
  assert (NE : cores <> []) by discriminate.
  assert (N0 : forall j v, nth_error vs0 j = Some v -> v_size v (m_lod m) = Some 0 /\ v_box v = None /\ v_data v = (fun _ => None)).
  { intros j v E. apply nth_error_In in E. apply in_map_iff in E. destruct E as [c [<- _]]. cbn. unfold put. rewrite Z.eqb_refl. auto. }
  destruct (assign_vertices_spec (m_lod m) cores NE (m_vertices m) vs0) as [vs1 [E1 [L1 H1]]].
  { unfold vs0. apply map_length. } { intros j v E. destruct (N0 j v E). eauto. }
  rewrite E1. cbn [bind].
  assert (Cs : cores_of vs1 = Some cores).
  { rewrite <- (cores_of_map (m_lod m) cores). fold f vs0. apply cores_of_same; [lia|]. intros j v w Ev Ew.
    destruct (N0 j v Ev) as [Z0 _]. destruct (H1 j v 0 Ev Z0) as [w' [Ew' [A _]]]. congruence. }
  eexists. split; [reflexivity|].
  assert (Old : forall j w, nth_error vs1 j = Some w -> exists v, nth_error vs0 j = Some v).
  { intros j w E. destruct (nth_error vs0 j) eqn:X; [eauto|]. apply nth_error_None in X. assert (j < length vs1)%nat by (apply nth_error_Some; congruence). lia. }
  split; [|split].
  - apply Forall_forall. intros v Hv. apply filter_In in Hv. destruct Hv as [Hv _]. apply In_nth_error in Hv. destruct Hv as [j Ej].
    destruct (Old j v Ej) as [v0 E0]. destruct (N0 j v0 E0) as [Z0 [_ D0]]. destruct (H1 j v0 0 E0 Z0) as [w' [Ew' [_ [D _]]]]. assert (w' = v) as -> by congruence. congruence.
  - right. apply Forall_forall. intros v Hv. apply filter_In in Hv. destruct Hv as [Hv _]. apply In_nth_error in Hv. destruct Hv as [j Ej].
    destruct (cores_of_spec _ _ Cs) as [_ X]. destruct (X j v Ej) as [c [Ec _]]. congruence.
  - intros p Hp. destruct (gid_first cores p NE) as [cs1 [c [cs2 [Eg S]]]].
    set (j := length cs1) in *. assert (Lj : (j < length cores)%nat). { destruct S as [S _]. rewrite S, app_length. cbn. unfold j. lia. }
    assert (Lv : length vs0 = length cores) by (unfold vs0; apply map_length).
    destruct (nth_error vs0 j) as [v0|] eqn:E0; [|apply nth_error_None in E0; lia].
    destruct (N0 j v0 E0) as [Z0 [B0 _]]. destruct (H1 j v0 0 E0 Z0) as [v [Ev [Ac [_ [Sz Bx]]]]].
    assert (Hin : In p (filter (mine cores j) (m_vertices m))). { apply filter_In. split; [exact Hp|]. unfold mine. rewrite Eg, Nat2Z.id. apply Nat.eqb_refl. }
    rewrite B0 in Bx. destruct (acc_points_inside _ _ Hin) as [b [Eb Ib]].
    destruct (nth_error_split vs1 j Ev) as [l1 [l2 [Es Ll]]].
    assert (Hd : has_data (m_lod m) v = true).
    { unfold has_data. rewrite Sz. destruct (filter (mine cores j) (m_vertices m)) as [|q r]; [destruct Hin|]. cbn [length]. destruct (0 + Z.of_nat (Datatypes.S (length r))) eqn:Q; auto. lia. }
    destruct (cores_of_spec _ _ Cs) as [_ X]. destruct (X j v Ev) as [c' [Ec Ec']].
    assert (c' = c) as ->. { destruct S as [S _]. rewrite S, nth_error_app2 in Ec' by (unfold j; lia). unfold j in Ec'. rewrite Nat.sub_diag in Ec'. cbn in Ec'. congruence. }
    rewrite Es. rewrite Es, cores_of_app in Cs. destruct (cores_of l1) as [k1|] eqn:K1; [|discriminate]. cbn [bind cores_of] in Cs. rewrite Ec in Cs. cbn [bind] in Cs.
    destruct (cores_of l2) as [k2|] eqn:K2; [|discriminate]. cbn [bind] in Cs. inversion Cs as [Cs']. destruct S as [S [F1 F2]].
    assert (Lk : length k1 = length cs1) by (destruct (cores_of_spec _ _ K1); unfold j in Ll; lia).
    assert (Eq : k1 = cs1 /\ k2 = cs2).
    { clear - S Cs' Lk. rewrite <- Cs' in S. clear Cs'. revert cs1 S Lk. induction k1 as [|a k1 IH]; intros [|a' cs1] S L; cbn in *; try lia; [inversion S; auto|]. inversion S; subst. destruct (IH cs1) as [-> ->]; auto. }
    destruct Eq as [-> ->].
    destruct (cores_of_filter (has_data (m_lod m)) _ _ K1) as [m1 [M1 P1]]. destruct (cores_of_filter (has_data (m_lod m)) _ _ K2) as [m2 [M2 P2]].
    exists (filter (has_data (m_lod m)) l1), v, (filter (has_data (m_lod m)) l2), b.
    rewrite filter_app. cbn [filter]. rewrite Hd. split; [reflexivity|]. split; [congruence|]. split; [exact Ib|]. right.
    exists c, (m1 ++ c :: m2), m1, m2. split; [exact Ec|]. split.
    { rewrite cores_of_app, M1. cbn [bind cores_of]. rewrite Ec, M2. reflexivity. }
    split; [split; [reflexivity|]; split; auto|]. apply (cores_of_spec _ _ M1).
Qed.

(** ** Sampling the skeleton *)
Inductive subseq {A} : list A -> list A -> Prop :=
| sub_nil l : subseq [] l
| sub_skip x s l : subseq s l -> subseq s (x :: l)
| sub_take x s l : subseq s l -> subseq (x :: s) (x :: l).

Definition trues (l : list bool) : nat := length (filter (fun b => b) l).
Lemma erase_subseq {A} (pts : list A) : forall keep, subseq (erase_others pts keep) pts.
Proof. induction pts as [|p r IH]; intros [|[|] k]; cbn; [apply sub_nil|apply sub_nil|apply sub_nil|apply sub_nil|apply sub_take; auto|apply sub_skip; auto]. Qed.
Lemma erase_length {A} (pts : list A) : forall keep, length keep = length pts -> length (erase_others pts keep) = trues keep.
Proof. induction pts as [|p r IH]; intros [|[|] k] L; cbn in *; try lia; [f_equal|]; apply IH; lia. Qed.
Lemma trues_upd l : forall i, nth_error l i = Some false -> trues (upd l i true) = S (trues l).
Proof. induction l as [|[|] l IH]; intros [|i] H; cbn in *; try discriminate; [unfold trues in *; cbn; f_equal; apply IH; auto|reflexivity|apply IH; auto]. Qed.

Lemma try_round_spec rand nc : 0 < nc -> forall left k keep, nc < Z.of_nat (length keep) -> nth_error keep 0 = Some false ->
  exists k' keep', try_round left rand k nc keep = Some (k', keep') /\ length keep' = length keep /\ nth_error keep' 0 = Some false /\
    (trues keep <= trues keep' <= S (trues keep))%nat /\ (left <> O -> trues keep = O -> trues keep' = 1%nat).
Proof.
  intros N. induction left as [|l IH]; intros k keep L Z0; cbn [try_round].
  - exists k, keep. repeat split; auto. congruence.
  - unfold get_rand_number. set (t := rand k mod nc + 1). assert (T : 1 <= t <= nc) by (unfold t; pose proof (Z.mod_pos_bound (rand k) nc N); lia).
    rewrite <- (Z2Nat.id t) by lia. rewrite aget_nat. destruct (nth_error keep (Z.to_nat t)) as [b|] eqn:E; [|apply nth_error_None in E; lia]. cbn [bind].
    destruct b.
    + destruct (IH (S k) keep L Z0) as [k' [keep' [E' [L' [Z' [B _]]]]]]. exists k', keep'. repeat split; auto; try lia.
      intros _ T0. exfalso. clear -E T0. revert E T0. generalize (Z.to_nat t). induction keep as [|[|] keep IH]; intros [|i] E T0; cbn in *; try discriminate. eapply IH; eauto.
    + rewrite aset_nat by lia. cbn [bind]. eexists _, _. split; [reflexivity|]. rewrite upd_length, (trues_upd _ _ E).
      split; [reflexivity|]. split; [|split; [lia|intros _ ->; reflexivity]].
      rewrite nth_error_upd by lia. destruct (Nat.eqb_spec (Z.to_nat t) 0); [lia|exact Z0].
Qed.

Lemma rounds_spec rand nc : 0 < nc -> forall n k keep, nc < Z.of_nat (length keep) -> nth_error keep 0 = Some false ->
  exists keep', rounds n rand k nc keep = Some keep' /\ length keep' = length keep /\ nth_error keep' 0 = Some false /\
    (trues keep <= trues keep' <= trues keep + n)%nat /\ (n <> O -> trues keep = O -> (1 <= trues keep')%nat).
Proof.
  intros N. induction n as [|n IH]; intros k keep L Z0; cbn [rounds].
  - exists keep. repeat split; auto; try lia.
  - destruct (try_round_spec rand nc N 10 k keep L Z0) as [k1 [keep1 [E1 [L1 [Z1 [B1 F1]]]]]]. rewrite E1. cbn [bind].
    destruct (IH k1 keep1) as [keep2 [E2 [L2 [Z2 [B2 F2]]]]]; [lia|exact Z1|]. rewrite E2. exists keep2. split; [reflexivity|].
    split; [congruence|]. split; [exact Z2|]. split; [lia|]. intros _ T0. rewrite F1 in B2; auto; lia.
Qed.

Lemma skeleton_spec {A} rand (pts : list A) nc : 0 < nc < Z.of_nat (length pts) ->
  exists r, get_skeleton_points rand (Some pts) nc = Some r /\ subseq r (tl pts) /\ (1 <= length r)%nat /\ Z.of_nat (length r) <= nc.
Proof.
  intros N. destruct pts as [|p pts]; [cbn in N; lia|].
  destruct (rounds_spec rand nc (proj1 N) (Z.to_nat nc) 0 (repeat false (length (p :: pts)))) as [keep [E [L [Z0 [B F]]]]].
  { rewrite repeat_length. lia. } { reflexivity. }
  assert (T0 : trues (repeat false (length (p :: pts))) = 0%nat). { clear. induction (length (p :: pts)); cbn; auto. }
  rewrite T0 in B. rewrite repeat_length in L.
  exists (erase_others (p :: pts) keep). split.
  { unfold get_skeleton_points. destruct (Z.eqb_spec (Z.of_nat (length (p :: pts))) 0); [lia|].
    destruct (Z.ltb_spec (Z.of_nat (length (p :: pts))) nc); [lia|]. rewrite E. reflexivity. }
  rewrite (erase_length _ _ L). split; [|split; [apply F; auto; lia|lia]].
  destruct keep as [|b keep]; [discriminate|]. cbn in Z0. inversion Z0; subst b. cbn. apply erase_subseq.
Qed.
