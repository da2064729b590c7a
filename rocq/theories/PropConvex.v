(** The convexity test, and what it does and does not guarantee of the levels of an object. *)
From Coq Require Import List ZArith Bool Arith Lia QArith Lqa Permutation.
From Verif Require Import Arr AabModel AabProofs SegDistModel CodecModel PpmcModel PpmcTopo PpmcRound PpmcCheck PropPpmc PpmcLevels PpmcLevelsProofs PpmcObject PropPpmcLevels ConvexModel ConvexProofs ConvexRing.
Import ListNotations.
Open Scope Q_scope.
Close Scope nat_scope.
Notation vadd := SegDistModel.vadd.

(** * What the test says *)
(** A polygon passes when along each side its corners lie clearly on one side only; how far is
    measured along the sum of the cross products of the sides.  A polygon passes whichever corner it
    is read from, whichever way round, and wherever it is. *)
Lemma lefts_dec n p q x : {lefts n p q x} + {~ lefts n p q x}.
Proof.
  unfold lefts. destruct (Qlt_le_dec 0 (det n p q x)); [|right; intros [? _]; lra].
  destruct (Qlt_le_dec (tol2 n) (det n p q x * det n p q x)); [left; auto|right; intros [_ ?]; lra].
Qed.
Lemma lefts_list n p q l : {x | In x l /\ lefts n p q x} + {forall x, In x l -> ~ lefts n p q x}.
Proof.
  induction l as [|x l IH]; [right; intros x []|]. destruct (lefts_dec n p q x) as [L|L]; [left; exists x; split; [left; reflexivity|exact L]|].
  destruct IH as [(y & H1 & H2)|IH]; [left; exists y; split; [right; exact H1|exact H2]|].
  right. intros y [<-|H]; [exact L|exact (IH y H)].
Qed.
Lemma det_moved n (t p q x : qvec) : det n (vadd p t) (vadd q t) (vadd x t) == det n p q x.
Proof. unfold det, vdot, sum3, cross, v3, qsub, SegDistModel.vsub, SegDistModel.vadd. ring. Qed.
Lemma det_swap n (p q x : qvec) : det (fun a => - n a) q p x == det n p q x.
Proof. unfold det, vdot, sum3, cross, v3, qsub, SegDistModel.vsub. ring. Qed.
Lemma tol2_neg n : tol2 (fun a => - n a) == tol2 n.
Proof. unfold tol2, vdot, sum3. ring. Qed.
Lemma convex_iff l k : (isConvex l = true <-> isConvex k = true) -> isConvex l = isConvex k.
Proof. destruct (isConvex l), (isConvex k); intros [A B]; try reflexivity; [symmetry; auto|auto]. Qed.
Lemma translate_1 l t : isConvex l = true -> isConvex (map (fun p => vadd p t) l) = true.
Proof.
  rewrite !isConvex_edges. intros H p q x y E Hx Hy [L R]. rewrite cyc_map in E. apply in_map_iff in E. destruct E as ([p0 q0] & E & He). injection E as <- <-. cbn [fst snd] in *.
  apply in_map_iff in Hx, Hy. destruct Hx as (x0 & <- & Hx), Hy as (y0 & <- & Hy). apply (H p0 q0 x0 y0 He Hx Hy).
  apply (lefts_eq _ _ _ _ _ (area_translate t l)) in L. apply (rights_eq _ _ _ _ _ (area_translate t l)) in R. unfold lefts, rights in *. rewrite !det_moved in L, R. auto.
Qed.
Lemma rotate_1 a b : isConvex (a ++ b) = true -> isConvex (b ++ a) = true.
Proof.
  rewrite !isConvex_edges. intros H p q x y E Hx Hy [L R].
  assert (V : veq (area (b ++ a)) (area (a ++ b))) by (apply area_perm; apply cyc_rotate).
  apply (H p q x y).
  - apply (Permutation_in _ (cyc_rotate _ b a) E).
  - apply in_app_iff. apply in_app_iff in Hx. tauto.
  - apply in_app_iff. apply in_app_iff in Hy. tauto.
  - split; [exact (lefts_eq _ _ _ _ _ V L)|exact (rights_eq _ _ _ _ _ V R)].
Qed.
Lemma rev_1 l : isConvex l = true -> isConvex (rev l) = true.
Proof.
  rewrite !isConvex_edges. intros H p q x y E Hx Hy [L R]. apply in_rev in Hx, Hy.
  assert (V : veq (area (rev l)) (fun a => - area l a)).
  { intro a. unfold area. rewrite (area_perm _ _ (cyc_rev _ l) a). apply swap_area. }
  apply (Permutation_in _ (cyc_rev _ l)) in E. apply in_map_iff in E. destruct E as ([p0 q0] & E & He). injection E as <- <-. cbn [fst snd] in *.
  apply (lefts_eq _ _ _ _ _ V) in L. apply (rights_eq _ _ _ _ _ V) in R. apply (H p0 q0 x y He Hx Hy).
  unfold lefts, rights in *. rewrite !det_swap, !tol2_neg in L, R. auto.
Qed.
Theorem convexity_test : forall l,
  (isConvex l = true <-> forall p q, In (p, q) (cyc l) -> (forall x, In x l -> ~ lefts (area l) p q x) \/ (forall x, In x l -> ~ rights (area l) p q x)) /\
  (forall t, isConvex (map (fun p => vadd p t) l) = isConvex l) /\
  (forall a b, l = a ++ b -> isConvex (b ++ a) = isConvex l) /\
  isConvex (rev l) = isConvex l.
Proof.
  intros l. split; [|split; [|split]].
  - rewrite isConvex_edges. split.
    + intros H p q E. destruct (lefts_list (area l) p q l) as [(x & Hx & L)|N]; [right|left; exact N].
      intros y Hy R. exact (H p q x y E Hx Hy (conj L R)).
    + intros H p q x y E Hx Hy [L R]. destruct (H p q E) as [N|N]; [exact (N x Hx L)|exact (N y Hy R)].
  - intros t. apply convex_iff. split; [|apply translate_1]. intros H. apply (translate_1 _ (fun a => - t a)) in H. rewrite map_map in H.
    revert H. rewrite !isConvex_edges. intros H p q x y E Hx Hy [L R].
    set (f := fun p : qvec => vadd (vadd p t) (fun a => - t a)) in *.
    assert (V : veq (area l) (area (map f l))).
    { intro a. unfold f. rewrite <- (map_map (fun p => vadd p t) (fun p => vadd p (fun a => - t a))). rewrite (area_translate (fun a => - t a) (map (fun p => vadd p t) l) a). symmetry. apply area_translate. }
    apply (H (f p) (f q) (f x) (f y)).
    + rewrite cyc_map. apply in_map_iff. exists (p, q). auto.
    + apply in_map. exact Hx.
    + apply in_map. exact Hy.
    + apply (lefts_eq _ _ _ _ _ V) in L. apply (rights_eq _ _ _ _ _ V) in R. unfold f, lefts, rights in *. rewrite !det_moved. auto.
  - intros a b ->. apply convex_iff. split; apply rotate_1.
  - apply convex_iff. split; [|apply rev_1]. intros H. apply rev_1 in H. rewrite rev_involutive in H. exact H.
Qed.
Print Assumptions convexity_test.
Definition quad (x : Q) : list qvec := [v3 0 0 0; v3 3 0 1; v3 x x 0; v3 0 3 1].
Example convexity_test_nonvacuous : isConvex (quad 3) = true /\ isConvex (quad 1) = false /\ length (cyc (quad 1)) = 4%nat /\
  (exists p q x y, In (p, q) (cyc (quad 1)) /\ In x (quad 1) /\ In y (quad 1) /\ lefts (area (quad 1)) p q x /\ rights (area (quad 1)) p q y) /\
  isConvex (rev (quad 1)) = false /\ isConvex ([v3 1 1 0; v3 0 3 1] ++ [v3 0 0 0; v3 3 0 1]) = false.
Proof.
  split; [vm_compute; reflexivity|]. split; [vm_compute; reflexivity|]. split; [reflexivity|]. split; [|vm_compute; auto].
  exists (v3 3 0 1), (v3 1 1 0), (v3 0 3 1), (v3 0 0 0).
  split; [right; left; reflexivity|]. split; [do 3 right; left; reflexivity|]. split; [left; reflexivity|]. split; split; vm_compute; reflexivity.
Qed.

(** * Size *)
(** The tolerance is an absolute length: a polygon that passes may fail when it is enlarged, but not
    the other way round. *)
Theorem convexity_of_any_size_partial : forall l c, 1 <= c -> isConvex (map (scaled c) l) = true -> isConvex l = true.
Proof.
  intros l c Hc. rewrite !isConvex_edges. intros H p q x y E Hx Hy [L R].
  apply (H (scaled c p) (scaled c q) (scaled c x) (scaled c y)).
  - rewrite cyc_map. apply in_map_iff. exists (p, q). auto.
  - apply in_map. exact Hx.
  - apply in_map. exact Hy.
  - assert (V : veq (fun a => c * c * area l a) (area (map (scaled c) l))) by (intro a; symmetry; apply area_scale).
    assert (D : forall z, det (fun a => c * c * area l a) (scaled c p) (scaled c q) (scaled c z) == (c * c) * (c * c) * det (area l) p q z).
    { intro z. unfold det, vdot, sum3, cross, v3, qsub, SegDistModel.vsub, scaled. ring. }
    assert (T : tol2 (fun a => c * c * area l a) == (c * c) * (c * c) * tol2 (area l)) by (unfold tol2, vdot, sum3; ring).
    set (k := (c * c) * (c * c)) in *.
    assert (K : 1 <= k). { assert (1 <= c * c). { setoid_replace 1 with (1 * 1) by reflexivity. apply Qmult_le_compat_nonneg; split; lra. }
      unfold k. setoid_replace 1 with (1 * 1) by reflexivity. apply Qmult_le_compat_nonneg; split; lra. }
    assert (S : forall t d, t < d * d -> k * t < (k * d) * (k * d)).
    { intros t d Ht. apply Qlt_le_trans with (k * (d * d)).
      - apply Qmult_lt_l; [lra|exact Ht].
      - setoid_replace (k * d * (k * d)) with (k * (k * (d * d))) by ring. apply Qmult_le_l; [lra|].
        setoid_replace (d * d) with (1 * (d * d)) at 1 by ring. apply Qmult_le_compat_r; [exact K|apply sq_nonneg]. }
    split.
    + apply (lefts_eq _ _ _ _ _ V). unfold lefts in *. rewrite D, T. destruct L as [L1 L2]. split; [|apply S; exact L2].
      setoid_replace 0 with (k * 0) by ring. apply Qmult_lt_l; [lra|exact L1].
    + apply (rights_eq _ _ _ _ _ V). unfold rights in *. rewrite D, T. destruct R as [R1 R2]. split; [|apply S; exact R2].
      setoid_replace 0 with (k * 0) by ring. apply Qmult_lt_l; [lra|exact R1].
Qed.
Print Assumptions convexity_of_any_size_partial.
Example convexity_of_any_size_nonvacuous : isConvex (map (scaled 3) (quad 3)) = true /\ isConvex (quad 3) = true.
Proof. vm_compute. auto. Qed.
(** The same polygon, one clearly not convex, at two sizes. *)
Theorem convexity_of_any_size_refuted : exists l c, 0 < c /\ isConvex (map (scaled c) l) = true /\ isConvex l = false.
Proof.
  exists (quad 1), (1 # 10000). split; [reflexivity|]. split; [|vm_compute; reflexivity].
  set (l := map (scaled (1 # 10000)) (quad 1)). apply (proj2 (proj1 (convexity_test l))). intros p q E. unfold l in *. clear l. cbn [quad map cyc app combine In] in *. right. intros x Hx [_ R].
  assert (N : forall x, In x (map (scaled (1 # 10000)) (quad 1)) ->
    det (area (map (scaled (1 # 10000)) (quad 1))) p q x * det (area (map (scaled (1 # 10000)) (quad 1))) p q x <= tol2 (area (map (scaled (1 # 10000)) (quad 1)))).
  { clear x Hx R. intros x Hx. cbn [quad map In] in Hx.
    repeat match goal with H : _ \/ _ |- _ => destruct H as [H|H] end; try contradiction; injection E as <- <-; subst x; vm_compute; discriminate. }
  specialize (N x Hx). apply Qle_not_lt in N. exact (N R).
Qed.
Print Assumptions convexity_of_any_size_refuted.

(** * Simple polygons *)
(** Two sides that share no corner lie over each other: the polygon runs back along a line, which
    leaves all corners on one side. *)
Definition between (p q x : qvec) : Prop := exists t, 0 < t /\ t < 1 /\ forall a, x a == p a + t * (q a - p a).
Theorem accepted_ring_simple_refuted : exists l p q p' q' x,
  NoDup (map (fun p => (Qred (p AX), Qred (p AY), Qred (p AZ))) l) /\ isConvex l = true /\
  In (p, q) (cyc l) /\ In (p', q') (cyc l) /\ between p q x /\ between p' q' x /\ ~ veq p p' /\ ~ veq p q' /\ ~ veq q p' /\ ~ veq q q'.
Proof.
  exists [v3 0 0 0; v3 2 0 0; v3 1 0 0; v3 3 0 0; v3 3 3 0; v3 0 3 0], (v3 0 0 0), (v3 2 0 0), (v3 1 0 0), (v3 3 0 0), (v3 (3 # 2) 0 0).
  split; [vm_compute; repeat constructor; cbn [In]; intuition discriminate|]. split; [vm_compute; reflexivity|].
  split; [left; reflexivity|]. split; [do 2 right; left; reflexivity|].
  split; [exists (3 # 4); split; [reflexivity|split; [reflexivity|]]; intros []; reflexivity|].
  split; [exists (1 # 4); split; [reflexivity|split; [reflexivity|]]; intros []; reflexivity|].
  repeat split; intro V; specialize (V AX); discriminate V.
Qed.
Print Assumptions accepted_ring_simple_refuted.

(** Where every corner off a side is strictly on one side of it, sides without a common corner do
    not meet. *)
Lemma cyc_ends (l : list qvec) p q : In (p, q) (cyc l) -> In p l /\ In q l.
Proof.
  intro H. destruct l as [|x r]; [destruct H|]. unfold cyc in H. split; [exact (in_combine_l _ _ _ _ H)|].
  apply in_combine_r in H. apply in_app_iff in H. destruct H as [H|[<-|[]]]; [right; exact H|left; reflexivity].
Qed.
Theorem accepted_ring_simple_partial : forall l n, 
  (forall p q x, In (p, q) (cyc l) -> In x l -> ~ veq x p -> ~ veq x q -> 0 < det n p q x) ->
  forall p q p' q' x, In (p, q) (cyc l) -> In (p', q') (cyc l) -> ~ veq p' p -> ~ veq p' q -> ~ veq q' p -> ~ veq q' q ->
  between p q x -> ~ between p' q' x.
Proof.
  intros l n S p q p' q' x E E' N1 N2 N3 N4 (t & T0 & T1 & B) (t' & T0' & T1' & B').
  destruct (cyc_ends l p' q' E') as [Ip Iq]. assert (D1 := S p q p' E Ip N1 N2). assert (D2 := S p q q' E Iq N3 N4).
  assert (Z : det n p q x == 0).
  { unfold det, vdot, sum3, cross, v3, qsub, SegDistModel.vsub. rewrite (B AX), (B AY), (B AZ). ring. }
  assert (Z' : det n p q x == (1 - t') * det n p q p' + t' * det n p q q').
  { unfold det, vdot, sum3, cross, v3, qsub, SegDistModel.vsub. rewrite (B' AX), (B' AY), (B' AZ). ring. }
  assert (0 < (1 - t') * det n p q p') by (apply Qmult_lt_0_compat; lra). assert (0 < t' * det n p q q') by (apply Qmult_lt_0_compat; lra). lra.
Qed.
Print Assumptions accepted_ring_simple_partial.
Definition hexagon : list qvec := [v3 2 0 0; v3 1 2 0; v3 (-1) 2 0; v3 (-2) 0 0; v3 (-1) (-2) 0; v3 1 (-2) 0].
Example accepted_ring_simple_nonvacuous : forall p q x, In (p, q) (cyc hexagon) -> In x hexagon -> ~ veq x p -> ~ veq x q -> 0 < det (v3 0 0 (-1)) p q x.
Proof.
  intros p q x E Hx N1 N2. cbn [hexagon cyc app combine In] in E, Hx.
  repeat match goal with H : _ \/ _ |- _ => destruct H as [H|H] | H : False |- _ => destruct H end; injection E as <- <-; subst x;
  first [exfalso; apply N1; intros []; reflexivity | exfalso; apply N2; intros []; reflexivity | vm_compute; reflexivity].
Qed.

(** * The vertices a round removes *)
(** Each has three to eight neighbours in the finer mesh, in the order met around it they pass the
    convexity test, and they are the corners of one facet of the coarser mesh, which passes it too. *)
Lemma rings_length m v a r b k : wf m -> is_ring m v a r -> is_ring m v b k -> length r = length k.
Proof.
  intros W R K. apply Nat.le_antisymm; apply NoDup_incl_length; [exact (ir_nodup _ _ _ _ R)| |exact (ir_nodup _ _ _ _ K)|].
  - intros x Hx. exact (ring_all m v b k x W K (ring_nb m v a r x R Hx)).
  - intros x Hx. exact (ring_all m v a r x W R (ring_nb m v b k x K Hx)).
Qed.
Theorem removed_vertices_convex : forall (P : Type) (qz : P -> CodecModel.vec) (bary : list P -> P) lim n (crd : nat -> qvec) d0 d1 (pos : nat -> P) M h0 fuel X res,
  wf M -> connected M -> M (fst h0) (snd h0) <> None ->
  compressRound P qz bary lim (ringConvex n lim crd) d0 d1 pos M h0 fuel = Some (X, res) ->
  forall v, vertex M v -> ~ vertex X v -> exists around h facet,
    NoDup around /\ (forall w, In w around <-> M w v <> None) /\ (3 <= length around <= 8)%nat /\
    (forall w z, In (w, z) (cyc around) -> M w v = Some z) /\ isConvex (map crd around) = true /\
    is_loop X h facet /\ Permutation (map snd facet) around /\ isConvex (map (fun d : dart => crd (snd d)) facet) = true.
Proof.
  intros P qz bary lim n crd d0 d1 pos M h0 fuel X res W C Hh E v V1 V2.
  destruct (round_holes P qz bary lim (ringConvex n lim crd) d0 d1 pos M h0 fuel X res W C Hh E v V1 V2) as (m & u & r & E1 & E2 & E3 & E4 & E5).
  rewrite (ringConvex_col n lim crd m M v E1) in E2. unfold ringConvex in E2. destruct (find _ _) as [a|]; [|discriminate E2].
  destruct (ring lim M v a) as [k|] eqn:ER; [|discriminate E2]. apply ring_is_ring in ER.
  destruct (E5 a k ER) as (h & lp & L & r' & -> & EL). exists (a :: r'), h, lp.
  split; [exact (ir_nodup _ _ _ _ ER)|]. split; [|split; [|split; [|split; [exact E2|split; [exact L|split]]]]].
  - intros w. split; [exact (ring_nb M v a _ w ER)|exact (ring_all M v a _ w W ER)].
  - rewrite <- (rings_length M v u r a (a :: r') W E3 ER). lia.
  - intros w z K. assert (VP := ir_path _ _ _ _ ER). unfold cyc in K.
    assert (G : forall l x b, vpath M v x l b -> In (w, z) (combine l (tl l ++ [b])) -> M w v = Some z).
    { induction l as [|y l IH]; intros x b Hp Hi; [destruct Hi|]. cbn [vpath] in Hp. destruct Hp as [-> (z' & Ez & Hp)].
      cbn [tl] in Hi. destruct l as [|y' l].
      - cbn [app combine] in Hi. destruct Hi as [Hi|[]]. injection Hi as <- <-. cbn [vpath] in Hp. congruence.
      - cbn [app combine] in Hi. destruct Hi as [Hi|Hi]; [injection Hi as <- <-; cbn [vpath] in Hp; destruct Hp; congruence|]. exact (IH z' b Hp Hi). }
    exact (G (a :: r') a a VP K).
  - rewrite EL. constructor. apply Permutation_sym, Permutation_rev.
  - assert (EM : map (fun d : dart => crd (snd d)) lp = map crd (a :: rev r')) by (rewrite <- EL; symmetry; apply map_map). rewrite EM. cbn [map]. rewrite map_rev.
    destruct (convexity_test (map crd (a :: r'))) as (_ & _ & _ & RV). rewrite E2 in RV. cbn [map rev] in RV.
    destruct (convexity_test (rev (map crd r') ++ [crd a])) as (_ & _ & ROT & _). specialize (ROT _ _ eq_refl). cbn [app] in ROT. rewrite ROT. exact RV.
Qed.
Print Assumptions removed_vertices_convex.

(** A cube with a hollow in its top, the vertex 8. *)
Definition dent : list (list nat) := [[0;1;8];[1;2;8];[2;3;8];[3;0;8];[7;6;5;4];[0;4;5;1];[1;5;6;2];[2;6;7;3];[3;7;4;0]]%nat.
Definition dent_pos (v : nat) : CodecModel.vec :=
  nth v [(-2,-2,0);(2,-2,0);(2,2,0);(-2,2,0);(-2,-2,-4);(2,-2,-4);(2,2,-4);(-2,2,-4);(0,0,-2)]%Z (0,0,0)%Z.
Definition dent_crd (v : nat) : qvec := let '(x, y, z) := dent_pos v in v3 (inject_Z x) (inject_Z y) (inject_Z z).
Notation dent_round := (compressRound CodecModel.vec (fun p => p) mean 100 (ringConvex 9 100 dent_crd) 4%nat 5%nat dent_pos (of_faces dent) (0%nat, 1%nat) 1000).
Example removed_vertices_convex_nonvacuous : wf (of_faces dent) /\ connected (of_faces dent) /\ of_faces dent 0%nat 1%nat <> None /\
  match dent_round with
  | Some (X, _) => existsb (fun w => is_some (X 8%nat w)) (seq 0 9) = false /\ loop 100 X (0, 1)%nat = Some [(0, 1); (1, 2); (2, 3); (3, 0)]%nat
  | None => False end.
Proof.
  assert (G : good dent = true) by (vm_compute; reflexivity). destruct (good_spec _ G) as [W C].
  split; [exact W|]. split; [exact C|]. split; [vm_compute; discriminate|]. vm_compute. auto.
Qed.

(** * The space between two levels *)
(** The points of a facet: the weighted means of its corners. *)
Definition total (ws : list Q) : Q := fold_right Qplus 0 ws.
Definition mix (ws : list Q) (ps : list qvec) : qvec := fun a => fold_right (fun e acc => fst e * (snd e : qvec) a + acc) 0 (combine ws ps).
Definition in_hull (ps : list qvec) (p : qvec) : Prop :=
  exists ws, length ws = length ps /\ Forall (fun w => 0 <= w) ws /\ total ws == 1 /\ forall a, p a == mix ws ps a.
Definition meets (A B : list qvec) : Prop := exists p, in_hull A p /\ in_hull B p.

Lemma mix_dot n ps ws : vdot n (mix ws ps) == fold_right (fun e acc => fst e * vdot n (snd e) + acc) 0 (combine ws ps).
Proof.
  revert ws. induction ps as [|p ps IH]; intros [|w ws].
  - unfold vdot, sum3, mix. cbn [combine fold_right]. ring.
  - unfold vdot, sum3, mix. cbn [combine fold_right]. ring.
  - unfold vdot, sum3, mix. cbn [combine fold_right]. ring.
  - cbn [combine fold_right fst snd]. rewrite <- IH. unfold vdot, sum3, mix. cbn [combine fold_right fst snd]. ring.
Qed.
(** A bound on the corners bounds all points. *)
Lemma hull_below n k ps p : in_hull ps p -> Forall (fun q => vdot n q <= k) ps -> vdot n p <= k.
Proof.
  intros (ws & L & W & T & E) F. rewrite (vdot_eq n n p (mix ws ps)); [|intro a; reflexivity|exact E]. rewrite mix_dot.
  apply Qle_trans with (total ws * k); [|rewrite T; lra]. clear T E. revert ps L F.
  induction W as [|w ws Hw W IH]; intros [|q ps] L F; cbn [combine fold_right total]; try discriminate L; [lra|].
  apply Forall_cons_iff in F. destruct F as [F1 F2]. injection L as L. specialize (IH ps L F2). fold (total ws) in *. cbn [fst snd].
  assert (w * vdot n q <= w * k) by (rewrite !(Qmult_comm w); apply Qmult_le_compat_r; assumption). lra.
Qed.
Lemma apart n k k' A B : k < k' -> Forall (fun q => vdot n q <= k) A -> Forall (fun q => k' <= vdot n q) B -> ~ meets A B.
Proof.
  intros K FA FB (p & HA & HB). assert (X := hull_below n k A p HA FA).
  assert (Y : vdot (fun a => - n a) p <= - k').
  { apply (hull_below _ _ B); [exact HB|]. eapply Forall_impl; [|exact FB]. intros q Hq. cbv beta in *. unfold vdot, sum3 in *. lra. }
  unfold vdot, sum3 in *. lra.
Qed.

(** Replacing a hollow by a flat facet fills it: a triangle standing in the hollow meets the coarser
    level though it is clear of every facet of the object.  So a test at a coarser level can report
    an intersection that there is not. *)
Definition needle : list qvec := [v3 (-1 # 10) 0 (-1 # 10); v3 (1 # 10) 0 (-1 # 10); v3 0 0 1].
Definition dent_planes : list qvec := [v3 0 1 1; v3 (-1) 0 1; v3 0 (-1) 1; v3 1 0 1; v3 0 0 1; v3 0 1 0; v3 (-1) 0 0; v3 0 (-1) 0; v3 1 0 0].
Theorem coarser_level_meets_only_what_the_object_meets_refuted : exists X res h facet,
  dent_round = Some (X, res) /\ is_loop X h facet /\ meets needle (map (fun d : dart => dent_crd (snd d)) facet) /\
  forall f, In f dent -> ~ meets needle (map dent_crd f).
Proof.
  assert (S : match dent_round with Some (X, _) => loop 100 X (0, 1)%nat = Some [(0, 1); (1, 2); (2, 3); (3, 0)]%nat | None => False end) by (vm_compute; reflexivity).
  destruct dent_round as [[X res]|] eqn:ED; [|destruct S]. exists X, res, (0, 1)%nat, [(0, 1); (1, 2); (2, 3); (3, 0)]%nat.
  split; [reflexivity|]. split; [exact (loop_is_loop _ _ _ _ S)|]. split.
  - exists (v3 0 0 0). split.
    + exists [5 # 11; 5 # 11; 1 # 11]. split; [reflexivity|]. split; [repeat constructor; vm_compute; discriminate|]. split; [reflexivity|]. intros []; reflexivity.
    + exists [1 # 2; 0; 1 # 2; 0]. split; [reflexivity|]. split; [repeat constructor; vm_compute; discriminate|]. split; [reflexivity|]. intros []; reflexivity.
  - assert (F : Forall (fun fn => Forall (fun q => vdot (snd fn) q <= -2) (map dent_crd (fst fn)) /\ Forall (fun q => - (1 # 2) <= vdot (snd fn) q) needle) (combine dent dent_planes)).
    { repeat constructor; vm_compute; discriminate. }
    intros f Hf (p & H1 & H2). assert (exists n, In (f, n) (combine dent dent_planes)) as [n Hn].
    { cbn [dent In] in Hf. cbn [dent dent_planes combine In]. repeat (destruct Hf as [<-|Hf]; [eexists; eauto 12|]). destruct Hf. }
    rewrite Forall_forall in F. destruct (F _ Hn) as [F1 F2]. cbn [fst snd] in *.
    apply (apart n (-2) (- (1 # 2)) (map dent_crd f) needle); [reflexivity|exact F1|exact F2|exists p; auto].
Qed.
Print Assumptions coarser_level_meets_only_what_the_object_meets_refuted.

(** Every point of every facet of every level lies within any box that holds the object's vertices. *)
Theorem levels_inside_box : forall (P : Type) (qz : P -> CodecModel.vec) (bary : list P -> P) lim convex gate d0 d1 (pos : nat -> P) (crd : nat -> qvec) M fuel k ms rs lo hi,
  (forall k m, wf m -> (forall v, vertex m v -> vertex M v) -> (exists a b, m a b <> None) -> m (fst (gate k m)) (snd (gate k m)) <> None) ->
  wf M -> connected M -> M d0 d1 <> None -> (forall v, vertex M v -> forall a, lo a <= crd v a <= hi a) ->
  compressAll P qz bary lim convex gate d0 d1 pos M fuel k = Some (ms, rs) ->
  forall m h facet p, In m ms -> is_loop m h facet -> in_hull (map (fun d : dart => crd (snd d)) facet) p -> forall a, lo a <= p a <= hi a.
Proof.
  intros P qz bary lim convex gate d0 d1 pos crd M fuel k ms rs lo hi GT W C HD HB E m h facet p Hm L Hp a.
  destruct (compressAll_spec P qz bary lim convex gate d0 d1 pos fuel (vertex M) GT k M ms rs (fun v Hv => Hv) W C HD E) as (_ & _ & _ & S4).
  destruct (S4 m Hm) as (Wm & _ & _ & V).
  assert (B : Forall (fun q : qvec => lo a <= q a <= hi a) (map (fun d : dart => crd (snd d)) facet)).
  { apply Forall_forall. intros q Hq. apply in_map_iff in Hq. destruct Hq as (d & <- & Hd). apply HB. apply V. exists (fst d). apply (wf_sym m Wm). exact (il_dart _ _ _ _ L Hd). }
  set (e := fun s b : axis => match s, b with AX, AX | AY, AY | AZ, AZ => 1 | _, _ => 0 end).
  assert (DE : forall q : qvec, vdot (e a) q == q a) by (intro q; unfold vdot, sum3, e; destruct a; ring).
  assert (DN : forall q : qvec, vdot (fun b => - e a b) q == - q a) by (intro q; unfold vdot, sum3, e; destruct a; ring).
  split.
  - assert (X : vdot (fun b => - e a b) p <= - lo a) by (apply (hull_below _ _ _ _ Hp); eapply Forall_impl; [|exact B]; intros q Hq; cbv beta in *; rewrite DN; lra).
    rewrite DN in X. lra.
  - assert (X : vdot (e a) p <= hi a) by (apply (hull_below _ _ _ _ Hp); eapply Forall_impl; [|exact B]; intros q Hq; cbv beta in *; rewrite DE; lra).
    rewrite DE in X. lra.
Qed.
Print Assumptions levels_inside_box.
Lemma dent_lt : forall p q, of_faces dent p q <> None -> (p < 9)%nat.
Proof.
  intros p q H. apply of_faces_in in H. assert (F : forallb (fun d : dart => Nat.ltb (fst d) 9) (darts_of dent) = true) by (vm_compute; reflexivity).
  rewrite forallb_forall in F. apply F in H. apply Nat.ltb_lt in H. exact H.
Qed.
Example levels_inside_box_nonvacuous :
  (forall k m, wf m -> (forall v, vertex m v -> vertex (of_faces dent) v) -> (exists a b, m a b <> None) -> m (fst (first_gate 9 k m)) (snd (first_gate 9 k m)) <> None) /\
  (forall v, vertex (of_faces dent) v -> forall a, (-4) <= dent_crd v a <= 2) /\
  match compressAll CodecModel.vec (fun p => p) mean 100 (fun _ => ringConvex 9 100 dent_crd) (first_gate 9) 4%nat 5%nat dent_pos (of_faces dent) 5000 9 with
  | Some (ms, _) => map (fun m => length (edge_list m 9)) ms = [6; 12; 16; 24; 32]%nat
  | None => False end.
Proof.
  split; [|split].
  - intros k m W V (a & b & H). assert (L := vertex_lt _ 9 dent_lt m V).
    assert (I := edge_list_in m 9 a b H (L a b H) (L b a (wf_sym m W _ _ H))).
    unfold first_gate. destruct (rev (map fst (edge_list m 9))) as [|d l] eqn:E.
    + apply (f_equal (@length _)) in E. rewrite rev_length, map_length in E. destruct (edge_list m 9); [destruct I|discriminate E].
    + assert (J : In d (map fst (edge_list m 9))) by (apply in_rev; rewrite E; left; reflexivity).
      apply in_map_iff in J. destruct J as (x & <- & J). unfold edge_list in J. apply in_map_iff in J. destruct J as (y & <- & J). apply filter_In in J. destruct J as [_ J]. cbn [fst].
      destruct (m (fst y) (snd y)); [discriminate|discriminate J].
  - intros v (w & Hw). apply dent_lt in Hw. do 9 (destruct v as [|v]; [intros []; split; vm_compute; discriminate|]). lia.
  - vm_compute. reflexivity.
Qed.

(** The points compared lie in the plane through the first one, and are moved along the normal only. *)
Theorem projection_in_plane : forall nn l i, ~ vdot nn nn == 0 ->
  let p := project nn (vdot nn nn) l i in
  vdot (qsub p (point l 0)) nn == 0 /\ exists k, forall a, p a == point l i a + k * nn a.
Proof.
  intros nn l i NZ p. split.
  - unfold p, project. cbv zeta. set (o := point l 0). set (x := point l i). set (d := vdot (qsub x o) nn). set (q := vdot nn nn) in *.
    assert (E : vdot (qsub (fun a => x a - nn a * (d / q)) o) nn == vdot (qsub x o) nn - q * (d / q)) by (unfold q, vdot, sum3, qsub, SegDistModel.vsub; ring).
    rewrite E. fold d. field. exact NZ.
  - exists (- (vdot (qsub (point l i) (point l 0)) nn / vdot nn nn)). intro a. unfold p, project. cbv zeta. ring.
Qed.
Print Assumptions projection_in_plane.
Example projection_in_plane_nonvacuous : ~ vdot (v3 1 2 2) (v3 1 2 2) == 0 /\ project (v3 1 2 2) 9 [v3 0 0 0; v3 9 0 0] 1 AX == 8.
Proof. split; vm_compute; [intro H; discriminate H|reflexivity]. Qed.
