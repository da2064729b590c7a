(** Boxes: distances, accumulation, overlap. *)
From Coq Require Import QArith List Bool Lqa Permutation.
From Verif Require Import AabModel.
Import ListNotations.
Open Scope Q_scope.

Lemma Qltb_spec x y : reflect (x < y) (Qltb x y).
Proof.
  unfold Qltb. destruct (Qle_bool y x) eqn:E; constructor.
  - apply Qle_bool_iff in E. lra.
  - apply Qnot_le_lt. intro H. apply Qle_bool_iff in H. congruence.
Qed.
Lemma Qleb_spec x y : reflect (x <= y) (Qle_bool x y).
Proof.
  destruct (Qle_bool x y) eqn:E; constructor.
  - now apply Qle_bool_iff.
  - intro H. apply Qle_bool_iff in H. congruence.
Qed.

Lemma all3_iff f : all3 f = true <-> forall a, f a = true.
Proof.
  unfold all3. rewrite !andb_true_iff. split; [intros [[A B] C] []; auto|auto].
Qed.
Lemma any3_false f : any3 f = false <-> forall a, f a = false.
Proof.
  unfold any3. rewrite !orb_false_iff. split; [intros [[A B] C] []; auto|auto].
Qed.
Lemma sum3_le f g : (forall a, f a <= g a) -> sum3 f <= sum3 g.
Proof. intro H. unfold sum3. pose proof (H AX). pose proof (H AY). pose proof (H AZ). lra. Qed.
Lemma sum3_eq f g : (forall a, f a == g a) -> sum3 f == sum3 g.
Proof. intro H. unfold sum3. rewrite !H. reflexivity. Qed.

(** ** Small specification *)
Definition wf (b : aab) : Prop := forall a, bmin b a <= bmax b a.
Definition thick (b : aab) : Prop := forall a, bmin b a < bmax b a.
Definition inside (p : vec) (b : aab) : Prop := forall a, bmin b a <= p a <= bmax b a.
Definition strictly_inside (p : vec) (b : aab) : Prop := forall a, bmin b a < p a < bmax b a.
Definition dist2 (p q : vec) : Q := sum3 (fun a => (p a - q a) * (p a - q a)).
Definition within (c b : aab) : Prop := forall a, bmin b a <= bmin c a /\ bmax c a <= bmax b a.

Lemma contains_spec b c : contains b c = true <-> within c b.
Proof.
  unfold contains, within. rewrite all3_iff. split; intros H a; specialize (H a).
  - apply andb_true_iff in H. destruct H as [H1 H2]. destruct (Qltb_spec (bmin c a) (bmin b a)); [discriminate|].
    destruct (Qltb_spec (bmax b a) (bmax c a)); [discriminate|]. lra.
  - destruct (Qltb_spec (bmin c a) (bmin b a)); [lra|]. destruct (Qltb_spec (bmax b a) (bmax c a)); [lra|]. reflexivity.
Qed.
Lemma contains_point_spec b p : contains_point b p = true <-> inside p b.
Proof.
  unfold contains_point, inside. rewrite all3_iff. split; intros H a; specialize (H a).
  - apply andb_true_iff in H. destruct H as [H1 H2]. destruct (Qltb_spec (p a) (bmin b a)); [discriminate|].
    destruct (Qltb_spec (bmax b a) (p a)); [discriminate|]. lra.
  - destruct (Qltb_spec (p a) (bmin b a)); [lra|]. destruct (Qltb_spec (bmax b a) (p a)); [lra|]. reflexivity.
Qed.

Lemma sq_mono x y : 0 <= x -> x <= y -> x * x <= y * y.
Proof. intros. apply Qle_trans with (x * y). - rewrite (Qmult_comm x y). apply Qmult_le_compat_r; auto. - apply Qmult_le_compat_r; lra. Qed.
Lemma sq_nonneg x : 0 <= x * x.
Proof. nra. Qed.

(** ** C16 *)
Lemma mindist_lower b c p q : inside p b -> inside q c -> mindist (distance b c) <= dist2 p q.
Proof.
  intros Hp Hq. unfold distance, mindist, dist2. apply sum3_le. intro a. specialize (Hp a). specialize (Hq a). cbv zeta.
  destruct (Qltb_spec (bmax b a - bmin c a) 0).
  - assert (X : (bmin c a - bmax b a) * (bmin c a - bmax b a) <= (q a - p a) * (q a - p a)) by (apply sq_mono; lra). lra.
  - destruct (Qltb_spec 0 (bmin b a - bmax c a)).
    + apply sq_mono; lra.
    + apply sq_nonneg.
Qed.

Definition clamp (lo hi x : Q) : Q := if Qltb x lo then lo else if Qltb hi x then hi else x.
Lemma mindist_attained b c : wf b -> wf c -> exists p q, inside p b /\ inside q c /\ dist2 p q == mindist (distance b c).
Proof.
  intros Hb Hc.
  exists (fun a => clamp (bmin b a) (bmax b a) (bmin c a)), (fun a => clamp (bmin c a) (bmax c a) (clamp (bmin b a) (bmax b a) (bmin c a))).
  split; [|split].
  - intro a. specialize (Hb a). unfold clamp. destruct (Qltb_spec (bmin c a) (bmin b a)); [lra|]. destruct (Qltb_spec (bmax b a) (bmin c a)); lra.
  - intro a. specialize (Hc a). unfold clamp at 1 3. repeat (match goal with |- context [Qltb ?x ?y] => destruct (Qltb_spec x y) end); lra.
  - unfold dist2, distance, mindist. apply sum3_eq. intro a. specialize (Hb a). specialize (Hc a). unfold clamp. cbv zeta.
    repeat (match goal with |- context [Qltb ?x ?y] => destruct (Qltb_spec x y) end); try (exfalso; lra); try ring;
    match goal with |- ?x * ?x == ?y => first [assert (Z0 : x == 0) by lra; rewrite Z0; ring | idtac] end.
    all: try (match goal with |- (?u - ?v) * (?u - ?v) == ?s * ?s => first [assert (E1 : u - v == s) by lra; rewrite E1; reflexivity | assert (E1 : u - v == - s) by lra; rewrite E1; ring] end).
Qed.

Lemma distance_sym b c : wf b -> wf c ->
  mindist (distance b c) == mindist (distance c b) /\ maxdist (distance b c) == maxdist (distance c b).
Proof.
  intros Hb Hc. split; unfold distance, mindist, maxdist; apply sum3_eq; intro a; cbv zeta; [|field].
  specialize (Hb a). specialize (Hc a).
  destruct (Qltb_spec (bmax b a - bmin c a) 0), (Qltb_spec (bmax c a - bmin b a) 0),
    (Qltb_spec 0 (bmin b a - bmax c a)), (Qltb_spec 0 (bmin c a - bmax b a)); try (exfalso; lra); ring.
Qed.

Lemma mindist_nonneg b c : 0 <= mindist (distance b c).
Proof.
  unfold distance, mindist, sum3.
  assert (X : forall a, 0 <= (let tmp1 := bmin b a - bmax c a in let tmp2 := bmax b a - bmin c a in
                        if Qltb tmp2 0 then tmp2 * tmp2 else if Qltb 0 tmp1 then tmp1 * tmp1 else 0)).
  { intro a. cbv zeta. destruct (Qltb _ 0); [apply sq_nonneg|]. destruct (Qltb _ _); [apply sq_nonneg|lra]. }
  pose proof (X AX). pose proof (X AY). pose proof (X AZ). cbv zeta in *. lra.
Qed.

Lemma mindist_le_maxdist b c : wf b -> wf c -> mindist (distance b c) <= maxdist (distance b c).
Proof.
  intros Hb Hc. unfold distance, mindist, maxdist. apply sum3_le. intro a. cbv zeta. specialize (Hb a). specialize (Hc a).
  set (t1 := bmin b a - bmax c a). set (t2 := bmax b a - bmin c a). assert (H : t1 <= t2) by (unfold t1, t2; lra).
  assert (E : (t1 + t2) * (t1 + t2) / 4 == ((t1 + t2) / 2) * ((t1 + t2) / 2)) by field. rewrite E.
  assert (F : (t1 + t2) / 2 == (t1 + t2) * (1 # 2)) by field. rewrite F. clear E F.
  destruct (Qltb_spec t2 0).
  - assert (X : (- t2) * (- t2) <= (- ((t1 + t2) * (1 # 2))) * (- ((t1 + t2) * (1 # 2)))) by (apply sq_mono; lra). lra.
  - destruct (Qltb_spec 0 t1); [apply sq_mono; lra|apply sq_nonneg].
Qed.

(** ** C17 *)
(** The box of a set of points: it contains them and touches them on all six sides. *)
Definition is_box_of (S : vec -> Prop) (b : aab) : Prop :=
  (forall p, S p -> inside p b) /\ forall a, (exists p, S p /\ p a == bmin b a) /\ (exists p, S p /\ p a == bmax b a).
Definition surface (b : aab) (p : vec) : Prop := inside p b /\ exists a, p a == bmin b a \/ p a == bmax b a.

Lemma surface_box b : wf b -> is_box_of (surface b) b.
Proof.
  intro H. split; [intros p [A _]; auto|]. intro a. split.
  - exists (bmin b). split; [|reflexivity]. split; [intro x; specialize (H x); lra|]. exists a. left. reflexivity.
  - exists (bmax b). split; [|reflexivity]. split; [intro x; specialize (H x); lra|]. exists a. right. reflexivity.
Qed.

Definition outer : aab := Aab (fun _ => 0) (fun _ => 4).
Definition inner : aab := Aab (fun _ => 1) (fun _ => 3).

Lemma nested_surfaces p q : surface outer p -> surface inner q -> 1 <= dist2 p q.
Proof.
  intros [Hp (a & Ha)] [Hq _]. unfold dist2, sum3.
  pose proof (sq_nonneg (p AX - q AX)). pose proof (sq_nonneg (p AY - q AY)). pose proof (sq_nonneg (p AZ - q AZ)).
  assert (X : 1 <= (p a - q a) * (p a - q a)).
  { specialize (Hq a). cbn [inner outer bmin bmax] in *. destruct Ha as [Ha|Ha]; rewrite Ha.
    - assert (1 * 1 <= (q a - 0) * (q a - 0)) by (apply sq_mono; lra). lra.
    - assert (1 * 1 <= (4 - q a) * (4 - q a)) by (apply sq_mono; lra). lra. }
  destruct a; lra.
Qed.

Lemma upper_refuted : exists (A B : vec -> Prop) (b c : aab), is_box_of A b /\ is_box_of B c /\
  (exists p, A p) /\ (exists q, B q) /\ forall p q, A p -> B q -> maxdist (distance b c) < dist2 p q.
Proof.
  exists (surface outer), (surface inner), outer, inner.
  split; [apply surface_box; intro a; cbn; lra|]. split; [apply surface_box; intro a; cbn; lra|].
  split; [exists (bmin outer); split; [intro a; cbn; lra|exists AX; left; reflexivity]|].
  split; [exists (bmin inner); split; [intro a; cbn; lra|exists AX; left; reflexivity]|].
  intros p q Hp Hq. pose proof (nested_surfaces p q Hp Hq).
  assert (E : maxdist (distance outer inner) == 0) by (vm_compute; reflexivity). rewrite E. lra.
Qed.

Definition centre (b : aab) : vec := fun a => (bmin b a + bmax b a) * (1 # 2).
Lemma upper_solid (A B : vec -> Prop) b c : A (centre b) -> B (centre c) ->
  exists p q, A p /\ B q /\ dist2 p q <= maxdist (distance b c).
Proof.
  intros HA HB. exists (centre b), (centre c). split; [auto|]. split; [auto|].
  apply Qle_lteq. right. unfold dist2, distance, maxdist, centre. apply sum3_eq. intro a. cbv zeta. field.
Qed.

(** ** C18 *)
Inductive item := IPoint (p : vec) | IBox (c : aab).
Definition acc (b : option aab) (i : item) : option aab :=
  match i with IPoint p => acc_point b p | IBox c => acc_box b c end.
Definition covers (b : aab) (i : item) : Prop := match i with IPoint p => inside p b | IBox c => within c b end.
Definition item_box (i : item) : aab := match i with IPoint p => Aab p p | IBox c => c end.

Lemma upd_min_spec m x : upd_min m x <= m /\ upd_min m x <= x /\ (upd_min m x == m \/ upd_min m x == x).
Proof. unfold upd_min. destruct (Qltb_spec x m); (split; [lra|]; split; [lra|]); [right|left]; reflexivity. Qed.
Lemma upd_max_spec m x : m <= upd_max m x /\ x <= upd_max m x /\ (upd_max m x == m \/ upd_max m x == x).
Proof. unfold upd_max. destruct (Qltb_spec m x); (split; [lra|]; split; [lra|]); [right|left]; reflexivity. Qed.

Lemma acc_as_box b i : acc b i = acc_box b (item_box i).
Proof. destruct i, b; reflexivity. Qed.
Lemma covers_as_box b i : covers b i <-> within (item_box i) b.
Proof. destruct i; [|reflexivity]. cbn. unfold inside, within. cbn. reflexivity. Qed.

Definition least (b : aab) (l : list item) : Prop :=
  Forall (covers b) l /\ forall c, Forall (covers c) l -> within b c.

Lemma acc_all l : forall b, exists r, fold_left acc l (Some b) = Some r /\ within b r /\ Forall (covers r) l /\
  forall c, within b c -> Forall (covers c) l -> within r c.
Proof.
  induction l as [|i l IH]; intro b; cbn [fold_left].
  - exists b. split; [reflexivity|]. split; [intro a; lra|]. split; [constructor|]. auto.
  - rewrite acc_as_box. cbn [acc_box]. set (b1 := update_box b (item_box i)).
    destruct (IH b1) as (r & E & W & C & L). exists r. split; [exact E|].
    assert (W1 : within b b1).
    { intro a. cbn [b1 update_box bmin bmax]. pose proof (upd_min_spec (bmin b a) (bmin (item_box i) a)). pose proof (upd_max_spec (bmax b a) (bmax (item_box i) a)). lra. }
    assert (W2 : within (item_box i) b1).
    { intro a. cbn [b1 update_box bmin bmax]. pose proof (upd_min_spec (bmin b a) (bmin (item_box i) a)). pose proof (upd_max_spec (bmax b a) (bmax (item_box i) a)). lra. }
    split; [|split].
    + intro a. specialize (W a). specialize (W1 a). lra.
    + constructor; [|auto]. apply covers_as_box. intro a. specialize (W a). specialize (W2 a). lra.
    + intros c Hb Hc. inversion Hc as [|? ? Hi Hl]; subst. apply L; [|auto]. apply covers_as_box in Hi.
      intro a. specialize (Hb a). specialize (Hi a). cbn [b1 update_box bmin bmax].
      pose proof (upd_min_spec (bmin b a) (bmin (item_box i) a)) as (_ & _ & [X|X]);
      pose proof (upd_max_spec (bmax b a) (bmax (item_box i) a)) as (_ & _ & [Y|Y]); lra.
Qed.

Lemma accumulate_least l : l <> [] -> exists b, fold_left acc l None = Some b /\ least b l.
Proof.
  intro H. destruct l as [|i l]; [congruence|]. cbn [fold_left]. rewrite acc_as_box. cbn [acc_box].
  destruct (acc_all l (item_box i)) as (r & E & W & C & L). exists r. split; [exact E|]. split.
  - constructor; [|exact C]. apply covers_as_box. exact W.
  - intros c Hc. inversion Hc as [|? ? Hi Hl]; subst. apply L; [|auto]. now apply covers_as_box.
Qed.

Definition same_box (b c : aab) : Prop := forall a, bmin b a == bmin c a /\ bmax b a == bmax c a.
Lemma least_unique b c l l' : (forall i, In i l <-> In i l') -> least b l -> least c l' -> same_box b c.
Proof.
  intros H [B1 B2] [C1 C2]. rewrite Forall_forall in B1, C1.
  assert (W1 : within b c). { apply B2. apply Forall_forall. intros i Hi. apply C1. apply H. auto. }
  assert (W2 : within c b). { apply C2. apply Forall_forall. intros i Hi. apply B1. apply H. auto. }
  intro a. specialize (W1 a). specialize (W2 a). split; lra.
Qed.

Lemma accumulate_order l l' b c : (forall i, In i l <-> In i l') -> fold_left acc l None = Some b -> fold_left acc l' None = Some c -> same_box b c.
Proof.
  intros H Eb Ec. destruct l as [|i l]; [discriminate|]. destruct l' as [|i' l']; [discriminate|].
  destruct (accumulate_least (i :: l) ltac:(discriminate)) as (b' & Eb' & Lb).
  destruct (accumulate_least (i' :: l') ltac:(discriminate)) as (c' & Ec' & Lc).
  assert (b' = b) by congruence. assert (c' = c) by congruence. subst. eapply least_unique; eauto.
Qed.

(** ** C19 *)
Lemma intersect_spec b c : intersect b c = true <-> forall a, bmin c a < bmax b a /\ bmin b a < bmax c a.
Proof.
  unfold intersect. rewrite negb_true_iff, any3_false. split; intros H a; specialize (H a).
  - apply orb_false_iff in H. destruct H as [H1 H2]. destruct (Qleb_spec (bmax b a) (bmin c a)); [discriminate|].
    destruct (Qleb_spec (bmax c a) (bmin b a)); [discriminate|]. lra.
  - destruct (Qleb_spec (bmax b a) (bmin c a)); [lra|]. destruct (Qleb_spec (bmax c a) (bmin b a)); [lra|]. reflexivity.
Qed.

Lemma intersect_sym b c : intersect b c = intersect c b.
Proof.
  apply eq_true_iff_eq. rewrite !intersect_spec. split; intros H a; specialize (H a); lra.
Qed.

Definition qmax (x y : Q) := if Qltb x y then y else x.
Definition qmin (x y : Q) := if Qltb x y then x else y.

Lemma intersect_exact b c : thick b -> thick c -> (intersect b c = true <-> exists p, strictly_inside p b /\ strictly_inside p c).
Proof.
  intros Hb Hc. rewrite intersect_spec. split.
  - intro H. exists (fun a => (qmax (bmin b a) (bmin c a) + qmin (bmax b a) (bmax c a)) * (1 # 2)).
    split; intro a; specialize (H a); specialize (Hb a); specialize (Hc a); unfold qmax, qmin;
    destruct (Qltb_spec (bmin b a) (bmin c a)), (Qltb_spec (bmax b a) (bmax c a)); lra.
  - intros (p & P1 & P2) a. specialize (P1 a). specialize (P2 a). lra.
Qed.

Lemma intersect_container b c : within c b -> thick c -> intersect b c = true.
Proof. intros W T. apply intersect_spec. intro a. specialize (W a). specialize (T a). lra. Qed.

Lemma intersect_mono b b' c c' : within b b' -> within c c' -> intersect b c = true -> intersect b' c' = true.
Proof.
  intros W W' H. rewrite intersect_spec in *. intro a. specialize (W a). specialize (W' a). specialize (H a). lra.
Qed.

(** Overlapping boxes have distance 0. *)
Lemma intersect_mindist b c : intersect b c = true -> mindist (distance b c) == 0.
Proof.
  intro H. rewrite intersect_spec in H. unfold distance, mindist.
  rewrite (sum3_eq _ (fun _ => 0)); [unfold sum3; lra|]. intro a. cbv zeta. specialize (H a).
  destruct (Qltb_spec (bmax b a - bmin c a) 0); [lra|]. destruct (Qltb_spec 0 (bmin b a - bmax c a)); [lra|reflexivity].
Qed.

(** The distance to a larger box is not larger. *)
Lemma mindist_mono b c c' : wf b -> wf c -> within c c' -> mindist (distance b c') <= mindist (distance b c).
Proof.
  intros Hb Hc W. destruct (mindist_attained b c Hb Hc) as (p & q & P & R & E). rewrite <- E. apply mindist_lower; [auto|].
  intro a. specialize (R a). specialize (W a). lra.
Qed.
