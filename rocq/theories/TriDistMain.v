(** The answer of TriDist, when the distances of the sides are right. *)
From Coq Require Import QArith List Bool Arith Lia Lqa Setoid.
From Verif Require Import AabModel AabProofs SegDistModel SegDistProofs TriDistModel TriDistProofs TriDistSlide.
Import ListNotations.
Open Scope Q_scope.

(** The distance of the points that SegPoints gives is what SegDist answers. *)
Lemma segpoints_dist P A Q0 B X Y VEC : ~ vdot A A == 0 -> ~ vdot B B == 0 -> SegPoints P A Q0 B = (X, Y, VEC) ->
  dist2 X Y == gap P A Q0 B (ans_t P Q0 A B) (ans_u P Q0 A B).
Proof.
  intros Ha Hb H. unfold SegPoints in H.
  change (if Qeq_bool (vdot A A * vdot B B - vdot A B * vdot A B) 0 then 0 else
    (vdot A (vsub Q0 P) * vdot B B - vdot B (vsub Q0 P) * vdot A B) / (vdot A A * vdot B B - vdot A B * vdot A B))
    with (foot_t P Q0 A B) in H.
  destruct (Qeq_bool (vdot B B) 0) eqn:EB; [apply Qeq_bool_iff in EB; contradiction|].
  destruct (Qeq_bool (vdot A A) 0) eqn:EA; [apply Qeq_bool_iff in EA; contradiction|].
  change ((foot_t P Q0 A B * vdot A B - vdot B (vsub Q0 P)) / vdot B B) with (foot_u P Q0 A B) in H.
  destruct (feet P Q0 A B Ha Hb) as [F _].
  assert (FT : foot_t P Q0 A B == (vdot A B * foot_u P Q0 A B + vdot A (vsub Q0 P)) / vdot A A) by (rewrite <- F; field; exact Ha).
  unfold ans_t, ans_u. set (u := foot_u P Q0 A B) in *. set (t := foot_t P Q0 A B) in *. clearbody t u. cbv zeta in H.
  assert (V0 : veq P (at_ P A 0)) by (intro i; unfold at_; ring). assert (V1 : veq (vadd P A) (at_ P A 1)) by (intro i; unfold at_, vadd; ring).
  assert (Vt : forall s, veq (vaxpy P A s) (at_ P A s)) by (intros s i; unfold at_, vaxpy; ring).
  assert (W0 : veq Q0 (at_ Q0 B 0)) by (intro i; unfold at_; ring). assert (W1 : veq (vadd Q0 B) (at_ Q0 B 1)) by (intro i; unfold at_, vadd; ring).
  assert (Wt : forall s, veq (vaxpy Q0 B s) (at_ Q0 B s)) by (intros s i; unfold at_, vaxpy; ring).
  assert (Fin : forall t1 t2 w, t1 == t2 -> veq Y (at_ Q0 B w) -> veq X (at_ P A (clamp01 t1)) -> dist2 X Y == gap P A Q0 B (clamp01 t2) w).
  { intros t1 t2 w E HY HX. rewrite <- (gap_comp P A Q0 B _ w _ w (clamp01_comp _ _ E) (Qeq_refl w)). unfold gap. apply dist2_comp; auto. }
  unfold clamp01 at 2 3. destruct (Qle_bool u 0) eqn:U0; [|destruct (Qle_bool 1 u) eqn:U1].
  - apply (Fin (vdot A (vsub Q0 P) / vdot A A)); [field; exact Ha| |]; unfold clamp01;
      destruct (Qle_bool (vdot A (vsub Q0 P) / vdot A A) 0); [|destruct (Qle_bool 1 (vdot A (vsub Q0 P) / vdot A A))| |destruct (Qle_bool 1 (vdot A (vsub Q0 P) / vdot A A))];
      injection H as <- <- _; auto.
  - apply (Fin ((vdot A B + vdot A (vsub Q0 P)) / vdot A A)); [field; exact Ha| |]; unfold clamp01;
      destruct (Qle_bool ((vdot A B + vdot A (vsub Q0 P)) / vdot A A) 0); [|destruct (Qle_bool 1 ((vdot A B + vdot A (vsub Q0 P)) / vdot A A))| |destruct (Qle_bool 1 ((vdot A B + vdot A (vsub Q0 P)) / vdot A A))];
      injection H as <- <- _; auto.
  - apply (Fin t); [exact FT| |]; unfold clamp01;
      destruct (Qle_bool t 0); [|destruct (Qle_bool 1 t)| |destruct (Qle_bool 1 t)]; injection H as <- <- _; auto.
Qed.

(** Separating planes. *)
Lemma in_tri_le S n c p : (forall k, (k < 3)%nat -> vdot n (S k) <= c) -> in_tri S p -> vdot n p <= c.
Proof.
  intros H (a & b & d & H1 & H2 & H3 & H4 & H5).
  assert (E : vdot n p == a * vdot n (S 0%nat) + b * vdot n (S 1%nat) + d * vdot n (S 2%nat)) by (unfold vdot, sum3; rewrite !H5; ring).
  rewrite E. assert (A := H 0%nat ltac:(lia)). assert (B := H 1%nat ltac:(lia)). assert (C := H 2%nat ltac:(lia)).
  assert (a * vdot n (S 0%nat) <= a * c) by nra. assert (b * vdot n (S 1%nat) <= b * c) by nra. assert (d * vdot n (S 2%nat) <= d * c) by nra.
  assert (Sm : a * c + b * c + d * c == c) by (transitivity ((a + b + d) * c); [ring|rewrite H4; ring]). lra.
Qed.
Lemma in_tri_ge S n c p : (forall k, (k < 3)%nat -> c <= vdot n (S k)) -> in_tri S p -> c <= vdot n p.
Proof.
  intros H I. assert (K : vdot (fun i => - n i) p <= - c).
  { apply (in_tri_le S); [|exact I]. intros k Hk. specialize (H k Hk). assert (E : vdot (fun i => - n i) (S k) == - vdot n (S k)) by (flat3; ring). lra. }
  assert (E : vdot (fun i => - n i) p == - vdot n p) by (flat3; ring). lra.
Qed.
Lemma slab n p q : vdot n (vsub q p) * vdot n (vsub q p) <= vdot n n * dist2 p q.
Proof. rewrite dist2_dot. apply cauchy. Qed.

(** The hypothesis: for each pair of sides SegDist answers the smallest distance. *)
Definition sides_right (S T : nat -> vec) : Prop := forall i j, (i < 3)%nat -> (j < 3)%nat -> exists e,
  SegDist (S i) (T j) (side S i) (side T j) (vdot (side S i) (side S i)) (vdot (side T j) (side T j)) = Some e /\
  forall t u, unit t -> unit u -> e <= dist2 (at_ (S i) (side S i) t) (at_ (T j) (side T j) u).

Section Right.
  Variables S T : nat -> vec.
  Hypothesis FS : fat S.
  Hypothesis FT : fat T.
  Hypothesis HR : sides_right S T.

  Definition pts (i j : nat) : vec * vec * vec := SegPoints (S i) (side S i) (T j) (side T j).
  Definition px i j : vec := fst (fst (pts i j)).
  Definition py i j : vec := snd (fst (pts i j)).
  Definition pv i j : vec := snd (pts i j).
  Lemma pts_eq i j : SegPoints (S i) (side S i) (T j) (side T j) = (px i j, py i j, pv i j).
  Proof. unfold px, py, pv, pts. destruct (SegPoints _ _ _ _) as [[x y] v]. reflexivity. Qed.

  Section Pair.
    Variables i j : nat.
    Hypothesis Hi : (i < 3)%nat.
    Hypothesis Hj : (j < 3)%nat.
    Lemma side_len : ~ vdot (side S i) (side S i) == 0 /\ ~ vdot (side T j) (side T j) == 0.
    Proof.
      destruct (HR i j Hi Hj) as (e & E & _). unfold SegDist in E. split; intro X; apply Qeq_bool_iff in X; rewrite X in E; [discriminate E|].
      rewrite orb_true_r in E. discriminate E.
    Qed.
    Lemma pair_closest : closest (S i) (side S i) (T j) (side T j) (px i j) (py i j).
    Proof.
      intros t u Ht Hu. destruct side_len as [Ha Hb]. destruct (HR i j Hi Hj) as (e & E & M).
      destruct (SegDist_value (S i) (T j) (side S i) (side T j) Ha Hb) as (d & E' & V). rewrite E' in E. injection E as <-.
      rewrite (segpoints_dist _ _ _ _ _ _ _ Ha Hb (pts_eq i j)), <- V. apply M; auto.
    Qed.
    Lemma pair_on : on_side S i (px i j) /\ on_side T j (py i j).
    Proof.
      destruct (segpoints_on _ _ _ _ _ _ _ (pts_eq i j)) as (t & u & Ut & Uu & A & B). split; [exists t|exists u]; auto.
    Qed.
    Lemma pair_vec : veq (px i j) (py i j) \/ exists c, 0 < c /\ forall k, pv i j k == c * (py i j k - px i j k).
    Proof. destruct side_len as [Ha Hb]. apply (segpoints_vec _ _ _ _ _ _ _ Ha Hb (pts_eq i j) pair_closest). Qed.
    Lemma pair_min x y : on_side S i x -> on_side T j y -> dist2 (px i j) (py i j) <= dist2 x y.
    Proof.
      intros (t & Ut & A) (u & Uu & B). rewrite (dist2_comp _ _ _ _ A B). apply pair_closest; auto.
    Qed.
    Definition V : vec := vsub (py i j) (px i j).
    (** The two other points of a side lie on the far side of the plane through the point. *)
    Lemma near_side x : on_side S i x -> vdot V (vsub x (px i j)) <= 0.
    Proof.
      intro Ox. apply foc. intros s Us. destruct pair_on as [O1 O2].
      assert (K := pair_min (mix (px i j) x s) (py i j) (on_side_mix _ _ _ _ _ Us O1 Ox) O2). rewrite !dist2_dot in K.
      eapply Qle_trans; [exact K|]. apply Qle_lteq. right. apply dot_comp; intro k; unfold V, vsub, mix; ring.
    Qed.
    Lemma near_side' y : on_side T j y -> 0 <= vdot V (vsub y (py i j)).
    Proof.
      intro Oy. destruct pair_on as [O1 O2].
      assert (L : vdot V (fun k => - (y k - py i j k)) <= 0).
      { apply foc. intros s Us. assert (K := pair_min (px i j) (mix (py i j) y s) O1 (on_side_mix _ _ _ _ _ Us O2 Oy)). rewrite !dist2_dot in K.
        eapply Qle_trans; [exact K|]. apply Qle_lteq. right. apply dot_comp; intro k; unfold V, vsub, mix; ring. }
      assert (E : vdot V (fun k => - (y k - py i j k)) == - vdot V (vsub y (py i j))) by (generalize V; intro w; flat3; ring). lra.
    Qed.
    Lemma three k : (k < 3)%nat -> forall U : nat -> vec, forall e, (e < 3)%nat -> k = ((e + 2) mod 3)%nat \/ on_side U e (U k).
    Proof.
      intros Hk U e He. assert (A : on_side U e (U e)) by (exists 0; split; [unfold unit; lra|intro x; unfold at_; ring]).
      assert (B : on_side U e (U ((e + 1) mod 3)%nat)) by (exists 1; split; [unfold unit; lra|intro x; unfold at_, side, vsub; ring]).
      destruct (lt3 e He) as [->|[->| ->]], (lt3 k Hk) as [->|[->| ->]]; cbn in B |- *; auto.
    Qed.
    Definition va : Q := vdot (vsub (S ((i + 2) mod 3)%nat) (px i j)) (pv i j).
    Definition vb : Q := vdot (vsub (T ((j + 2) mod 3)%nat) (py i j)) (pv i j).
    Definition dd : Q := vdot V V.

    (** For a vector along V, the planes through the corners off the sides. *)
    Lemma slab_pair c : 0 < c -> (forall k, pv i j k == c * V k) -> forall a b p q,
      va <= a -> 0 <= a -> b <= vb -> b <= 0 -> in_tri S p -> in_tri T q ->
      vdot V (pv i j) - a + b <= vdot (pv i j) (vsub q p).
    Proof.
      intros Hc HV a b p q A1 A2 B1 B2 Ip Iq. set (n := pv i j) in *.
      assert (En : forall x, vdot n x == c * vdot V x) by (intro x; unfold vdot, sum3; rewrite !HV; ring).
      assert (LS : vdot n p <= vdot n (px i j) + a).
      { apply (in_tri_le S); [|exact Ip]. intros k Hk. destruct (three k Hk S i Hi) as [->|O].
        - unfold va in A1. assert (E : vdot n (S ((i + 2) mod 3)%nat) == vdot (vsub (S ((i + 2) mod 3)%nat) (px i j)) n + vdot n (px i j)) by (flat3; ring). fold n in A1. lra.
        - assert (N := near_side _ O). assert (E : vdot n (S k) == vdot n (px i j) + vdot n (vsub (S k) (px i j))) by (flat3; ring). rewrite E, (En (vsub _ _)). nra. }
      assert (LT : vdot n (py i j) + b <= vdot n q).
      { apply (in_tri_ge T); [|exact Iq]. intros k Hk. destruct (three k Hk T j Hj) as [->|O].
        - unfold vb in B1. assert (E : vdot n (T ((j + 2) mod 3)%nat) == vdot (vsub (T ((j + 2) mod 3)%nat) (py i j)) n + vdot n (py i j)) by (flat3; ring). fold n in B1. lra.
        - assert (N := near_side' _ O). assert (E : vdot n (T k) == vdot n (py i j) + vdot n (vsub (T k) (py i j))) by (flat3; ring). rewrite E, (En (vsub _ _)). nra. }
      assert (E1 : vdot n (vsub q p) == vdot n q - vdot n p) by (flat3; ring).
      assert (E2 : vdot V n == vdot n (py i j) - vdot n (px i j)) by (unfold V; flat3; ring). lra.
    Qed.

    (** A pair that passes the test is a closest pair of the triangles. *)
    Lemma found_min p q : va <= 0 -> 0 <= vb -> in_tri S p -> in_tri T q -> dd <= dist2 p q.
    Proof.
      intros A B Ip Iq. destruct pair_vec as [E|(c & Hc & HV)].
      - assert (Z : dd == 0) by (unfold dd, V; rewrite <- dist2_dot; apply dist2_same; exact E). pose proof (dist2_nonneg p q). lra.
      - assert (HV' : forall k, pv i j k == c * V k) by (intro k; rewrite HV; reflexivity).
        assert (K := slab_pair c Hc HV' 0 0 p q A ltac:(lra) B ltac:(lra) Ip Iq).
        assert (E1 : vdot V (pv i j) == c * dd) by (unfold dd, vdot, sum3; rewrite !HV'; ring).
        assert (E2 : vdot (pv i j) (vsub q p) == c * vdot V (vsub q p)) by (unfold vdot, sum3; rewrite !HV'; ring).
        assert (L : dd <= vdot V (vsub q p)) by nra.
        assert (C := slab V p q). fold dd in C. assert (N : 0 <= dd) by apply dot_nonneg.
        destruct (Qlt_le_dec 0 dd) as [P|P].
        + set (w := vdot V (vsub q p)) in *. set (x := dist2 p q) in *. clearbody w x. assert (dd * dd <= dd * x) by nra. nra.
        + pose proof (dist2_nonneg p q). lra.
    Qed.
    Lemma shown_sound : (let a := if Qltb va 0 then 0 else va in let b := if Qltb 0 vb then 0 else vb in 0 < vdot V (pv i j) - a + b) -> ~ meet S T.
    Proof.
      cbv zeta. intros H (x & Ix & Iy).
      set (a := if Qltb va 0 then 0 else va) in H. set (b := if Qltb 0 vb then 0 else vb) in H.
      assert (A : va <= a /\ 0 <= a) by (unfold a; destruct (Qltb_spec va 0); lra). assert (B : b <= vb /\ b <= 0) by (unfold b; destruct (Qltb_spec 0 vb); lra).
      destruct pair_vec as [E|(c & Hc & HV)].
      - assert (Z : vdot V (pv i j) == 0). { unfold vdot, sum3, V, vsub. rewrite !(E AX), !(E AY), !(E AZ). ring. } lra.
      - assert (HV' : forall k, pv i j k == c * V k) by (intro k; rewrite HV; reflexivity).
        assert (K := slab_pair c Hc HV' a b x x (proj1 A) (proj2 A) (proj1 B) (proj2 B) Ix Iy).
        assert (E : vdot (pv i j) (vsub x x) == 0) by (flat3; ring). lra.
    Qed.
    (** A pair that fails the test is not a closest one. *)
    Lemma not_found : ~ (va <= 0 /\ 0 <= vb) -> meet S T \/ exists p q, in_tri S p /\ in_tri T q /\ dist2 p q < dd.
    Proof.
      intro N. destruct pair_on as [O1 O2]. assert (I1 := on_side_in _ _ _ Hi O1). assert (I2 := on_side_in _ _ _ Hj O2).
      destruct pair_vec as [E|(c & Hc & HV)].
      { left. exists (px i j). split; [exact I1|]. apply (in_tri_comp T (py i j)); [intro k; symmetry; apply E|exact I2]. }
      right. assert (HV' : forall k, pv i j k == c * V k) by (intro k; rewrite HV; reflexivity).
      assert (M3 : forall k, ((k + 2) mod 3 < 3)%nat) by (intro k; apply Nat.mod_upper_bound; lia).
      destruct (Qlt_le_dec 0 va) as [A|A]; [|destruct (Qlt_le_dec vb 0) as [B|B]; [|exfalso; apply N; auto]].
      - assert (E : va == c * vdot V (vsub (S ((i + 2) mod 3)%nat) (px i j))) by (unfold va, vdot, sum3; rewrite !HV'; ring).
        destruct (closer V (vsub (S ((i + 2) mod 3)%nat) (px i j))) as (s & Us & L).
        { destruct (Qlt_le_dec 0 (vdot V (vsub (S ((i + 2) mod 3)%nat) (px i j)))) as [P|P]; [exact P|exfalso]. rewrite E in A. nra. }
        exists (mix (px i j) (S ((i + 2) mod 3)%nat) s), (py i j).
        split; [apply in_tri_mix; [auto|auto|apply corner_in; apply M3]|]. split; [exact I2|].
        rewrite dist2_dot. eapply Qle_lt_trans; [|exact L]. apply Qle_lteq. right. apply dot_comp; intro k; unfold V, vsub, mix; ring.
      - set (w := (fun k => - (T ((j + 2) mod 3)%nat k - py i j k)) : vec).
        assert (E : vb == c * - vdot V w) by (unfold vb, w, vdot, vsub, sum3; rewrite !HV'; ring).
        destruct (closer V w) as (s & Us & L).
        { destruct (Qlt_le_dec 0 (vdot V w)) as [P|P]; [exact P|exfalso]. rewrite E in B. nra. }
        exists (px i j), (mix (py i j) (T ((j + 2) mod 3)%nat) s).
        split; [exact I1|]. split; [apply in_tri_mix; [auto|auto|apply corner_in; apply M3]|].
        rewrite dist2_dot. eapply Qle_lt_trans; [|exact L]. apply Qle_lteq. right. apply dot_comp; intro k; unfold V, w, vsub, mix; ring.
    Qed.
  End Pair.

  (** The loop over the pairs of sides. *)
  Lemma loop_spec l : (forall x, In x l -> (fst x < 3 /\ snd x < 3)%nat) -> forall m shown,
    (forall d, m = Some d -> exists i j, (i < 3 /\ j < 3)%nat /\ d == dd i j) -> (shown = true -> ~ meet S T) ->
    match seg_loop S T l m shown with
    | Found d => exists i j, (i < 3 /\ j < 3)%nat /\ d == dd i j /\ va i j <= 0 /\ 0 <= vb i j
    | Open m' shown' => (shown' = true -> ~ meet S T) /\
        (forall d, m' = Some d -> exists i j, (i < 3 /\ j < 3)%nat /\ d == dd i j) /\
        (forall d0, m = Some d0 -> exists d, m' = Some d /\ d <= d0) /\
        (forall i j, In (i, j) l -> (exists d, m' = Some d /\ d <= dd i j) /\
            (va i j <= 0 /\ 0 <= vb i j -> exists d, m' = Some d /\ d < dd i j))
    end.
  Proof.
    induction l as [|[i j] l IH]; intros Hl m shown Hm Hs; cbn [seg_loop].
    { split; [exact Hs|]. split; [exact Hm|]. split; [|intros i j []]. intros d0 E. exists d0. split; [auto|lra]. }
    destruct (Hl (i, j) (or_introl eq_refl)) as [Hi Hj]. cbn [fst snd] in Hi, Hj.
    assert (Hl' : forall x, In x l -> (fst x < 3 /\ snd x < 3)%nat) by (intros; apply Hl; right; auto).
    rewrite pts_eq. change (vdot (vsub (py i j) (px i j)) (vsub (py i j) (px i j))) with (dd i j).
    change (vdot (vsub (S ((i + 2) mod 3)%nat) (px i j)) (pv i j)) with (va i j).
    change (vdot (vsub (T ((j + 2) mod 3)%nat) (py i j)) (pv i j)) with (vb i j). cbv zeta.
    change (vdot (vsub (py i j) (px i j)) (pv i j)) with (vdot (V i j) (pv i j)).
    destruct (match m with None => true | Some x => Qle_bool (dd i j) x end) eqn:Em.
    - destruct (Qle_bool (va i j) 0 && Qle_bool 0 (vb i j)) eqn:Et.
      + apply andb_prop in Et. destruct Et as [E1 E2]. apply Qle_bool_iff in E1, E2. exists i, j. repeat split; auto.
      + assert (Nt : ~ (va i j <= 0 /\ 0 <= vb i j)).
        { intros [X1 X2]. apply Qle_bool_iff in X1, X2. rewrite X1, X2 in Et. discriminate Et. }
        set (sh := shown || _). assert (Hs' : sh = true -> ~ meet S T).
        { intro E. apply orb_prop in E. destruct E as [E|E]; [auto|]. apply (shown_sound i j Hi Hj). cbv zeta.
          match type of E with Qltb 0 ?x = true => destruct (Qltb_spec 0 x) as [L|L]; [exact L|discriminate E] end. }
        assert (K := IH Hl' (Some (dd i j)) sh). destruct (seg_loop S T l (Some (dd i j)) sh) as [d|m' shown'].
        * apply K; auto. intros d0 E. injection E as <-. exists i, j. repeat split; auto.
        * destruct K as (K1 & K2 & K3 & K4); auto. { intros d0 E. injection E as <-. exists i, j. repeat split; auto. }
          split; [exact K1|]. split; [exact K2|]. split.
          -- intros d0 E. destruct (K3 _ eq_refl) as (d & Ed & Ld). exists d. split; [exact Ed|]. subst m. apply Qle_bool_iff in Em. lra.
          -- intros i' j' [E|E]; [injection E as <- <-|apply K4; exact E]. split; [apply K3; reflexivity|]. intro X. contradiction.
    - destruct m as [x|]; [|discriminate Em]. assert (Lx : x < dd i j).
      { destruct (Qlt_le_dec x (dd i j)) as [L|L]; [exact L|]. apply Qle_bool_iff in L. rewrite L in Em. discriminate Em. }
      assert (K := IH Hl' (Some x) shown Hm Hs). destruct (seg_loop S T l (Some x) shown) as [d|m' shown']; [exact K|].
      destruct K as (K1 & K2 & K3 & K4). split; [exact K1|]. split; [exact K2|]. split; [exact K3|].
      destruct (K3 x eq_refl) as (d & Ed & Ld). intros i' j' [E|E]; [injection E as <- <-|apply K4; exact E].
      split; [exists d; split; [exact Ed|lra]|intros _; exists d; split; [exact Ed|lra]].
  Qed.
End Right.

(** What a corner over a face says. *)
Lemma face_spec S T sh r : fat S -> face_corner S T = (sh, r) ->
  (sh = true -> ~ meet S T) /\
  (forall d, r = Some d -> (exists p q, in_tri S p /\ in_tri T q /\ d == dist2 p q) /\ forall p q, in_tri S p -> in_tri T q -> d <= dist2 p q).
Proof.
  intros Hf H. assert (HL := fat_pos S Hf). unfold face_corner in H.
  change (vdot (vcross (side S 0) (side S 1)) (vcross (side S 0) (side S 1))) with (len S) in H.
  destruct (Qltb_spec (1 # 1000000000000000) (len S)) as [_|X]; [|contradiction].
  change (fun k : nat => vdot (vsub (S 0%nat) (T k)) (vcross (side S 0) (side S 1))) with (fun k => hgt S (T k)) in H.
  assert (Nr := nearest_spec (fun k => hgt S (T k))). destruct (nearest_corner (fun k => hgt S (T k))) as [pt|].
  2: { injection H as <- <-. split; [intro X; discriminate X|intros d X; discriminate X]. }
  destruct Nr as [Hpt Nr]. cbv beta in Nr.
  set (n := nrm S). assert (Hh : forall x, hgt S x == vdot n (S 0%nat) - vdot n x) by (intro x; unfold hgt, n; generalize (nrm S); intro w; flat3; ring).
  assert (Low : forall q, in_tri T q -> ~ hgt S q == 0 /\ hgt S (T pt) * hgt S (T pt) <= hgt S q * hgt S q).
  { intros q Iq. destruct Nr as [Nr|Nr].
    - assert (K : vdot n q <= vdot n (T pt)).
      { apply (in_tri_le T); [|exact Iq]. intros k Hk. destruct (Nr k Hk) as [_ L]. rewrite !Hh in L. lra. }
      destruct (Nr pt Hpt) as [P _]. rewrite !Hh in *. split; [lra|apply sq_le; lra].
    - assert (K : vdot n (T pt) <= vdot n q).
      { apply (in_tri_ge T); [|exact Iq]. intros k Hk. destruct (Nr k Hk) as [_ L]. rewrite !Hh in L. lra. }
      destruct (Nr pt Hpt) as [P _]. rewrite !Hh in *. split; [lra|apply sq_le; lra]. }
  assert (Dis : ~ meet S T).
  { intros (x & Ix & Iy). destruct (Low x Iy) as [N _]. destruct (in_tri_wgt S x Ix) as [Z _]. contradiction. }
  change (vdot (vsub (T pt) (S 0%nat)) (vcross (vcross (side S 0) (side S 1)) (side S 0))) with (wgt S 0 (T pt)) in H.
  change (vdot (vsub (T pt) (S 1%nat)) (vcross (vcross (side S 0) (side S 1)) (side S 1))) with (wgt S 1 (T pt)) in H.
  change (vdot (vsub (T pt) (S 2%nat)) (vcross (vcross (side S 0) (side S 1)) (side S 2))) with (wgt S 2 (T pt)) in H.
  destruct (Qltb_spec 0 (wgt S 0 (T pt))) as [W0|_]; cbn [andb] in H; [|injection H as <- <-; split; [auto|intros d X; discriminate X]].
  destruct (Qltb_spec 0 (wgt S 1 (T pt))) as [W1|_]; cbn [andb] in H; [|injection H as <- <-; split; [auto|intros d X; discriminate X]].
  destruct (Qltb_spec 0 (wgt S 2 (T pt))) as [W2|_]; cbn [andb] in H; [|injection H as <- <-; split; [auto|intros d X; discriminate X]].
  apply pair_equal_spec in H. destruct H as [<- <-]. split; [auto|]. intros d E.
  assert (Ed : d = dist2 (foot S (T pt)) (T pt)) by (injection E as <-; reflexivity). clear E. subst d.
  assert (W : forall k, (k < 3)%nat -> 0 <= wgt S k (T pt)) by (intros k Hk; destruct (lt3 k Hk) as [->|[->| ->]]; lra).
  split.
  - exists (foot S (T pt)), (T pt). split; [apply foot_in; auto|]. split; [apply corner_in; auto|reflexivity].
  - intros p q Ip Iq. rewrite (foot_dist S HL). destruct (in_tri_wgt S p Ip) as [Z _]. rewrite (foot_far S HL p q Z).
    destruct (Low q Iq) as [_ L]. pose proof (dist2_nonneg p (foot S q)). pose proof (div_le _ _ _ HL L). lra.
Qed.
