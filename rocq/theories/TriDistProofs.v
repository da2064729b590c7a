(** Proofs about the distance of triangles. *)
From Coq Require Import QArith List Bool Arith Lia Lqa Setoid.
From Verif Require Import AabModel AabProofs SegDistModel SegDistProofs TriDistModel.
Import ListNotations.
Open Scope Q_scope.

Ltac flat3 := unfold gap, dist2, at_, vdot, vcross, vsub, vadd, vaxpy, vscale, sum3, v3 in *; cbv beta iota in *.

Definition veq (a b : vec) : Prop := forall i, a i == b i.
Lemma dist2_comp a b a' b' : veq a a' -> veq b b' -> dist2 a b == dist2 a' b'.
Proof. intros H K. unfold dist2, sum3. rewrite !(H AX), !(H AY), !(H AZ), !(K AX), !(K AY), !(K AZ). reflexivity. Qed.
Lemma dot_comp a b a' b' : veq a a' -> veq b b' -> vdot a b == vdot a' b'.
Proof. intros H K. unfold vdot, sum3. rewrite !(H AX), !(H AY), !(H AZ), !(K AX), !(K AY), !(K AZ). reflexivity. Qed.
Lemma dist2_dot a b : dist2 a b == vdot (vsub b a) (vsub b a).
Proof. flat3; ring. Qed.
Lemma dist2_sym a b : dist2 a b == dist2 b a.
Proof. flat3; ring. Qed.
Lemma dist2_nonneg a b : 0 <= dist2 a b.
Proof. rewrite dist2_dot. apply dot_nonneg. Qed.
Lemma dist2_zero a b : dist2 a b == 0 -> veq a b.
Proof. rewrite dist2_dot. intros H i. pose proof (dot_zero _ H i) as K. unfold vsub in K. lra. Qed.
Lemma dist2_same a b : veq a b -> dist2 a b == 0.
Proof. intro H. unfold dist2, sum3. rewrite !(H AX), !(H AY), !(H AZ). ring. Qed.

(** A point of the segment between two points. *)
Definition mix (a b : vec) (s : Q) : vec := fun i => (1 - s) * a i + s * b i.

(** If [W] leads towards the end of [V], some part of [W] brings one nearer. *)
Lemma closer V W : 0 < vdot V W -> exists s, unit s /\ vdot (fun i => V i - s * W i) (fun i => V i - s * W i) < vdot V V.
Proof.
  intro H. set (k := vdot V W) in *. set (n := vdot W W).
  assert (F : forall s, vdot (fun i => V i - s * W i) (fun i => V i - s * W i) == vdot V V - 2 * s * k + s * s * n) by (intro s; unfold k, n; flat3; ring).
  assert (N : 0 <= n) by apply dot_nonneg.
  destruct (Qlt_le_dec k n) as [L|L].
  - exists (k / n). assert (n0 : 0 < n) by lra. assert (E : k / n * n == k) by (field; lra).
    assert (P : 0 < k / n) by (apply Qlt_shift_div_l; lra).
    assert (P1 : k / n < 1) by (apply Qlt_shift_div_r; lra).
    split; [unfold unit; lra|]. rewrite F. set (s := k / n) in *.
    assert (E2 : s * s * n == s * k) by (rewrite <- E; ring). rewrite E2. assert (0 < s * k) by nra. lra.
  - exists 1. split; [unfold unit; lra|]. rewrite F. lra.
Qed.

(** First order condition for a closest pair. *)
Lemma foc V W : (forall s, unit s -> vdot V V <= vdot (fun i => V i - s * W i) (fun i => V i - s * W i)) -> vdot V W <= 0.
Proof.
  intro H. destruct (Qlt_le_dec 0 (vdot V W)) as [L|L]; [|exact L].
  destruct (closer V W L) as (s & U & K). specialize (H s U). lra.
Qed.

(** The points that SegPoints gives lie on the segments. *)
Lemma segpoints_on P A Q0 B X Y VEC : SegPoints P A Q0 B = (X, Y, VEC) ->
  exists t u, unit t /\ unit u /\ veq X (at_ P A t) /\ veq Y (at_ Q0 B u).
Proof.
  intro H. unfold SegPoints in H.
  set (t0 := if Qeq_bool (vdot A A * vdot B B - vdot A B * vdot A B) 0 then 0 else _) in H.
  set (u := if Qeq_bool (vdot B B) 0 then 0 else _) in H. clearbody t0 u. cbv zeta in H.
  set (t1 := if Qeq_bool (vdot A A) 0 then 0 else vdot A (vsub Q0 P) / vdot A A) in H.
  set (t2 := if Qeq_bool (vdot A A) 0 then 0 else (vdot A B + vdot A (vsub Q0 P)) / vdot A A) in H. clearbody t1 t2.
  assert (Z : forall s, 0 < s -> s < 1 -> unit s) by (intros; unfold unit; lra).
  assert (Z0 : unit 0) by (unfold unit; lra). assert (Z1 : unit 1) by (unfold unit; lra).
  assert (V0 : veq P (at_ P A 0)) by (intro i; unfold at_; ring). assert (V1 : veq (vadd P A) (at_ P A 1)) by (intro i; unfold at_, vadd; ring).
  assert (Vt : forall s, veq (vaxpy P A s) (at_ P A s)) by (intros s i; unfold at_, vaxpy; ring).
  assert (W0 : veq Q0 (at_ Q0 B 0)) by (intro i; unfold at_; ring). assert (W1 : veq (vadd Q0 B) (at_ Q0 B 1)) by (intro i; unfold at_, vadd; ring).
  assert (Wt : forall s, veq (vaxpy Q0 B s) (at_ Q0 B s)) by (intros s i; unfold at_, vaxpy; ring).
  destruct (Qleb_spec u 0); [|destruct (Qleb_spec 1 u)].
  - destruct (Qleb_spec t1 0); [|destruct (Qleb_spec 1 t1)]; injection H as <- <- _; [exists 0, 0|exists 1, 0|exists t1, 0]; auto. split; [apply Z; lra|auto].
  - destruct (Qleb_spec t2 0); [|destruct (Qleb_spec 1 t2)]; injection H as <- <- _; [exists 0, 1|exists 1, 1|exists t2, 1]; auto. split; [apply Z; lra|auto].
  - assert (unit u) by (apply Z; lra).
    destruct (Qleb_spec t0 0); [|destruct (Qleb_spec 1 t0)]; injection H as <- <- _; [exists 0, u|exists 1, u|exists t0, u]; auto. split; [apply Z; lra|auto].
Qed.

Lemma triple_cross A T i : vcross A (vcross T A) i == vdot A A * T i - vdot A T * A i.
Proof. destruct i; flat3; ring. Qed.
Lemma cross_dot_l A B : vdot (vcross A B) A == 0. Proof. flat3; ring. Qed.
Lemma cross_dot_r A B : vdot (vcross A B) B == 0. Proof. flat3; ring. Qed.
Lemma cross_norm A B : vdot (vcross A B) (vcross A B) == vdot A A * vdot B B - vdot A B * vdot A B.
Proof. flat3; ring. Qed.
Lemma across V A B i : V i * vdot (vcross A B) (vcross A B) ==
  vcross A B i * vdot V (vcross A B) + A i * (vdot V A * vdot B B - vdot V B * vdot A B) + B i * (vdot V B * vdot A A - vdot V A * vdot A B).
Proof. destruct i; flat3; ring. Qed.

(** If the points are a closest pair of the two segments, VEC points from the one to the other. *)
Definition closest (P A Q0 B X Y : vec) : Prop := forall t u, unit t -> unit u -> dist2 X Y <= dist2 (at_ P A t) (at_ Q0 B u).
Lemma segpoints_vec P A Q0 B X Y VEC : ~ vdot A A == 0 -> ~ vdot B B == 0 -> SegPoints P A Q0 B = (X, Y, VEC) ->
  closest P A Q0 B X Y -> veq X Y \/ exists c, 0 < c /\ forall i, VEC i == c * (Y i - X i).
Proof.
  intros Ha Hb H C. assert (Pa := dpos A Ha). assert (Pb := dpos B Hb). unfold SegPoints in H.
  change (if Qeq_bool (vdot A A * vdot B B - vdot A B * vdot A B) 0 then 0 else
    (vdot A (vsub Q0 P) * vdot B B - vdot B (vsub Q0 P) * vdot A B) / (vdot A A * vdot B B - vdot A B * vdot A B))
    with (foot_t P Q0 A B) in H.
  destruct (Qeq_bool (vdot B B) 0) eqn:EB; [apply Qeq_bool_iff in EB; contradiction|].
  destruct (Qeq_bool (vdot A A) 0) eqn:EA; [apply Qeq_bool_iff in EA; contradiction|].
  change ((foot_t P Q0 A B * vdot A B - vdot B (vsub Q0 P)) / vdot B B) with (foot_u P Q0 A B) in H.
  destruct (feet P Q0 A B Ha Hb) as [F G].
  assert (D : foot_t P Q0 A B == 0 \/ ~ vdot A A * vdot B B - vdot A B * vdot A B == 0).
  { unfold foot_t. cbv zeta. destruct (Qeq_bool (vdot A A * vdot B B - vdot A B * vdot A B) 0) eqn:E; [left; reflexivity|right; apply Qeq_bool_neq; exact E]. }
  set (t := foot_t P Q0 A B) in *. set (u := foot_u P Q0 A B) in *. clearbody t u. cbv zeta in H.
  (* the case where the vector is taken across the second segment *)
  assert (K2 : forall w, (exists s, unit s /\ veq X (at_ P A s)) -> 0 < u -> u < 1 -> veq Y (at_ Q0 B u) ->
    (forall i, w i == Q0 i - X i) -> (forall i, VEC i == vcross B (vcross w B) i) -> exists c, 0 < c /\ forall i, VEC i == c * (Y i - X i)).
  { intros w (s & Us & HX) U0 U1 HY Hw HV. exists (vdot B B). split; [exact Pb|]. intro i. rewrite HV, triple_cross, Hw, (HY i).
    assert (O : vdot B w == - u * vdot B B).
    { assert (EV : forall z, vdot (vsub Y X) (fun i => - (z - u) * B i) == - (z - u) * (vdot B w + u * vdot B B)).
      { intro z. unfold vdot, vsub, sum3. rewrite (HY AX), (HY AY), (HY AZ), (Hw AX), (Hw AY), (Hw AZ). unfold at_. ring. }
      assert (L : forall z, unit z -> - (z - u) * (vdot B w + u * vdot B B) <= 0).
      { intros z Uz. rewrite <- EV. apply foc. intros r Ur. assert (Q := C s (u + r * (z - u)) Us). rewrite (dist2_dot X Y) in Q.
        assert (U' : unit (u + r * (z - u))). { unfold unit in *. split; nra. }
        specialize (Q U'). eapply Qle_trans; [exact Q|]. apply Qle_lteq. right.
        unfold dist2, vdot, vsub, sum3. rewrite <- (HX AX), <- (HX AY), <- (HX AZ), (HY AX), (HY AY), (HY AZ). unfold at_. ring. }
      assert (L0 := L 0 ltac:(unfold unit; lra)). assert (L1 := L 1 ltac:(unfold unit; lra)). nra. }
    rewrite O. unfold at_. ring. }
  destruct (Qleb_spec u 0); [|destruct (Qleb_spec 1 u)].
  - destruct (Qleb_spec (vdot A (vsub Q0 P) / vdot A A) 0) as [L|L]; [|destruct (Qleb_spec 1 (vdot A (vsub Q0 P) / vdot A A)) as [L1|L1]];
      injection H as <- <- <-; right.
    + exists 1. split; [lra|]. intro i. unfold vsub. ring.
    + exists 1. split; [lra|]. intro i. unfold vsub. ring.
    + exists (vdot A A). split; [exact Pa|]. intro i. rewrite triple_cross. unfold vaxpy, vsub at 1. field. exact Ha.
  - destruct (Qleb_spec ((vdot A B + vdot A (vsub Q0 P)) / vdot A A) 0) as [L|L]; [|destruct (Qleb_spec 1 ((vdot A B + vdot A (vsub Q0 P)) / vdot A A)) as [L1|L1]];
      injection H as <- <- <-; right.
    + exists 1. split; [lra|]. intro i. unfold vsub. ring.
    + exists 1. split; [lra|]. intro i. unfold vsub. ring.
    + exists (vdot A A). split; [exact Pa|]. intro i. rewrite triple_cross.
      assert (E : vdot A (vsub (vadd Q0 B) P) == vdot A B + vdot A (vsub Q0 P)) by (flat3; ring).
      rewrite E. unfold vaxpy, vsub at 1. field. exact Ha.
  - destruct (Qleb_spec t 0) as [L|L]; [|destruct (Qleb_spec 1 t) as [L1|L1]]; injection H as HX HY HV.
    + right. apply (K2 (vsub Q0 P)); auto; try lra.
      * exists 0. split; [unfold unit; lra|]. subst X. intro i; unfold at_; ring.
      * subst Y. intro i; unfold at_, vaxpy; ring.
      * subst X. intro i; reflexivity.
      * subst VEC. intro i; reflexivity.
    + right. apply (K2 (vsub Q0 (vadd P A))); auto; try lra.
      * exists 1. split; [unfold unit; lra|]. subst X. intro i; unfold at_, vadd; ring.
      * subst Y. intro i; unfold at_, vaxpy; ring.
      * subst X. intro i; reflexivity.
      * subst VEC. intro i; reflexivity.
    + destruct D as [D|D]; [lra|]. set (V := vsub Y X).
      assert (EV : forall i, V i == Q0 i - P i + u * B i - t * A i) by (intro i; subst V X Y; unfold vsub, vaxpy; ring).
      assert (OA : vdot V A == 0).
      { unfold vdot, sum3. rewrite !EV. unfold vdot, vsub, sum3 in F. lra. }
      assert (OB : vdot V B == 0).
      { unfold vdot, sum3. rewrite !EV. unfold vdot, vsub, sum3 in G. lra. }
      assert (OT : vdot (vcross A B) (vsub Q0 P) == vdot V (vcross A B)).
      { unfold vdot at 2, sum3. rewrite !EV. flat3. ring. }
      assert (NN : forall i, V i * vdot (vcross A B) (vcross A B) == vcross A B i * vdot V (vcross A B)).
      { intro i. rewrite across, OA, OB. ring. }
      assert (NP : 0 < vdot (vcross A B) (vcross A B)).
      { pose proof (dot_nonneg (vcross A B)). rewrite cross_norm in *. destruct (Qlt_le_dec 0 (vdot A A * vdot B B - vdot A B * vdot A B)); [assumption|]. exfalso. apply D. lra. }
      set (nn := vdot (vcross A B) (vcross A B)) in *. rewrite <- cross_norm in D. fold nn in D.
      set (w := vdot V (vcross A B)) in *.
      destruct (Qeq_dec w 0) as [W|W].
      * left. intro i. assert (Z : V i * nn == 0) by (rewrite NN, W; ring). apply Qmult_integral in Z. destruct Z as [Z|Z]; [|contradiction].
        unfold V, vsub in Z. lra.
      * right. destruct (Qltb_spec (vdot (vcross A B) (vsub Q0 P)) 0) as [SS|SS]; rewrite OT in SS; subst VEC.
        -- exists (nn / - w). split; [apply Qlt_shift_div_l; lra|]. intro i. unfold vscale. change (Y i - X i) with (V i).
           assert (E := NN i). assert (EE : vcross A B i == V i * nn / w) by (rewrite E; field; exact W). rewrite EE. field. exact W.
        -- exists (nn / w). split; [apply Qlt_shift_div_l; lra|]. intro i. change (Y i - X i) with (V i).
           assert (E := NN i). assert (EE : vcross A B i == V i * nn / w) by (rewrite E; field; exact W). rewrite EE. field. exact W.
Qed.

(** Points of a triangle, and points of one of its sides. *)
Definition in_tri (S : nat -> vec) (p : vec) : Prop :=
  exists a b c, 0 <= a /\ 0 <= b /\ 0 <= c /\ a + b + c == 1 /\ forall i, p i == a * S 0%nat i + b * S 1%nat i + c * S 2%nat i.
Definition on_side (S : nat -> vec) (k : nat) (p : vec) : Prop := exists t, unit t /\ veq p (at_ (S k) (side S k) t).

Lemma lt3 k : (k < 3)%nat -> k = 0%nat \/ k = 1%nat \/ k = 2%nat. Proof. lia. Qed.
Lemma corner_in S k : (k < 3)%nat -> in_tri S (S k).
Proof.
  intro H. destruct (lt3 k H) as [->|[->| ->]]; [exists 1, 0, 0|exists 0, 1, 0|exists 0, 0, 1]; repeat split; try lra; intro i; ring.
Qed.
Lemma in_tri_comp S p q : veq p q -> in_tri S p -> in_tri S q.
Proof. intros E (a & b & c & H1 & H2 & H3 & H4 & H5). exists a, b, c. repeat split; auto. intro i. rewrite <- (E i). auto. Qed.
Lemma in_tri_mix S p q s : unit s -> in_tri S p -> in_tri S q -> in_tri S (mix p q s).
Proof.
  intros [U0 U1] (a & b & c & H1 & H2 & H3 & H4 & H5) (a' & b' & c' & K1 & K2 & K3 & K4 & K5).
  exists ((1 - s) * a + s * a'), ((1 - s) * b + s * b'), ((1 - s) * c + s * c').
  split; [nra|]. split; [nra|]. split; [nra|]. split.
  - assert (E : (1 - s) * a + s * a' + ((1 - s) * b + s * b') + ((1 - s) * c + s * c') == (1 - s) * (a + b + c) + s * (a' + b' + c')) by ring.
    rewrite E, H4, K4. ring.
  - intro i. unfold mix. rewrite H5, K5. ring.
Qed.
Lemma on_side_comp S k p q : veq p q -> on_side S k p -> on_side S k q.
Proof. intros E (t & U & H). exists t. split; [auto|]. intro i. rewrite <- (E i). auto. Qed.
Lemma on_side_in S k p : (k < 3)%nat -> on_side S k p -> in_tri S p.
Proof.
  intros H (t & U & E). apply (in_tri_comp S (mix (S k) (S ((k + 1) mod 3)%nat) t)).
  - intro i. rewrite (E i). unfold mix, at_, side, vsub. ring.
  - apply in_tri_mix; [exact U|apply corner_in; auto|apply corner_in; apply Nat.mod_upper_bound; lia].
Qed.
Lemma on_side_mix S k p q s : unit s -> on_side S k p -> on_side S k q -> on_side S k (mix p q s).
Proof.
  intros U (t & T1 & T2) (u & U1 & U2). exists ((1 - s) * t + s * u). split; [unfold unit in *; split; nra|].
  intro i. unfold mix. rewrite (T2 i), (U2 i). unfold at_. ring.
Qed.
Lemma corners_side S j j' : (j < 3)%nat -> (j' < 3)%nat -> exists k, (k < 3)%nat /\ on_side S k (S j) /\ on_side S k (S j').
Proof.
  intros H H'. assert (U0 : unit 0) by (unfold unit; lra). assert (U1 : unit 1) by (unfold unit; lra).
  assert (A : forall k, on_side S k (S k)) by (intro k; exists 0; split; [auto|intro i; unfold at_; ring]).
  assert (B : forall k, on_side S k (S ((k + 1) mod 3)%nat)) by (intro k; exists 1; split; [auto|intro i; unfold at_, side, vsub; ring]).
  assert (B0 := B 0%nat). assert (B1 := B 1%nat). assert (B2 := B 2%nat). cbn in B0, B1, B2.
  destruct (lt3 j H) as [->|[->| ->]], (lt3 j' H') as [->|[->| ->]];
    solve [exists 0%nat; split; [lia|auto]|exists 1%nat; split; [lia|auto]|exists 2%nat; split; [lia|auto]].
Qed.

(** The plane of a triangle: normal, its squared length, height over the plane, and three weights
    that are not negative exactly over the triangle. *)
Definition nrm (S : nat -> vec) : vec := vcross (side S 0) (side S 1).
Definition len (S : nat -> vec) : Q := vdot (nrm S) (nrm S).
Definition hgt (S : nat -> vec) (x : vec) : Q := vdot (vsub (S 0%nat) x) (nrm S).
Definition wgt (S : nat -> vec) (k : nat) (x : vec) : Q := vdot (vsub x (S k)) (vcross (nrm S) (side S k)).
Definition foot (S : nat -> vec) (x : vec) : vec := vaxpy x (nrm S) (hgt S x / len S).

Lemma mod13 : ((0 + 1) mod 3 = 1 /\ (1 + 1) mod 3 = 2 /\ (2 + 1) mod 3 = 0)%nat. Proof. auto. Qed.
Lemma side0 S i : side S 0 i = S 1%nat i - S 0%nat i. Proof. reflexivity. Qed.
Lemma side1 S i : side S 1 i = S 2%nat i - S 1%nat i. Proof. reflexivity. Qed.
Lemma side2 S i : side S 2 i = S 0%nat i - S 2%nat i. Proof. reflexivity. Qed.
Ltac flatS := unfold foot, wgt, hgt, len, nrm in *; flat3; rewrite ?side0, ?side1, ?side2 in *.

Lemma wgt_sum S x : wgt S 0 x + wgt S 1 x + wgt S 2 x == len S.
Proof. flatS. ring. Qed.
Lemma foot_bary S x i : len S * x i + nrm S i * hgt S x == wgt S 1 x * S 0%nat i + wgt S 2 x * S 1%nat i + wgt S 0 x * S 2%nat i.
Proof. destruct i; flatS; ring. Qed.
Lemma wgt_mix S k x y s : wgt S k (mix x y s) == (1 - s) * wgt S k x + s * wgt S k y.
Proof. unfold wgt, mix. generalize (vcross (nrm S) (side S k)). intro w. flat3. ring. Qed.
Lemma hgt_mix S x y s : hgt S (mix x y s) == (1 - s) * hgt S x + s * hgt S y.
Proof. unfold hgt, mix. generalize (nrm S). intro w. flat3. ring. Qed.
Lemma in_tri_wgt S p : in_tri S p -> hgt S p == 0 /\ forall k, (k < 3)%nat -> 0 <= wgt S k p.
Proof.
  intros (a & b & c & H1 & H2 & H3 & H4 & H5). assert (L : 0 <= len S) by apply dot_nonneg.
  assert (Ea : a == 1 - b - c) by lra.
  assert (EP : forall i, p i == S 0%nat i + b * (S 1%nat i - S 0%nat i) + c * (S 2%nat i - S 0%nat i)) by (intro i; rewrite H5, Ea; ring).
  set (pp := (fun i => S 0%nat i + b * (S 1%nat i - S 0%nat i) + c * (S 2%nat i - S 0%nat i)) : vec).
  assert (EW : forall k, wgt S k p == wgt S k pp) by (intro k; unfold wgt; apply dot_comp; intro i; [unfold vsub, pp; rewrite EP|]; reflexivity).
  split.
  - unfold hgt, vdot, vsub, sum3. rewrite !EP. flatS. ring.
  - intros k Hk. destruct (lt3 k Hk) as [->|[->| ->]].
    + assert (E : wgt S 0 p == c * len S) by (rewrite EW; unfold pp; flatS; ring). rewrite E. nra.
    + assert (E : wgt S 1 p == a * len S) by (rewrite Ea, EW; unfold pp; flatS; ring). rewrite E. nra.
    + assert (E : wgt S 2 p == b * len S) by (rewrite EW; unfold pp; flatS; ring). rewrite E. nra.
Qed.

Section Plane.
  Variable S : nat -> vec.
  Hypothesis HL : 0 < len S.
  Lemma foot_eq x i : foot S x i == (wgt S 1 x * S 0%nat i + wgt S 2 x * S 1%nat i + wgt S 0 x * S 2%nat i) / len S.
  Proof. rewrite <- foot_bary. unfold foot, vaxpy. field. lra. Qed.
  Lemma foot_in x : (forall k, (k < 3)%nat -> 0 <= wgt S k x) -> in_tri S (foot S x).
  Proof.
    intro W. assert (W0 := W 0%nat ltac:(lia)). assert (W1 := W 1%nat ltac:(lia)). assert (W2 := W 2%nat ltac:(lia)). assert (Sm := wgt_sum S x).
    exists (wgt S 1 x / len S), (wgt S 2 x / len S), (wgt S 0 x / len S).
    split; [apply Qle_shift_div_l; lra|]. split; [apply Qle_shift_div_l; lra|]. split; [apply Qle_shift_div_l; lra|]. split.
    - assert (E : wgt S 1 x / len S + wgt S 2 x / len S + wgt S 0 x / len S == (wgt S 0 x + wgt S 1 x + wgt S 2 x) / len S) by (field; lra).
      rewrite E, Sm. field. lra.
    - intro i. rewrite foot_eq. field. lra.
  Qed.
  Lemma foot_side x k : (forall k, (k < 3)%nat -> 0 <= wgt S k x) -> (k < 3)%nat -> wgt S k x == 0 -> on_side S k (foot S x).
  Proof.
    intros W Hk Z. assert (W0 := W 0%nat ltac:(lia)). assert (W1 := W 1%nat ltac:(lia)). assert (W2 := W 2%nat ltac:(lia)). assert (Sm := wgt_sum S x).
    destruct (lt3 k Hk) as [->|[->| ->]].
    - exists (wgt S 2 x / len S). split; [split; [apply Qle_shift_div_l; lra|apply Qle_shift_div_r; lra]|].
      intro i. rewrite foot_eq, Z. assert (E : wgt S 1 x == len S - wgt S 2 x) by lra. rewrite E. unfold at_. rewrite side0. field. lra.
    - exists (wgt S 0 x / len S). split; [split; [apply Qle_shift_div_l; lra|apply Qle_shift_div_r; lra]|].
      intro i. rewrite foot_eq, Z. assert (E : wgt S 2 x == len S - wgt S 0 x) by lra. rewrite E. unfold at_. rewrite side1. field. lra.
    - exists (wgt S 1 x / len S). split; [split; [apply Qle_shift_div_l; lra|apply Qle_shift_div_r; lra]|].
      intro i. rewrite foot_eq, Z. assert (E : wgt S 0 x == len S - wgt S 1 x) by lra. rewrite E. unfold at_. rewrite side2. field. lra.
  Qed.
  Lemma foot_dist x : dist2 (foot S x) x == hgt S x * hgt S x / len S.
  Proof.
    assert (E : dist2 (foot S x) x == (hgt S x / len S) * (hgt S x / len S) * len S).
    { unfold foot. generalize (hgt S x / len S). intro s. unfold len. generalize (nrm S). intro w. flat3. ring. }
    rewrite E. field. lra.
  Qed.
  Lemma foot_far p x : hgt S p == 0 -> dist2 p x == dist2 p (foot S x) + hgt S x * hgt S x / len S.
  Proof.
    intro H. assert (K : vdot (vsub x p) (nrm S) == - hgt S x).
    { assert (E : vdot (vsub x p) (nrm S) == hgt S p - hgt S x) by (unfold hgt; generalize (nrm S); intro w; flat3; ring). rewrite E, H. ring. }
    assert (E : dist2 p (foot S x) == dist2 p x + 2 * (hgt S x / len S) * vdot (vsub x p) (nrm S) + (hgt S x / len S) * (hgt S x / len S) * len S).
    { unfold foot. generalize (hgt S x / len S). intro s. unfold len. generalize (nrm S). intro w. flat3. ring. }
    rewrite E, K. field. lra.
  Qed.
  Lemma foot_self x : hgt S x == 0 -> veq (foot S x) x.
  Proof. intros H i. unfold foot, vaxpy. rewrite H. field. lra. Qed.
  Lemma foot_mix x y s i : foot S (mix x y s) i == (1 - s) * foot S x i + s * foot S y i.
  Proof. unfold foot, vaxpy. rewrite hgt_mix. unfold mix. field. lra. Qed.
End Plane.

(** Numbers that are not negative and move linearly stay so until one of them is zero. *)
Definition lin (s : Q) (w : Q * Q) : Q := (1 - s) * fst w + s * snd w.
Lemma slide l : (forall w, In w l -> 0 <= fst w) -> (forall w, In w l -> 0 <= snd w) \/
  exists s, unit s /\ (forall w, In w l -> 0 <= lin s w) /\ exists w, In w l /\ lin s w == 0.
Proof.
  induction l as [|[w w'] l IH]; intro H; [left; intros ? []|].
  assert (Hw : 0 <= w) by (apply (H (w, w')); left; auto).
  assert (IH' := IH (fun x K => H x (or_intror K))). clear IH.
  assert (R : forall v v', 0 <= v -> v' < 0 -> let s := v / (v - v') in unit s /\ lin s (v, v') == 0).
  { intros v v' Hv Hv'. cbn zeta. split; [split; [apply Qle_shift_div_l; lra|apply Qle_shift_div_r; lra]|]. unfold lin. cbn [fst snd]. field. lra. }
  destruct IH' as [A|(s & [U0 U1] & A & x & Hx & Z)].
  - destruct (Qlt_le_dec w' 0) as [L|L].
    + right. destruct (R w w' Hw L) as [U Z]. exists (w / (w - w')). split; [exact U|]. split.
      * intros x [<-|Hx]; [lra|]. unfold lin. assert (B := A x Hx). assert (B' := H x (or_intror Hx)). destruct U. nra.
      * exists (w, w'). split; [left; auto|exact Z].
    + left. intros x [<-|Hx]; [exact L|auto].
  - destruct (Qlt_le_dec (lin s (w, w')) 0) as [L|L].
    + right. destruct (R w (lin s (w, w')) Hw L) as [U Z']. set (r := w / (w - lin s (w, w'))) in *. clearbody r. exists (r * s).
      assert (E : forall y, lin (r * s) y == (1 - r) * fst y + r * lin s y) by (intro y; unfold lin; ring).
      split; [destruct U; split; nra|]. split.
      * intros y [<-|Hy]; [rewrite E; unfold lin at 1 in Z'; cbn [fst snd] in *; lra|]. rewrite E. assert (B := A y Hy). assert (B' := H y (or_intror Hy)). destruct U. nra.
      * exists (w, w'). split; [left; auto|]. rewrite E. unfold lin at 1 in Z'. cbn [fst snd] in *. lra.
    + right. exists s. split; [split; auto|]. split; [intros y [<-|Hy]; auto|]. exists x. split; [right; auto|auto].
Qed.
Lemma slide_wgt S x y : (forall k, (k < 3)%nat -> 0 <= wgt S k x) -> (forall k, (k < 3)%nat -> 0 <= wgt S k y) \/
  exists s, unit s /\ (forall k, (k < 3)%nat -> 0 <= wgt S k (mix x y s)) /\ exists k, (k < 3)%nat /\ wgt S k (mix x y s) == 0.
Proof.
  intro H. destruct (slide [(wgt S 0 x, wgt S 0 y); (wgt S 1 x, wgt S 1 y); (wgt S 2 x, wgt S 2 y)]) as [A|(s & U & A & w & Hw & Z)].
  - intros w [<-|[<-|[<-|[]]]]; cbn [fst]; apply H; lia.
  - left. intros k Hk. destruct (lt3 k Hk) as [->|[->| ->]]; [apply (A (wgt S 0 x, wgt S 0 y))|apply (A (wgt S 1 x, wgt S 1 y))|apply (A (wgt S 2 x, wgt S 2 y))]; cbn [In]; auto.
  - right. exists s. split; [exact U|]. split.
    + intros k Hk. rewrite wgt_mix. destruct (lt3 k Hk) as [->|[->| ->]]; [apply (A (wgt S 0 x, wgt S 0 y))|apply (A (wgt S 1 x, wgt S 1 y))|apply (A (wgt S 2 x, wgt S 2 y))]; cbn [In]; auto.
    + destruct Hw as [<-|[<-|[<-|[]]]]; [exists 0%nat|exists 1%nat|exists 2%nat]; (split; [lia|]); rewrite wgt_mix; exact Z.
Qed.
