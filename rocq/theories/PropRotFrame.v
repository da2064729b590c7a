(** C164: the rotation takes the local frame to the axes. *)
From Coq Require Import QArith Qround ZArith Znumtheory List Bool Lia Lqa Setoid.
From Verif Require Import AabModel AabProofs SegDistModel TriIntModel RotModel RotProofs.
Import ListNotations.
Open Scope Q_scope.

(** * Specification *)
(** What the library functions are for, wherever the values are rational: an angle may be any
    number, acos is needed for numbers from 0 to 1. *)
Record exact (L : libm) : Prop := {
  e_sin : forall a b, a == b -> l_sin L a == l_sin L b;
  e_cos : forall a b, a == b -> l_cos L a == l_cos L b;
  e_tan : forall a b, a == b -> l_tan L a == l_tan L b;
  e_zero : l_sin L 0 == 0 /\ l_cos L 0 == 1;
  e_odd : forall a, l_sin L (- a) == - l_sin L a /\ l_cos L (- a) == l_cos L a;
  e_circle : forall a, l_sin L a * l_sin L a + l_cos L a * l_cos L a == 1;
  e_half : forall a, l_tan L (a / 2) * (1 + l_cos L a) == l_sin L a /\ l_tan L (a / 2) * l_sin L a == 1 - l_cos L a;
  e_sqrt : forall q r, 0 <= r -> r * r == q -> l_sqrt L q == r;
  e_acos : forall c s, 0 <= c -> 0 <= s -> c * c + s * s == 1 -> l_cos L (l_acos L c) == c /\ l_sin L (l_acos L c) == s
}.
(** Matrix times vector, no rounding. *)
Definition mul (m : mat) (v : vec) : vec := fun r => m r AX * v AX + m r AY * v AY + m r AZ * v AZ.
Definition veq (u v : vec) : Prop := forall a, u a == v a.
(** What frenetRotation computes, without the rounding. *)
Fixpoint lin (i : nat) (Ss : list mat) (v : vec) : vec :=
  match Ss with [] => v | m :: Ss => lin (S i) Ss (mul (fwd_mat i m) v) end.
Definition exact_rotation (L : libm) (T1 T2 normal v : vec) : vec := lin 0 (compRotationMat L T1 T2 normal) v.
Definition orthonormal (T1 T2 normal : vec) : Prop :=
  vdot T1 T1 == 1 /\ vdot T2 T2 == 1 /\ vdot normal normal == 1 /\ vdot T1 T2 == 0 /\ vdot T1 normal == 0 /\ vdot T2 normal == 0.

(** * Proofs *)
Definition col (M : mat) (k : axis) : vec := fun r => M r k.
Definition ortho (M : mat) : Prop := orthonormal (col M AX) (col M AY) (col M AZ).

Lemma mul_proper m u v : veq u v -> veq (mul m u) (mul m v).
Proof. intros H a. unfold mul. rewrite !(H _). reflexivity. Qed.
Lemma lin_proper Ss : forall i u v, veq u v -> veq (lin i Ss u) (lin i Ss v).
Proof. induction Ss as [|m Ss IH]; intros i u v H; cbn [lin]; [exact H|]. apply IH, mul_proper, H. Qed.
Lemma lin_app Ss Ts : forall i v, lin i (Ss ++ Ts) v = lin (length Ss + i) Ts (lin i Ss v).
Proof. induction Ss as [|m Ss IH]; intros i v; [reflexivity|]. cbn [app lin length]. rewrite IH. f_equal. lia. Qed.
Lemma veq_trans u v w : veq u v -> veq v w -> veq u w.
Proof. intros A B a. rewrite (A a). apply B. Qed.

(** The rounded run follows the exact one: [e] bounds the distance on each axis. *)
Definition qv (u : ivec) : vec := let '(x, y, z) := u in v3 (inject_Z x) (inject_Z y) (inject_Z z).
Definition close (e : vec) (u : ivec) (v : vec) : Prop := forall a, - e a <= qv u a - v a <= e a.
Lemma round_err q : - (1 # 2) <= inject_Z (round_away q) - q <= 1 # 2.
Proof.
  unfold round_away. destruct (Qltb_spec q 0).
  - pose proof (Qfloor_le (- q + (1 # 2))). pose proof (Qlt_floor (- q + (1 # 2))) as K. rewrite inject_Z_plus in K. rewrite inject_Z_opp. change (inject_Z 1) with 1 in K. lra.
  - pose proof (Qfloor_le (q + (1 # 2))). pose proof (Qlt_floor (q + (1 # 2))) as K. rewrite inject_Z_plus in K. change (inject_Z 1) with 1 in K. lra.
Qed.
Lemma round_same q k : q == inject_Z k -> inject_Z (round_away q) == inject_Z k.
Proof. intros H. rewrite (round_int k q H). reflexivity. Qed.
(** An entry [k] of size up to [T] in row [i] and column [j] beside the diagonal. *)
Definition shear_of (m : mat) (i j : axis) (k : Q) : Prop := forall r c, m r c == match r, c with
  | AX, AX | AY, AY | AZ, AZ => 1
  | AX, AY => match i, j with AX, AY => k | _, _ => 0 end | AX, AZ => 0
  | AY, AX => match i, j with AY, AX => k | _, _ => 0 end | AY, AZ => match i, j with AY, AZ => k | _, _ => 0 end
  | AZ, AX => 0 | AZ, AY => match i, j with AZ, AY => k | _, _ => 0 end end.
Definition grow (e : vec) (i j : axis) (T : Q) : vec := fun a => match a, i with
  | AX, AX | AY, AY | AZ, AZ => e i + T * e j + (1 # 2) | _, _ => e a end.
Definition sheared (i j : axis) : Prop := match i, j with AX, AY | AY, AX | AY, AZ | AZ, AY => True | _, _ => False end.
Lemma scaled k T d e : - T <= k <= T -> - e <= d <= e -> - (T * e) <= k * d <= T * e.
Proof. intros H K. split; nra. Qed.
Lemma shear_close m i j k T e u v : sheared i j -> shear_of m i j k -> - T <= k <= T -> close e u v -> close (grow e i j T) (apply_round m u) (mul m v).
Proof.
  intros SH S B C. destruct u as [[x y] z]. unfold apply_round.
  set (q := fun r => m r AX * inject_Z x + m r AY * inject_Z y + m r AZ * inject_Z z).
  assert (U : forall a, qv (round_away (q AX), round_away (q AY), round_away (q AZ)) a = inject_Z (round_away (q a))) by (intros []; reflexivity).
  intro a. change (- grow e i j T a <= qv (round_away (q AX), round_away (q AY), round_away (q AZ)) a - mul m v a <= grow e i j T a). rewrite U.
  pose proof (C AX) as CX. pose proof (C AY) as CY. pose proof (C AZ) as CZ. cbn [qv v3] in CX, CY, CZ.
  pose proof (round_err (q a)) as RE.
  assert (MV : mul m v a == m a AX * v AX + m a AY * v AY + m a AZ * v AZ) by reflexivity. rewrite MV. clear MV.
  assert (QE : q a == m a AX * inject_Z x + m a AY * inject_Z y + m a AZ * inject_Z z) by reflexivity.
  pose proof (scaled k T _ _ B CX) as SX. pose proof (scaled k T _ _ B CY) as SY. pose proof (scaled k T _ _ B CZ) as SZ.
  rewrite !(S a _) in *. destruct i, j; try contradiction; destruct a; cbn [grow]; unfold grow;
  (lra || (match goal with |- context [round_away (q AX)] => rewrite (round_same (q AX) x) by (rewrite QE; ring) | |- context [round_away (q AY)] => rewrite (round_same (q AY) y) by (rewrite QE; ring) | |- context [round_away (q AZ)] => rewrite (round_same (q AZ) z) by (rewrite QE; ring) end; lra)).
Qed.
(** The swaps and changes of sign are exact. *)
Definition swap_xy (b : bool) (e : vec) : vec := if b then v3 (e AY) (e AX) (e AZ) else e.
Definition swap_yz (b : bool) (e : vec) : vec := if b then v3 (e AX) (e AZ) (e AY) else e.
Lemma D_close (b : bool) m f e u v : (m = D2 /\ f = swap_xy b \/ m = D4 /\ f = swap_yz b \/ (m = D3 \/ m = D5) /\ f = fun e => e) ->
  close e u v -> close (f e) (apply_round (if b then m else D1) u) (mul (if b then m else D1) v).
Proof.
  intros H C. destruct u as [[x y] z].
  pose proof (C AX) as CX. pose proof (C AY) as CY. pose proof (C AZ) as CZ. cbn [qv v3] in CX, CY, CZ.
  destruct b.
  - destruct H as [[-> ->]|[[-> ->]|[[-> | ->] ->]]]; intro a; destruct a; unfold apply_round, mul, D2, D3, D4, D5, swap_xy, swap_yz; cbn [qv m33 v3];
    match goal with |- context [round_away ?q] => match goal with
      | |- _ => rewrite (round_same q x) by ring | |- _ => rewrite (round_same q y) by ring | |- _ => rewrite (round_same q z) by ring
      | |- _ => rewrite (round_same q (- x)) by (rewrite inject_Z_opp; ring) | |- _ => rewrite (round_same q (- y)) by (rewrite inject_Z_opp; ring) | |- _ => rewrite (round_same q (- z)) by (rewrite inject_Z_opp; ring) end end; rewrite ?inject_Z_opp; lra.
  - assert (G : close e (apply_round D1 (x, y, z)) (mul D1 v)).
    { intro a; destruct a; unfold apply_round, mul, D1; cbn [qv m33 v3];
      match goal with |- context [round_away ?q] => match goal with |- _ => rewrite (round_same q x) by ring | |- _ => rewrite (round_same q y) by ring | |- _ => rewrite (round_same q z) by ring end end; lra. }
    destruct H as [[-> ->]|[[-> ->]|[[-> | ->] ->]]]; exact G.
Qed.

Section Exact.
  Variables (L : libm) (E : exact L).

  (** One turn of the plane. *)
  Lemma turn_spec x y r : 0 <= y -> 0 <= r -> r * r == x * x + y * y ->
    let c := l_cos L (turn L x y) in let s := l_sin L (turn L x y) in
    c * x + s * y == 0 /\ - s * x + c * y == r.
  Proof.
    intros Hy Hr R. cbv zeta. unfold turn. destruct (Qeq_bool (x * x + y * y) 0) eqn:Z0.
    - apply Qeq_bool_iff in Z0. destruct (e_zero L E) as [S0 C0]. rewrite S0, C0.
      assert (x == 0) by nra. assert (y == 0) by nra. assert (r == 0) by nra. split; lra.
    - assert (NZ : ~ x * x + y * y == 0). { intro K. apply Qeq_bool_iff in K. rewrite K in Z0. discriminate Z0. }
      assert (RP : 0 < r). { assert (~ r == 0) by (intro K; apply NZ; rewrite <- R, K; ring). lra. }
      assert (SQ : l_sqrt L (x * x + y * y) == r) by (apply (e_sqrt L E); assumption).
      assert (NR : ~ r == 0) by lra.
      set (q := y / l_sqrt L (x * x + y * y)). assert (Q : q == y / r) by (unfold q; rewrite SQ; reflexivity).
      set (ax := if Qltb x 0 then - x else x). assert (AX2 : 0 <= ax /\ ax * ax == x * x).
      { unfold ax. destruct (Qltb_spec x 0); split; try lra; ring. }
      destruct (e_acos L E q (ax / r)) as [CA SA].
      { rewrite Q. apply Qle_shift_div_l; lra. }
      { apply Qle_shift_div_l; lra. }
      { rewrite Q. setoid_replace (y / r * (y / r) + ax / r * (ax / r)) with ((ax * ax + y * y) / (r * r)) by (field; exact NR).
        rewrite (proj2 AX2), R. field. exact NZ. }
      unfold signe. destruct (Qltb_spec (- 1 * x) 0) as [N|N].
      + assert (A1 : -1 * l_acos L q == - l_acos L q) by ring. rewrite (e_sin L E _ _ A1), (e_cos L E _ _ A1). destruct (e_odd L E (l_acos L q)) as [O1 O2]. rewrite O1, O2, CA, SA, Q.
        assert (AE : ax == x). { unfold ax. destruct (Qltb_spec x 0); lra. } rewrite AE. split; [field; exact NR|].
        setoid_replace (- - (x / r) * x + y / r * y) with ((x * x + y * y) / r) by (field; exact NR). rewrite <- R. field. exact NR.
      + assert (A1 : 1 * l_acos L q == l_acos L q) by ring. rewrite (e_sin L E _ _ A1), (e_cos L E _ _ A1), CA, SA, Q.
        assert (AE : ax == - x). { unfold ax. destruct (Qltb_spec x 0); lra. } rewrite AE. split; [field; exact NR|].
        setoid_replace (- (- x / r) * x + y / r * y) with ((x * x + y * y) / r) by (field; exact NR). rewrite <- R. field. exact NR.
  Qed.

  (** The angle is at most 45 degrees: bounds of the coefficients of the shears. *)
  Lemma turn_small x y r : 0 <= y -> x * x <= y * y -> 0 <= r -> r * r == x * x + y * y ->
    - (5 # 12) <= l_tan L (turn L x y / 2) <= 5 # 12 /\ - (17 # 24) <= l_sin L (turn L x y) <= 17 # 24.
  Proof.
    intros Hy XY Hr R. destruct (turn_spec x y r Hy Hr R) as [T1 T2]. pose proof (e_circle L E (turn L x y)) as C. destruct (e_half L E (turn L x y)) as [H1 H2].
    destruct (Qlt_le_dec 0 r) as [P|P].
    - set (c := l_cos L (turn L x y)) in *. set (s := l_sin L (turn L x y)) in *. set (t := l_tan L (turn L x y / 2)) in *.
      assert (A1 : s * r == - x). { rewrite <- T2. setoid_replace (s * (- s * x + c * y)) with (- (s * s + c * c) * x + c * (c * x + s * y)) by ring. rewrite C, T1. ring. }
      assert (A2 : c * r == y). { rewrite <- T2. setoid_replace (c * (- s * x + c * y)) with ((s * s + c * c) * y - s * (c * x + s * y)) by ring. rewrite C, T1. ring. }
      assert (C0 : 0 <= c). { destruct (Qlt_le_dec c 0); [|assumption]. exfalso. assert (c * r < 0) by nra. lra. }
      assert (S2 : s * s <= c * c).
      { assert (K : (s * r) * (s * r) <= (c * r) * (c * r)) by (rewrite A1, A2; lra). destruct (Qlt_le_dec (c * c) (s * s)) as [B|B]; [|exact B]. exfalso.
        assert (0 < (s * s - c * c) * (r * r)) by (apply Qmult_lt_0_compat; nra). lra. }
      assert (S3 : s * s <= 1 # 2) by lra. assert (C3 : 7 # 10 <= c). { destruct (Qlt_le_dec c (7 # 10)); [|assumption]. exfalso. nra. }
      assert (SB : - (17 # 24) <= s <= 17 # 24) by (split; nra). split; [|exact SB].
      split; nra.
    - assert (r == 0) by lra. assert (x == 0) by nra. assert (y == 0) by nra.
      unfold turn in *. assert (Z0 : Qeq_bool (x * x + y * y) 0 = true) by (apply Qeq_bool_iff; nra). rewrite Z0 in *. destruct (e_zero L E) as [S0 C0]. rewrite C0 in H1. rewrite S0 in *. split; split; lra.
  Qed.

  (** The three shears are one turn. *)
  Definition rxy (a : Q) : mat := m33 (l_cos L a) (l_sin L a) 0 (- l_sin L a) (l_cos L a) 0 0 0 1.
  Definition ryz (a : Q) : mat := m33 1 0 0 0 (l_cos L a) (l_sin L a) 0 (- l_sin L a) (l_cos L a).
  Lemma shears_xy i S0 S1 a v : existsb (Nat.eqb i) [0; 10]%nat = true ->
    veq (lin i [S0; S1; m33 1 (- l_tan L (a / 2)) 0 0 1 0 0 0 1; m33 1 0 0 (l_sin L a) 1 0 0 0 1; m33 1 (- l_tan L (a / 2)) 0 0 1 0 0 0 1] v)
        (mul (rxy a) (mul S1 (mul S0 v))).
  Proof.
    intros I. destruct (e_half L E a) as [H1 H2].
    assert (J : i = 0%nat \/ i = 10%nat). { cbn [existsb] in I. destruct (Nat.eqb_spec i 0); [auto|]. destruct (Nat.eqb_spec i 10); [auto|discriminate I]. }
    set (w := mul S1 (mul S0 v)). set (t := l_tan L (a / 2)) in *. set (s := l_sin L a) in *. set (c := l_cos L a) in *.
    assert (G : veq (lin 2 [m33 1 (- t) 0 0 1 0 0 0 1; m33 1 0 0 s 1 0 0 0 1; m33 1 (- t) 0 0 1 0 0 0 1] w) (mul (rxy a) w)).
    { intro k. unfold rxy. fold s c. destruct k; cbn [lin fwd_mat existsb Nat.eqb orb]; unfold mul; cbn [m33 v3].
      - setoid_replace c with (1 - t * s) by (rewrite H2; ring). assert (s == t * (2 - t * s)) by (rewrite H2, <- H1; ring). set (x := w AX). set (y := w AY). set (z := w AZ).
        assert (K : s * y == t * (2 - t * s) * y) by (rewrite <- H; reflexivity). rewrite K. ring.
      - setoid_replace c with (1 - t * s) by (rewrite H2; ring). ring.
      - ring. }
    destruct J as [-> | ->]; exact G.
  Qed.
  Lemma shears_yz S0 S1 a v :
    veq (lin 5 [S0; S1; m33 1 0 0 0 1 (- l_tan L (a / 2)) 0 0 1; m33 1 0 0 0 1 0 0 (l_sin L a) 1; m33 1 0 0 0 1 (- l_tan L (a / 2)) 0 0 1] v)
        (mul (ryz a) (mul S1 (mul S0 v))).
  Proof.
    destruct (e_half L E a) as [H1 H2].
    set (t := l_tan L (a / 2)) in *. set (s := l_sin L a) in *. set (c := l_cos L a) in *.
    intro k. unfold ryz. fold s c. cbn [lin]. change (fwd_mat 5 S0) with S0. change (fwd_mat 6 S1) with S1. set (w := mul S1 (mul S0 v)).
    destruct k; cbn [fwd_mat existsb Nat.eqb orb]; unfold mul; cbn [m33 v3]; set (x := w AX); set (y := w AY); set (z := w AZ).
    - ring.
    - setoid_replace c with (1 - t * s) by (rewrite H2; ring). assert (s == t * (2 - t * s)) by (rewrite H2, <- H1; ring).
      assert (K : s * z == t * (2 - t * s) * z) by (rewrite <- H; reflexivity). rewrite K. ring.
    - setoid_replace c with (1 - t * s) by (rewrite H2; ring). ring.
  Qed.

  (** Matrices that keep products. *)
  Definition keeps (N : mat) : Prop := forall u v, vdot (mul N u) (mul N v) == vdot u v.
  Lemma keeps_ortho N M : keeps N -> ortho M -> ortho (matProd N M).
  Proof.
    intros K (A & B & C & D & F & G).
    assert (X : forall k l, vdot (col (matProd N M) k) (col (matProd N M) l) == vdot (col M k) (col M l)) by (intros k l; exact (K (col M k) (col M l))).
    unfold ortho, orthonormal. rewrite !X. tauto.
  Qed.
  Lemma keeps_D (b : bool) N : In N [D2; D3; D4; D5] -> keeps (if b then N else D1).
  Proof.
    intros I u v. destruct b; [|unfold vdot, sum3, mul, D1; cbn [m33 v3]; ring]. destruct I as [<-|[<-|[<-|[<-|[]]]]]; unfold vdot, sum3, mul, D2, D3, D4, D5; cbn [m33 v3]; ring.
  Qed.
  Lemma keeps_xy a : keeps (rxy a).
  Proof.
    intros u v. pose proof (e_circle L E a) as C. unfold vdot, sum3, mul, rxy. cbn [m33 v3]. set (s := l_sin L a) in *. set (c := l_cos L a) in *.
    setoid_replace ((c * u AX + s * u AY + 0 * u AZ) * (c * v AX + s * v AY + 0 * v AZ) + (- s * u AX + c * u AY + 0 * u AZ) * (- s * v AX + c * v AY + 0 * v AZ) + (0 * u AX + 0 * u AY + 1 * u AZ) * (0 * v AX + 0 * v AY + 1 * v AZ))
      with ((s * s + c * c) * (u AX * v AX + u AY * v AY) + u AZ * v AZ) by ring. rewrite C. ring.
  Qed.
  Lemma keeps_yz a : keeps (ryz a).
  Proof.
    intros u v. pose proof (e_circle L E a) as C. unfold vdot, sum3, mul, ryz. cbn [m33 v3]. set (s := l_sin L a) in *. set (c := l_cos L a) in *.
    setoid_replace ((1 * u AX + 0 * u AY + 0 * u AZ) * (1 * v AX + 0 * v AY + 0 * v AZ) + (0 * u AX + c * u AY + s * u AZ) * (0 * v AX + c * v AY + s * v AZ) + (0 * u AX + - s * u AY + c * u AZ) * (0 * v AX + - s * v AY + c * v AZ))
      with (u AX * v AX + (s * s + c * c) * (u AY * v AY + u AZ * v AZ)) by ring. rewrite C. ring.
  Qed.

  Lemma part3 M : ortho M -> M AX AZ == 0 -> M AY AZ == 0 -> M AZ AZ == 1 ->
    exists e, (e == 1 \/ e == -1) /\ veq (lin 10 (rot_part3 L M) (col M AX)) (v3 e 0 0) /\
      veq (lin 10 (rot_part3 L M) (col M AY)) (v3 0 1 0) /\ veq (lin 10 (rot_part3 L M) (col M AZ)) (v3 0 0 1).
  Proof.
    intros O Z1 Z2 Z3. unfold rot_part3.
    set (S10 := if Qltb (Qabsv (M AY AY)) (Qabsv (M AX AY)) then D2 else D1). set (M1 := matProd S10 M).
    set (S11 := if Qltb (M1 AY AY) 0 then D3 else D1). set (M2 := matProd S11 M1). set (a := turn L (M2 AX AY) (M2 AY AY)).
    set (N := matProd (rxy a) M2).
    assert (O1 : ortho M1) by (apply keeps_ortho; [apply keeps_D; cbn; tauto|exact O]).
    assert (O2 : ortho M2) by (apply keeps_ortho; [apply keeps_D; cbn; tauto|exact O1]).
    assert (ON : ortho N) by (apply keeps_ortho; [apply keeps_xy|exact O2]).
    assert (C1 : M1 AX AZ == 0 /\ M1 AY AZ == 0 /\ M1 AZ AZ == 1) by (unfold M1, S10, matProd; destruct (Qltb (Qabsv (M AY AY)) (Qabsv (M AX AY))); cbn [D1 D2 m33 v3]; repeat split; lra).
    assert (C2 : M2 AX AZ == 0 /\ M2 AY AZ == 0 /\ M2 AZ AZ == 1) by (destruct C1 as (? & ? & ?); unfold M2, S11, matProd; destruct (Qltb (M1 AY AY) 0); cbn [D1 D3 m33 v3]; repeat split; lra).
    assert (Y2 : 0 <= M2 AY AY). { unfold M2, S11. destruct (Qltb_spec (M1 AY AY) 0); unfold matProd; cbn [D1 D3 m33 v3]; lra. }
    assert (CN : N AX AZ == 0 /\ N AY AZ == 0 /\ N AZ AZ == 1).
    { destruct C2 as (K1 & K2 & K3). unfold N, matProd, rxy. cbn [m33 v3]. rewrite K1, K2, K3. repeat split; ring. }
    assert (W : M2 AZ AY == 0). { destruct O2 as (_ & _ & _ & _ & _ & G). destruct C2 as (K1 & K2 & K3). unfold vdot, sum3, col in G. rewrite K1, K2, K3 in G. lra. }
    destruct (turn_spec (M2 AX AY) (M2 AY AY) 1 Y2) as [T1 T2]; [lra| |].
    { destruct O2 as (_ & G & _). unfold vdot, sum3, col in G. rewrite W in G. lra. }
    fold a in T1, T2.
    assert (D : N AX AY == 0 /\ N AY AY == 1 /\ N AZ AY == 0).
    { unfold N, matProd, rxy. cbn [m33 v3]. rewrite W. repeat split; lra. }
    assert (F : N AY AX == 0 /\ N AZ AX == 0 /\ N AX AX * N AX AX == 1).
    { destruct ON as (G1 & _ & _ & G4 & G5 & _). destruct CN as (K1 & K2 & K3). destruct D as (D1' & D2' & D3').
      unfold vdot, sum3, col in G1, G4, G5. rewrite D1', D2', D3' in G4. rewrite K1, K2, K3 in G5. assert (X1 : N AY AX == 0) by lra. assert (X2 : N AZ AX == 0) by lra. rewrite X1, X2 in G1. repeat split; lra. }
    assert (R : forall k, veq (lin 10 [S10; S11; m33 1 (- l_tan L (a / 2)) 0 0 1 0 0 0 1; m33 1 0 0 (l_sin L a) 1 0 0 0 1; m33 1 (- l_tan L (a / 2)) 0 0 1 0 0 0 1] (col M k)) (col N k)).
    { intro k. exact (shears_xy 10 S10 S11 a (col M k) eq_refl). }
    exists (N AX AX). split.
    { destruct F as (_ & _ & F). destruct (Qlt_le_dec (N AX AX) 0); [right|left]; nra. }
    destruct F as (F1 & F2 & F3). destruct D as (D1' & D2' & D3'). destruct CN as (K1 & K2 & K3).
    split; [|split]; (eapply veq_trans; [apply R|]; intros []; unfold col; cbn [v3]; assumption || reflexivity).
  Qed.

  Lemma part2 M : ortho M -> M AX AZ == 0 ->
    exists e, (e == 1 \/ e == -1) /\ veq (lin 5 (rot_part2 L M) (col M AX)) (v3 e 0 0) /\
      veq (lin 5 (rot_part2 L M) (col M AY)) (v3 0 1 0) /\ veq (lin 5 (rot_part2 L M) (col M AZ)) (v3 0 0 1).
  Proof.
    intros O Z1. unfold rot_part2.
    set (S5 := if Qltb (Qabsv (M AZ AZ)) (Qabsv (M AY AZ)) then D4 else D1). set (M1 := matProd S5 M).
    set (S6 := if Qltb (M1 AZ AZ) 0 then D5 else D1). set (M2 := matProd S6 M1). set (a := turn L (M2 AY AZ) (M2 AZ AZ)).
    change (m33 1 0 0 0 (l_cos L a) (l_sin L a) 0 (- l_sin L a) (l_cos L a)) with (ryz a).
    set (N := matProd (ryz a) M2).
    assert (O1 : ortho M1) by (apply keeps_ortho; [apply keeps_D; cbn; tauto|exact O]).
    assert (O2 : ortho M2) by (apply keeps_ortho; [apply keeps_D; cbn; tauto|exact O1]).
    assert (ON : ortho N) by (apply keeps_ortho; [apply keeps_yz|exact O2]).
    assert (C1 : M1 AX AZ == 0) by (unfold M1, S5, matProd; destruct (Qltb (Qabsv (M AZ AZ)) (Qabsv (M AY AZ))); cbn [D1 D4 m33 v3]; lra).
    assert (C2 : M2 AX AZ == 0) by (unfold M2, S6, matProd; destruct (Qltb (M1 AZ AZ) 0); cbn [D1 D5 m33 v3]; lra).
    assert (Y2 : 0 <= M2 AZ AZ). { unfold M2, S6. destruct (Qltb_spec (M1 AZ AZ) 0); unfold matProd; cbn [D1 D5 m33 v3]; lra. }
    destruct (turn_spec (M2 AY AZ) (M2 AZ AZ) 1 Y2) as [T1 T2]; [lra| |].
    { destruct O2 as (_ & _ & G & _). unfold vdot, sum3, col in G. rewrite C2 in G. lra. }
    fold a in T1, T2.
    assert (CN : N AX AZ == 0 /\ N AY AZ == 0 /\ N AZ AZ == 1).
    { unfold N, matProd, ryz. cbn [m33 v3]. rewrite C2. repeat split; lra. }
    destruct CN as (K1 & K2 & K3). destruct (part3 N ON K1 K2 K3) as (e & He & R1 & R2 & R3).
    assert (R : forall k, veq (lin 5 [S5; S6; m33 1 0 0 0 1 (- l_tan L (a / 2)) 0 0 1; m33 1 0 0 0 1 0 0 (l_sin L a) 1; m33 1 0 0 0 1 (- l_tan L (a / 2)) 0 0 1] (col M k)) (col N k)).
    { intro k. exact (shears_yz S5 S6 a (col M k)). }
    exists e. split; [exact He|]. rewrite !lin_app. cbn [length Nat.add].
    split; [|split]; (eapply veq_trans; [apply lin_proper, R|]; assumption).
  Qed.

  Lemma part1 M r : ortho M -> 0 <= r -> r * r == M AX AZ * M AX AZ + M AY AZ * M AY AZ ->
    exists e, (e == 1 \/ e == -1) /\ veq (lin 0 (rot_part1 L M) (col M AX)) (v3 e 0 0) /\
      veq (lin 0 (rot_part1 L M) (col M AY)) (v3 0 1 0) /\ veq (lin 0 (rot_part1 L M) (col M AZ)) (v3 0 0 1).
  Proof.
    intros O Hr R0. unfold rot_part1.
    set (S0 := if Qltb (Qabsv (M AY AZ)) (Qabsv (M AX AZ)) then D2 else D1). set (M1 := matProd S0 M).
    set (S1 := if Qltb (M1 AY AZ) 0 then D3 else D1). set (M2 := matProd S1 M1). set (a := turn L (M2 AX AZ) (M2 AY AZ)).
    change (m33 (l_cos L a) (l_sin L a) 0 (- l_sin L a) (l_cos L a) 0 0 0 1) with (rxy a).
    set (N := matProd (rxy a) M2).
    assert (O1 : ortho M1) by (apply keeps_ortho; [apply keeps_D; cbn; tauto|exact O]).
    assert (O2 : ortho M2) by (apply keeps_ortho; [apply keeps_D; cbn; tauto|exact O1]).
    assert (ON : ortho N) by (apply keeps_ortho; [apply keeps_xy|exact O2]).
    assert (C1 : r * r == M1 AX AZ * M1 AX AZ + M1 AY AZ * M1 AY AZ) by (rewrite R0; unfold M1, S0, matProd; destruct (Qltb (Qabsv (M AY AZ)) (Qabsv (M AX AZ))); cbn [D1 D2 m33 v3]; ring).
    assert (C2 : r * r == M2 AX AZ * M2 AX AZ + M2 AY AZ * M2 AY AZ) by (rewrite C1; unfold M2, S1, matProd; destruct (Qltb (M1 AY AZ) 0); cbn [D1 D3 m33 v3]; ring).
    assert (Y2 : 0 <= M2 AY AZ). { unfold M2, S1. destruct (Qltb_spec (M1 AY AZ) 0); unfold matProd; cbn [D1 D3 m33 v3]; lra. }
    destruct (turn_spec (M2 AX AZ) (M2 AY AZ) r Y2 Hr C2) as [T1 T2]. fold a in T1, T2.
    assert (CN : N AX AZ == 0). { unfold N, matProd, rxy. cbn [m33 v3]. lra. }
    destruct (part2 N ON CN) as (e & He & R1 & R2 & R3).
    assert (R : forall k, veq (lin 0 [S0; S1; m33 1 (- l_tan L (a / 2)) 0 0 1 0 0 0 1; m33 1 0 0 (l_sin L a) 1 0 0 0 1; m33 1 (- l_tan L (a / 2)) 0 0 1 0 0 0 1] (col M k)) (col N k)).
    { intro k. exact (shears_xy 0 S0 S1 a (col M k) eq_refl). }
    exists e. split; [exact He|]. rewrite !lin_app. cbn [length Nat.add].
    split; [|split]; (eapply veq_trans; [apply lin_proper, R|]; assumption).
  Qed.
  (** * Distance of the rounded run *)
  Definition after_xy (b : bool) (e : vec) : vec := grow (grow (grow (swap_xy b e) AX AY (5 # 12)) AY AX (17 # 24)) AX AY (5 # 12).
  Definition after_yz (b : bool) (e : vec) : vec := grow (grow (grow (swap_yz b e) AY AZ (5 # 12)) AZ AY (17 # 24)) AY AZ (5 # 12).
  Definition gentle (a : Q) : Prop := - (5 # 12) <= l_tan L (a / 2) <= 5 # 12 /\ - (17 # 24) <= l_sin L a <= 17 # 24.
  Lemma steps_app Ss Ts : forall i v, fwd_steps i (Ss ++ Ts) v = fwd_steps (length Ss + i) Ts (fwd_steps i Ss v).
  Proof. induction Ss as [|m Ss IH]; intros i v; [reflexivity|]. cbn [app fwd_steps length]. rewrite IH. f_equal. lia. Qed.
  Lemma five_xy i (b0 b1 : bool) a e u v : existsb (Nat.eqb i) [0; 10]%nat = true -> gentle a -> close e u v ->
    let Ss := [if b0 then D2 else D1; if b1 then D3 else D1; m33 1 (- l_tan L (a / 2)) 0 0 1 0 0 0 1; m33 1 0 0 (l_sin L a) 1 0 0 0 1; m33 1 (- l_tan L (a / 2)) 0 0 1 0 0 0 1] in
    close (after_xy b0 e) (fwd_steps i Ss u) (lin i Ss v).
  Proof.
    intros I [G1 G2] C. cbv zeta.
    assert (J : i = 0%nat \/ i = 10%nat). { cbn [existsb] in I. destruct (Nat.eqb_spec i 0); [auto|]. destruct (Nat.eqb_spec i 10); [auto|discriminate I]. }
    set (S0 := if b0 then D2 else D1). set (S1 := if b1 then D3 else D1).
    assert (C1 : close (swap_xy b0 e) (apply_round S0 u) (mul S0 v)) by (apply (D_close b0 D2 (swap_xy b0)); [left; split; reflexivity|exact C]).
    assert (C2 : close (swap_xy b0 e) (apply_round S1 (apply_round S0 u)) (mul S1 (mul S0 v))) by (apply (D_close b1 D3 (fun e => e)); [right; right; split; [left; reflexivity|reflexivity]|exact C1]).
    assert (G : forall u v e, close e u v -> close (grow (grow (grow e AX AY (5 # 12)) AY AX (17 # 24)) AX AY (5 # 12))
      (fwd_steps 2 [m33 1 (- l_tan L (a / 2)) 0 0 1 0 0 0 1; m33 1 0 0 (l_sin L a) 1 0 0 0 1; m33 1 (- l_tan L (a / 2)) 0 0 1 0 0 0 1] u)
      (lin 2 [m33 1 (- l_tan L (a / 2)) 0 0 1 0 0 0 1; m33 1 0 0 (l_sin L a) 1 0 0 0 1; m33 1 (- l_tan L (a / 2)) 0 0 1 0 0 0 1] v)).
    { intros u' v' e' C'. cbn [fwd_steps lin fwd_mat existsb Nat.eqb orb].
      apply (shear_close _ AX AY (l_tan L (a / 2)) (5 # 12)); [exact Logic.I| |lra|].
      { intros [] []; cbn [m33 v3]; ring. }
      apply (shear_close _ AY AX (- l_sin L a) (17 # 24)); [exact Logic.I| |lra|].
      { intros [] []; cbn [m33 v3]; ring. }
      apply (shear_close _ AX AY (l_tan L (a / 2)) (5 # 12)); [exact Logic.I| |lra|exact C'].
      { intros [] []; cbn [m33 v3]; ring. } }
    destruct J as [-> | ->]; exact (G _ _ _ C2).
  Qed.
  Lemma five_yz (b0 b1 : bool) a e u v : gentle a -> close e u v ->
    let Ss := [if b0 then D4 else D1; if b1 then D5 else D1; m33 1 0 0 0 1 (- l_tan L (a / 2)) 0 0 1; m33 1 0 0 0 1 0 0 (l_sin L a) 1; m33 1 0 0 0 1 (- l_tan L (a / 2)) 0 0 1] in
    close (after_yz b0 e) (fwd_steps 5 Ss u) (lin 5 Ss v).
  Proof.
    intros [G1 G2] C. cbv zeta.
    set (S0 := if b0 then D4 else D1). set (S1 := if b1 then D5 else D1).
    assert (C1 : close (swap_yz b0 e) (apply_round S0 u) (mul S0 v)) by (apply (D_close b0 D4 (swap_yz b0)); [right; left; split; reflexivity|exact C]).
    assert (C2 : close (swap_yz b0 e) (apply_round S1 (apply_round S0 u)) (mul S1 (mul S0 v))) by (apply (D_close b1 D5 (fun e => e)); [right; right; split; [right; reflexivity|reflexivity]|exact C1]).
    cbn [fwd_steps lin]. change (fwd_mat 5 S0) with S0. change (fwd_mat 6 S1) with S1. cbn [fwd_mat existsb Nat.eqb orb].
    apply (shear_close _ AY AZ (l_tan L (a / 2)) (5 # 12)); [exact Logic.I| |lra|].
    { intros [] []; cbn [m33 v3]; ring. }
    apply (shear_close _ AZ AY (- l_sin L a) (17 # 24)); [exact Logic.I| |lra|].
    { intros [] []; cbn [m33 v3]; ring. }
    apply (shear_close _ AY AZ (l_tan L (a / 2)) (5 # 12)); [exact Logic.I| |lra|exact C2].
    { intros [] []; cbn [m33 v3]; ring. }
  Qed.
  Lemma swap_small x y : forall b, b = Qltb (Qabsv y) (Qabsv x) -> (if b then y * y <= x * x else x * x <= y * y).
  Proof.
    intros b ->. unfold Qabsv. destruct (Qltb_spec (if Qltb y 0 then - y else y) (if Qltb x 0 then - x else x)) as [H|H]; destruct (Qltb_spec y 0), (Qltb_spec x 0); nra.
  Qed.

  Lemma part3_close M : ortho M -> M AX AZ == 0 -> M AY AZ == 0 -> M AZ AZ == 1 ->
    exists b, forall e u v, close e u v -> close (after_xy b e) (fwd_steps 10 (rot_part3 L M) u) (lin 10 (rot_part3 L M) v).
  Proof.
    intros O Z1 Z2 Z3. unfold rot_part3.
    set (b0 := Qltb (Qabsv (M AY AY)) (Qabsv (M AX AY))). pose proof (swap_small (M AX AY) (M AY AY) b0 eq_refl) as SS. clearbody b0.
    set (S10 := if b0 then D2 else D1). set (M1 := matProd S10 M).
    set (b1 := Qltb (M1 AY AY) 0). assert (B1 : b1 = true /\ M1 AY AY < 0 \/ b1 = false /\ 0 <= M1 AY AY) by (unfold b1; destruct (Qltb_spec (M1 AY AY) 0); [left|right]; split; auto; lra). clearbody b1.
    set (S11 := if b1 then D3 else D1). set (M2 := matProd S11 M1). set (a := turn L (M2 AX AY) (M2 AY AY)).
    assert (O1 : ortho M1) by (apply keeps_ortho; [apply keeps_D; cbn; tauto|exact O]).
    assert (O2 : ortho M2) by (apply keeps_ortho; [apply keeps_D; cbn; tauto|exact O1]).
    assert (C1 : M1 AX AZ == 0 /\ M1 AY AZ == 0 /\ M1 AZ AZ == 1) by (unfold M1, S10, matProd; destruct b0; cbn [D1 D2 m33 v3]; repeat split; lra).
    assert (C2 : M2 AX AZ == 0 /\ M2 AY AZ == 0 /\ M2 AZ AZ == 1) by (destruct C1 as (? & ? & ?); unfold M2, S11, matProd; destruct b1; cbn [D1 D3 m33 v3]; repeat split; lra).
    assert (Y2 : 0 <= M2 AY AY). { unfold M2, S11, matProd. destruct B1 as [[-> B]|[-> B]]; cbn [D1 D3 m33 v3]; lra. }
    assert (X1 : M1 AX AY * M1 AX AY <= M1 AY AY * M1 AY AY). { unfold M1, S10, matProd; destruct b0; cbn [D1 D2 m33 v3]; lra. }
    assert (X2 : M2 AX AY * M2 AX AY <= M2 AY AY * M2 AY AY). { unfold M2, S11, matProd; destruct b1; cbn [D1 D3 m33 v3]; lra. }
    assert (W : M2 AZ AY == 0). { destruct O2 as (_ & _ & _ & _ & _ & G). destruct C2 as (K1 & K2 & K3). unfold vdot, sum3, col in G. rewrite K1, K2, K3 in G. lra. }
    assert (R1 : 1 * 1 == M2 AX AY * M2 AX AY + M2 AY AY * M2 AY AY). { destruct O2 as (_ & G & _). unfold vdot, sum3, col in G. rewrite W in G. lra. }
    assert (GA : gentle a) by (exact (turn_small _ _ 1 Y2 X2 ltac:(lra) R1)).
    exists b0. intros e u v C. exact (five_xy 10 b0 b1 a e u v eq_refl GA C).
  Qed.
  Lemma part2_close M : ortho M -> M AX AZ == 0 ->
    exists b c, forall e u v, close e u v -> close (after_xy c (after_yz b e)) (fwd_steps 5 (rot_part2 L M) u) (lin 5 (rot_part2 L M) v).
  Proof.
    intros O Z1. unfold rot_part2.
    set (b0 := Qltb (Qabsv (M AZ AZ)) (Qabsv (M AY AZ))). pose proof (swap_small (M AY AZ) (M AZ AZ) b0 eq_refl) as SS. clearbody b0.
    set (S5 := if b0 then D4 else D1). set (M1 := matProd S5 M).
    set (b1 := Qltb (M1 AZ AZ) 0). assert (B1 : b1 = true /\ M1 AZ AZ < 0 \/ b1 = false /\ 0 <= M1 AZ AZ) by (unfold b1; destruct (Qltb_spec (M1 AZ AZ) 0); [left|right]; split; auto; lra). clearbody b1.
    set (S6 := if b1 then D5 else D1). set (M2 := matProd S6 M1). set (a := turn L (M2 AY AZ) (M2 AZ AZ)).
    change (m33 1 0 0 0 (l_cos L a) (l_sin L a) 0 (- l_sin L a) (l_cos L a)) with (ryz a).
    set (N := matProd (ryz a) M2).
    assert (O1 : ortho M1) by (apply keeps_ortho; [apply keeps_D; cbn; tauto|exact O]).
    assert (O2 : ortho M2) by (apply keeps_ortho; [apply keeps_D; cbn; tauto|exact O1]).
    assert (ON : ortho N) by (apply keeps_ortho; [apply keeps_yz|exact O2]).
    assert (C1 : M1 AX AZ == 0) by (unfold M1, S5, matProd; destruct b0; cbn [D1 D4 m33 v3]; lra).
    assert (C2 : M2 AX AZ == 0) by (unfold M2, S6, matProd; destruct b1; cbn [D1 D5 m33 v3]; lra).
    assert (Y2 : 0 <= M2 AZ AZ). { unfold M2, S6, matProd. destruct B1 as [[-> B]|[-> B]]; cbn [D1 D5 m33 v3]; lra. }
    assert (X1 : M1 AY AZ * M1 AY AZ <= M1 AZ AZ * M1 AZ AZ). { unfold M1, S5, matProd; destruct b0; cbn [D1 D4 m33 v3]; lra. }
    assert (X2 : M2 AY AZ * M2 AY AZ <= M2 AZ AZ * M2 AZ AZ). { unfold M2, S6, matProd; destruct b1; cbn [D1 D5 m33 v3]; lra. }
    assert (R1 : 1 * 1 == M2 AY AZ * M2 AY AZ + M2 AZ AZ * M2 AZ AZ). { destruct O2 as (_ & _ & G & _). unfold vdot, sum3, col in G. rewrite C2 in G. lra. }
    destruct (turn_spec (M2 AY AZ) (M2 AZ AZ) 1 Y2 ltac:(lra) R1) as [T1 T2]. fold a in T1, T2.
    assert (GA : gentle a) by (exact (turn_small _ _ 1 Y2 X2 ltac:(lra) R1)).
    assert (CN : N AX AZ == 0 /\ N AY AZ == 0 /\ N AZ AZ == 1).
    { unfold N, matProd, ryz. cbn [m33 v3]. rewrite C2. repeat split; lra. }
    destruct CN as (K1 & K2 & K3). destruct (part3_close N ON K1 K2 K3) as (c & HC).
    exists b0, c. intros e u v C. rewrite lin_app, steps_app. cbn [length Nat.add]. apply HC. exact (five_yz b0 b1 a e u v GA C).
  Qed.
  Lemma part1_close M r : ortho M -> 0 <= r -> r * r == M AX AZ * M AX AZ + M AY AZ * M AY AZ ->
    exists a b c, forall e u v, close e u v -> close (after_xy c (after_yz b (after_xy a e))) (fwd_steps 0 (rot_part1 L M) u) (lin 0 (rot_part1 L M) v).
  Proof.
    intros O Hr R0. unfold rot_part1.
    set (b0 := Qltb (Qabsv (M AY AZ)) (Qabsv (M AX AZ))). pose proof (swap_small (M AX AZ) (M AY AZ) b0 eq_refl) as SS. clearbody b0.
    set (S0 := if b0 then D2 else D1). set (M1 := matProd S0 M).
    set (b1 := Qltb (M1 AY AZ) 0). assert (B1 : b1 = true /\ M1 AY AZ < 0 \/ b1 = false /\ 0 <= M1 AY AZ) by (unfold b1; destruct (Qltb_spec (M1 AY AZ) 0); [left|right]; split; auto; lra). clearbody b1.
    set (S1 := if b1 then D3 else D1). set (M2 := matProd S1 M1). set (a := turn L (M2 AX AZ) (M2 AY AZ)).
    change (m33 (l_cos L a) (l_sin L a) 0 (- l_sin L a) (l_cos L a) 0 0 0 1) with (rxy a).
    set (N := matProd (rxy a) M2).
    assert (O1 : ortho M1) by (apply keeps_ortho; [apply keeps_D; cbn; tauto|exact O]).
    assert (O2 : ortho M2) by (apply keeps_ortho; [apply keeps_D; cbn; tauto|exact O1]).
    assert (ON : ortho N) by (apply keeps_ortho; [apply keeps_xy|exact O2]).
    assert (C1 : r * r == M1 AX AZ * M1 AX AZ + M1 AY AZ * M1 AY AZ) by (rewrite R0; unfold M1, S0, matProd; destruct b0; cbn [D1 D2 m33 v3]; ring).
    assert (C2 : r * r == M2 AX AZ * M2 AX AZ + M2 AY AZ * M2 AY AZ) by (rewrite C1; unfold M2, S1, matProd; destruct b1; cbn [D1 D3 m33 v3]; ring).
    assert (Y2 : 0 <= M2 AY AZ). { unfold M2, S1, matProd. destruct B1 as [[-> B]|[-> B]]; cbn [D1 D3 m33 v3]; lra. }
    assert (X1 : M1 AX AZ * M1 AX AZ <= M1 AY AZ * M1 AY AZ). { unfold M1, S0, matProd; destruct b0; cbn [D1 D2 m33 v3]; lra. }
    assert (X2 : M2 AX AZ * M2 AX AZ <= M2 AY AZ * M2 AY AZ). { unfold M2, S1, matProd; destruct b1; cbn [D1 D3 m33 v3]; lra. }
    destruct (turn_spec (M2 AX AZ) (M2 AY AZ) r Y2 Hr C2) as [T1 T2]. fold a in T1, T2.
    assert (GA : gentle a) by (exact (turn_small _ _ r Y2 X2 Hr C2)).
    assert (CN : N AX AZ == 0). { unfold N, matProd, rxy. cbn [m33 v3]. lra. }
    destruct (part2_close N ON CN) as (b & c & HC).
    exists b0, b, c. intros e u v C. rewrite lin_app, steps_app. cbn [length Nat.add]. apply HC. exact (five_xy 0 b0 b1 a e u v eq_refl GA C).
  Qed.
End Exact.

(** C164.  The normal of the local frame goes to the z axis and the second tangent to the y axis; the
    first tangent goes to the x axis or against it. *)
Theorem rotation_takes_frame_to_axes : forall L T1 T2 normal r, exact L -> orthonormal T1 T2 normal ->
  0 <= r -> r * r == normal AX * normal AX + normal AY * normal AY ->
  veq (exact_rotation L T1 T2 normal normal) (v3 0 0 1) /\ veq (exact_rotation L T1 T2 normal T2) (v3 0 1 0) /\
  (veq (exact_rotation L T1 T2 normal T1) (v3 1 0 0) \/ veq (exact_rotation L T1 T2 normal T1) (v3 (-1) 0 0)).
Proof.
  intros L T1 T2 n r E O Hr R. unfold exact_rotation, compRotationMat.
  set (M := m33 (T1 AX) (T2 AX) (n AX) (T1 AY) (T2 AY) (n AY) (T1 AZ) (T2 AZ) (n AZ)).
  destruct (part1 L E M r O Hr R) as (e & He & R1 & R2 & R3).
  assert (V : veq T1 (col M AX) /\ veq T2 (col M AY) /\ veq n (col M AZ)) by (repeat split; intros []; reflexivity). destruct V as (V1 & V2 & V3).
  split; [eapply veq_trans; [apply lin_proper, V3|exact R3]|]. split; [eapply veq_trans; [apply lin_proper, V2|exact R2]|].
  assert (X : veq (lin 0 (rot_part1 L M) T1) (v3 e 0 0)) by (eapply veq_trans; [apply lin_proper, V1|exact R1]).
  destruct He as [He|He]; [left|right]; intro k; rewrite (X k); destruct k; cbn [v3]; rewrite ?He; reflexivity.
Qed.
Print Assumptions rotation_takes_frame_to_axes.

(** C165.  Rounding at every step moves no coordinate by more than 6. *)
Theorem rotation_rounding_bounded : forall L T1 T2 normal r u a, exact L -> orthonormal T1 T2 normal ->
  0 <= r -> r * r == normal AX * normal AX + normal AY * normal AY ->
  - 6 <= qv (frenetRotation L u T1 T2 normal) a - exact_rotation L T1 T2 normal (qv u) a <= 6.
Proof.
  intros L T1 T2 n r u a E O Hr R. unfold exact_rotation, frenetRotation, compRotationMat.
  set (M := m33 (T1 AX) (T2 AX) (n AX) (T1 AY) (T2 AY) (n AY) (T1 AZ) (T2 AZ) (n AZ)).
  destruct (part1_close L E M r O Hr R) as (a0 & b0 & c0 & H).
  assert (C0 : close (v3 0 0 0) u (qv u)) by (intros []; cbn [v3]; lra).
  specialize (H _ _ _ C0 a). set (d := qv (fwd_steps 0 (rot_part1 L M) u) a - lin 0 (rot_part1 L M) (qv u) a) in *. clearbody d.
  assert (B : after_xy c0 (after_yz b0 (after_xy a0 (v3 0 0 0))) a <= 6) by (destruct a0, b0, c0, a; vm_compute; discriminate). lra.
Qed.
Print Assumptions rotation_rounding_bounded.

(** Functions on the rationals that meet [exact]: an angle is represented by the tangent of its half. *)
Definition root (q : Q) : Q := Z.sqrt (Qnum q * Zpos (Qden q)) # Qden q.
Definition half_angles : libm := {|
  l_tan := fun a => 2 * a;
  l_sin := fun a => 2 * a / (1 + a * a);
  l_cos := fun a => (1 - a * a) / (1 + a * a);
  l_acos := fun c => root ((1 - c) / (1 + c));
  l_sqrt := root |}.
Lemma square_divides a b : (b * b | a * a)%Z -> (b | a)%Z.
Proof.
  intros H. destruct (Z.eq_dec b 0) as [-> |NB].
  { destruct H as [k H]. replace (k * (0 * 0))%Z with 0%Z in H by ring. assert (a = 0%Z) by nia. subst. apply Z.divide_0_r. }
  destruct (Z.gcd_divide_l a b) as [a' EA]. destruct (Z.gcd_divide_r a b) as [b' EB]. set (g := Z.gcd a b) in *.
  assert (G0 : g <> 0%Z) by (intro K; unfold g in K; apply Z.gcd_eq_0_r in K; contradiction).
  assert (RP : Z.gcd a' b' = 1%Z).
  { assert (K : (g * Z.gcd a' b' = g)%Z). { rewrite <- (Z.gcd_mul_mono_l_nonneg a' b' g) by apply Z.gcd_nonneg. rewrite (Z.mul_comm g a'), (Z.mul_comm g b'), <- EA, <- EB. reflexivity. } nia. }
  assert (D : (b' * b' | a' * a')%Z).
  { destruct H as [k H]. exists k. rewrite EA, EB in H. apply (Z.mul_reg_l _ _ (g * g)); [nia|]. nia. }
  assert (D1' : (b' | a' * a')%Z) by (destruct D as [k D]; exists (k * b')%Z; lia).
  apply (Z.gauss b' a' a') in D1'; [|rewrite Z.gcd_comm; exact RP].
  assert (U : (b' | 1)%Z). { rewrite <- RP. apply Z.gcd_greatest; [exact D1'|apply Z.divide_refl]. }
  rewrite EA, EB. apply Z.mul_divide_mono_r. exact D1'.
Qed.
Lemma root_spec q r : 0 <= r -> r * r == q -> root q == r.
Proof.
  destruct q as [n d], r as [a b]. unfold root, Qle, Qeq, Qmult. cbn [Qnum Qden]. intros Ha E.
  assert (Na : (0 <= a)%Z) by lia. rewrite Pos2Z.inj_mul in E.
  destruct (square_divides (a * Zpos d) (Zpos b)) as [k K].
  { exists (n * Zpos d)%Z. nia. }
  assert (P : (0 <= k)%Z) by nia.
  assert (S : (n * Zpos d = k * k)%Z). { apply (Z.mul_reg_r _ _ (Zpos b * Zpos b)); [lia|]. nia. }
  rewrite S, Z.sqrt_square by exact P. lia.
Qed.
Lemma half_angles_exact : exact half_angles.
Proof.
  assert (P : forall a : Q, ~ 1 + a * a == 0) by (intros a; nra).
  constructor; cbn [half_angles l_sin l_cos l_tan l_acos l_sqrt].
  - intros a b H. rewrite H. reflexivity.
  - intros a b H. rewrite H. reflexivity.
  - intros a b H. rewrite H. reflexivity.
  - split; reflexivity.
  - intros a. split; field; repeat split; nra.
  - intros a. field. apply P.
  - intros a. split; field; repeat split; apply P.
  - exact root_spec.
  - intros c s Hc Hs H. assert (NZ : ~ 1 + c == 0) by lra.
    assert (R : root ((1 - c) / (1 + c)) == s / (1 + c)).
    { apply root_spec; [apply Qle_shift_div_l; lra|]. setoid_replace (s / (1 + c) * (s / (1 + c))) with (s * s / ((1 + c) * (1 + c))) by (field; exact NZ).
      setoid_replace (s * s) with ((1 - c) * (1 + c)) by lra. field. exact NZ. }
    rewrite R. assert (Q2 : s * s == (1 - c) * (1 + c)) by lra.
    assert (D : 1 + s / (1 + c) * (s / (1 + c)) == 2 / (1 + c)).
    { setoid_replace (s / (1 + c) * (s / (1 + c))) with (s * s / ((1 + c) * (1 + c))) by (field; exact NZ). rewrite Q2. field. exact NZ. }
    assert (D' : 1 - s / (1 + c) * (s / (1 + c)) == 2 * c / (1 + c)).
    { setoid_replace (s / (1 + c) * (s / (1 + c))) with (s * s / ((1 + c) * (1 + c))) by (field; exact NZ). rewrite Q2. field. exact NZ. }
    rewrite D, D'. split; field; exact NZ.
Qed.
Example rotation_takes_frame_to_axes_nonvacuous :
  veq (exact_rotation half_angles (v3 (9 # 25) (12 # 25) (- (4 # 5))) (v3 (- (4 # 5)) (3 # 5) 0) (v3 (12 # 25) (16 # 25) (3 # 5)) (v3 (12 # 25) (16 # 25) (3 # 5))) (v3 0 0 1).
Proof.
  destruct (rotation_takes_frame_to_axes half_angles (v3 (9 # 25) (12 # 25) (- (4 # 5))) (v3 (- (4 # 5)) (3 # 5) 0) (v3 (12 # 25) (16 # 25) (3 # 5)) (4 # 5) half_angles_exact) as [H _].
  - repeat split; vm_compute; reflexivity.
  - vm_compute. discriminate.
  - vm_compute. reflexivity.
  - exact H.
Qed.
Example rotation_rounding_bounded_nonvacuous : forall a,
  - 6 <= qv (frenetRotation half_angles (7, -9, 20)%Z (v3 (9 # 25) (12 # 25) (- (4 # 5))) (v3 (- (4 # 5)) (3 # 5) 0) (v3 (12 # 25) (16 # 25) (3 # 5))) a
       - exact_rotation half_angles (v3 (9 # 25) (12 # 25) (- (4 # 5))) (v3 (- (4 # 5)) (3 # 5) 0) (v3 (12 # 25) (16 # 25) (3 # 5)) (qv (7, -9, 20)%Z) a <= 6.
Proof.
  intro a. apply (rotation_rounding_bounded half_angles _ _ _ (4 # 5) (7, -9, 20)%Z a half_angles_exact).
  - repeat split; vm_compute; reflexivity.
  - vm_compute. discriminate.
  - vm_compute. reflexivity.
Qed.
