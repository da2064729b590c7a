(** Proofs about the integer rotation. *)
From Coq Require Import QArith Qround ZArith List Bool Lia Lqa.
From Verif Require Import AabModel AabProofs TriIntModel RotModel.
Import ListNotations.
Open Scope Q_scope.

(** A number halfway between two integers. *)
Definition halfway (q : Q) : Prop := exists k : Z, q == inject_Z k + (1 # 2).

Lemma floor_unique q k : inject_Z k <= q -> q < inject_Z (k + 1) -> Qfloor q = k.
Proof.
  intros A B. pose proof (Qfloor_le q) as C. pose proof (Qlt_floor q) as D.
  assert (X : inject_Z k < inject_Z (Qfloor q + 1)) by (eapply Qle_lt_trans; eassumption).
  assert (Y : inject_Z (Qfloor q) < inject_Z (k + 1)) by (eapply Qle_lt_trans; eassumption).
  rewrite <- Zlt_Qlt in X, Y. lia.
Qed.
Lemma round_unique q k : inject_Z k - (1 # 2) < q -> q < inject_Z k + (1 # 2) -> round_away q = k.
Proof.
  intros A B. unfold round_away. destruct (Qltb_spec q 0).
  - rewrite (floor_unique (- q + (1 # 2)) (- k)); [lia| |]; rewrite ?inject_Z_plus, inject_Z_opp; change (inject_Z 1) with 1; lra.
  - apply floor_unique; rewrite ?inject_Z_plus; change (inject_Z 1) with 1; lra.
Qed.
Lemma round_int k q : q == inject_Z k -> round_away q = k.
Proof. intros E. apply round_unique; rewrite E; lra. Qed.
Lemma nearest q : ~ halfway q -> exists k, inject_Z k - (1 # 2) < q /\ q < inject_Z k + (1 # 2).
Proof.
  intros H. pose proof (Qfloor_le (q + (1 # 2))) as A. pose proof (Qlt_floor (q + (1 # 2))) as B.
  rewrite inject_Z_plus in B. change (inject_Z 1) with 1 in B.
  exists (Qfloor (q + (1 # 2))). set (k := Qfloor (q + (1 # 2))) in *. split; [|lra].
  destruct (Qlt_le_dec (inject_Z k - (1 # 2)) q) as [L|L]; [exact L|]. destruct H. exists (k - 1)%Z.
  unfold Zminus. rewrite inject_Z_plus. change (inject_Z (- (1))) with (- (1)). lra.
Qed.
(** A lifting step and its inverse. *)
Lemma lift x y c q1 : ~ halfway (c * inject_Z y) -> q1 == inject_Z x + c * inject_Z y ->
  forall q2, q2 == inject_Z (round_away q1) - c * inject_Z y -> round_away q2 = x.
Proof.
  intros H E q2 E2. destruct (nearest _ H) as (k & A & B). assert (R : round_away q1 = (x + k)%Z).
  { apply round_unique; rewrite inject_Z_plus; lra. }
  rewrite R, inject_Z_plus in E2. apply round_unique; lra.
Qed.

(** The off-diagonal products of a step applied to [u] are nowhere halfway between integers. *)
Definition coord (u : ivec) (c : axis) : Z := let '(x, y, z) := u in match c with AX => x | AY => y | AZ => z end.
Definition clear_step (m : mat) (u : ivec) : Prop := forall r c, r <> c -> ~ halfway (m r c * inject_Z (coord u c)).

Lemma halfway_opp q : halfway q <-> halfway (- q).
Proof.
  assert (G : forall q, halfway q -> halfway (- q)).
  { intros p (k & E). exists (- k - 1)%Z. unfold Zminus. rewrite inject_Z_plus, !inject_Z_opp. change (inject_Z 1) with 1. lra. }
  split; [apply G|]. intros H. apply G in H. destruct H as (k & E). exists k. lra.
Qed.


(** The four kinds of lifting matrices. *)
Definition lifting (m : mat) : Prop := exists k,
  m = m33 1 k 0 0 1 0 0 0 1 \/ m = m33 1 0 0 k 1 0 0 0 1 \/ m = m33 1 0 0 0 1 k 0 0 1 \/ m = m33 1 0 0 0 1 0 0 k 1.
Definition swap (m : mat) : Prop := m = D1 \/ m = D2 \/ m = D3 \/ m = D4 \/ m = D5.
Definition negated (m : mat) : mat :=
  m33 (m AX AX) (- m AX AY) (- m AX AZ) (- m AY AX) (m AY AY) (- m AY AZ) (- m AZ AX) (- m AZ AY) (m AZ AZ).

Lemma lift_once x y k : ~ halfway (k * inject_Z y) -> forall q1 q2, q1 == inject_Z x - k * inject_Z y ->
  q2 == inject_Z (round_away q1) + k * inject_Z y -> round_away q2 = x.
Proof.
  intros H q1 q2 E1 E2. apply (lift x y (- k) q1) with (q2 := q2).
  - intros G. apply H. apply halfway_opp in G. destruct G as [j G]. exists j. rewrite <- G. ring.
  - rewrite E1. ring.
  - rewrite E2. ring.
Qed.

Lemma apply_is m x y z a b c :
  round_away (m AX AX * inject_Z x + m AX AY * inject_Z y + m AX AZ * inject_Z z) = a ->
  round_away (m AY AX * inject_Z x + m AY AY * inject_Z y + m AY AZ * inject_Z z) = b ->
  round_away (m AZ AX * inject_Z x + m AZ AY * inject_Z y + m AZ AZ * inject_Z z) = c ->
  apply_round m (x, y, z) = (a, b, c).
Proof. intros <- <- <-. reflexivity. Qed.
Ltac int_row := apply round_int; unfold D1, D2, D3, D4, D5, negated, m33, v3; rewrite ?inject_Z_opp; ring.

Lemma lift_mat m u : lifting m -> clear_step m u -> apply_round m (apply_round (negated m) u) = u.
Proof.
  intros (k & K) C. destruct u as [[x y] z].
  destruct K as [-> |[-> |[-> | ->]]].
  - pose proof (C AX AY ltac:(discriminate)) as H. cbn [m33 v3 coord] in H.
    rewrite (apply_is (negated (m33 1 k 0 0 1 0 0 0 1)) x y z _ y z eq_refl) by int_row. apply apply_is; [|int_row|int_row].
    eapply (lift_once x y k H); [|unfold m33, v3; rewrite <- Qplus_assoc, Qmult_1_l; apply Qplus_comp; [reflexivity|]; ring]. unfold negated, m33, v3; ring.
  - pose proof (C AY AX ltac:(discriminate)) as H. cbn [m33 v3 coord] in H.
    rewrite (apply_is (negated (m33 1 0 0 k 1 0 0 0 1)) x y z x _ z ltac:(int_row) eq_refl) by int_row. apply apply_is; [int_row| |int_row].
    apply (lift_once y x k H (- k * inject_Z x + 1 * inject_Z y + - 0 * inject_Z z)); [ring|unfold negated, m33, v3; ring].
  - pose proof (C AY AZ ltac:(discriminate)) as H. cbn [m33 v3 coord] in H.
    rewrite (apply_is (negated (m33 1 0 0 0 1 k 0 0 1)) x y z x _ z ltac:(int_row) eq_refl) by int_row. apply apply_is; [int_row| |int_row].
    apply (lift_once y z k H (- 0 * inject_Z x + 1 * inject_Z y + - k * inject_Z z)); [ring|unfold negated, m33, v3; ring].
  - pose proof (C AZ AY ltac:(discriminate)) as H. cbn [m33 v3 coord] in H.
    rewrite (apply_is (negated (m33 1 0 0 0 1 0 0 k 1)) x y z x y _ ltac:(int_row) ltac:(int_row) eq_refl). apply apply_is; [int_row|int_row|].
    apply (lift_once z y k H (- 0 * inject_Z x + - k * inject_Z y + 1 * inject_Z z)); [ring|unfold negated, m33, v3; ring].
Qed.
Lemma swap_mat m u : swap m -> apply_round m (apply_round m u) = u.
Proof.
  intros S. destruct u as [[x y] z]. destruct S as [-> |[-> |[-> |[-> | ->]]]].
  - rewrite (apply_is D1 x y z x y z) by int_row. apply apply_is; int_row.
  - rewrite (apply_is D2 x y z y x z) by int_row. apply apply_is; int_row.
  - rewrite (apply_is D3 x y z (- x) (- y) z) by int_row. apply apply_is; int_row.
  - rewrite (apply_is D4 x y z x z y) by int_row. apply apply_is; int_row.
  - rewrite (apply_is D5 x y z x (- y) (- z)) by int_row. apply apply_is; int_row.
Qed.

(** ** The whole rotation *)
Definition swapping (i : nat) : bool := existsb (Nat.eqb i) [0; 1; 5; 6; 10; 11]%nat.
Inductive kinds : nat -> list mat -> Prop :=
| kinds_nil i : kinds i []
| kinds_cons i m l : (if swapping i then swap m else lifting m) -> kinds (S i) l -> kinds i (m :: l).
Lemma part_kinds i (b0 b1 : bool) m0 m1 m2 m3 l : swapping i = true -> swapping (S i) = true ->
  swapping (S (S i)) = false -> swapping (S (S (S i))) = false -> swapping (S (S (S (S i)))) = false ->
  swap m0 -> swap m1 -> lifting m2 -> lifting m3 -> kinds (S (S (S (S (S i))))) l ->
  kinds i ([if b0 then m0 else D1; if b1 then m1 else D1; m2; m3; m2] ++ l).
Proof.
  intros E0 E1 E2 E3 E4 H0 H1 H2 H3 K.
  assert (G : forall (b : bool) m, swap m -> swap (if b then m else D1)).
  { intros b m H. destruct b; [exact H|left; reflexivity]. }
  cbn [app]. apply kinds_cons; [rewrite E0; apply G; exact H0|]. apply kinds_cons; [rewrite E1; apply G; exact H1|].
  apply kinds_cons; [rewrite E2; exact H2|]. apply kinds_cons; [rewrite E3; exact H3|]. apply kinds_cons; [rewrite E4; exact H2|exact K].
Qed.
Lemma comp_kinds L T1 T2 n : kinds 0 (compRotationMat L T1 T2 n).
Proof.
  assert (K3 : forall M, kinds 10 (rot_part3 L M)).
  { intros M. unfold rot_part3. cbv zeta. rewrite <- (app_nil_r [_; _; _; _; _]).
    apply part_kinds; try reflexivity; [unfold swap; tauto|unfold swap; tauto| | |apply kinds_nil].
    - eexists. left. reflexivity.
    - eexists. right; left. reflexivity. }
  assert (K2 : forall M, kinds 5 (rot_part2 L M)).
  { intros M. unfold rot_part2. cbv zeta.
    apply part_kinds; try reflexivity; [unfold swap; tauto|unfold swap; tauto| | |apply K3].
    - eexists. right; right; left. reflexivity.
    - eexists. right; right; right. reflexivity. }
  unfold compRotationMat. generalize (m33 (T1 AX) (T2 AX) (n AX) (T1 AY) (T2 AY) (n AY) (T1 AZ) (T2 AZ) (n AZ)).
  intros M. unfold rot_part1. cbv zeta.
  apply part_kinds; try reflexivity; [unfold swap; tauto|unfold swap; tauto| | |apply K2].
  - eexists. left. reflexivity.
  - eexists. right; left. reflexivity.
Qed.

(** No lifting step of the forward rotation of [u] meets a halfway product. *)
Fixpoint clear_run (i : nat) (Ss : list mat) (u : ivec) : Prop :=
  match Ss with
  | [] => True
  | m :: Ss => (swapping i = true \/ clear_step m u) /\ clear_run (S i) Ss (apply_round (fwd_mat i m) u)
  end.
Lemma back i Ss : forall u, kinds i Ss -> clear_run i Ss u ->
  fold_left (fun u m => apply_round m u) (rev Ss) (fwd_steps i Ss u) = u.
Proof.
  revert i. induction Ss as [|m Ss IH]; intros i u K C; [reflexivity|].
  cbn [rev fwd_steps]. rewrite fold_left_app. cbn [fold_left]. inversion K as [|? ? ? Km Kl]; subst. destruct C as [Cm Cl].
  rewrite IH by assumption. unfold fwd_mat. fold (swapping i) in *. destruct (swapping i).
  - apply swap_mat; exact Km.
  - destruct Cm as [Cm|Cm]; [discriminate|]. apply lift_mat; assumption.
Qed.
