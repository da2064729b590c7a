(** Quantisation with rounding errors. *)
From Coq Require Import ZArith QArith Qabs Qround Lqa Lia.
From Verif Require Import QuantModel QuantProofs FloatQuantModel.
Open Scope Q_scope.

(** [r] rounds with a relative error of at most [u], the standard model of floating point *)
Definition rounds_within (u : Q) (r : Q -> Q) : Prop := forall x, Qabs (r x - x) <= u * Qabs x.

Lemma within_scaled u r s x X : 0 < s -> rounds_within u r -> 0 <= u -> x == X * s -> exists E, r x == (X + E) * s /\ - (u * Qabs X) <= E /\ E <= u * Qabs X.
Proof.
  intros Hs H Hu Ex. exists ((r x - x) / s). specialize (H x). apply Qabs_Qle_condition in H.
  assert (A : Qabs x == Qabs X * s). { rewrite Ex, Qabs_Qmult, (Qabs_pos s); lra. }
  rewrite A in H. set (D := (r x - x) / s). assert (ED : D * s == r x - x) by (unfold D; field; lra).
  split; [lra|]. split; apply Qmult_le_r with s; auto; lra.
Qed.

Lemma abs_le a b : - b <= a -> a <= b -> Qabs a <= b.
Proof. intros. apply Qabs_Qle_condition. lra. Qed.

Lemma stable_near r24 r53 b s z : rounds_within (1 # 2 ^ 24) r24 -> rounds_within (1 # 2 ^ 53) r53 -> 0 < s -> (0 <= z < 2 ^ 16)%Z ->
  Qabs b <= inject_Z (2 ^ 22 - 2 ^ 16) * s ->
  getQuantizedPosR r24 b s (getPosR r24 r53 b s z) = z.
Proof.
  intros H24 H53 Hs Hz Hb. unfold getQuantizedPosR, getPosR.
  set (B := b / s). assert (EB : b == B * s) by (unfold B; field; lra).
  assert (HB : Qabs B <= 4128768).
  { apply Qmult_le_r with s; [auto|]. rewrite <- (Qabs_pos s) at 1 by lra. rewrite <- Qabs_Qmult, <- EB. exact Hb. }
  apply Qabs_Qle_condition in HB.
  assert (Z0 : 0 <= inject_Z z) by (change 0 with (inject_Z 0); rewrite <- Zle_Qle; lia).
  assert (Z1 : inject_Z z <= 65535) by (change 65535 with (inject_Z 65535); rewrite <- Zle_Qle; lia).
  set (c := inject_Z z + (1 # 2)).
  assert (K53 : 0 <= 1 # 2 ^ 53) by (unfold Qle; cbn; lia). assert (K24 : 0 <= 1 # 2 ^ 24) by (unfold Qle; cbn; lia).
  assert (L1 : forall u X M, 0 <= u -> Qabs X <= M -> u * Qabs X <= u * M). { intros u X M U V. rewrite !(Qmult_comm u). apply Qmult_le_compat_r; auto. }
  destruct (within_scaled _ _ 1 c c ltac:(lra) H53 K53 ltac:(lra)) as (e1 & E1 & A1 & B1).
  assert (Qc : Qabs c <= 65536) by (apply abs_le; unfold c; lra). assert (Q1 := L1 _ _ _ K53 Qc).
  set (C1 := c + e1). 
  destruct (within_scaled _ _ s (r53 c * s) C1 Hs H53 K53) as (e2 & E2 & A2 & B2); [rewrite E1; unfold C1; lra|].
  assert (T1 : - (1 # 1000) <= e1 /\ e1 <= 1 # 1000). { set (w := Qabs c) in *. clearbody w. change (1 # 2 ^ 53) with (1 # 9007199254740992) in *. lra. }
  assert (Qc1 : Qabs C1 <= 65537) by (apply abs_le; unfold C1, c; lra). assert (Q2 := L1 _ _ _ K53 Qc1).
  assert (T2 : - (1 # 1000) <= e2 /\ e2 <= 1 # 1000). { set (w := Qabs C1) in *. clearbody w. change (1 # 2 ^ 53) with (1 # 9007199254740992) in *. lra. }
  set (C2 := C1 + e2 + B).
  destruct (within_scaled _ _ s (r53 (r53 c * s) + b) C2 Hs H53 K53) as (e3 & E3 & A3 & B3); [rewrite E2, EB; unfold C2; lra|].
  assert (Qc2 : Qabs C2 <= 4194306) by (apply abs_le; unfold C2, C1, c; lra). assert (Q3 := L1 _ _ _ K53 Qc2).
  assert (T3 : - (1 # 1000) <= e3 /\ e3 <= 1 # 1000). { set (w := Qabs C2) in *. clearbody w. change (1 # 2 ^ 53) with (1 # 9007199254740992) in *. lra. }
  set (C3 := C2 + e3).
  destruct (within_scaled _ _ s (r53 (r53 (r53 c * s) + b)) C3 Hs H24 K24) as (e4 & E4 & A4 & B4); [rewrite E3; unfold C3; lra|].
  assert (Qc3 : Qabs C3 <= 4194307) by (apply abs_le; unfold C3, C2, C1, c; lra). assert (Q4 := L1 _ _ _ K24 Qc3).
  assert (T4 : - (251 # 1000) <= e4 /\ e4 <= 251 # 1000). { set (w := Qabs C3) in *. clearbody w. change (1 # 2 ^ 24) with (1 # 16777216) in *. lra. }
  set (p1 := r24 (r53 (r53 (r53 c * s) + b))) in *. set (D := C3 + e4 - B).
  destruct (within_scaled _ _ s (p1 - b) D Hs H24 K24) as (e5 & E5 & A5 & B5); [rewrite E4, EB; unfold D; lra|].
  assert (QD : Qabs D <= 65538) by (apply abs_le; unfold D, C3, C2, C1, c; lra). assert (Q5 := L1 _ _ _ K24 QD).
  assert (T5 : - (1 # 100) <= e5 /\ e5 <= 1 # 100). { set (w := Qabs D) in *. clearbody w. change (1 # 2 ^ 24) with (1 # 16777216) in *. lra. }
  set (D2 := D + e5).
  destruct (within_scaled _ _ 1 (r24 (p1 - b) / s) D2 ltac:(lra) H24 K24) as (e6 & E6 & A6 & B6); [rewrite E5; unfold D2; field; lra|].
  assert (QD2 : Qabs D2 <= 65539) by (apply abs_le; unfold D2, D, C3, C2, C1, c; lra). assert (Q6 := L1 _ _ _ K24 QD2).
  assert (T6 : - (1 # 100) <= e6 /\ e6 <= 1 # 100). { set (w := Qabs D2) in *. clearbody w. change (1 # 2 ^ 24) with (1 # 16777216) in *. lra. }
  set (q := r24 (r24 (p1 - b) / s)) in *.
  assert (F : inject_Z z + (1 # 5) <= q /\ q <= inject_Z z + (4 # 5)). { clearbody q. unfold D2, D, C3, C2, C1, c in E6. lra. }
  clearbody q. clear - F Z0. rewrite trunc_floor by lra.
  assert (A : (z <= Qfloor q)%Z). { rewrite <- (Qfloor_Z z) at 1. apply Qfloor_resp_le. lra. }
  assert (Bz : (Qfloor q < z + 1)%Z). { rewrite Zlt_Qlt. apply Qle_lt_trans with q; [apply Qfloor_le|]. rewrite inject_Z_plus. change (inject_Z 1) with 1. lra. }
  lia.
Qed.

(** The same at one point, with an absolute error besides. *)
Lemma near_scaled u v s x X h : 0 < s -> 0 <= u -> Qabs (v - x) <= u * Qabs x + h * s -> x == X * s -> exists E, v == (X + E) * s /\ - (u * Qabs X + h) <= E /\ E <= u * Qabs X + h.
Proof.
  intros Hs Hu H Ex. exists ((v - x) / s). apply Qabs_Qle_condition in H.
  assert (A : Qabs x == Qabs X * s). { rewrite Ex, Qabs_Qmult, (Qabs_pos s); lra. }
  rewrite A in H. set (D := (v - x) / s). assert (ED : D * s == v - x) by (unfold D; field; lra).
  split; [lra|]. split; apply Qmult_le_r with s; auto; lra.
Qed.
Lemma stable_points b s z v0 v1 v2 v3 v4 v5 v6 : let u := (1 # 2 ^ 24) in let d := (1 # 2 ^ 53) in let h := (1 # 2 ^ 20) in
  0 < s -> (0 <= z < 2 ^ 16)%Z -> Qabs b <= inject_Z (2 ^ 22 - 2 ^ 16) * s ->
  v0 == inject_Z z ->
  Qabs (v1 - (v0 + (1 # 2))) <= d * Qabs (v0 + (1 # 2)) + h ->
  Qabs (v2 - v1 * s) <= d * Qabs (v1 * s) + h * s ->
  Qabs (v3 - (v2 + b)) <= d * Qabs (v2 + b) + h * s ->
  Qabs (v4 - v3) <= u * Qabs v3 + h * s ->
  Qabs (v5 - (v4 - b)) <= u * Qabs (v4 - b) + h * s ->
  Qabs (v6 - v5 / s) <= u * Qabs (v5 / s) + h ->
  (Qabs v1 <= 65537 /\ Qabs v2 <= 65538 * s /\ Qabs v3 <= 4194307 * s /\ Qabs v4 <= 4194309 * s /\ Qabs v5 <= 65540 * s) /\
  inject_Z z + (1 # 5) <= v6 /\ v6 <= inject_Z z + (4 # 5).
Proof.
  intros u d h Hs Hz Hb H0 H1 H2 H3 H4 H5 H6.
  set (B := b / s). assert (EB : b == B * s) by (unfold B; field; lra).
  assert (HB : Qabs B <= 4128768).
  { apply Qmult_le_r with s; [auto|]. rewrite <- (Qabs_pos s) at 1 by lra. rewrite <- Qabs_Qmult, <- EB. exact Hb. }
  apply Qabs_Qle_condition in HB.
  assert (Z0 : 0 <= inject_Z z) by (change 0 with (inject_Z 0); rewrite <- Zle_Qle; lia).
  assert (Z1 : inject_Z z <= 65535) by (change 65535 with (inject_Z 65535); rewrite <- Zle_Qle; lia).
  set (c := inject_Z z + (1 # 2)). assert (Ec : v0 + (1 # 2) == c) by (unfold c; rewrite H0; reflexivity).
  assert (K53 : 0 <= d) by (unfold d, Qle; cbn; lia). assert (K24 : 0 <= u) by (unfold u, Qle; cbn; lia).
  assert (L1 : forall u X M, 0 <= u -> Qabs X <= M -> u * Qabs X <= u * M). { intros w X M U V. rewrite !(Qmult_comm w). apply Qmult_le_compat_r; auto. }
  assert (LS : forall X M, - M <= X -> X <= M -> Qabs (X * s) <= M * s).
  { intros X M U V. rewrite Qabs_Qmult, (Qabs_pos s) by lra. apply Qmult_le_compat_r; [apply abs_le; auto|lra]. }
  destruct (near_scaled d v1 1 (v0 + (1 # 2)) c h ltac:(lra) K53 ltac:(rewrite Qmult_1_r; exact H1) ltac:(lra)) as (e1 & E1 & A1 & B1).
  assert (Qc : Qabs c <= 65536) by (apply abs_le; unfold c; lra). assert (Q1 := L1 _ _ _ K53 Qc).
  set (C1 := c + e1).
  destruct (near_scaled d v2 s (v1 * s) C1 h Hs K53 H2) as (e2 & E2 & A2 & B2); [rewrite E1; unfold C1; lra|].
  assert (T1 : - (1 # 1000) <= e1 /\ e1 <= 1 # 1000). { set (w := Qabs c) in *. clearbody w. unfold d, u, h in *. change (1 # 2 ^ 53) with (1 # 9007199254740992) in *. change (1 # 2 ^ 20) with (1 # 1048576) in *. lra. }
  assert (Qc1 : Qabs C1 <= 65537) by (apply abs_le; unfold C1, c; lra). assert (Q2 := L1 _ _ _ K53 Qc1).
  assert (T2 : - (1 # 1000) <= e2 /\ e2 <= 1 # 1000). { set (w := Qabs C1) in *. clearbody w. unfold d, u, h in *. change (1 # 2 ^ 53) with (1 # 9007199254740992) in *. change (1 # 2 ^ 20) with (1 # 1048576) in *. lra. }
  set (C2 := C1 + e2 + B).
  destruct (near_scaled d v3 s (v2 + b) C2 h Hs K53 H3) as (e3 & E3 & A3 & B3); [rewrite E2, EB; unfold C2; lra|].
  assert (Qc2 : Qabs C2 <= 4194306) by (apply abs_le; unfold C2, C1, c; lra). assert (Q3 := L1 _ _ _ K53 Qc2).
  assert (T3 : - (1 # 1000) <= e3 /\ e3 <= 1 # 1000). { set (w := Qabs C2) in *. clearbody w. unfold d, u, h in *. change (1 # 2 ^ 53) with (1 # 9007199254740992) in *. change (1 # 2 ^ 20) with (1 # 1048576) in *. lra. }
  set (C3 := C2 + e3).
  destruct (near_scaled u v4 s v3 C3 h Hs K24 H4) as (e4 & E4 & A4 & B4); [rewrite E3; unfold C3; lra|].
  assert (Qc3 : Qabs C3 <= 4194307) by (apply abs_le; unfold C3, C2, C1, c; lra). assert (Q4 := L1 _ _ _ K24 Qc3).
  assert (T4 : - (252 # 1000) <= e4 /\ e4 <= 252 # 1000). { set (w := Qabs C3) in *. clearbody w. unfold d, u, h in *. change (1 # 2 ^ 24) with (1 # 16777216) in *. change (1 # 2 ^ 20) with (1 # 1048576) in *. lra. }
  set (D := C3 + e4 - B).
  destruct (near_scaled u v5 s (v4 - b) D h Hs K24 H5) as (e5 & E5 & A5 & B5); [rewrite E4, EB; unfold D; lra|].
  assert (QD : Qabs D <= 65538) by (apply abs_le; unfold D, C3, C2, C1, c; lra). assert (Q5 := L1 _ _ _ K24 QD).
  assert (T5 : - (1 # 100) <= e5 /\ e5 <= 1 # 100). { set (w := Qabs D) in *. clearbody w. unfold d, u, h in *. change (1 # 2 ^ 24) with (1 # 16777216) in *. change (1 # 2 ^ 20) with (1 # 1048576) in *. lra. }
  set (D2 := D + e5).
  destruct (near_scaled u v6 1 (v5 / s) D2 h ltac:(lra) K24 ltac:(rewrite Qmult_1_r; exact H6)) as (e6 & E6 & A6 & B6); [rewrite E5; unfold D2; field; lra|].
  assert (QD2 : Qabs D2 <= 65539) by (apply abs_le; unfold D2, D, C3, C2, C1, c; lra). assert (Q6 := L1 _ _ _ K24 QD2).
  assert (T6 : - (1 # 100) <= e6 /\ e6 <= 1 # 100). { set (w := Qabs D2) in *. clearbody w. unfold d, u, h in *. change (1 # 2 ^ 24) with (1 # 16777216) in *. change (1 # 2 ^ 20) with (1 # 1048576) in *. lra. }
  split; [|unfold D2, D, C3, C2, C1, c in E6; lra].
  split; [apply abs_le; unfold C1, c in *; lra|].
  split; [rewrite E2; apply LS; unfold C1, c; lra|]. split; [rewrite E3; apply LS; unfold C2, C1, c; lra|].
  split; [rewrite E4; apply LS; unfold C3, C2, C1, c; lra|]. rewrite E5; apply LS; unfold D, C3, C2, C1, c; lra.
Qed.
