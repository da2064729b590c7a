(** Any pair of points of two triangles can be moved, without becoming more distant, until both lie
    on sides, or they meet, or one is a corner and the other its foot in the other triangle. *)
From Coq Require Import QArith List Bool Arith Lia Lqa Setoid.
From Verif Require Import AabModel AabProofs SegDistModel SegDistProofs TriDistModel TriDistProofs.
Import ListNotations.
Open Scope Q_scope.

Definition meet (S T : nat -> vec) : Prop := exists x, in_tri S x /\ in_tri T x.
Definition sides_within (S T : nat -> vec) (D : Q) : Prop :=
  exists i j x y, (i < 3)%nat /\ (j < 3)%nat /\ on_side S i x /\ on_side T j y /\ dist2 x y <= D.
Definition face_within (S T : nat -> vec) (D : Q) : Prop := exists sh d, face_corner S T = (sh, Some d) /\ d <= D.

Lemma meet_sym S T : meet S T -> meet T S. Proof. intros (x & A & B). exists x. auto. Qed.
Lemma sides_sym S T D : sides_within S T D -> sides_within T S D.
Proof. intros (i & j & x & y & Hi & Hj & A & B & L). exists j, i, y, x. repeat split; auto. rewrite dist2_sym. auto. Qed.
Lemma sides_le S T D D' : D <= D' -> sides_within S T D -> sides_within S T D'.
Proof. intros K (i & j & x & y & Hi & Hj & A & B & L). exists i, j, x, y. repeat split; auto. lra. Qed.
Lemma face_le S T D D' : D <= D' -> face_within S T D -> face_within S T D'.
Proof. intros K (sh & d & E & L). exists sh, d. split; [auto|lra]. Qed.

Lemma between_lt u a b h : 0 <= u -> u <= 1 -> h < a -> h < b -> h < (1 - u) * a + u * b.
Proof. intros. destruct (Qlt_le_dec u 1); [assert (0 < (1 - u) * (a - h)) by nra; assert (0 <= u * (b - h)) by nra; lra|assert (E : u == 1) by lra; rewrite E; lra]. Qed.
Lemma between_gt u a b h : 0 <= u -> u <= 1 -> a < h -> b < h -> (1 - u) * a + u * b < h.
Proof. intros. destruct (Qlt_le_dec u 1); [assert (0 < (1 - u) * (h - a)) by nra; assert (0 <= u * (h - b)) by nra; lra|assert (E : u == 1) by lra; rewrite E; lra]. Qed.
Lemma sq_le a b : (0 <= b <= a) \/ (a <= b <= 0) -> b * b <= a * a.
Proof. intros [[]|[]]; nra. Qed.
Lemma div_le a b l : 0 < l -> a <= b -> a / l <= b / l.
Proof. intros L H. apply Qle_shift_div_l; [exact L|]. assert (E : a / l * l == a) by (field; lra). rewrite E. exact H. Qed.

Section One.
  Variable S : nat -> vec.
  Hypothesis HL : 0 < len S.
  Notation over x := (forall k, (k < 3)%nat -> 0 <= wgt S k x).
  Notation h2 x := (hgt S x * hgt S x / len S).

  (** With [q] fixed, a point of the triangle moves to a side or to the foot of [q]. *)
  Lemma move_to_foot p q : in_tri S p ->
    (exists k p', (k < 3)%nat /\ on_side S k p' /\ dist2 p' q <= dist2 p q) \/ (over q /\ h2 q <= dist2 p q).
  Proof.
    intro Hp. destruct (in_tri_wgt S p Hp) as [H0 Hw]. assert (F := foot_far S HL p q H0).
    destruct (slide_wgt S p q Hw) as [A|(s & U & A & k & Hk & Z)].
    - right. split; [exact A|]. pose proof (dist2_nonneg p (foot S q)). lra.
    - left. exists k, (foot S (mix p q s)). split; [exact Hk|]. split; [apply foot_side; auto|].
      set (x := foot S (mix p q s)). assert (Hx : hgt S x == 0).
      { destruct (in_tri_wgt S x (foot_in S HL _ A)) as [X _]. exact X. }
      rewrite (foot_far S HL x q Hx), F. apply Qplus_le_l.
      assert (E : dist2 x (foot S q) == (1 - s) * (1 - s) * dist2 p (foot S q)).
      { assert (V : forall i, x i - foot S q i == (1 - s) * (p i - foot S q i)).
        { intro i. unfold x. rewrite (foot_mix S HL), (foot_self S HL p H0 i). ring. }
        unfold dist2, sum3. rewrite !V. ring. }
      rewrite E. pose proof (dist2_nonneg p (foot S q)). destruct U. assert ((1 - s) * (1 - s) <= 1) by nra.
      set (d := dist2 p (foot S q)) in *. set (r := (1 - s) * (1 - s)) in *. clearbody d r. nra.
  Qed.

  (** A point over the triangle moves towards another one that is not higher: it gets there, or its
      foot comes to a side, or it falls into the triangle. *)
  Lemma move_down q q' : over q -> (0 < hgt S q -> hgt S q' <= hgt S q) -> (hgt S q < 0 -> hgt S q <= hgt S q') -> ~ hgt S q == 0 ->
    (exists s, unit s /\ in_tri S (mix q q' s)) \/
    (exists s k x, unit s /\ (k < 3)%nat /\ on_side S k x /\ dist2 x (mix q q' s) <= h2 q) \/
    (over q' /\ h2 q' <= h2 q).
  Proof.
    intros W D1 D2 N.
    assert (B : exists r, unit r /\ let z := mix q q' r in ((0 <= hgt S z <= hgt S q) \/ (hgt S q <= hgt S z <= 0)) /\ (hgt S z == 0 \/ r == 1)).
    { destruct (Qlt_le_dec 0 (hgt S q)) as [L|L].
      - destruct (Qlt_le_dec (hgt S q') 0) as [L'|L'].
        + exists (hgt S q / (hgt S q - hgt S q')). split; [split; [apply Qle_shift_div_l; lra|apply Qle_shift_div_r; lra]|]. cbn zeta.
          assert (Z : hgt S (mix q q' (hgt S q / (hgt S q - hgt S q'))) == 0) by (rewrite hgt_mix; field; lra).
          split; [left; lra|left; exact Z].
        + exists 1. split; [unfold unit; lra|]. cbn zeta. split; [left; rewrite hgt_mix; specialize (D1 L); lra|right; lra].
      - assert (L0 : hgt S q < 0). { destruct (Qlt_le_dec (hgt S q) 0); [auto|]. exfalso. apply N. lra. }
        destruct (Qlt_le_dec 0 (hgt S q')) as [L'|L'].
        + exists (- hgt S q / (hgt S q' - hgt S q)). split; [split; [apply Qle_shift_div_l; lra|apply Qle_shift_div_r; lra]|]. cbn zeta.
          assert (Z : hgt S (mix q q' (- hgt S q / (hgt S q' - hgt S q))) == 0) by (rewrite hgt_mix; field; lra).
          split; [right; lra|left; exact Z].
        + exists 1. split; [unfold unit; lra|]. cbn zeta. split; [right; rewrite hgt_mix; specialize (D2 L0); lra|right; lra]. }
    destruct B as (r & Ur & Bt & Zr). cbn zeta in Bt, Zr. set (z := mix q q' r) in *.
    assert (MM : forall s, veq (mix q z s) (mix q q' (s * r))) by (intros s i; unfold z, mix; ring).
    assert (UU : forall s, unit s -> unit (s * r)) by (intros s [? ?]; destruct Ur; split; nra).
    destruct (slide_wgt S q z W) as [A|(s & U & A & k & Hk & Z)].
    - destruct Zr as [Zr|Zr].
      + left. exists r. split; [exact Ur|]. fold z. apply (in_tri_comp S (foot S z)); [apply foot_self; auto|apply foot_in; auto].
      + right; right. assert (Ez : veq z q') by (intro i; unfold z, mix; rewrite Zr; ring).
        assert (Ew : forall k, wgt S k z == wgt S k q') by (intro k; unfold wgt; apply dot_comp; [intro i; unfold vsub; rewrite (Ez i); reflexivity|intro i; reflexivity]).
        assert (Eh : hgt S z == hgt S q') by (unfold hgt; apply dot_comp; [intro i; unfold vsub; rewrite (Ez i); reflexivity|intro i; reflexivity]).
        split; [intros k Hk; rewrite <- Ew; auto|]. rewrite <- Eh. apply div_le; [exact HL|]. apply sq_le. exact Bt.
    - right; left. exists (s * r), k, (foot S (mix q z s)). split; [auto|]. split; [exact Hk|]. split; [apply foot_side; auto|].
      rewrite <- (dist2_comp _ _ _ _ (fun i => Qeq_refl _) (MM s)). rewrite (foot_dist S HL). apply div_le; [exact HL|]. apply sq_le.
      rewrite hgt_mix. destruct U. destruct Bt as [[]|[]]; [left|right]; nra.
  Qed.
End One.

Lemma nearest_spec Tp : match nearest_corner Tp with
  | Some k => (k < 3)%nat /\ ((forall j, (j < 3)%nat -> 0 < Tp j /\ Tp k <= Tp j) \/ (forall j, (j < 3)%nat -> Tp j < 0 /\ Tp j <= Tp k))
  | None => (exists j, (j < 3)%nat /\ Tp j <= 0) /\ (exists j, (j < 3)%nat /\ 0 <= Tp j) end.
Proof.
  assert (C : forall P : nat -> Prop, P 0%nat -> P 1%nat -> P 2%nat -> forall j, (j < 3)%nat -> P j) by (intros P ? ? ? j Hj; destruct (lt3 j Hj) as [->|[->| ->]]; auto).
  unfold nearest_corner.
  destruct (Qltb_spec 0 (Tp 0%nat)), (Qltb_spec 0 (Tp 1%nat)), (Qltb_spec 0 (Tp 2%nat)); cbn [andb];
  destruct (Qltb_spec (Tp 0%nat) 0), (Qltb_spec (Tp 1%nat) 0), (Qltb_spec (Tp 2%nat) 0); cbn [andb]; try lra;
  try (split; [solve [exists 0%nat; split; [lia|lra]|exists 1%nat; split; [lia|lra]|exists 2%nat; split; [lia|lra]]
              |solve [exists 0%nat; split; [lia|lra]|exists 1%nat; split; [lia|lra]|exists 2%nat; split; [lia|lra]]]).
  - destruct (Qltb_spec (Tp 0%nat) (Tp 1%nat)).
    + destruct (Qltb_spec (Tp 2%nat) (Tp 0%nat)); (split; [lia|left; apply C; lra]).
    + destruct (Qltb_spec (Tp 2%nat) (Tp 1%nat)); (split; [lia|left; apply C; lra]).
  - destruct (Qltb_spec (Tp 1%nat) (Tp 0%nat)).
    + destruct (Qltb_spec (Tp 0%nat) (Tp 2%nat)); (split; [lia|right; apply C; lra]).
    + destruct (Qltb_spec (Tp 1%nat) (Tp 2%nat)); (split; [lia|right; apply C; lra]).
Qed.

Definition fat (S : nat -> vec) : Prop := 1 # 1000000000000000 < len S.
Lemma fat_pos S : fat S -> 0 < len S. Proof. unfold fat. lra. Qed.

(** A corner over the other triangle. *)
Lemma corner_case S T j : fat S -> (j < 3)%nat -> (forall k, (k < 3)%nat -> 0 <= wgt S k (T j)) ->
  let D := hgt S (T j) * hgt S (T j) / len S in meet S T \/ sides_within S T D \/ face_within S T D.
Proof.
  intros Hf Hj W D. assert (HL := fat_pos S Hf).
  destruct (Qeq_dec (hgt S (T j)) 0) as [Z|Z].
  { left. exists (T j). split; [|apply corner_in; auto]. apply (in_tri_comp S (foot S (T j))); [apply foot_self; auto|apply foot_in; auto]. }
  assert (Go : forall j', (j' < 3)%nat -> (0 < hgt S (T j) -> hgt S (T j') <= hgt S (T j)) -> (hgt S (T j) < 0 -> hgt S (T j) <= hgt S (T j')) ->
    meet S T \/ sides_within S T D \/ ((forall k, (k < 3)%nat -> 0 <= wgt S k (T j')) /\ hgt S (T j') * hgt S (T j') / len S <= D)).
  { intros j' Hj' D1 D2. destruct (corners_side T j j' Hj Hj') as (e & He & E1 & E2).
    destruct (move_down S HL (T j) (T j') W D1 D2 Z) as [(s & U & I)|[(s & k & x & U & Hk & O & L)|R]]; [left|right; left|right; right; exact R].
    - exists (mix (T j) (T j') s). split; [exact I|]. apply (on_side_in T e); [auto|]. apply on_side_mix; auto.
    - exists k, e, x, (mix (T j) (T j') s). repeat split; auto. apply on_side_mix; auto. }
  assert (Nr := nearest_spec (fun k => hgt S (T k))). destruct (nearest_corner (fun k => hgt S (T k))) as [pt|] eqn:Ep.
  - destruct Nr as [Hpt Nr].
    assert (G := Go pt Hpt). destruct G as [G|[G|[Wp Lp]]]; auto.
    + intro P. destruct Nr as [Nr|Nr]; specialize (Nr j Hj); lra.
    + intro P. destruct Nr as [Nr|Nr]; specialize (Nr j Hj); lra.
    + right. assert (W0 := Wp 0%nat ltac:(lia)). assert (W1 := Wp 1%nat ltac:(lia)). assert (W2 := Wp 2%nat ltac:(lia)).
      assert (Es : forall k, (k < 3)%nat -> wgt S k (T pt) == 0 -> sides_within S T D).
      { intros k Hk Zk. destruct (corners_side T pt pt Hpt Hpt) as (e & He & E1 & _). exists k, e, (foot S (T pt)), (T pt). repeat split; auto.
        - apply foot_side; auto.
        - rewrite (foot_dist S HL). exact Lp. }
      destruct (Qeq_dec (wgt S 0 (T pt)) 0) as [Z0|Z0]; [left; apply (Es 0%nat); [lia|auto]|].
      destruct (Qeq_dec (wgt S 1 (T pt)) 0) as [Z1|Z1]; [left; apply (Es 1%nat); [lia|auto]|].
      destruct (Qeq_dec (wgt S 2 (T pt)) 0) as [Z2|Z2]; [left; apply (Es 2%nat); [lia|auto]|].
      right. assert (Pos : forall a, 0 <= a -> ~ a == 0 -> 0 < a) by (intros a A1 A2; destruct (Qlt_le_dec 0 a); [auto|exfalso; apply A2; lra]).
      exists true, (dist2 (foot S (T pt)) (T pt)). split; [|rewrite (foot_dist S HL); exact Lp].
      unfold face_corner. change (vdot (vcross (side S 0) (side S 1)) (vcross (side S 0) (side S 1))) with (len S).
      destruct (Qltb_spec (1 # 1000000000000000) (len S)) as [_|X]; [|contradiction].
      change (fun k : nat => vdot (vsub (S 0%nat) (T k)) (vcross (side S 0) (side S 1))) with (fun k => hgt S (T k)). rewrite Ep.
      change (vdot (vsub (T pt) (S 0%nat)) (vcross (vcross (side S 0) (side S 1)) (side S 0))) with (wgt S 0 (T pt)).
      change (vdot (vsub (T pt) (S 1%nat)) (vcross (vcross (side S 0) (side S 1)) (side S 1))) with (wgt S 1 (T pt)).
      change (vdot (vsub (T pt) (S 2%nat)) (vcross (vcross (side S 0) (side S 1)) (side S 2))) with (wgt S 2 (T pt)).
      destruct (Qltb_spec 0 (wgt S 0 (T pt))) as [_|X]; [|exfalso; apply X; auto].
      destruct (Qltb_spec 0 (wgt S 1 (T pt))) as [_|X]; [|exfalso; apply X; auto].
      destruct (Qltb_spec 0 (wgt S 2 (T pt))) as [_|X]; [|exfalso; apply X; auto]. cbn [andb]. reflexivity.
  - destruct Nr as [(j1 & H1 & L1) (j2 & H2 & L2)].
    assert (X : forall j', (j' < 3)%nat -> (0 < hgt S (T j) -> hgt S (T j') <= 0) -> (hgt S (T j) < 0 -> 0 <= hgt S (T j')) -> meet S T \/ sides_within S T D).
    { intros j' Hj' P1 P2. destruct (corners_side T j j' Hj Hj') as (e & He & E1 & E2).
      (* the point of the side at height zero *)
      set (dn := hgt S (T j) - hgt S (T j')).
      assert (Dn : ~ dn == 0). { unfold dn. destruct (Qlt_le_dec 0 (hgt S (T j))) as [A|A]; [specialize (P1 A); lra|]. destruct (Qlt_le_dec (hgt S (T j)) 0) as [B|B]; [specialize (P2 B); lra|]. intro. apply Z. lra. }
      set (r := hgt S (T j) / dn). assert (Er : r * dn == hgt S (T j)) by (unfold r; field; exact Dn).
      assert (Ur : unit r).
      { unfold unit, r, dn in *. destruct (Qlt_le_dec 0 (hgt S (T j))) as [A|A].
        - specialize (P1 A). split; [apply Qle_shift_div_l; lra|apply Qle_shift_div_r; lra].
        - assert (B : hgt S (T j) < 0) by (destruct (Qlt_le_dec (hgt S (T j)) 0); [auto|exfalso; apply Z; lra]). specialize (P2 B).
          assert (E : hgt S (T j) / (hgt S (T j) - hgt S (T j')) == (- hgt S (T j)) / (hgt S (T j') - hgt S (T j))) by (field; split; lra).
          rewrite E. split; [apply Qle_shift_div_l; lra|apply Qle_shift_div_r; lra]. }
      set (z := mix (T j) (T j') r). assert (Hz : hgt S z == 0). { unfold z. rewrite hgt_mix. unfold dn in Er. lra. }
      assert (Oz : on_side T e z) by (apply on_side_mix; auto).
      destruct (move_down S HL (T j) z W) as [(s & U & I)|[(s & k & x & U & Hk & O & L)|[Wz _]]]; auto; try lra.
      - left. exists (mix (T j) z s). split; [exact I|]. apply (on_side_in T e); [auto|]. apply on_side_mix; auto.
      - right. exists k, e, x, (mix (T j) z s). repeat split; auto. apply on_side_mix; auto.
      - left. exists z. split; [|apply (on_side_in T e); auto]. apply (in_tri_comp S (foot S z)); [apply foot_self; auto|apply foot_in; auto]. }
    destruct (Qlt_le_dec 0 (hgt S (T j))) as [A|A].
    + destruct (X j1 H1) as [Y|Y]; auto; lra.
    + destruct (X j2 H2) as [Y|Y]; auto; lra.
Qed.

(** A point of a side of the second triangle. *)
Lemma side_case S T e p q : fat S -> (e < 3)%nat -> on_side T e q -> in_tri S p ->
  let D := dist2 p q in meet S T \/ sides_within S T D \/ face_within S T D.
Proof.
  intros Hf He Oq Ip D. assert (HL := fat_pos S Hf).
  destruct (move_to_foot S HL p q Ip) as [(k & p' & Hk & O & L)|[W L]].
  { right; left. exists k, e, p', q. repeat split; auto. }
  fold D in L.
  destruct (Qeq_dec (hgt S q) 0) as [Z|Z].
  { left. exists q. split; [|apply (on_side_in T e); auto]. apply (in_tri_comp S (foot S q)); [apply foot_self; auto|apply foot_in; auto]. }
  destruct Oq as (u & [U0 U1] & Eq). set (j := e). set (j' := ((e + 1) mod 3)%nat).
  assert (Hj' : (j' < 3)%nat) by (apply Nat.mod_upper_bound; lia).
  assert (Hh : hgt S q == (1 - u) * hgt S (T j) + u * hgt S (T j')).
  { rewrite <- hgt_mix. unfold hgt. apply dot_comp; [|intro i; reflexivity]. intro i. unfold vsub. rewrite (Eq i). unfold at_, mix, side, vsub, j, j'. ring. }
  assert (Sj : on_side T e (T j)) by (exists 0; split; [unfold unit; lra|intro i; unfold at_, j; ring]).
  assert (Sj' : on_side T e (T j')) by (exists 1; split; [unfold unit; lra|intro i; unfold at_, side, vsub, j'; ring]).
  assert (Oq : on_side T e q) by (exists u; split; [split; auto|auto]).
  assert (Ch : exists w, (w < 3)%nat /\ on_side T e (T w) /\ (0 < hgt S q -> hgt S (T w) <= hgt S q) /\ (hgt S q < 0 -> hgt S q <= hgt S (T w))).
  { destruct (Qlt_le_dec 0 (hgt S q)) as [A|A].
    - destruct (Qlt_le_dec (hgt S q) (hgt S (T j))) as [B|B]; [|exists j; repeat split; auto; lra].
      destruct (Qlt_le_dec (hgt S q) (hgt S (T j'))) as [B'|B']; [|exists j'; repeat split; auto; lra]. exfalso. pose proof (between_lt u _ _ _ U0 U1 B B'). lra.
    - destruct (Qlt_le_dec (hgt S (T j)) (hgt S q)) as [B|B]; [|exists j; repeat split; auto; lra].
      destruct (Qlt_le_dec (hgt S (T j')) (hgt S q)) as [B'|B']; [|exists j'; repeat split; auto; lra]. exfalso. pose proof (between_gt u _ _ _ U0 U1 B B'). lra. }
  destruct Ch as (w & Hw & Ow & C1 & C2).
  destruct (move_down S HL q (T w) W C1 C2 Z) as [(s & U & I)|[(s & k & x & U & Hk & O & L')|[Ww Lw]]].
  - left. exists (mix q (T w) s). split; [exact I|]. apply (on_side_in T e); [auto|]. apply on_side_mix; auto.
  - right; left. exists k, e, x, (mix q (T w) s). repeat split; auto; [apply on_side_mix; auto|lra].
  - assert (K := corner_case S T w Hf Hw Ww). cbn zeta in K. destruct K as [K|[K|K]]; [left; exact K|right; left|right; right].
    + apply (sides_le S T _ D) in K; [exact K|lra].
    + apply (face_le S T _ D) in K; [exact K|lra].
Qed.

(** Any two points. *)
Lemma slide_pair S T p q : fat S -> fat T -> in_tri S p -> in_tri T q ->
  let D := dist2 p q in meet S T \/ sides_within S T D \/ face_within S T D \/ face_within T S D.
Proof.
  intros FS FT Ip Iq D. assert (HT := fat_pos T FT).
  assert (Side : forall e p q, (e < 3)%nat -> on_side T e q -> in_tri S p -> dist2 p q <= D -> meet S T \/ sides_within S T D \/ face_within S T D \/ face_within T S D).
  { intros e p1 q1 He O I L. destruct (side_case S T e p1 q1 FS He O I) as [K|[K|K]]; [left; exact K|right; left|right; right; left].
    - apply (sides_le S T _ D) in K; auto.
    - apply (face_le S T _ D) in K; auto. }
  destruct (move_to_foot T HT q p Iq) as [(k & q' & Hk & O & L)|[W L]].
  { apply (Side k p q' Hk O Ip). pose proof (dist2_sym q p). pose proof (dist2_sym q' p). unfold D. lra. }
  rewrite (dist2_sym q p) in L. change (dist2 p q) with D in L.
  destruct (Qeq_dec (hgt T p) 0) as [Z|Z].
  { left. exists p. split; [exact Ip|]. apply (in_tri_comp T (foot T p)); [apply foot_self; auto|apply foot_in; auto]. }
  assert (Ch : exists w, (w < 3)%nat /\ (0 < hgt T p -> hgt T (S w) <= hgt T p) /\ (hgt T p < 0 -> hgt T p <= hgt T (S w))).
  { destruct Ip as (a & b & c & H1 & H2 & H3 & H4 & H5).
    assert (Hh : hgt T p == a * hgt T (S 0%nat) + b * hgt T (S 1%nat) + c * hgt T (S 2%nat)).
    { assert (Ea : a == 1 - b - c) by lra. unfold hgt. generalize (nrm T). intro n. unfold vdot, vsub, sum3. rewrite !H5, Ea. ring. }
    destruct (Qlt_le_dec 0 (hgt T p)) as [A|A].
    - destruct (Qlt_le_dec (hgt T p) (hgt T (S 0%nat))) as [B|B]; [|exists 0%nat; repeat split; auto; lra].
      destruct (Qlt_le_dec (hgt T p) (hgt T (S 1%nat))) as [B1|B1]; [|exists 1%nat; repeat split; auto; lra].
      destruct (Qlt_le_dec (hgt T p) (hgt T (S 2%nat))) as [B2|B2]; [|exists 2%nat; repeat split; auto; lra]. exfalso.
      assert (a * hgt T p <= a * hgt T (S 0%nat)) by nra. assert (b * hgt T p <= b * hgt T (S 1%nat)) by nra. assert (c * hgt T p <= c * hgt T (S 2%nat)) by nra.
      assert (Ex : 0 < a \/ 0 < b \/ 0 < c) by (destruct (Qlt_le_dec 0 a); [auto|]; destruct (Qlt_le_dec 0 b); [auto|]; right; right; lra).
      assert (Sm : (a + b + c) * hgt T p == hgt T p) by (rewrite H4; ring).
      destruct Ex as [Ex|[Ex|Ex]]; nra.
    - destruct (Qlt_le_dec (hgt T (S 0%nat)) (hgt T p)) as [B|B]; [|exists 0%nat; repeat split; auto; lra].
      destruct (Qlt_le_dec (hgt T (S 1%nat)) (hgt T p)) as [B1|B1]; [|exists 1%nat; repeat split; auto; lra].
      destruct (Qlt_le_dec (hgt T (S 2%nat)) (hgt T p)) as [B2|B2]; [|exists 2%nat; repeat split; auto; lra]. exfalso.
      assert (a * hgt T (S 0%nat) <= a * hgt T p) by nra. assert (b * hgt T (S 1%nat) <= b * hgt T p) by nra. assert (c * hgt T (S 2%nat) <= c * hgt T p) by nra.
      assert (Ex : 0 < a \/ 0 < b \/ 0 < c) by (destruct (Qlt_le_dec 0 a); [auto|]; destruct (Qlt_le_dec 0 b); [auto|]; right; right; lra).
      assert (Sm : (a + b + c) * hgt T p == hgt T p) by (rewrite H4; ring).
      destruct Ex as [Ex|[Ex|Ex]]; nra. }
  destruct Ch as (w & Hw & C1 & C2).
  destruct (move_down T HT p (S w) W C1 C2 Z) as [(s & U & I)|[(s & k & x & U & Hk & O & L')|[Ww Lw]]].
  - left. exists (mix p (S w) s). split; [apply in_tri_mix; [auto|auto|apply corner_in; auto]|exact I].
  - apply (Side k (mix p (S w) s) x Hk O); [apply in_tri_mix; [auto|auto|apply corner_in; auto]|]. rewrite dist2_sym. lra.
  - assert (K := corner_case T S w FT Hw Ww). cbn zeta in K. destruct K as [K|[K|K]]; [left; apply meet_sym; exact K|right; left|right; right; right].
    + apply sides_sym. apply (sides_le T S _ D) in K; [exact K|lra].
    + apply (face_le T S _ D) in K; [exact K|lra].
Qed.
