(** The coder with positions in exact arithmetic: quantised positions are their own quantisation,
    barycentres stay on the grid, hence every round can be coded. *)
From Coq Require Import List ZArith QArith Qround Lqa Lia Bool Arith.
From Verif Require Import Arr CodecModel CodecProofs PpmcModel PpmcTopo PpmcRound PpmcLevels PpmcLevelsProofs PpmcObject PpmcSyms QuantModel QuantProofs PropPpmc.
Import ListNotations.
Close Scope Q_scope.
Close Scope Z_scope.
Open Scope nat_scope.

(** A point of space; the kernel's floats are exact rationals here. *)
Definition pt : Type := Q * Q * Q.

(** mymesh.cpp:246-251 and 257-262, all three coordinates.  The box corner and the step are given
    as stored in the header, [fv] is the value of such a 32 bit pattern. *)
Definition qzQ (fv : Z -> Q) (box : Z * Z * Z) (step : Z) (p : pt) : vec :=
  let '(bx, by_, bz) := box in let '(x, y, z) := p in
  (getQuantizedPos (fv bx) (fv step) x, getQuantizedPos (fv by_) (fv step) y, getQuantizedPos (fv bz) (fv step) z).
Definition gpQ (fv : Z -> Q) (box : Z * Z * Z) (step : Z) (p : vec) : pt :=
  let '(bx, by_, bz) := box in let '(x, y, z) := p in
  (getPos (fv bx) (fv step) x, getPos (fv by_) (fv step) y, getPos (fv bz) (fv step) z).

(** mymeshUtils.cpp:109-124 barycenter. *)
Definition qsum (l : list Q) : Q := fold_left Qplus l 0%Q.
Definition baryQ (l : list pt) : pt :=
  let n := inject_Z (Z.of_nat (length l)) in
  (qsum (map (fun p => fst (fst p)) l) / n, qsum (map (fun p => snd (fst p)) l) / n, qsum (map snd l) / n)%Q.

Section Exact.
Open Scope Q_scope.

Lemma qsum_acc l : forall a, fold_left Qplus l a == a + qsum l.
Proof.
  unfold qsum. induction l as [|x l IH]; intro a; cbn [fold_left]; [lra|]. rewrite (IH (a + x)), (IH (0 + x)). lra.
Qed.
Lemma qsum_cons x l : qsum (x :: l) == x + qsum l.
Proof. unfold qsum. cbn [fold_left]. rewrite qsum_acc. unfold qsum. lra. Qed.

Lemma qsum_between lo hi l : (forall x, In x l -> lo <= x /\ x <= hi) ->
  lo * inject_Z (Z.of_nat (length l)) <= qsum l /\ qsum l <= hi * inject_Z (Z.of_nat (length l)).
Proof.
  induction l as [|x l IH]; intro H.
  - cbn [length]. change (inject_Z (Z.of_nat 0)) with 0. unfold qsum. cbn [fold_left]. lra.
  - cbn [length]. rewrite Nat2Z.inj_succ. unfold Z.succ. rewrite inject_Z_plus. change (inject_Z 1) with 1.
    destruct IH as [A B]; [intros; apply H; right; auto|]. destruct (H x) as [C D]; [left; auto|]. rewrite qsum_cons. lra.
Qed.

Lemma mean_cell B b s l : 0 < s -> (0 < B)%Z -> l <> [] -> (forall x, In x l -> exists z, (0 <= z < B)%Z /\ x = getPos b s z) ->
  (0 <= getQuantizedPos b s (qsum l / inject_Z (Z.of_nat (length l))) < B)%Z.
Proof.
  intros Hs HB NE HL. set (n := inject_Z (Z.of_nat (length l))).
  assert (Hn : 1 <= n). { unfold n. change 1 with (inject_Z 1). rewrite <- Zle_Qle. destruct l; [congruence|]. cbn [length]. lia. }
  destruct (qsum_between ((1 # 2) * s + b) ((inject_Z B - (1 # 2)) * s + b) l) as [A C].
  { intros x Hx. destruct (HL x Hx) as (z & Hz & ->). unfold getPos.
    assert (E1 : 0 <= inject_Z z) by (change 0 with (inject_Z 0); rewrite <- Zle_Qle; lia).
    assert (E2 : inject_Z z + 1 <= inject_Z B) by (change 1 with (inject_Z 1); rewrite <- inject_Z_plus, <- Zle_Qle; lia).
    assert (E3 : 0 <= inject_Z z * s) by (apply Qmult_le_0_compat; lra).
    assert (E4 : (inject_Z z + 1) * s <= inject_Z B * s) by (apply Qmult_le_r; auto).
    split; lra. }
  fold n in A, C. unfold getQuantizedPos. set (mu := qsum l / n) in *.
  assert (M : qsum l == mu * n) by (unfold mu; field; lra).
  assert (A' : (1 # 2) * s + b <= mu). { apply Qmult_le_r with n; [lra|]. lra. }
  assert (C' : mu <= (inject_Z B - (1 # 2)) * s + b). { apply Qmult_le_r with n; [lra|]. lra. }
  set (u := (mu - b) / s). assert (U : u * s == mu - b) by (unfold u; field; lra).
  assert (U1 : 1 # 2 <= u). { apply Qmult_le_r with s; [auto|]. lra. }
  assert (U2 : u <= inject_Z B - (1 # 2)). { apply Qmult_le_r with s; [auto|]. lra. }
  rewrite trunc_floor by lra. split.
  - rewrite <- (Qfloor_Z 0). apply Qfloor_resp_le. change (inject_Z 0) with 0. lra.
  - rewrite Zlt_Qlt. apply Qle_lt_trans with u; [apply Qfloor_le|]. lra.
Qed.

Lemma mean_on_grid fv box step B l : 0 < fv step -> (0 < B)%Z -> l <> [] ->
  (forall p, In p l -> exists g, on_grid B g /\ p = gpQ fv box step g) -> on_grid B (qzQ fv box step (baryQ l)).
Proof.
  intros Hs HB NE HL. destruct box as [[bx by_] bz]. unfold qzQ, baryQ. unfold on_grid.
  assert (K : forall (f : pt -> Q) (h : vec -> Z) bb, (forall g, f (gpQ fv (bx, by_, bz) step g) = getPos bb (fv step) (h g)) -> (forall g, on_grid B g -> 0 <= h g < B)%Z ->
    (0 <= getQuantizedPos bb (fv step) (qsum (map f l) / inject_Z (Z.of_nat (length l))) < B)%Z).
  { intros f h bb Hf Hh. rewrite <- (map_length f l). apply mean_cell; auto.
    - destruct l; [congruence|discriminate].
    - intros x Hx. apply in_map_iff in Hx. destruct Hx as (p & <- & Hp). destruct (HL p Hp) as (g & Hg & ->). exists (h g). split; [apply Hh; auto|apply Hf]. }
  split; [|split].
  - apply (K _ (fun g => fst (fst g))); [intros [[x y] z]; reflexivity|intros [[x y] z] (G1 & G2 & G3); auto].
  - apply (K _ (fun g => snd (fst g))); [intros [[x y] z]; reflexivity|intros [[x y] z] (G1 & G2 & G3); auto].
  - apply (K _ snd); [intros [[x y] z]; reflexivity|intros [[x y] z] (G1 & G2 & G3); auto].
Qed.

Lemma grid_fixed fv box step B g : 0 < fv step -> on_grid B g -> qzQ fv box step (gpQ fv box step g) = g.
Proof.
  intros Hs HG. destruct box as [[bx by_] bz], g as [[x y] z]. destruct HG as (G1 & G2 & G3). unfold qzQ, gpQ. rewrite !getPos_fixed by (auto; lia). auto.
Qed.
End Exact.

(** every round of a compression of a mesh on the grid can be coded *)
Lemma steps_codable fv box step lim d0 d1 (grid : nat -> vec) fuel : (0 < fv step)%Q ->
  forall ms rs, steps pt (qzQ fv box step) baryQ lim d0 d1 (fun v => gpQ fv box step (grid v)) fuel ms rs ->
  (forall m v, In m ms -> vertex m v -> on_grid 32768 (grid v)) ->
  (forall m (l : list dart), In m ms -> NoDup l -> (forall d, In d l -> m (fst d) (snd d) <> None) -> 16 * Z.of_nat (length l) + 16 < 2 ^ 32)%Z ->
  Forall codable_round rs.
Proof.
  intros Hs. induction ms as [|x ms IH]; intros rs H HG HL; [destruct H|]. destruct ms as [|m ms].
  - destruct rs; [constructor|destruct H].
  - destruct rs as [|r rs]; [destruct H|]. destruct H as [(x0 & (W & C & convex & h0 & Hh & E) & EX) H2].
    constructor; [|apply IH; [exact H2| |]].
    + eapply round_codable; [exact W|exact C|exact Hh|exact E| | | |].
      * intros v Hv. cbv beta; rewrite (grid_fixed fv box step 32768); auto; apply (HG m); auto; right; left; auto.
      * intros l NE Hl. apply mean_on_grid; [auto|lia|auto|]. intros p Hp. destruct (Hl p Hp) as (v & Hv & ->). exists (grid v). split; [|auto].
        apply (HG m); auto. right; left; auto.
      * apply (proj2 (proj2 (round_keeps_mesh_closed _ _ _ _ _ _ _ _ _ _ _ _ _ W C Hh E))).
      * intros l ND Hd. apply (HL x); [left; auto|auto|]. intros d Kd. rewrite EX. auto.
    + intros m0 v Hm. apply HG. right; auto.
    + intros m0 l Hm. apply HL. right; auto.
Qed.
