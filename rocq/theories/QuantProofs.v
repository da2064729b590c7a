(** Quantisation error and stability. *)
From Coq Require Import QArith Qabs Qround List ZArith Lqa Lia.
From Verif Require Import QuantModel.
Import ListNotations.
Open Scope Q_scope.

Lemma trunc_floor x : 0 <= x -> Qtrunc x = Qfloor x.
Proof.
  intro H. unfold Qtrunc, Qfloor. destruct x as [n d]. cbn [Qnum Qden].
  unfold Qle in H. cbn [Qnum Qden] in H. rewrite Z.quot_div_nonneg; lia.
Qed.

Lemma maxRange_spec ranges : 0 <= maxRange ranges /\ forall r, In r ranges -> r <= maxRange ranges.
Proof.
  unfold maxRange.
  assert (X : forall m, m <= fold_left (fun m r => if Qle_bool r m then m else r) ranges m /\
      forall r, In r ranges -> r <= fold_left (fun m r => if Qle_bool r m then m else r) ranges m).
  { induction ranges as [|r l IH]; intro m; cbn [fold_left].
    - split; [lra|]. intros r [].
    - destruct (Qle_bool r m) eqn:E.
      + apply Qle_bool_iff in E. destruct (IH m) as [A B]. split; [auto|]. intros r' [<-|H]; [lra|auto].
      + assert (m <= r). { destruct (Qlt_le_dec m r); [lra|]. exfalso. apply Qle_bool_iff in q. congruence. }
        destruct (IH r) as [A B]. split; [lra|]. intros r' [<-|H']; auto. }
  destruct (X 0) as [A B]. auto.
Qed.

Lemma pow_pos b : (0 <= b)%Z -> 0 < inject_Z (2 ^ b).
Proof. intro H. change 0 with (inject_Z 0). rewrite <- Zlt_Qlt. apply Z.pow_pos_nonneg; lia. Qed.

Lemma step_spec b ranges step : (0 <= b)%Z -> determineQuantStep b ranges = Some step ->
  0 < step /\ step * inject_Z (2 ^ b) == maxRange ranges.
Proof.
  intros Hb H. unfold determineQuantStep in H. destruct (Qeq_bool (maxRange ranges) 0) eqn:E; [discriminate|]. injection H as <-.
  pose proof (pow_pos b Hb). destruct (maxRange_spec ranges) as [A _].
  assert (0 < maxRange ranges). { apply Qle_lteq in A. destruct A as [A|A]; [auto|]. apply Qeq_bool_neq in E. exfalso. apply E. symmetry. exact A. }
  split.
  - unfold Qdiv. apply Qmult_lt_0_compat; [auto|]. apply Qinv_lt_0_compat. auto.
  - field. lra.
Qed.

Lemma getPos_fixed bbMin step q : 0 < step -> (0 <= q)%Z -> getQuantizedPos bbMin step (getPos bbMin step q) = q.
Proof.
  intros Hs Hq. unfold getQuantizedPos, getPos.
  assert (E : ((inject_Z q + (1 # 2)) * step + bbMin - bbMin) / step == inject_Z q + (1 # 2)) by (field; lra).
  assert (Hq' : 0 <= inject_Z q) by (change 0 with (inject_Z 0); rewrite <- Zle_Qle; exact Hq).
  rewrite trunc_floor by (rewrite E; lra). rewrite E.
  assert (A : (q <= Qfloor (inject_Z q + (1 # 2)))%Z).
  { rewrite <- (Qfloor_Z q) at 1. apply Qfloor_resp_le. lra. }
  assert (B : (Qfloor (inject_Z q + (1 # 2)) < q + 1)%Z).
  { rewrite Zlt_Qlt. apply Qle_lt_trans with (inject_Z q + (1 # 2)); [apply Qfloor_le|]. rewrite inject_Z_plus. change (inject_Z 1) with 1. lra. }
  lia.
Qed.

Lemma quantize_spec b bbMin step p : (0 <= b)%Z -> 0 < step -> bbMin <= p -> p <= bbMin + step * inject_Z (2 ^ b) ->
  forall q p', quantizeCoord b bbMin step p = (q, p') ->
  (0 <= q < 2 ^ b)%Z /\ Qabs (p' - p) <= step * (1 # 2) /\ bbMin < p' /\ p' < bbMin + step * inject_Z (2 ^ b) /\
  getQuantizedPos bbMin step p' = q /\ quantizeCoord b bbMin step p' = (q, p').
Proof.
  intros Hb Hs H1 H2 q p' E. unfold quantizeCoord in E.
  set (u := (p - bbMin) / step) in *.
  assert (Hu : u * step == p - bbMin) by (unfold u; field; lra).
  assert (Hu0 : 0 <= u). { unfold u, Qdiv. apply Qmult_le_0_compat; [lra|]. apply Qlt_le_weak, Qinv_lt_0_compat; auto. }
  assert (HuM : u <= inject_Z (2 ^ b)).
  { apply Qmult_le_r with step; [auto|]. rewrite Hu. lra. }
  assert (Hq0 : getQuantizedPos bbMin step p = Qfloor u) by (apply trunc_floor; exact Hu0).
  rewrite Hq0 in E. clear Hq0. clearbody u.
  assert (F1 : inject_Z (Qfloor u) <= u) by apply Qfloor_le.
  assert (F2 : u < inject_Z (Qfloor u) + 1) by (pose proof (Qlt_floor u) as X; rewrite inject_Z_plus in X; exact X).
  assert (F0 : (0 <= Qfloor u)%Z) by (rewrite <- (Qfloor_Z 0); apply Qfloor_resp_le; exact Hu0).
  assert (F3 : (Qfloor u <= 2 ^ b)%Z) by (rewrite <- (Qfloor_Z (2 ^ b)); apply Qfloor_resp_le; exact HuM).
  assert (Hpow : (0 < 2 ^ b)%Z) by (apply Z.pow_pos_nonneg; lia).
  assert (Hcore : (0 <= q < 2 ^ b)%Z /\ p' = getPos bbMin step q /\ inject_Z q <= u /\ u <= inject_Z q + 1).
  { destruct (Z.eqb_spec (Qfloor u) (2 ^ b)) as [Eq|Ne]; injection E as <- <-.
    - split; [lia|]. split; [reflexivity|]. unfold Z.sub. rewrite inject_Z_plus. rewrite Eq in F1, F2.
      change (inject_Z (- (1))) with (-(1)). set (M := inject_Z (2 ^ b)) in *. clearbody M. split; lra.
    - split; [lia|]. split; [reflexivity|]. split; lra. }
  destruct Hcore as (Hq & -> & G1 & G2).
  assert (Hq' : 0 <= inject_Z q) by (change 0 with (inject_Z 0); rewrite <- Zle_Qle; lia).
  assert (Hq2 : inject_Z q + 1 <= inject_Z (2 ^ b)) by (change 1 with (inject_Z 1); rewrite <- inject_Z_plus, <- Zle_Qle; lia).
  assert (Hfix : getQuantizedPos bbMin step (getPos bbMin step q) = q) by (apply getPos_fixed; [auto|lia]).
  split; [exact Hq|]. unfold getPos at 1 2 3.
  assert (M1 : inject_Z q * step <= u * step) by (apply Qmult_le_r; auto).
  assert (M2 : u * step <= (inject_Z q + 1) * step) by (apply Qmult_le_r; auto).
  assert (M3 : 0 <= inject_Z q * step) by (apply Qmult_le_0_compat; lra).
  assert (M4 : (inject_Z q + 1) * step <= inject_Z (2 ^ b) * step) by (apply Qmult_le_r; auto).
  split; [apply Qabs_Qle_condition; split; lra|]. split; [lra|]. split; [lra|]. split; [exact Hfix|].
  unfold quantizeCoord. rewrite Hfix. destruct (Z.eqb_spec q (2 ^ b)); [lia|reflexivity].
Qed.

Theorem quantisation b ranges step : (0 <= b)%Z -> determineQuantStep b ranges = Some step ->
  forall bbMin range p, In range ranges -> bbMin <= p -> p <= bbMin + range ->
  forall q p', quantizeCoord b bbMin step p = (q, p') ->
  (0 <= q < 2 ^ b)%Z /\ Qabs (p' - p) <= step * (1 # 2) /\ bbMin < p' /\ p' < bbMin + maxRange ranges /\
  quantizeCoord b bbMin step p' = (q, p').
Proof.
  intros Hb Hs bbMin range p Hin H1 H2 q p' E. destruct (step_spec _ _ _ Hb Hs) as [S1 S2].
  destruct (maxRange_spec ranges) as [_ M]. specialize (M range Hin).
  destruct (quantize_spec b bbMin step p Hb S1 H1) with (q := q) (p' := p') as (A & B & C & D & _ & F); [lra|exact E|].
  split; [auto|]. split; [auto|]. split; [auto|]. split; [lra|auto].
Qed.
