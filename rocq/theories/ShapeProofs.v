(** Moving and shrinking, one axis at a time. *)
From Coq Require Import List ZArith QArith Qabs Qround Bool Lia Lqa.
From Verif Require Import Arr AabModel AabProofs TextModel TextSpec TextProofs ShapeModel.
Import ListNotations.
Open Scope Z_scope.

Lemma nearest_shown p v : (1 <= p)%nat -> nearest p v (shown p v).
Proof.
  intros Hp. unfold shown. destruct (Qcompare_spec v 0) as [E|E|E].
  - apply (nearest_eq p 0 v 0 0); [symmetry; exact E|reflexivity|apply nearest_0, Hp].
  - destruct (significand p (- v)) as [m x] eqn:S.
    assert (N := proj2 (proj2 (significand_spec p (- v) m x Hp ltac:(lra) S))).
    apply nearest_opp in N. eapply nearest_eq; [|reflexivity|exact N]. ring.
  - destruct (significand p v) as [m x] eqn:S. apply (significand_spec p v m x Hp E S).
Qed.
Lemma shown_few p v : (1 <= p)%nat -> few_digits p v -> (shown p v == v)%Q.
Proof.
  intros Hp F. destruct (nearest_shown p v Hp) as [_ N]. specialize (N v F).
  assert (Z0 : (Qabs (v - v) == 0)%Q) by (setoid_replace (v - v)%Q with 0%Q by ring; reflexivity).
  rewrite Z0 in N. apply Qabs_Qle_condition in N. lra.
Qed.

Definition moved (shift : Z) (shrink m : Q) (mean : Z) (c : Q) : Q :=
  (if Qltb 1 shrink then (c + inject_Z shift - m) / shrink + inject_Z mean else (c + inject_Z shift) / shrink)%Q.
Definition move_all (shift : Z) (shrink m : Q) (mean : Z) (cs : list Q) : option (list Q) :=
  fold_right (fun c acc => do x <- move shift shrink m mean c; do l <- acc; Some (x :: l)) (Some []) cs.
Lemma move_all_some shift shrink m mean cs : ~ (shrink == 0)%Q -> move_all shift shrink m mean cs = Some (map (moved shift shrink m mean) cs).
Proof.
  intros H. assert (E : Qeq_bool shrink 0 = false).
  { destruct (Qeq_bool shrink 0) eqn:E; [|reflexivity]. apply Qeq_bool_iff in E. contradiction. }
  unfold move_all. induction cs as [|c cs IH]; [reflexivity|]. cbn [fold_right map]. unfold move at 1. rewrite E. cbn [bind].
  rewrite IH. reflexivity.
Qed.
Lemma move_all_zero shift shrink m mean cs : (shrink == 0)%Q -> cs <> [] -> move_all shift shrink m mean cs = None.
Proof.
  intros H N. destruct cs as [|c cs]; [contradiction|]. unfold move_all. cbn [fold_right]. unfold move at 1.
  apply Qeq_bool_iff in H. rewrite H. reflexivity.
Qed.
(** The smallest coordinate and the integer mean do not depend on the shift. *)
Definition frame (cs : list Q) : option (Q * Z) :=
  do (mn, mean) <- gather cs None 0;
  do mean' <- mean_of mean (length cs);
  do m <- mn; Some (m, mean').
Lemma adjust_frame shift shrink cs0 :
  adjust_axis shift shrink cs0 = do (m, mean) <- frame (map (shown 6) cs0); move_all shift shrink m mean (map (shown 6) cs0).
Proof.
  unfold adjust_axis, frame. destruct (gather (map (shown 6) cs0) None 0) as [[mn mean]|]; [|reflexivity]. cbn [bind].
  destruct (mean_of mean (length (map (shown 6) cs0))) as [mean'|]; [|reflexivity]. cbn [bind].
  destruct mn; reflexivity.
Qed.
Lemma frame_nonempty cs r : frame cs = Some r -> cs <> [].
Proof. intros H ->. discriminate H. Qed.
Lemma adjust_some shift shrink cs0 out : adjust_axis shift shrink cs0 = Some out ->
  ~ (shrink == 0)%Q /\ exists m mean, frame (map (shown 6) cs0) = Some (m, mean) /\ out = map (fun c => moved shift shrink m mean (shown 6 c)) cs0.
Proof.
  rewrite adjust_frame. destruct (frame (map (shown 6) cs0)) as [[m mean]|] eqn:F; cbn [bind]; [|intros H; discriminate H].
  intros H. destruct (Qeq_dec shrink 0) as [Z0|NZ].
  - rewrite move_all_zero in H by (auto; apply (frame_nonempty _ _ F)). discriminate H.
  - split; [exact NZ|]. rewrite move_all_some in H by exact NZ. injection H as <-. exists m, mean. split; [reflexivity|].
    rewrite map_map. reflexivity.
Qed.

(** When it is done. *)
Lemma to_int_near q : (Qabs q <= 2147483647)%Q -> exists t, to_int q = Some t /\ (Qabs (inject_Z t) <= Qabs q)%Q.
Proof.
  intros H. unfold to_int. set (t := if Qle_bool 0 q then Qfloor q else - Qfloor (- q)).
  assert (B : (Qabs (inject_Z t) <= Qabs q)%Q).
  { unfold t. destruct (Qle_bool 0 q) eqn:E.
    - apply Qle_bool_iff in E. pose proof (Qfloor_le q). assert (F : 0 <= Qfloor q) by (apply (Qfloor_resp_le 0 q E)).
      rewrite Zle_Qle in F. change (inject_Z 0) with 0%Q in F. rewrite !Qabs_pos by lra. lra.
    - assert (L : (q < 0)%Q). { apply Qnot_le_lt. intros C. apply Qle_bool_iff in C. rewrite C in E. discriminate E. }
      pose proof (Qfloor_le (- q)). assert (F : 0 <= Qfloor (- q)) by (apply (Qfloor_resp_le 0 (- q)); lra).
      rewrite Zle_Qle in F. change (inject_Z 0) with 0%Q in F. rewrite inject_Z_opp, Qabs_opp, Qabs_pos, Qabs_neg by lra. lra. }
  exists t. split; [|exact B].
  assert (C : (Qabs (inject_Z t) <= 2147483647)%Q) by lra. apply Qabs_Qle_condition in C. destruct C as [C1 C2].
  change (- (2147483647))%Q with (inject_Z (-2147483647)) in C1. change 2147483647%Q with (inject_Z 2147483647) in C2.
  rewrite <- Zle_Qle in C1, C2.
  rewrite (proj2 (Z.leb_le _ _)) by lia. rewrite (proj2 (Z.leb_le _ _)) by lia. reflexivity.
Qed.
Lemma gather_some (B : Q) : (0 <= B)%Q -> forall cs mn mean, Forall (fun c => Qabs c <= B)%Q cs ->
  (Qabs (inject_Z mean) + inject_Z (Z.of_nat (length cs)) * B <= 2147483647)%Q ->
  exists mn' mean', gather cs mn mean = Some (mn', mean') /\ (mn' = None -> mn = None /\ cs = []).
Proof.
  intros HB. induction cs as [|c cs IH]; intros mn mean HF HS.
  - exists mn, mean. split; [reflexivity|]. intros ->. split; reflexivity.
  - inversion HF as [|? ? Hc Hcs]; subst. cbn [gather].
    assert (L : (inject_Z (Z.of_nat (length (c :: cs))) == inject_Z (Z.of_nat (length cs)) + 1)%Q).
    { cbn [length]. rewrite Nat2Z.inj_succ. unfold Z.succ. rewrite inject_Z_plus. reflexivity. }
    rewrite L in HS.
    assert (N0 : (0 <= inject_Z (Z.of_nat (length cs)) * B)%Q).
    { apply Qmult_le_0_compat; [|exact HB]. change 0%Q with (inject_Z 0). rewrite <- Zle_Qle. lia. }
    assert (S1 : (Qabs (inject_Z mean + c) <= Qabs (inject_Z mean) + B)%Q).
    { eapply Qle_trans; [apply Qabs_triangle|]. lra. }
    assert (S2 : ((inject_Z (Z.of_nat (length cs)) + 1) * B == inject_Z (Z.of_nat (length cs)) * B + B)%Q) by ring.
    rewrite S2 in HS.
    destruct (to_int_near (inject_Z mean + c)) as (t & E & Ht); [lra|]. rewrite E. cbn [bind].
    destruct (IH (Some (match mn with None => c | Some x => if Qltb c x then c else x end)) t Hcs) as (mn' & mean' & G & NN); [lra|].
    exists mn', mean'. split; [exact G|]. intros C. destruct (NN C) as [X _]. discriminate X.
Qed.
Lemma frame_some (B : Q) cs : (0 <= B)%Q -> cs <> [] -> Forall (fun c => Qabs c <= B)%Q cs ->
  (inject_Z (Z.of_nat (length cs)) * B <= 2147483647)%Q -> exists r, frame cs = Some r.
Proof.
  intros HB N HF HS. unfold frame.
  destruct (gather_some B HB cs None 0 HF) as (mn & mean & G & NN).
  { change (Qabs (inject_Z 0)) with 0%Q. lra. }
  rewrite G. cbn [bind]. destruct cs as [|c cs]; [contradiction|]. cbn [length mean_of bind].
  destruct mn as [m|]; [|destruct (NN eq_refl) as [_ X]; discriminate X]. eexists. reflexivity.
Qed.

(** Where the frame lies when no coordinate is negative. *)
Lemma to_int_pos q t : (0 <= q)%Q -> to_int q = Some t -> 0 <= t /\ (inject_Z t <= q)%Q.
Proof.
  intros H. unfold to_int. rewrite (proj2 (Qle_bool_iff 0 q) H).
  destruct (_ && _); intros E; [|discriminate E]. injection E as <-.
  split; [apply (Qfloor_resp_le 0 q H) | apply Qfloor_le].
Qed.
Lemma gather_pos (M : Q) : forall cs mn mean mn' mean', Forall (fun c => 0 <= c <= M)%Q cs ->
  0 <= mean -> (forall x, mn = Some x -> 0 <= x <= M)%Q -> gather cs mn mean = Some (mn', mean') ->
  0 <= mean' /\ (inject_Z mean' <= inject_Z mean + inject_Z (Z.of_nat (length cs)) * M)%Q /\
  (forall x, mn' = Some x -> (0 <= x <= M)%Q /\ (Forall (fun c => x <= c)%Q cs /\ forall y, mn = Some y -> (x <= y)%Q)).
Proof.
  induction cs as [|c cs IH]; intros mn mean mn' mean' HF Hm Hmn G; cbn [gather] in G.
  - injection G as <- <-. split; [exact Hm|]. split; [change (inject_Z (Z.of_nat (length (@nil Q)))) with 0%Q; lra|]. intros x Hx. split; [apply Hmn, Hx|].
    split; [constructor|]. intros y Hy. rewrite Hx in Hy. injection Hy as <-. lra.
  - inversion HF as [|? ? Hc Hcs]; subst.
    destruct (to_int (inject_Z mean + c)) as [t|] eqn:E; cbn [bind] in G; [|discriminate G].
    assert (M0 : (0 <= inject_Z mean)%Q) by (change 0%Q with (inject_Z 0); rewrite <- Zle_Qle; exact Hm).
    apply to_int_pos in E; [|lra]. destruct E as [T0 T1].
    destruct (IH (Some (match mn with Some x => if Qltb c x then c else x | None => c end)) t mn' mean' Hcs T0) with (2 := G) as (I1 & I2 & I3).
    { intros x Hx. injection Hx as <-. destruct mn as [y|]; [|exact Hc]. specialize (Hmn y eq_refl). destruct (Qltb c y); lra. }
    split; [exact I1|]. split.
    + cbn [length]. rewrite Nat2Z.inj_succ. unfold Z.succ. rewrite inject_Z_plus. change (inject_Z 1) with 1%Q.
      assert (S2 : ((inject_Z (Z.of_nat (length cs)) + 1) * M == inject_Z (Z.of_nat (length cs)) * M + M)%Q) by ring.
      rewrite S2. lra.
    + intros x Hx. destruct (I3 x Hx) as (J1 & J2 & J3). specialize (J3 _ eq_refl). split; [exact J1|].
      assert (K : (x <= c)%Q /\ forall y, mn = Some y -> (x <= y)%Q).
      { destruct mn as [y|]; [|split; [exact J3|intros y Hy; discriminate Hy]].
        destruct (Qltb_spec c y) as [C|C].
        - split; [exact J3|]. intros z Hz. injection Hz as <-. lra.
        - split; [lra|]. intros z Hz. injection Hz as <-. exact J3. }
      split; [constructor; [exact (proj1 K)|exact J2]|exact (proj2 K)].
Qed.
Lemma frame_pos (M : Q) cs m mean : Forall (fun c => 0 <= c <= M)%Q cs -> frame cs = Some (m, mean) ->
  (0 <= m <= M)%Q /\ Forall (fun c => m <= c)%Q cs /\ (0 <= inject_Z mean <= M)%Q.
Proof.
  intros HF. unfold frame. destruct (gather cs None 0) as [[mn s]|] eqn:G; cbn [bind]; [|intros H; discriminate H].
  destruct (gather_pos M cs None 0 mn s HF ltac:(lia) ltac:(intros x Hx; discriminate Hx) G) as (S0 & S1 & S2).
  unfold mean_of. destruct (length cs) as [|n] eqn:L; cbn [bind]; [intros H; discriminate H|].
  destruct mn as [m'|]; cbn [bind]; [|intros H; discriminate H]. intros H.
  apply (f_equal (fun o => match o with Some x => x | None => (0%Q, 0) end)) in H. cbv beta iota in H.
  pose proof (f_equal fst H) as H1. pose proof (f_equal snd H) as H2. cbn [fst snd] in H1, H2. clear H. subst m'.
  destruct (S2 m eq_refl) as (J1 & J2 & _). split; [exact J1|]. split; [exact J2|].
  assert (E : mean = s / Z.of_nat (S n)) by (rewrite <- H2; apply Z.quot_div_nonneg; lia).
  assert (P : 0 <= mean) by (rewrite E; apply Z.div_pos; lia).
  assert (U : mean * Z.of_nat (S n) <= s) by (rewrite E, Z.mul_comm; apply Z.mul_div_le; lia).
  split; [change 0%Q with (inject_Z 0); rewrite <- Zle_Qle; exact P|].
  rewrite Zle_Qle, inject_Z_mult in U.
  assert (NP : (0 < inject_Z (Z.of_nat (S n)))%Q) by (change 0%Q with (inject_Z 0); rewrite <- Zlt_Qlt; lia).
  apply (Qmult_le_r _ _ _ NP). change (inject_Z 0) with 0%Q in S1. 
  assert (C : (inject_Z (Z.of_nat (S n)) * M == M * inject_Z (Z.of_nat (S n)))%Q) by ring. rewrite C in S1. lra.
Qed.
