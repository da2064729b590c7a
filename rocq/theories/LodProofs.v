(** Refinement requests: termination, path independence, exact number of rounds. *)
From Coq Require Import ZArith Bool List Lia.
From Verif Require Import LodModel.
Import ListNotations.
Open Scope Z_scope.

(** What is needed of the stop test: it is monotone and true once all [n] rounds are decoded, for
    levels up to 100.  IEEE division and multiplication are monotone, so the test as compiled
    qualifies as well as the exact one. *)
Definition good_test (n : Z) (test : Z -> Z -> bool) : Prop :=
  (forall c c' p, c <= c' -> test c p = true -> test c' p = true) /\
  (forall c p p', p' <= p -> test c p = true -> test c p' = true) /\
  (forall p, p <= 100 -> test n p = true) /\ test 0 0 = true.

Lemma stop_good n : 0 < n -> good_test n (stop n).
Proof.
  intro Hn. unfold good_test, stop. destruct (Z.eqb_spec n 0); [lia|].
  split; [|split; [|split]].
  - intros c c' p Hc H. apply Z.leb_le in H. apply Z.leb_le. lia.
  - intros c p p' Hp H. apply Z.leb_le in H. apply Z.leb_le. nia.
  - intros p Hp. apply Z.leb_le. nia.
  - apply Z.leb_le. lia.
Qed.

(** The least number of rounds at which the test for level [p] holds. *)
Definition first_stop (test : Z -> Z -> bool) (p k : Z) : Prop :=
  test k p = true /\ forall c, 0 <= c < k -> test c p = false.

Lemma first_stop_unique n test p k k' : good_test n test -> 0 <= k -> 0 <= k' -> first_stop test p k -> first_stop test p k' -> k = k'.
Proof.
  intros _ Hk Hk' [A B] [A' B']. destruct (Z.lt_trichotomy k k') as [L|[E|L]]; [|auto|].
  - rewrite B' in A by lia. discriminate.
  - rewrite B in A' by lia. discriminate.
Qed.

Lemma first_stop_exists n test p : good_test n test -> 0 <= n -> p <= 100 -> exists k, 0 <= k <= n /\ first_stop test p k.
Proof.
  intros G Hn Hp. destruct G as (M1 & M2 & M3 & _).
  assert (X : forall m, (forall c, 0 <= c < Z.of_nat m -> test c p = false) \/ exists k, 0 <= k < Z.of_nat m /\ first_stop test p k).
  { induction m as [|m [IH|IH]].
    - left. lia.
    - destruct (test (Z.of_nat m) p) eqn:E.
      + right. exists (Z.of_nat m). split; [lia|]. split; auto.
      + left. intros c Hc. destruct (Z.eq_dec c (Z.of_nat m)) as [->|]; [auto|apply IH; lia].
    - right. destruct IH as (k & H1 & H2). exists k. split; [lia|auto]. }
  destruct (X (Z.to_nat n)) as [H|(k & H1 & H2)].
  - exists n. split; [lia|]. split; [auto|]. intros c Hc. apply H. lia.
  - exists k. split; [lia|auto].
Qed.

Lemma batch_round test c p fuel : test c p = false ->
  completeOperation test (S (S (S fuel))) (Lod Idle c false p) = completeOperation test fuel (Lod Idle (c + 1) false p).
Proof.
  intro H. cbn [completeOperation l_done].
  replace (batchOperation test (Lod Idle c false p)) with (Lod UndecimationConquest c false p)
    by (unfold batchOperation; cbn [l_done l_op l_cur l_pct]; rewrite H; reflexivity).
  reflexivity.
Qed.

(** Completing from an idle state below the target. *)
Lemma complete_up test p k : first_stop test p k -> forall m c fuel, 0 <= c -> c + Z.of_nat m = k -> (3 * m + 1 <= fuel)%nat ->
  completeOperation test fuel (Lod Idle c false p) = Some (Lod Idle k true p).
Proof.
  intros [T F]. induction m as [|m IH]; intros c fuel Hc Hk Hf.
  - assert (c = k) by lia. subst c. destruct fuel as [|fuel]; [lia|]. cbn [completeOperation l_done]. unfold batchOperation. cbn [l_done l_op l_cur l_pct].
    rewrite T. destruct fuel; reflexivity.
  - destruct fuel as [|[|[|fuel]]]; try lia.
    rewrite batch_round by (apply F; lia). apply IH; lia.
Qed.

Lemma complete_past test p c fuel : test c p = true -> (1 <= fuel)%nat ->
  completeOperation test fuel (Lod Idle c false p) = Some (Lod Idle c true p).
Proof.
  intros T Hf. destruct fuel as [|fuel]; [lia|]. cbn [completeOperation l_done]. unfold batchOperation. cbn [l_done l_op l_cur l_pct]. rewrite T.
  destruct fuel; reflexivity.
Qed.

(** A decoder that has reached level [p]: [p = 0] is a fresh one. *)
Definition at_level (test : Z -> Z -> bool) (p : Z) (s : lod) : Prop :=
  l_op s = Idle /\ l_pct s = p /\ first_stop test p (l_cur s) /\ 0 <= l_cur s.

Lemma advance_spec n test s p r fuel : good_test n test -> 0 <= n -> at_level test p s -> 0 <= p -> r <= 100 -> (3 * Z.to_nat n + 1 <= fuel)%nat ->
  exists s', advance_to test fuel s r = Some s' /\ at_level test (Z.max p r) s' /\ l_cur s <= l_cur s' /\ (r <= p -> s' = s) /\ l_cur s' <= Z.max n (l_cur s).
Proof.
  intros G Hn (Ho & Hp & Hf & Hc) Hp0 Hr Hfuel. unfold advance_to. rewrite Hp. destruct (Z.geb_spec p r).
  - exists s. split; [reflexivity|]. rewrite Z.max_l by lia. split; [split; auto|]. split; [lia|]. split; [auto|lia].
  - rewrite Z.max_r by lia. destruct (first_stop_exists n test r G Hn Hr) as (k & Hk & Hfk).
    assert (Hle : l_cur s <= k).
    { destruct (Z.le_gt_cases (l_cur s) k); [auto|]. destruct Hf as [_ F]. destruct Hfk as [T _]. destruct G as (_ & M2 & _).
      specialize (F k ltac:(lia)). rewrite (M2 k r p ltac:(lia) T) in F. discriminate. }
    rewrite Ho. rewrite (complete_up test r k Hfk (Z.to_nat (k - l_cur s))) by lia.
    eexists. split; [reflexivity|]. split; [split; [reflexivity|split; [reflexivity|cbn [l_cur]; split; [auto|lia]]]|].
    cbn [l_cur]. split; [auto|]. split; [lia|lia].
Qed.

Definition highest (reqs : list Z) : Z := fold_right Z.max 0 reqs.

Lemma highest_nonneg reqs : 0 <= highest reqs.
Proof. induction reqs; cbn [highest fold_right]; [lia|]. unfold highest in *. lia. Qed.

Lemma advance_all_spec n test fuel : good_test n test -> 0 <= n -> (3 * Z.to_nat n + 1 <= fuel)%nat -> forall reqs s p,
  at_level test p s -> 0 <= p -> Forall (fun r => r <= 100) reqs ->
  exists s', advance_all test fuel s reqs = Some s' /\ at_level test (Z.max p (highest reqs)) s' /\ l_cur s <= l_cur s'.
Proof.
  intros G Hn Hf. induction reqs as [|r rs IH]; intros s p Ha Hp Hr; cbn [advance_all].
  - exists s. cbn [highest fold_right]. rewrite Z.max_l by lia. repeat split; auto; try lia; apply Ha.
  - inversion Hr as [|? ? H1 H2]; subst. destruct (advance_spec n test s p r fuel G Hn Ha Hp H1 Hf) as (s1 & E1 & A1 & C1 & _).
    rewrite E1. destruct (IH s1 (Z.max p r) A1 ltac:(lia) H2) as (s2 & E2 & A2 & C2).
    exists s2. split; [auto|]. cbn [highest fold_right]. fold (highest rs). rewrite Z.max_assoc. split; [auto|lia].
Qed.

Lemma fresh_level n test : good_test n test -> at_level test 0 fresh.
Proof. intros (_ & _ & _ & T). split; [reflexivity|]. split; [reflexivity|]. split; [|cbn; lia]. split; [exact T|]. cbn [fresh l_cur]. lia. Qed.

Theorem path_independent : forall n test fuel reqs, good_test n test -> 0 <= n -> (3 * Z.to_nat n + 1 <= fuel)%nat ->
  Forall (fun r => r <= 100) reqs ->
  exists s s', advance_all test fuel fresh reqs = Some s /\ advance_to test fuel fresh (highest reqs) = Some s' /\
    l_cur s = l_cur s' /\ l_pct s = highest reqs /\ first_stop test (highest reqs) (l_cur s) /\ 0 <= l_cur s <= n /\
    forall r, r <= highest reqs -> advance_to test fuel s r = Some s.
Proof.
  intros n test fuel reqs G Hn Hf Hr.
  assert (H100 : highest reqs <= 100).
  { clear -Hr. induction Hr; cbn [highest fold_right]; [lia|]. unfold highest in *. lia. }
  destruct (advance_all_spec n test fuel G Hn Hf reqs fresh 0 (fresh_level n test G) ltac:(lia) Hr) as (s & E & A & C).
  pose proof (highest_nonneg reqs). rewrite Z.max_r in A by lia.
  destruct (advance_spec n test fresh 0 (highest reqs) fuel G Hn (fresh_level n test G) ltac:(lia) H100 Hf) as (s' & E' & A' & C' & _ & B').
  rewrite Z.max_r in A' by lia. exists s, s'. split; [auto|]. split; [auto|].
  destruct A as (A1 & A2 & A3 & A4). destruct A' as (A1' & A2' & A3' & A4').
  assert (Ecur : l_cur s = l_cur s') by (eapply first_stop_unique; eauto).
  split; [exact Ecur|]. split; [exact A2|]. split; [exact A3|]. split.
  - cbn [fresh l_cur] in *. lia.
  - intros r Hle. unfold advance_to. destruct (Z.geb_spec (l_pct s) r); [reflexivity|lia].
Qed.

Lemma exact_rounds n p k : 0 < n -> 0 <= p <= 100 -> 0 <= k -> first_stop (stop n) p k -> k = (p * n + 99) / 100.
Proof.
  intros Hn Hp Hk [T F]. unfold stop in *. destruct (Z.eqb_spec n 0); [lia|]. apply Z.leb_le in T.
  destruct (Z.eq_dec k 0) as [->|].
  - apply Z.div_unique with (p * n + 99); nia.
  - specialize (F (k - 1) ltac:(lia)). apply Z.leb_gt in F. apply Z.div_unique with (p * n + 99 - 100 * k); lia.
Qed.

Theorem rounds_decoded : forall n fuel reqs, 0 < n -> (3 * Z.to_nat n + 1 <= fuel)%nat -> Forall (fun r => r <= 100) reqs ->
  exists s, advance_all (stop n) fuel fresh reqs = Some s /\ l_cur s = (highest reqs * n + 99) / 100 /\
    (In 100 reqs -> l_cur s = n).
Proof.
  intros n fuel reqs Hn Hf Hr.
  destruct (path_independent n (stop n) fuel reqs (stop_good n Hn) ltac:(lia) Hf Hr) as (s & s' & E & _ & _ & P & F & C & _).
  assert (H100 : highest reqs <= 100).
  { clear -Hr. induction Hr; cbn [highest fold_right]; [lia|]. unfold highest in *. lia. }
  pose proof (highest_nonneg reqs).
  assert (Ec : l_cur s = (highest reqs * n + 99) / 100) by (apply exact_rounds; auto; lia).
  exists s. split; [auto|]. split; [auto|]. intro Hin.
  assert (highest reqs = 100).
  { assert (100 <= highest reqs); [|lia]. clear -Hin. induction reqs as [|r rs IH]; [destruct Hin|]. cbn [highest fold_right]. fold (highest rs).
    destruct Hin as [->|Hin]; [lia|]. specialize (IH Hin). lia. }
  rewrite Ec, H0. symmetry. apply Z.div_unique with 99; lia.
Qed.

(** Levels above 100 never stop. *)
Theorem above_100 : forall n fuel p, 0 < n -> 100 < p -> 3 * n + 1 <= Z.of_nat fuel ->
  match advance_to (stop n) fuel fresh p with Some s => n < l_cur s | None => True end.
Proof.
  intros n fuel p Hn Hp Hf. unfold advance_to. cbn [fresh l_pct l_op l_cur]. destruct (Z.geb_spec 0 p); [lia|].
  assert (X : forall m c fuel, 0 <= c -> c + Z.of_nat m = n + 1 ->
     match completeOperation (stop n) fuel (Lod Idle c false p) with Some s => n < l_cur s | None => True end).
  { induction m as [|m IH]; intros c f Hc Hm.
    - assert (Y : forall f s, n < l_cur s -> match completeOperation (stop n) f s with Some s' => n < l_cur s' | None => True end).
      { clear. induction f as [|f IHf]; intros s Hs; cbn [completeOperation]; destruct (l_done s); auto.
        apply IHf. unfold batchOperation. destruct (l_done s); auto. destruct (l_op s); [destruct (stop _ _ _)| |]; cbn [l_cur]; lia. }
      apply Y. cbn [l_cur]. lia.
    - assert (S0 : stop n c p = false). { unfold stop. destruct (Z.eqb_spec n 0); [lia|]. apply Z.leb_gt. nia. }
      destruct f as [|[|[|f]]].
      + exact I.
      + cbn [completeOperation l_done]. unfold batchOperation. cbn [l_done l_op l_cur l_pct]. rewrite S0. exact I.
      + cbn [completeOperation l_done]. unfold batchOperation. cbn [l_done l_op l_cur l_pct]. rewrite S0. exact I.
      + rewrite batch_round by exact S0. apply IH; lia. }
  apply (X (Z.to_nat (n + 1))); lia.
Qed.
