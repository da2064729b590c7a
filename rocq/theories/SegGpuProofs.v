(** Proofs about the batch distance on the graphics card. *)
From Coq Require Import QArith List Bool Arith Lia Lqa.
From Verif Require Import AabModel AabProofs SegDistModel SegDistProofs SegGpuModel.
Import ListNotations.

Lemma block_pos : (0 < block)%nat.
Proof. unfold block. lia. Qed.

(** Every pair is some thread's, exactly in the launches of the given sizes. *)
Lemma thread_iff size1 size2 max1 max2 p : (size1 <= max1)%nat -> (size2 <= max2)%nat ->
  (In p (flat_map (threads size1 size2) (launches max1 max2)) <-> (fst p < size1 /\ snd p < size2)%nat).
Proof.
  intros H1 H2. pose proof block_pos as B. unfold launches. generalize dependent block. intros w Bw. split.
  - rewrite in_flat_map. intros ([[c1 st] dim] & Hl & Hp). unfold threads in Hp.
    destruct (Nat.leb_spec size1 c1); [destruct Hp|]. apply in_map_iff in Hp as (c2 & <- & Hf).
    apply filter_In in Hf as [_ Hf]. apply Nat.ltb_lt in Hf. cbn; lia.
  - destruct p as [i j]; cbn [fst snd]. intros [Hi Hj]. rewrite in_flat_map.
    exists (i, (j / w) * w, Nat.min (max2 - (j / w) * w) w)%nat. split.
    + rewrite in_flat_map. exists (j / w)%nat. split.
      * apply in_seq. split; [lia|]. cbn. apply Nat.lt_le_trans with (S (j / w)); [lia|].
        replace (S (j / w)) with ((j + 1 * w) / w)%nat by (rewrite Nat.div_add; lia).
        apply Nat.div_le_mono; lia.
      * apply in_map_iff. exists i. split; [reflexivity|apply in_seq; lia].
    + unfold threads. destruct (Nat.leb_spec size1 i); [lia|]. apply in_map. apply filter_In.
      pose proof (Nat.div_mod j w ltac:(lia)). pose proof (Nat.mod_upper_bound j w ltac:(lia)).
      split; [apply in_seq; nia|apply Nat.ltb_lt; lia].
Qed.

Lemma set_at_length {A} (l : list A) : forall i x, length (set_at l i x) = length l.
Proof. induction l as [|y l IH]; intros [|i] x; cbn; auto. Qed.
Lemma set_at_other {A} (l : list A) : forall i j x, i <> j -> nth_error (set_at l i x) j = nth_error l j.
Proof. induction l as [|y l IH]; intros [|i] [|j] x H; cbn; auto; congruence. Qed.

(** A launch leaves the cell alone or stores the distance of one of its pairs. *)
Lemma launch_keeps d ths s s' : tsteps d ths s s' -> forall S : dist_t -> Prop,
  (forall p, In p ths -> S (d p)) -> S (fst s) -> S (fst s').
Proof.
  induction 1 as [|s s' s'' St _ IH]; intros S HS H0; [exact H0|]. apply IH; [exact HS|].
  inversion St; subst; cbn in *; [|exact H0|].
  - apply HS. exact (nth_error_In _ _ H).
  - destruct (dlt (d p) v); [apply HS; exact (nth_error_In _ _ H)|exact H0].
Qed.

(** If the pair (0, 0) is in the launch something is stored whatever was there before. *)
Lemma launch_writes d ths s s' k : tsteps d ths s s' -> nth_error ths k = Some (0, 0)%nat ->
  nth_error (snd s) k = Some Start \/ (exists p, In p ths /\ fst s = d p) ->
  nth_error (snd s') k = Some Start \/ (exists p, In p ths /\ fst s' = d p).
Proof.
  induction 1 as [|s s' s'' St _ IH]; intros Hk H0; [exact H0|]. apply IH; [exact Hk|].
  inversion St; subst; cbn in *.
  - right. exists (0, 0)%nat. split; [exact (nth_error_In _ _ H)|reflexivity].
  - destruct (Nat.eq_dec i k) as [->|Ne]; [congruence|]. destruct H0 as [H0|H0]; [left|right; exact H0].
    rewrite set_at_other by exact Ne. exact H0.
  - destruct (dlt (d p) v); [right; exists p; split; [exact (nth_error_In _ _ H)|reflexivity]|].
    destruct H0 as [H0|H0]; [left|right; exact H0].
    destruct (Nat.eq_dec i k) as [->|Ne]; [congruence|]. rewrite set_at_other by exact Ne. exact H0.
Qed.

Lemma nth_repeat_done n k : nth_error (repeat Done n) k <> Some Start.
Proof. revert k; induction n as [|n IH]; intros [|k]; cbn; try discriminate. apply IH. Qed.

Lemma batch_keeps d size1 size2 ls c c' : batch_run d size1 size2 ls c c' -> forall S : dist_t -> Prop,
  (forall p, In p (flat_map (threads size1 size2) ls) -> S (d p)) -> S c -> S c'.
Proof.
  induction 1 as [|l ls c c' c'' L _ IH]; intros S HS H0; [exact H0|]. apply IH.
  - intros p Hp. apply HS. cbn. apply in_or_app; auto.
  - apply (launch_keeps _ _ _ _ L S); [|exact H0]. intros p Hp. apply HS. cbn. apply in_or_app; auto.
Qed.

Lemma first_launch max1 max2 : (0 < max1)%nat -> (0 < max2)%nat ->
  exists ls, launches max1 max2 = (0, 0, Nat.min max2 block)%nat :: ls /\
    forall l, In l ls -> (fst (fst l) <> 0 \/ 0 < snd (fst l))%nat.
Proof.
  intros H1 H2. pose proof block_pos as B. unfold launches. generalize dependent block. intros w Bw.
  assert (D : exists n, ((max2 + (w - 1)) / w = S n)%nat).
  { exists ((max2 - 1) / w)%nat. replace (max2 + (w - 1))%nat with ((max2 - 1) + 1 * w)%nat by lia. rewrite Nat.div_add; lia. }
  destruct D as [n ->]. destruct max1 as [|m]; [lia|]. cbn [seq flat_map map app]. rewrite Nat.mul_0_l, Nat.sub_0_r. eexists; split; [reflexivity|].
  intros l Hl. apply in_app_or in Hl as [Hl|Hl].
  - apply in_map_iff in Hl as (c1 & <- & Hs). apply in_seq in Hs. cbn; lia.
  - apply in_flat_map in Hl as (k & Hk & Hl). apply in_seq in Hk.
    change ((0, k * w, Nat.min (max2 - k * w) w)%nat :: map (fun c1 => (c1, k * w, Nat.min (max2 - k * w) w)%nat) (seq 1 m))
      with (map (fun c1 => (c1, k * w, Nat.min (max2 - k * w) w)%nat) (seq 0 (S m))) in Hl.
    apply in_map_iff in Hl as (c1 & <- & _). right; cbn [fst snd]. nia.
Qed.

(** Whatever the schedule and the old contents, the result is the distance of one of the pairs. *)
Lemma batch_attained d size1 size2 max1 max2 garbage r : (0 < size1 <= max1)%nat -> (0 < size2 <= max2)%nat ->
  batch_run d size1 size2 (launches max1 max2) garbage r ->
  exists i j, (i < size1 /\ j < size2)%nat /\ r = d (i, j).
Proof.
  intros H1 H2 R. set (Sp := fun c => exists i j, (i < size1 /\ j < size2)%nat /\ c = d (i, j)).
  assert (All : forall p, In p (flat_map (threads size1 size2) (launches max1 max2)) -> Sp (d p)).
  { intros [i j] Hp. apply thread_iff in Hp; [|lia..]. exists i, j. split; [exact Hp|reflexivity]. }
  destruct (first_launch max1 max2 ltac:(lia) ltac:(lia)) as (ls & E & _). rewrite E in *.
  inversion R as [|? ? ? c' ? L R' ]; subst. change (Sp r).
  apply (batch_keeps _ _ _ _ _ _ R'); [intros p Hp; apply All; cbn [flat_map]; apply in_or_app; auto|].
  assert (T0 : exists rest, threads size1 size2 (0, 0, Nat.min max2 block)%nat = (0, 0)%nat :: rest).
  { unfold threads. destruct (Nat.leb_spec size1 0); [lia|]. pose proof block_pos.
    destruct (Nat.min max2 block) as [|n] eqn:Em; [lia|]. cbn [seq filter].
    destruct (Nat.ltb_spec 0 size2); [|lia]. cbn [map]. eexists; reflexivity. }
  destruct T0 as [rest T0]. unfold launch_run in L.
  assert (W := launch_writes _ _ _ _ 0 L). cbn [fst snd] in W.
  destruct W as [W|(p & Hp & ->)].
  - rewrite T0; reflexivity.
  - left. rewrite T0; reflexivity.
  - destruct (nth_repeat_done _ _ W).
  - apply All. cbn [flat_map]. apply in_or_app; auto.
Qed.

(** One thread per launch: sequential, and the minimum is found. *)
Lemma set_one (st : list tst) i x : length st = 1%nat -> forall y, nth_error st i = Some y -> i = 0%nat /\ set_at st i x = [x].
Proof.
  intros L y H. destruct st as [|a [|b st]]; try discriminate. destruct i as [|i]; [auto|].
  cbn in H. destruct i; discriminate.
Qed.
Lemma nth_single {A} (x : A) i y : nth_error [x] i = Some y -> i = 0%nat /\ y = x.
Proof. destruct i as [|i]; cbn; [intros [= ->]; auto|destruct i; discriminate]. Qed.
Ltac lone := repeat match goal with
  | H : nth_error [_] ?i = Some _ |- _ => let E := fresh in let F := fresh in apply nth_single in H as [E F]
  end; subst; cbn [set_at] in *; try congruence.
Lemma one_thread d p c c' : p <> (0, 0)%nat -> launch_run d [p] c c' -> c' = dmin c (d p).
Proof.
  intros Np L. unfold launch_run in L. cbn [length repeat] in L.
  inversion L as [|s s1 s2 St L1]; subst. inversion St; subst; lone.
  inversion L1 as [|s s1' s2 St' L2]; subst. inversion St'; subst; lone.
  inversion L2 as [|s s1'' s2 St'' L3]; subst; [unfold dmin; match goal with H : Loaded _ = Loaded _ |- _ => injection H as -> end; reflexivity|].
  inversion St''; subst; lone.
Qed.
Lemma one_first d c c' : launch_run d [(0, 0)%nat] c c' -> c' = d (0, 0)%nat.
Proof.
  intros L. unfold launch_run in L. cbn [length repeat] in L.
  inversion L as [|s s1 s2 St L1]; subst. inversion St; subst; lone.
  inversion L1 as [|s s1' s2 St' L2]; subst; [reflexivity|].
  inversion St'; subst; lone.
Qed.
Lemma no_thread d c c' : launch_run d [] c c' -> c' = c.
Proof.
  intros L. unfold launch_run in L. cbn in L. inversion L as [|s s1 s2 St L1]; subst; [reflexivity|].
  inversion St; subst; destruct i; discriminate.
Qed.

Lemma seq_min d size1 size2 ls c r : batch_run d size1 size2 ls c r ->
  (forall l, In l ls -> threads size1 size2 l = [] \/ exists p, threads size1 size2 l = [p] /\ p <> (0, 0)%nat) ->
  dle r c /\ forall p, In p (flat_map (threads size1 size2) ls) -> dle r (d p).
Proof.
  induction 1 as [|l ls c c' c'' L R IH]; intros H; [split; [apply dle_refl|intros p []]|].
  destruct IH as [I1 I2]; [intros; apply H; right; assumption|]. cbn [flat_map].
  destruct (H l (or_introl eq_refl)) as [E|(p & E & Np)]; rewrite E in *.
  - apply no_thread in L; subst c'. auto.
  - apply one_thread in L; [|exact Np]. subst c'. destruct (dmin_spec c (d p)) as (D1 & D2 & _).
    split; [exact (dle_trans _ _ _ I1 D1)|]. intros q [<-|Hq]; [exact (dle_trans _ _ _ I1 D2)|auto].
Qed.

Lemma filter_below n : forall st, filter (fun c2 => (c2 <? 1)%nat) (seq (S st) n) = [].
Proof. induction n as [|n IH]; intros st; [reflexivity|]. cbn [seq filter]. destruct (Nat.ltb_spec (S st) 1); [lia|]. apply IH. Qed.
Lemma threads_one size1 l : threads size1 1 l = [] \/ exists c1, threads size1 1 l = [(c1, 0)%nat] /\ c1 = fst (fst l) /\ snd (fst l) = 0%nat.
Proof.
  destruct l as [[c1 st] dim]. unfold threads. destruct (size1 <=? c1)%nat; [auto|].
  destruct st as [|st]; [|rewrite filter_below; auto]. destruct dim as [|dim]; [auto|].
  cbn [seq filter Nat.ltb Nat.leb]. rewrite filter_below. right. exists c1. auto.
Qed.

Lemma batch_column d size1 max1 max2 garbage r : (0 < size1 <= max1)%nat -> (0 < max2)%nat ->
  batch_run d size1 1 (launches max1 max2) garbage r -> forall i, (i < size1)%nat -> dle r (d (i, 0%nat)).
Proof.
  intros H1 H2 R i Hi.
  assert (Hin : In (i, 0)%nat (flat_map (threads size1 1) (launches max1 max2))) by (apply thread_iff; cbn; lia).
  destruct (first_launch max1 max2 ltac:(lia) H2) as (ls & E & Tl). rewrite E in *.
  inversion R as [|? ? ? c' ? L R']; subst. cbn [flat_map] in Hin.
  assert (T0 : threads size1 1 (0, 0, Nat.min max2 block)%nat = [(0, 0)%nat]).
  { unfold threads. destruct (Nat.leb_spec size1 0); [lia|]. pose proof block_pos.
    destruct (Nat.min max2 block) as [|n] eqn:Em; [lia|]. cbn [seq filter Nat.ltb Nat.leb]. rewrite filter_below. reflexivity. }
  rewrite T0 in L, Hin. apply one_first in L; subst c'.
  destruct (seq_min _ _ _ _ _ _ R') as [I1 I2].
  - intros l Hl. destruct (threads_one size1 l) as [Z|(c1 & Z & Ec & Es)]; [auto|]. right. exists (c1, 0%nat). split; [exact Z|].
    destruct (Tl l Hl) as [X|X]; [congruence|lia].
  - apply in_app_or in Hin as [[Hin|[]]|Hin]; [injection Hin as <-; exact I1|auto].
Qed.
