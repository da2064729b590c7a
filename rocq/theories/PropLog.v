(** C192-C196: time stamps, progress reports, samples and file names. *)
From Coq Require Import String Ascii List ZArith QArith Bool Lia Psatz.
From Verif Require Import TextModel TextProofs LogModel.
Import ListNotations.
Open Scope Z_scope.

(** ** Progress (C194) *)
(** The lines fill the file: every line and its end. *)
Definition size_of (lines : list Z) : Z := fold_right (fun l s => l + 1 + s) 0 lines.
Fixpoint from (a : Z) (n : nat) : list Z := match n with O => [] | S n => a :: from (a + 1) n end.
Lemma compress_stuck total : 0 < total -> forall lines processed n next, Forall (Z.le 0) lines -> next < processed * 100 / total ->
  compress_reports total lines processed n next = [].
Proof.
  intros T. induction lines as [|l lines IH]; intros processed n next F H; [reflexivity|]. cbn [compress_reports].
  pose proof (Forall_inv F) as L. assert (X : processed * 100 / total <= (processed + l + 1) * 100 / total) by (apply Z.div_le_mono; lia).
  destruct (Z.eqb_spec ((processed + l + 1) * 100 / total) next); [lia|]. apply IH; [exact (Forall_inv_tail F)|lia].
Qed.
(** One line of at most a hundredth of the file adds at most one percent. *)
Lemma percent_step total p l : 0 < total -> 0 <= l -> (l + 1) * 100 <= total ->
  p * 100 / total <= (p + l + 1) * 100 / total <= p * 100 / total + 1.
Proof.
  intros T L H. split; [apply Z.div_le_mono; lia|]. rewrite <- (Z.div_add (p * 100) 1 total) by lia. apply Z.div_le_mono; lia.
Qed.
Lemma from_snoc n : forall a, from a (S n) = from a n ++ [a + Z.of_nat n].
Proof. induction n as [|n IH]; intros a; [cbn; f_equal; lia|]. change (from a (S (S n))) with (a :: from (a + 1) (S n)). rewrite IH. cbn [from app]. do 3 f_equal. lia. Qed.
Lemma compress_all total : 0 < total -> forall lines processed n next, Forall (fun l => 0 <= l /\ (l + 1) * 100 <= total) lines ->
  next - 1 = processed * 100 / total ->
  map snd (compress_reports total lines processed n next) = from next (Z.to_nat ((processed + size_of lines) * 100 / total + 1 - next)).
Proof.
  intros T. induction lines as [|l lines IH]; intros processed n next F H; cbn [compress_reports size_of fold_right].
  - rewrite Z.add_0_r, <- H. replace (next - 1 + 1 - next) with 0 by lia. reflexivity.
  - destruct (Forall_inv F) as [L1 L2]. destruct (percent_step total processed l T L1 L2) as [S1 S2]. specialize (fun p k x => IH p k x (Forall_inv_tail F)).
    fold (size_of lines). replace (processed + (l + 1 + size_of lines)) with (processed + l + 1 + size_of lines) by lia.
    assert (P : 0 <= size_of lines).
    { clear -F. apply Forall_inv_tail in F. induction F as [|x r [X _] _ IH]; cbn [size_of fold_right]; [lia|]. fold (size_of r). lia. }
    destruct (Z.eqb_spec ((processed + l + 1) * 100 / total) next) as [E|E].
    + cbn [map snd]. rewrite IH by lia.
      assert (M : next <= (processed + l + 1 + size_of lines) * 100 / total) by (rewrite <- E; apply Z.div_le_mono; lia).
      replace (Z.to_nat ((processed + l + 1 + size_of lines) * 100 / total + 1 - next)) with (S (Z.to_nat ((processed + l + 1 + size_of lines) * 100 / total + 1 - (next + 1)))) by lia. reflexivity.
    + rewrite IH by lia. reflexivity.
Qed.
(** Every percentage from 0 to 100 is reported, in order, when no line is longer than a hundredth of the
    file and the first is shorter. *)
Theorem compress_progress_partial : forall total l lines, total = size_of (l :: lines) -> 0 <= l -> (l + 1) * 100 < total ->
  Forall (fun l => 0 <= l /\ (l + 1) * 100 <= total) lines ->
  map snd (compress_reports total (l :: lines) 0 0 0) = from 0 101.
Proof.
  intros total l lines E L L1 F. cbn [compress_reports]. rewrite Z.add_0_l. rewrite (Z.div_small ((l + 1) * 100) total) by lia. cbn [Z.eqb map snd].
  rewrite (compress_all total) by (try assumption; try lia; rewrite Z.div_small; lia).
  replace (l + 1 + size_of lines) with total by (rewrite E; reflexivity). rewrite Z.mul_comm, Z.div_mul by lia. reflexivity.
Qed.
Print Assumptions compress_progress_partial.
(** C194 is false: if the first line is a hundredth of the file or more, nothing is ever reported. *)
Theorem compress_progress_refuted : forall total l lines, 0 < total -> 0 <= l -> Forall (Z.le 0) lines -> total <= (l + 1) * 100 ->
  compress_reports total (l :: lines) 0 0 0 = [].
Proof.
  intros total l lines T L F H. cbn [compress_reports]. rewrite Z.add_0_l.
  assert (X : 1 <= (l + 1) * 100 / total) by (apply Z.div_le_lower_bound; lia).
  destruct (Z.eqb_spec ((l + 1) * 100 / total) 0); [lia|]. apply compress_stuck; [exact T|exact F|lia].
Qed.
Print Assumptions compress_progress_refuted.
(** More: one long line anywhere ends the reports. *)
Theorem compress_progress_ends : forall total lines l rest processed n next, 0 < total -> 0 <= processed -> 0 <= l -> Forall (Z.le 0) lines -> Forall (Z.le 0) rest ->
  total * 3 <= (l + 1) * 100 -> next <= processed * 100 / total + 1 ->
  compress_reports total (lines ++ l :: rest) processed n next = compress_reports total lines processed n next.
Proof.
  intros total lines l rest processed n next T P L F R H Hn. revert processed n next P Hn. induction lines as [|x lines IH]; intros processed n next P Hn; cbn [app compress_reports].
  - assert (X : processed * 100 / total + 3 <= (processed + l + 1) * 100 / total) by (rewrite <- Z.div_add by lia; apply Z.div_le_mono; lia).
    destruct (Z.eqb_spec ((processed + l + 1) * 100 / total) next); [lia|]. apply compress_stuck; [exact T|exact R|lia].
  - pose proof (Forall_inv F) as Fx. assert (Y : processed * 100 / total <= (processed + x + 1) * 100 / total) by (apply Z.div_le_mono; lia).
    destruct (Z.eqb_spec ((processed + x + 1) * 100 / total) next) as [E|E]; [f_equal|]; (apply IH; [exact (Forall_inv_tail F)|lia|lia]).
Qed.
Print Assumptions compress_progress_ends.
Example compress_progress_ex : map snd (compress_reports 1100 (repeat 0 100 ++ repeat 9 100) 0 0 0) = from 0 101 /\ compress_reports 110 (repeat 10 10) 0 0 0 = [] /\
  size_of (repeat 0 100 ++ repeat 9 100) = 1100 /\ Forall (fun l => 0 <= l /\ (l + 1) * 100 <= 1100) (repeat 0 100 ++ repeat 9 100).
Proof. split; [vm_compute; reflexivity|]. split; [vm_compute; reflexivity|]. split; [reflexivity|]. apply Forall_app. split; apply Forall_forall; intros x I; apply repeat_spec in I; subst x; lia. Qed.
Fixpoint odds (a : Z) (n : nat) : list Z := match n with O => [] | S n => a :: odds (a + 2) n end.
Definition bytes_of (lines : list (Z * bool)) : Z := size_of (map fst lines).
Lemma size_of_pos l : Forall (Z.le 0) l -> 0 <= size_of l.
Proof. induction 1 as [|x r X _ IH]; cbn [size_of fold_right]; [lia|]. fold (size_of r). lia. Qed.
Lemma partition_all total : 0 < total -> forall lines processed rl pl next, Forall (fun e => 0 <= fst e /\ (fst e + 1) * 100 <= total /\ snd e = true) lines ->
  next - 2 <= processed * 100 / total <= next - 1 ->
  exists k, map snd (partition_reports total lines processed rl pl next) = odds next k /\ next + 2 * Z.of_nat k - 2 <= (processed + bytes_of lines) * 100 / total <= next + 2 * Z.of_nat k - 1.
Proof.
  intros T. induction lines as [|[l b] lines IH]; intros processed rl pl next F H; cbn [partition_reports].
  - exists O. split; [reflexivity|]. change (bytes_of []) with 0. replace (processed + 0) with processed by lia. lia.
  - destruct (Forall_inv F) as (L1 & L2 & B). cbn [fst snd] in L1, L2, B. subst b. cbn [negb].
    destruct (percent_step total processed l T L1 L2) as [S1 S2]. specialize (fun p k x y => IH p k x y (Forall_inv_tail F)).
    unfold bytes_of in *. cbn [map fst size_of fold_right]. fold (size_of (map fst lines)). replace (processed + (l + 1 + size_of (map fst lines))) with (processed + l + 1 + size_of (map fst lines)) by lia.
    destruct (Z.eqb_spec ((processed + l + 1) * 100 / total) next) as [E|E].
    + destruct (IH (processed + l + 1) (rl + 1) (pl + 1) (next + 2)) as (k & E1 & E2); [lia|]. exists (S k). split; [cbn [map snd odds]; rewrite E1; reflexivity|lia].
    + destruct (IH (processed + l + 1) (rl + 1) (pl + 1) next) as (k & E1 & E2); [lia|]. exists k. split; [exact E1|exact E2].
Qed.
(** The partitioner reports the odd percentages, when every line is taken and none is longer than a
    hundredth of the files. *)
Theorem partition_progress_partial : forall total lines, total = bytes_of lines -> 0 < total ->
  Forall (fun e => 0 <= fst e /\ (fst e + 1) * 100 <= total /\ snd e = true) lines ->
  map snd (partition_reports total lines 0 0 0 1) = odds 1 50.
Proof.
  intros total lines E T F. destruct (partition_all total T lines 0 0 0 1 F) as (k & E1 & E2); [rewrite Z.div_small; lia|].
  rewrite Z.add_0_l, <- E, (Z.mul_comm total 100), Z.div_mul in E2 by lia. replace k with 50%nat in E1 by lia. exact E1.
Qed.
Print Assumptions partition_progress_partial.
(** With a sample of the lines the reports may end early although all lines are short. *)
Theorem partition_progress_refuted : exists lines, bytes_of lines = 300 /\ Forall (fun e => fst e = 0) lines /\
  (80 <= length (filter snd lines))%nat /\ map snd (partition_reports 300 lines 0 0 0 1) = [].
Proof.
  exists (repeat (0, true) 2 ++ repeat (0, false) 6 ++ repeat (0, true) 100 ++ repeat (0, false) 192). split; [reflexivity|]. split; [|split; [vm_compute; lia|vm_compute; reflexivity]].
  repeat (apply Forall_app; split); apply Forall_forall; intros x I; apply repeat_spec in I; subst x; reflexivity.
Qed.
Print Assumptions partition_progress_refuted.
Example partition_progress_ex : bytes_of (repeat (1, true) 100) = 200 /\ Forall (fun e : Z * bool => 0 <= fst e /\ (fst e + 1) * 100 <= 200 /\ snd e = true) (repeat (1, true) 100).
Proof. split; [reflexivity|]. apply Forall_forall. intros x I. apply repeat_spec in I. subst x. cbn. lia. Qed.

(** ** Samples (C195) *)
(** How many of the numbers below N satisfy f. *)
Fixpoint how_many (f : Z -> bool) (N : nat) : Z := match N with O => 0 | S N => how_many f N + (if f (Z.of_nat N) then 1 else 0) end.
Lemma sample_count rate : 0 <= rate <= 100 -> forall N, how_many (fun r => get_rand_sample r rate) N = Z.of_nat N / 100 * rate + Z.min (Z.of_nat N mod 100) rate.
Proof.
  intros R. induction N as [|N IH]; [cbn; lia|]. cbn [how_many]. rewrite IH. unfold get_rand_sample. clear IH. set (n := Z.of_nat N). replace (Z.of_nat (S N)) with (n + 1) by lia.
  assert (P : 0 <= n) by lia. pose proof (Z.div_mod n 100 ltac:(lia)) as D1. pose proof (Z.mod_pos_bound n 100 ltac:(lia)) as B1.
  destruct (Z.eq_dec (n mod 100) 99) as [C|C].
  - replace ((n + 1) / 100) with (n / 100 + 1) by (apply (Z.div_unique _ _ _ 0); lia). replace ((n + 1) mod 100) with 0 by (apply (Z.mod_unique _ _ (n / 100 + 1)); lia).
    destruct (Z.ltb_spec (n mod 100) rate); nia.
  - replace ((n + 1) / 100) with (n / 100) by (apply (Z.div_unique _ _ _ (n mod 100 + 1)); lia). replace ((n + 1) mod 100) with (n mod 100 + 1) by (apply (Z.mod_unique _ _ (n / 100)); lia).
    destruct (Z.ltb_spec (n mod 100) rate); lia.
Qed.
(** Of the values of rand, the share taken is the rate to within 25 in two to the thirtyfirst. *)
Theorem sample_rate : forall rate, 0 <= rate <= 100 ->
  Z.abs (how_many (fun r => get_rand_sample r rate) (Z.to_nat (RAND_MAX + 1)) * 100 - rate * (RAND_MAX + 1)) <= 2500.
Proof.
  intros rate R. rewrite sample_count by exact R. rewrite Z2Nat.id by (vm_compute; discriminate).
  change ((RAND_MAX + 1) / 100) with 21474836. change ((RAND_MAX + 1) mod 100) with 48. change (RAND_MAX + 1) with 2147483648. lia.
Qed.
Print Assumptions sample_rate.
Theorem sample_ends : forall r rate, (100 <= rate -> get_rand_sample r rate = true) /\ (rate <= 0 -> get_rand_sample r rate = false).
Proof. intros r rate. unfold get_rand_sample. pose proof (Z.mod_pos_bound r 100 ltac:(lia)). split; intros; [apply Z.ltb_lt|apply Z.ltb_ge]; lia. Qed.
Print Assumptions sample_ends.
(** With a possibility of one the other form does not take everything. *)
Theorem sample_float_refuted : exists r, 0 <= r <= RAND_MAX /\ get_rand_sample_float r 1 = false /\ forall r', 0 <= r' < RAND_MAX -> get_rand_sample_float r' 1 = true.
Proof.
  exists RAND_MAX. split; [vm_compute; split; discriminate|]. split; [vm_compute; reflexivity|].
  intros r' H. unfold get_rand_sample_float. apply negb_true_iff. destruct (Qle_bool _ _) eqn:E; [|reflexivity]. apply Qle_bool_iff in E. unfold Qle in E. cbn [Qnum Qden] in E. change (Z.pos (Z.to_pos RAND_MAX)) with RAND_MAX in E. lia.
Qed.
Print Assumptions sample_float_refuted.
Example sample_ex : get_rand_sample 12345 50 = true /\ get_rand_sample 67899 50 = false /\ how_many (fun r => get_rand_sample r 30) 1000 = 300.
Proof. vm_compute. repeat split. Qed.
