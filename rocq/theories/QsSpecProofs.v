(** The adaptive model seen through its interface. *)
From Coq Require Import List ZArith Lia.
From Verif Require Import Arr QsModel QsModelProofs RangeCoderSpec.
Import ListNotations.
Open Scope Z_scope.

Definition widths_of (n : Z) (m : qsmodel) : list Z :=
  map (fun i => nz (q_cf m) (Z.of_nat i + 1) - nz (q_cf m) (Z.of_nat i)) (seq 0 (Z.to_nat n)).

Lemma sum_app a b : sum (a ++ b) = sum a + sum b.
Proof. unfold sum. induction a as [|x a IH]; cbn [app fold_right]; [lia|]. rewrite IH. lia. Qed.

Lemma firstn_seq_ (k n : nat) : (k <= n)%nat -> firstn k (seq 0 n) = seq 0 k.
Proof.
  intro H. replace n with (k + (n - k))%nat by lia. rewrite seq_app, firstn_app, seq_length.
  replace (k - k)%nat with O by lia. rewrite firstn_O, app_nil_r. apply firstn_all2. rewrite seq_length. lia.
Qed.

Lemma before_widths n m (k : nat) : nz (q_cf m) 0 = 0 -> Z.of_nat k <= n -> before k (widths_of n m) = nz (q_cf m) (Z.of_nat k).
Proof.
  intros H0 Hk. unfold before, widths_of. rewrite firstn_map, firstn_seq_ by lia. clear Hk.
  induction k as [|k IH].
  - cbn. auto.
  - rewrite seq_S, map_app, sum_app, IH. cbn [map sum fold_right]. cbn [Nat.add].
    replace (Z.of_nat (S k)) with (Z.of_nat k + 1) by lia. unfold sum. cbn [fold_right]. lia.
Qed.

Lemma nth_widths n m s : 0 <= s < n -> nth (Z.to_nat s) (widths_of n m) 0 = nz (q_cf m) (s + 1) - nz (q_cf m) s.
Proof.
  intro H. unfold widths_of.
  set (f := fun i => nz (q_cf m) (Z.of_nat i + 1) - nz (q_cf m) (Z.of_nat i)).
  rewrite (nth_indep _ 0 (f 0%nat)) by (rewrite map_length, seq_length; lia).
  rewrite map_nth, seq_nth by lia. cbn [Nat.add]. unfold f. rewrite Z2Nat.id by lia. reflexivity.
Qed.

(** Initial counts as the caller sees them. *)
Definition good_counts (n lg : Z) (init : option (list Z)) : Prop :=
  match init with
  | None => True
  | Some l => Z.of_nat (length l) = n /\ Forall (fun c => 1 <= c) l /\ sum l = 2 ^ lg
  end.

Lemma sumr_sum l : forall i, sumr (repeat 0 i ++ l) (Z.of_nat i) (length l) = sum l.
Proof.
  induction l as [|x l IH]; intro i; cbn [sumr length]; [reflexivity|].
  unfold sum. cbn [fold_right]. f_equal.
  - rewrite nz_nth, app_nth2; rewrite repeat_length; [|lia]. now rewrite Nat.sub_diag.
  - replace (Z.of_nat i + 1) with (Z.of_nat (S i)) by lia. change (fold_right Z.add 0 l) with (sum l).
    rewrite <- (IH (S i)). apply sumr_ext. intros j Hj. unfold nz.
    rewrite !app_nth2; rewrite ?repeat_length; try lia.
    replace (Z.to_nat j - i)%nat with (S (Z.to_nat j - S i)) by lia. reflexivity.
Qed.

Lemma good_init n lg init : good_counts n lg init -> init_ok n lg init.
Proof.
  destruct init as [l|]; cbn [good_counts init_ok]; [|auto]. intros (Hl & Hp & Hs). split; [lia|]. split.
  - intros i Hi. rewrite Forall_forall in Hp. apply Hp. unfold nz. apply nth_In. lia.
  - rewrite <- Hs. replace (Z.to_nat n) with (length l) by lia. apply (sumr_sum l 0).
Qed.

Lemma reachable_inv junk n lg rescale init compress hist :
  1 <= n <= 2 ^ lg -> good_counts n lg init -> Forall (fun s => 0 <= s < n) hist ->
  exists m0 m, initqsmodel junk n lg rescale init compress = Some m0 /\ qsupdates m0 hist = Some m
    /\ qinv n lg m /\ (q_search m = None <-> compress = true).
Proof.
  intros Hn Hg Hh. destruct (init_inv junk n lg rescale init compress Hn (good_init _ _ _ Hg)) as (m0 & E & I & S & _).
  destruct (qsupdates_inv n lg hist m0 ltac:(lia) I Hh) as (m & E' & I' & S').
  exists m0, m. rewrite S'. auto.
Qed.

Lemma partition_proof junk n lg rescale init compress hist :
  1 <= n <= 2 ^ lg -> good_counts n lg init -> Forall (fun s => 0 <= s < n) hist ->
  exists m0 m ws,
    initqsmodel junk n lg rescale init compress = Some m0 /\ qsupdates m0 hist = Some m /\
    Z.of_nat (length ws) = n /\ Forall (fun w => 1 <= w) ws /\ sum ws = 2 ^ lg /\
    forall s, 0 <= s < n ->
      qsgetfreq m s = Some (nth (Z.to_nat s) ws 0, before (Z.to_nat s) ws).
Proof.
  intros Hn Hg Hh. destruct (reachable_inv junk n lg rescale init compress hist Hn Hg Hh) as (m0 & m & E & E' & I & _).
  exists m0, m, (widths_of n m). split; [auto|]. split; [auto|].
  assert (HL : Z.of_nat (length (widths_of n m)) = n) by (unfold widths_of; rewrite map_length, seq_length; lia).
  split; [auto|]. split; [|split].
  - unfold widths_of. rewrite Forall_map, Forall_forall. intros i Hi. apply in_seq in Hi.
    pose proof (qi_inc _ _ _ I (Z.of_nat i) ltac:(lia)). lia.
  - pose proof (before_widths n m (Z.to_nat n) (qi_0 _ _ _ I) ltac:(lia)) as B.
    rewrite Z2Nat.id in B by lia. rewrite (qi_tot _ _ _ I) in B. unfold before in B.
    rewrite firstn_all2 in B by lia. exact B.
  - intros s Hs. rewrite (qsgetfreq_spec n lg m s I Hs). rewrite nth_widths by lia.
    rewrite before_widths; [|apply I|lia]. rewrite Z2Nat.id by lia. reflexivity.
Qed.

Lemma lookup_proof junk n lg rescale init hist :
  1 <= n <= 2 ^ lg -> 7 <= lg -> good_counts n lg init -> Forall (fun s => 0 <= s < n) hist ->
  exists m0 m,
    initqsmodel junk n lg rescale init false = Some m0 /\ qsupdates m0 hist = Some m /\
    forall lt, 0 <= lt < 2 ^ lg ->
    exists s, qsgetsym m lt = Some s /\ 0 <= s < n /\
      (exists sy l, qsgetfreq m s = Some (sy, l) /\ l <= lt < l + sy) /\
      forall s' sy l, 0 <= s' < n -> qsgetfreq m s' = Some (sy, l) -> l <= lt < l + sy -> s' = s.
Proof.
  intros Hn Hlg Hg Hh. destruct (reachable_inv junk n lg rescale init false hist Hn Hg Hh) as (m0 & m & E & E' & I & S).
  exists m0, m. split; [auto|]. split; [auto|]. intros lt Hlt.
  destruct (qsgetsym_spec n lg m lt ltac:(lia) Hlg I) as (s & Es & Hs & Hb); auto.
  { intro X. apply S in X. discriminate. }
  exists s. split; [auto|]. split; [auto|]. split.
  - rewrite (qsgetfreq_spec n lg m s I Hs). do 2 eexists. split; [reflexivity|]. lia.
  - intros s' sy l Hs' Ef Hl. rewrite (qsgetfreq_spec n lg m s' I Hs') in Ef. injection Ef as <- <-.
    apply (slice_unique n (q_cf m) s' s lt); auto; try lia. apply I.
Qed.

(** Pending counts never overflow the total. *)
Lemma sumr_ge_one l k : forall i j, (forall q, i <= q < i + Z.of_nat k -> 1 <= nz l q) -> i <= j < i + Z.of_nat k -> nz l j <= sumr l i k.
Proof.
  induction k as [|k IH]; intros i j H Hj; [lia|]. cbn [sumr].
  destruct (Z.eq_dec i j) as [->|Ne].
  - pose proof (sumr_pos l k (j + 1) ltac:(intros; apply H; lia)). lia.
  - pose proof (IH (i + 1) j ltac:(intros; apply H; lia) ltac:(lia)). pose proof (H i ltac:(lia)). lia.
Qed.

Lemma bounds_proof junk n lg rescale init compress hist :
  1 <= n <= 2 ^ lg -> good_counts n lg init -> Forall (fun s => 0 <= s < n) hist ->
  exists m0 m, initqsmodel junk n lg rescale init compress = Some m0 /\ qsupdates m0 hist = Some m /\
    (forall i, 0 <= i < n -> 1 <= nth (Z.to_nat i) (q_newf m) 0 <= 2 ^ lg) /\
    (forall i, 0 <= i <= n -> 0 <= nth (Z.to_nat i) (q_cf m) 0 <= 2 ^ lg).
Proof.
  intros Hn Hg Hh. destruct (reachable_inv junk n lg rescale init compress hist Hn Hg Hh) as (m0 & m & E & E' & I & _).
  exists m0, m. split; [auto|]. split; [auto|]. split.
  - intros i Hi. split; [apply I; auto|]. fold (nz (q_newf m) i).
    pose proof (sumr_ge_one (q_newf m) (Z.to_nat n) 0 i ltac:(intros; apply I; lia) ltac:(lia)).
    pose proof (qi_sum _ _ _ I). pose proof (qi_left _ _ _ I). pose proof (qi_next _ _ _ I). pose proof (qi_incr _ _ _ I). nia.
  - intros i Hi. fold (nz (q_cf m) i). rewrite <- (qi_tot _ _ _ I). rewrite <- (qi_0 _ _ _ I).
    split; apply (inc_le _ _ (qi_inc _ _ _ I)); lia.
Qed.
