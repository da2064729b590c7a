(** C103-C110: the generator of test data. *)
From Coq Require Import QArith Qround ZArith List Bool Lia Lqa Permutation.
From Verif Require Import Arr AabModel AabProofs TileModel TileProofs GenModel GenProofs PropTile.
Import ListNotations.
Open Scope Z_scope.

(** C103.  No two nuclei generated, in one vessel or in different ones, overlap: along some axis one
    lies entirely before the other; and each lies in the box of its vessel. *)
Theorem nuclei_apart : forall shrink protos loaded nb vb total num num' junk junk' vt rand rand' l l' rest rest' c c' i j k i' j' k' idx idx' P P',
  Forall2 (fun pts r => load_nucleus shrink pts = Some r) protos loaded -> nuclei_max (map snd loaded) = Some nb ->
  (forall a, 0 < nb a)%Q -> (forall a, 0 < vb a)%Q -> (forall a, 0 < nuclei_num nb vb a) -> total = total_slots (nuclei_num nb vb) ->
  Forall (fun r => 0 <= r) rand -> Forall (fun r => 0 <= r) rand' ->
  generate_nuclei num total junk vt rand = (Slots l rest, c) -> generate_nuclei num' total junk' vt rand' = (Slots l' rest', c') ->
  In idx l -> In idx' l' -> In P (map fst loaded) -> In P' (map fst loaded) -> (i, j, k, idx) <> (i', j', k', idx') ->
  let s := slot_shift nb (nuclei_num nb vb) (vessel_base vb i j k) idx in let s' := slot_shift nb (nuclei_num nb vb) (vessel_base vb i' j' k') idx' in
  NoDup l /\ (forall p a, In p P -> vessel_base vb i j k a <= p a + s a <= vessel_base vb i j k a + vb a)%Q /\
  exists a, (forall p p', In p P -> In p' P' -> (p a + s a <= p' a + s' a)%Q) \/ (forall p p', In p P -> In p' P' -> (p' a + s' a <= p a + s a)%Q).
Proof.
  intros shrink protos loaded nb vb total num num' junk junk' vt rand rand' l l' rest rest' c c' i j k i' j' k' idx idx' P P' F M Nn Nv Np -> R R' G G' I I' HP HP' NE s s'.
  injection G as G _. injection G' as G' _. destruct (gen_slots_spec _ _ _ _ _ _ _ R G) as (_ & ND & A). destruct (gen_slots_spec _ _ _ _ _ _ _ R' G') as (_ & _ & A').
  rewrite Forall_forall in A, A'. destruct (A idx I) as [B _]. destruct (A' idx' I') as [B' _].
  assert (Box : forall Q0, In Q0 (map fst loaded) -> forall p, In p Q0 -> forall a, (0 <= p a <= nb a)%Q).
  { intros Q0 HQ p Hp a. apply in_map_iff in HQ as [[pts size] [<- Hl]]. cbn [fst] in Hp.
    assert (E : exists pts0, load_nucleus shrink pts0 = Some (pts, size)).
    { clear - F Hl. induction F as [|x y lx ly E F IH]; [destruct Hl|]. destruct Hl as [->|Hl]; [now exists x|auto]. }
    destruct E as [pts0 E]. pose proof (load_nucleus_box shrink pts0 pts size E p Hp a) as L. pose proof (nuclei_max_ge _ _ M size (in_map snd _ _ Hl) a) as L'. lra. }
  split; [exact ND|]. split.
  - intros p a Hp. apply (slot_inside nb vb _ idx p); auto; try lia. intros b. now apply (Box P).
  - destruct (slots_apart nb vb i j k i' j' k' idx idx') as [a Sa]; auto; try lia. exists a. fold s s' in Sa.
    destruct (Qlt_le_dec (s a) (s' a)) as [L|L]; [left|right]; intros p p' Hp Hp';
      destruct (Sa p p' (fun b => Box P HP p Hp b) (fun b => Box P' HP' p' Hp' b)) as [[X Y]|[X Y]]; auto; lra.
Qed.
Print Assumptions nuclei_apart.
Definition proto1 : list vec := [v3 10 10 10; v3 30 10 10; v3 10 30 10; v3 10 10 50].
Definition proto2 : list vec := [v3 0 0 0; v3 40 0 0; v3 0 40 0; v3 0 0 20].
Definition nothing (i : Z) : bool := false.
Example nuclei_apart_sample : exists loaded nb, Forall2 (fun pts r => load_nucleus 20 pts = Some r) [proto1; proto2] loaded /\
  nuclei_max (map snd loaded) = Some nb /\ (forall a, nb a == 2)%Q /\ (forall a, nuclei_num nb (v3 10 10 10) a = 5) /\
  fst (generate_nuclei 4 125 nothing nothing [7; 7; 30; 124; 9]) = Beyond /\
  generate_nuclei 4 125 nothing nothing [7; 7; 30; 120; 9] = (Slots [8; 31; 121] [9], 4).
Proof.
  eexists. eexists. split; [repeat constructor|]. split; [reflexivity|].
  split; [intros []; vm_compute; reflexivity|]. split; [intros []; vm_compute; reflexivity|]. split; vm_compute; reflexivity.
Qed.

(** C104.  If no random number is one below a multiple of the number of slots, drawing slots never
    reads outside the arrays. *)
Theorem generator_in_bounds_partial : forall num total junk vt rand, 0 < total -> Forall (fun r => 0 <= r /\ Z.rem r total <> total - 1) rand ->
  fst (generate_nuclei num total junk vt rand) <> Beyond.
Proof.
  intros num total junk vt rand T. unfold generate_nuclei. cbn [fst]. generalize (Z.to_nat (num - 1)). intros k. revert junk rand.
  induction k as [|k IH]; intros junk rand F; cbn [gen_slots]; [discriminate|].
  assert (D : forall rand, Forall (fun r => 0 <= r /\ Z.rem r total <> total - 1) rand -> match draw total junk vt rand with Some (None, _) => False | Some (Some _, rest) => Forall (fun r => 0 <= r /\ Z.rem r total <> total - 1) rest | None => True end).
  { clear - T. induction rand as [|r rand IH]; intros F; cbn [draw]; [exact I|]. inversion F as [|? ? [R NR] F']; subst.
    unfold get_rand_number. destruct (Z.eqb_spec total 0); [lia|]. pose proof (Z.rem_bound_pos r total R T).
    destruct (Z.ltb_spec (Z.rem r total + 1) 0); [lia|]. destruct (Z.leb_spec total (Z.rem r total + 1)); [lia|]. cbn [orb].
    destruct (_ || _); [exact (IH F')|exact F']. }
  specialize (D rand F). destruct (draw total junk vt rand) as [[[idx|] rest]|]; [|destruct D|discriminate].
  specialize (IH (fun i => junk i || (i =? idx)) rest D). destruct (gen_slots k total _ vt rest); [discriminate|congruence|discriminate].
Qed.
Print Assumptions generator_in_bounds_partial.
Example generator_in_bounds_sample : Forall (fun r => 0 <= r /\ Z.rem r 125 <> 125 - 1) [7; 7; 30; 120; 9].
Proof. repeat constructor; vm_compute; discriminate. Qed.

(** C104 does not hold: any number of slots can be drawn beyond; marking the voxels of the vessel
    goes beyond the array; with a single prototype the draw divides by zero; a vessel that takes more
    than 200000 bytes does not fit the buffer. *)
Theorem generator_in_bounds_refuted :
  (forall total junk vt num rest, 0 < total -> 2 <= num -> generate_nuclei num total junk vt (total - 1 :: rest) = (Beyond, num)) /\
  (exists nb vb v i, (forall a, 0 < nb a)%Q /\ within v (Aab (fun _ => 0%Q) vb) /\ In i (voxel_slots (nuclei_num nb vb) v) /\ total_slots (nuclei_num nb vb) < i) /\
  (forall r, pick_prototype r 1 = None) /\
  (forall o, 200000 < Z.of_nat (length (fst o)) -> organize_all (vessel_buffer 1) [o] = None).
Proof.
  split; [|split; [|split]].
  - intros total junk vt num rest T N. unfold generate_nuclei. replace (Z.max 1 num) with num by lia. f_equal.
    replace (Z.to_nat (num - 1)) with (S (Z.to_nat (num - 2))) by lia. cbn [gen_slots draw]. unfold get_rand_number. destruct (Z.eqb_spec total 0); [lia|].
    rewrite Z.rem_small by lia. destruct (Z.ltb_spec (total - 1 + 1) 0); [lia|]. destruct (Z.leb_spec total (total - 1 + 1)); [reflexivity|lia].
  - exists (v3 50 50 50), (v3 100 100 100), (Aab (v3 90 90 90) (v3 91 91 91)), 315.
    split; [intros []; vm_compute; reflexivity|]. split; [intros []; split; vm_compute; discriminate|]. split; [vm_compute; auto|vm_compute; reflexivity].
  - intros r. reflexivity.
  - intros o H. unfold organize_all. cbn [fold_left bind]. unfold organize_data, vessel_buffer.
    destruct (Z.leb_spec (Z.of_nat (length (@nil Z) + length (record_bytes o))) (1 * 100000 * 2)) as [L|]; [|reflexivity]. exfalso.
    unfold record_bytes in L. rewrite !app_length in L. lia.
Qed.
Print Assumptions generator_in_bounds_refuted.

(** C105.  A run that ends has made one nucleus fewer than asked for ... *)
Theorem generated_number_partial : forall num total junk vt rand l rest c, Forall (fun r => 0 <= r) rand -> 1 <= num ->
  generate_nuclei num total junk vt rand = (Slots l rest, c) -> Z.of_nat (length l) = num - 1.
Proof.
  intros num total junk vt rand l rest c R N G. injection G as G _. destruct (gen_slots_spec _ _ _ _ _ _ _ R G) as (L & _). lia.
Qed.
Print Assumptions generated_number_partial.
Example generated_number_sample : generate_nuclei 4 125 nothing nothing [7; 7; 30; 120; 9] = (Slots [8; 31; 121] [9], 4) /\ Forall (fun r => 0 <= r) [7; 7; 30; 120; 9].
Proof. split; [vm_compute; reflexivity|repeat constructor; vm_compute; discriminate]. Qed.
(** ... and reports the number asked for. *)
Theorem generated_number_refuted : exists num total junk vt rand l rest c, Forall (fun r => 0 <= r) rand /\
  generate_nuclei num total junk vt rand = (Slots l rest, c) /\ Z.of_nat (length l) <> num /\ Z.of_nat (length l) <> c.
Proof.
  exists 4, 125, nothing, nothing, [7; 7; 30; 120; 9], [8; 31; 121], [9], 4. split; [apply generated_number_sample|]. split; [vm_compute; reflexivity|].
  split; vm_compute; discriminate.
Qed.
Print Assumptions generated_number_refuted.
(** When every slot counts as taken the search for a free one never ends. *)
Theorem generator_ends_refuted : forall num total junk vt rand, 2 <= num -> 0 < total -> (forall i, 0 <= i < total -> junk i = true \/ vt i = true) ->
  Forall (fun r => 0 <= r /\ Z.rem r total <> total - 1) rand -> fst (generate_nuclei num total junk vt rand) = Stuck.
Proof.
  intros num total junk vt rand N T A F. unfold generate_nuclei. cbn [fst]. replace (Z.to_nat (num - 1)) with (S (Z.to_nat (num - 2))) by lia. cbn [gen_slots].
  replace (draw total junk vt rand) with (@None (option Z * list Z)); [reflexivity|]. symmetry.
  induction F as [|r rand [R NR] F IH]; cbn [draw]; [reflexivity|].
  unfold get_rand_number. destruct (Z.eqb_spec total 0); [lia|]. pose proof (Z.rem_bound_pos r total R T).
  destruct (Z.ltb_spec (Z.rem r total + 1) 0); [lia|]. destruct (Z.leb_spec total (Z.rem r total + 1)); [lia|]. cbn [orb].
  destruct (A (Z.rem r total + 1)) as [->| ->]; [lia|exact IH|]. rewrite orb_true_r. exact IH.
Qed.
Print Assumptions generator_ends_refuted.
Example generator_ends_sample : fst (generate_nuclei 3 8 nothing (fun _ => true) [0; 1; 2; 3; 4; 5; 6]) = Stuck.
Proof. vm_compute. reflexivity. Qed.

(** C106 is false: a slot that a voxel of the vessel overlaps is not marked. *)
Theorem nuclei_clear_of_vessel_refuted : exists nb vb v idx, (forall a, 0 < nb a)%Q /\ within v (Aab (fun _ => 0%Q) vb) /\
  0 <= idx < total_slots (nuclei_num nb vb) /\ vessel_taken (nuclei_num nb vb) nothing [v] idx = false /\
  intersect v (Aab (slot_shift nb (nuclei_num nb vb) (fun _ => 0%Q) idx) (fun a => slot_shift nb (nuclei_num nb vb) (fun _ => 0%Q) idx a + nb a)%Q) = true.
Proof.
  exists (v3 1 1 1), (v3 10 10 10), (Aab (v3 0 0 0) (v3 10 10 10)), 555.
  split; [intros []; vm_compute; reflexivity|]. split; [intros []; split; vm_compute; discriminate|].
  split; [split; vm_compute; [discriminate|reflexivity]|]. split; vm_compute; reflexivity.
Qed.
Print Assumptions nuclei_clear_of_vessel_refuted.

(** C106, what holds.  Where a slot is as long as there are slots along each axis, which is when dividing by
    the number of slots is dividing by their size, every slot a nucleus is placed in is apart from every
    voxel of the vessel along some axis. *)
Lemma cut_floor q : (0 <= q)%Q -> cut q = Qfloor q.
Proof. destruct q as [n d]. unfold Qle, cut. cbn [Qnum Qden Qfloor]. intro H. apply Z.quot_div_nonneg; lia. Qed.
Lemma in_span lo hi k : In k (span lo hi) <-> lo <= k <= hi.
Proof.
  unfold span. rewrite in_map_iff. split.
  - intros (i & <- & I). apply in_seq in I. lia.
  - intros H. exists (Z.to_nat (k - lo)). split; [lia|]. apply in_seq. lia.
Qed.
Lemma cut_between lo hi n k : (0 < n)%Z -> (0 <= lo)%Q -> (lo <= hi)%Q -> (lo < inject_Z k * inject_Z n + inject_Z n)%Q -> (inject_Z k * inject_Z n <= hi)%Q ->
  cut (lo / inject_Z n) <= k <= cut (hi / inject_Z n).
Proof.
  intros N L LH A B. assert (NQ : (0 < inject_Z n)%Q) by (change 0%Q with (inject_Z 0); rewrite <- Zlt_Qlt; exact N).
  rewrite !cut_floor by (apply Qle_shift_div_l; [exact NQ|]; lra). split.
  - assert (H : (lo / inject_Z n < inject_Z (k + 1))%Q). { apply Qlt_shift_div_r; [exact NQ|]. rewrite inject_Z_plus. change (inject_Z 1) with 1%Q. lra. }
    pose proof (Qfloor_le (lo / inject_Z n)) as F. assert (X : (inject_Z (Qfloor (lo / inject_Z n)) < inject_Z (k + 1))%Q) by lra. rewrite <- Zlt_Qlt in X. lia.
  - assert (H : (inject_Z k <= hi / inject_Z n)%Q) by (apply Qle_shift_div_l; [exact NQ|exact B]).
    apply Qfloor_resp_le in H. rewrite Qfloor_Z in H. exact H.
Qed.
Lemma slot_number n idx : 0 < n AX -> 0 < n AY -> 0 <= idx -> idx = slot_z n idx * n AX * n AY + slot_y n idx * n AX + slot_x n idx.
Proof.
  intros X Y I. unfold slot_x, slot_y, slot_z. pose proof (Z.quot_rem' idx (n AX * n AY)) as E1. pose proof (Z.quot_rem' (Z.rem idx (n AX * n AY)) (n AX)) as E2. nia.
Qed.
Theorem nuclei_clear_of_vessel_partial : forall nb vb junk vjunk voxels num rand l rest c,
  let n := nuclei_num nb vb in
  (forall a, 0 < n a /\ (inject_Z (n a) == nb a)%Q) -> (forall v a, In v voxels -> 0 <= bmin v a /\ bmin v a <= bmax v a)%Q ->
  Forall (fun r => 0 <= r) rand ->
  generate_nuclei num (total_slots n) junk (vessel_taken n vjunk voxels) rand = (Slots l rest, c) ->
  forall idx v, In idx l -> In v voxels ->
    exists a, (slot_shift nb n (fun _ => 0) idx a + nb a <= bmin v a \/ bmax v a < slot_shift nb n (fun _ => 0) idx a)%Q.
Proof.
  intros nb vb junk vjunk voxels num rand l rest c n HN HV R G idx v Hi Hv. injection G as G _.
  destruct (gen_slots_spec _ _ _ _ _ _ _ R G) as (_ & _ & F). rewrite Forall_forall in F. destruct (F idx Hi) as (RG & _ & V). clear F G.
  unfold vessel_taken in V. apply orb_false_iff in V. destruct V as [_ V].
  set (k a := match a with AX => slot_x n idx | AY => slot_y n idx | AZ => slot_z n idx end).
  assert (D : forall a, (slot_shift nb n (fun _ => 0) idx a + nb a <= bmin v a \/ bmax v a < slot_shift nb n (fun _ => 0) idx a)%Q \/
    cut (bmin v a / inject_Z (n a)) <= k a <= cut (bmax v a / inject_Z (n a))).
  { intro a. destruct (HN a) as [N EQ]. destruct (HV v a Hv) as [L LH]. change (inject_Z (k a) * nb a + 0)%Q with (slot_shift nb n (fun _ => 0%Q) idx a).
    destruct (Qlt_le_dec (bmin v a) (slot_shift nb n (fun _ => 0%Q) idx a + nb a)) as [A|A]; [|left; left; exact A].
    destruct (Qlt_le_dec (bmax v a) (slot_shift nb n (fun _ => 0%Q) idx a)) as [B|B]; [left; right; exact B|]. right.
    assert (S : (slot_shift nb n (fun _ => 0%Q) idx a == inject_Z (k a) * inject_Z (n a))%Q) by (unfold slot_shift; fold (k a); rewrite EQ; ring).
    apply cut_between; [exact N|exact L|exact LH| |].
    - rewrite <- S, EQ. exact A.
    - rewrite <- S. exact B. }
  destruct (D AX) as [X|X]; [exists AX; exact X|]. destruct (D AY) as [Y|Y]; [exists AY; exact Y|]. destruct (D AZ) as [Z|Z]; [exists AZ; exact Z|]. exfalso.
  assert (I : In idx (voxel_slots n v)).
  { unfold voxel_slots. apply in_flat_map. exists (k AZ). split; [apply in_span; exact Z|]. apply in_flat_map. exists (k AY). split; [apply in_span; exact Y|].
    apply in_map_iff. exists (k AX). split; [|apply in_span; exact X]. symmetry. apply slot_number; [apply HN|apply HN|lia]. }
  assert (T : existsb (fun v => existsb (Z.eqb idx) (voxel_slots n v)) voxels = true).
  { apply existsb_exists. exists v. split; [exact Hv|]. apply existsb_exists. exists idx. split; [exact I|apply Z.eqb_refl]. }
  rewrite T in V. discriminate V.
Qed.
Print Assumptions nuclei_clear_of_vessel_partial.
Example nuclei_clear_of_vessel_applies : let nb := v3 3 3 3 in let vb := v3 10 10 10 in let v := Aab (v3 0 0 0) (v3 4 2 8) in
  (forall a, 0 < nuclei_num nb vb a /\ (inject_Z (nuclei_num nb vb a) == nb a)%Q) /\ (forall a, 0 <= bmin v a /\ bmin v a <= bmax v a)%Q /\
  generate_nuclei 4 27 nothing (vessel_taken (nuclei_num nb vb) nothing [v]) [0; 1; 2; 9; 13; 5; 21] = (Slots [2; 3; 14] [5; 21], 4).
Proof. split; [intros []; split; vm_compute; reflexivity|]. split; [intros []; split; vm_compute; discriminate|vm_compute; reflexivity]. Qed.

(** C107.  Whatever the threads do, no job gets lost or doubled: each is in the queue, in the hands of
    one thread or written; and with a single thread the queue is never popped when empty, and once it
    has ended all jobs are written. *)
Theorem jobs_once_partial : forall A (jobs : list A) threads sched,
  (let s := grun (gstart jobs threads) sched in
   Permutation jobs (g_queue s ++ flat_map (fun p => match p with Make j | Write j => [j] | _ => [] end) (g_workers s) ++ g_written s)) /\
  (let s := grun (gstart jobs 1) sched in
   g_bad s = false /\ (g_workers s = [Done] -> Permutation jobs (g_written s))).
Proof.
  intros A jobs threads sched.
  assert (K : forall t, Permutation jobs (everything (grun (gstart jobs t) sched))).
  { intros t. rewrite grun_keeps. unfold everything, gstart. cbn [g_queue g_workers g_written]. generalize (Nat.min t (length jobs)). intros n.
    replace (flat_map in_hand (repeat (@Test A) n)) with (@nil A); [now rewrite app_nil_r|]. induction n; [reflexivity|exact IHn]. }
  split; [exact (K threads)|]. cbn zeta. destruct jobs as [|j jobs].
  - assert (X : forall sched, grun (@gstart A [] 1) sched = GState [] [] [] false).
    { induction sched0 as [|i r IH]; [reflexivity|]. unfold grun. cbn [fold_left]. unfold gstart at 1, gstep at 1. cbn. destruct i; exact IH. }
    rewrite X. split; [reflexivity|]. intros E. discriminate E.
  - destruct (grun_alone sched (gstart (j :: jobs) 1)) as (B & p & W & H).
    { split; [reflexivity|]. exists Test. split; [|exact I]. unfold gstart. cbn [g_workers length]. destruct (length jobs); reflexivity. }
    split; [exact B|]. intros D. specialize (K 1%nat). unfold everything in K. rewrite D in *. injection W as <-. rewrite H in K. exact K.
Qed.
Print Assumptions jobs_once_partial.
(** The queue is popped and the file is written by one thread at a time: never do two threads hold the
    lock, and nothing is written while one does. *)
Lemma set_hold {A} (w : list (gpc A)) i p : nth_error w i = Some p -> forall q, (length (filter (fun p => match p with Hold => true | _ => false end) (set_worker w i q)) +
  (match p with Hold => 1 | _ => 0 end) = length (filter (fun p => match p with Hold => true | _ => false end) w) + (match q with Hold => 1 | _ => 0 end))%nat.
Proof.
  intros E q. destruct (set_worker_split w i p E) as (a & b & -> & S). rewrite S, !filter_app, !app_length. cbn [filter]. destruct p, q; cbn [length]; lia.
Qed.
Theorem one_thread_at_a_time : forall A (jobs : list A) threads sched, let s := grun (gstart jobs threads) sched in
  (forall i k, nth_error (g_workers s) i = Some Hold -> nth_error (g_workers s) k = Some Hold -> i = k) /\
  (forall i k, nth_error (g_workers s) i = Some Hold -> g_written (gstep s k) = g_written s).
Proof.
  intros A jobs threads sched s.
  assert (L : forall w : list (gpc A), locked w = false -> length (filter (fun p => match p with Hold => true | _ => false end) w) = 0%nat).
  { induction w as [|p w IH]; intro H; [reflexivity|]. unfold locked in H. cbn [existsb] in H. apply orb_false_iff in H. destruct H as [H1 H2]. cbn [filter]. rewrite H1. apply IH. exact H2. }
  assert (K : (length (filter (fun p => match p with Hold => true | _ => false end) (g_workers s)) <= 1)%nat).
  { subst s. unfold grun. rewrite <- fold_left_rev_right. induction (rev sched) as [|i r IH]; cbn [fold_right].
    - unfold gstart. cbn [g_workers]. induction (Nat.min threads (length jobs)); cbn; auto.
    - destruct (fold_right (fun (y : nat) (x : gstate A) => gstep x y) (gstart jobs threads) r) as [q w out bad]. cbn [g_workers] in IH. unfold gstep.
      destruct (nth_error w i) as [p|] eqn:E; [|exact IH]. pose proof (set_hold w i p E) as SH. destruct p; cbn [g_workers]; try exact IH.
      + specialize (SH (match q with [] => Done | _ => Want end)). destruct q; cbn in SH; lia.
      + destruct (locked w) eqn:B; [exact IH|]. cbn [g_workers]. specialize (SH Hold). cbn in SH. rewrite (L w B) in SH. lia.
      + destruct q as [|j q]; cbn [g_workers]; [specialize (SH Done)|specialize (SH (Make j))]; cbn in SH; lia.
      + specialize (SH (Write j)). cbn in SH. lia.
      + destruct (locked w) eqn:B; [exact IH|]. cbn [g_workers]. specialize (SH Test). cbn in SH. lia. }
  split.
  - intros i k. revert i k K. generalize (g_workers s). induction l as [|p l IH]; intros [|i] [|k] K Hi Hk; cbn [nth_error] in *; try discriminate Hi; try discriminate Hk; [reflexivity| | |].
    + injection Hi as ->. cbn [filter length] in K. exfalso. apply nth_error_In in Hk. assert (X : In Hold (filter (fun p : gpc A => match p with Hold => true | _ => false end) l)) by (apply filter_In; auto).
      destruct (filter _ l); [destruct X|cbn in K; lia].
    + injection Hk as ->. cbn [filter length] in K. exfalso. apply nth_error_In in Hi. assert (X : In Hold (filter (fun p : gpc A => match p with Hold => true | _ => false end) l)) by (apply filter_In; auto).
      destruct (filter _ l); [destruct X|cbn in K; lia].
    + f_equal. apply IH; auto. cbn [filter] in K. destruct p; cbn [length] in K; lia.
  - intros i k Hi. destruct s as [q w out bad]. cbn [g_workers g_written] in *. unfold gstep. destruct (nth_error w k) as [[]|]; try reflexivity.
    + destruct (locked w); reflexivity.
    + destruct q; reflexivity.
    + assert (B : locked w = true) by (unfold locked; apply existsb_exists; exists Hold; split; [eapply nth_error_In; exact Hi|reflexivity]). rewrite B. reflexivity.
Qed.
Print Assumptions one_thread_at_a_time.
Example one_thread_applies : g_workers (grun (gstart [1; 2; 3] 2) [0; 1; 0; 1; 1]%nat) = [Hold; Want].
Proof. vm_compute. reflexivity. Qed.
Example jobs_once_sample : grun (gstart [1; 2] 1) [0; 0; 0; 0; 0; 0; 0; 0; 0; 0; 0]%nat = GState [] [Done] [1; 2] false.
Proof. vm_compute. reflexivity. Qed.
(** With two threads both may find the last job and one pops an empty queue. *)
Theorem jobs_once_refuted : exists sched, g_bad (grun (gstart [1; 2] 2) sched) = true.
Proof. exists [0; 0; 0; 0; 0; 0; 1; 0; 0; 1; 1]%nat. vm_compute. reflexivity. Qed.
Print Assumptions jobs_once_refuted.

(** C108.  For any cube root found that is not too large, the vessels are at most as many as asked
    for, short of it by less than one layer, all in different places; and the nuclei asked for are
    shared out among them up to a remainder. *)
Theorem vessel_number_partial : forall x nv nu, 1 <= x -> x * x * x <= nv -> 0 <= nu ->
  exists z per, dims x nv = Some (x, x, z) /\ x <= z /\ x * x * z <= nv < x * x * z + x * x /\
  NoDup (vessel_jobs (x, x, z)) /\ Z.of_nat (length (vessel_jobs (x, x, z))) = x * x * z /\
  per_vessel nu nv (x, x, z) = Some per /\ nu <= per /\ per * (x * x * z) <= nu * nv < per * (x * x * z) + x * x * z.
Proof.
  intros x nv nu X C N. unfold dims. assert (X2 : 0 < x * x) by nia. destruct (Z.eqb_spec (x * x) 0); [lia|].
  rewrite Z.quot_div_nonneg by nia. set (z := nv / (x * x)).
  pose proof (Z.div_mod nv (x * x) ltac:(lia)) as D. pose proof (Z.mod_pos_bound nv (x * x) X2) as M. fold z in D.
  assert (Lz : x <= z) by (apply Z.div_le_lower_bound; nia).
  assert (P : 0 < x * x * z) by nia. exists z, (nu * nv / (x * x * z)). split; [reflexivity|]. split; [exact Lz|]. split; [lia|].
  destruct (vessel_jobs_spec x x z) as (ND & L & _). split; [exact ND|]. split; [rewrite L; nia|].
  unfold per_vessel. destruct (Z.eqb_spec (x * x * z) 0); [lia|]. rewrite Z.quot_div_nonneg by nia. split; [reflexivity|].
  pose proof (Z.div_mod (nu * nv) (x * x * z) ltac:(lia)) as D'. pose proof (Z.mod_pos_bound (nu * nv) (x * x * z) P) as M'.
  split; [apply Z.div_le_lower_bound; [exact P|nia]|lia].
Qed.
Print Assumptions vessel_number_partial.
Example vessel_number_sample : dims 3 30 = Some (3, 3, 3) /\ length (vessel_jobs (3, 3, 3)) = 27%nat /\ per_vessel 100 30 (3, 3, 3) = Some 111.
Proof. vm_compute. auto. Qed.
(** C108 does not hold in full: 30 vessels become 27, and none is a division by zero. *)
Theorem vessel_number_refuted : (exists x nv d, x * x * x <= nv < (x + 1) * (x + 1) * (x + 1) /\ dims x nv = Some d /\ Z.of_nat (length (vessel_jobs d)) <> nv) /\
  dims 0 0 = None.
Proof. split; [|reflexivity]. exists 3, 30, (3, 3, 3). split; [lia|]. split; [reflexivity|]. vm_compute. discriminate. Qed.
Print Assumptions vessel_number_refuted.

(** C109.  The file the threads write, whatever the order of the jobs, opens as a tile with exactly
    the objects generated: each with its own bytes and voxels. *)
Theorem generated_file_opens : forall junk capacity size (chunks : list (list (list Z * list vmeta))) bytes, memory junk ->
  Forall2 (fun c b => organize_all size c = Some b) chunks bytes -> Forall proper (concat chunks) -> Z.of_nat (length (concat bytes)) < 2 ^ 63 ->
  exists objs mt, open_tile junk capacity (concat bytes) None = Some (objs, mt) /\ length objs = length (concat chunks) /\
    forall k data vs, nth_error (concat chunks) k = Some (data, vs) -> exists w, nth_error objs k = Some w /\
      retrieve (concat bytes) w = Some data /\ w_voxels w = vs /\ w_id w = Z.of_nat k.
Proof.
  intros junk cap size chunks bytes J F P L.
  assert (E : concat bytes = flush (concat chunks)).
  { clear P L. induction F as [|c b cs bs H F IH]; [reflexivity|]. cbn [concat]. unfold flush in *. rewrite flat_map_app, <- IH. f_equal.
    destruct (organize_all_spec _ _ _ H) as [[H0 _]|H0]; [exact H0|]. subst c. injection H as <-. reflexivity. }
  rewrite E in *. now apply tile_data_located.
Qed.
Print Assumptions generated_file_opens.
Example generated_file_sample : exists b1 b2, Forall2 (fun c b => organize_all 1000 c = Some b) [[([1; 2; 3], [sample_voxel 1])]; [([4], []); ([5; 6], [sample_voxel 2])]] [b1; b2] /\
  length (b1 ++ b2) = 126%nat.
Proof. eexists. eexists. split; [repeat constructor|]. vm_compute. reflexivity. Qed.

(** C110.  The second nucleus is moved along each axis, by at least a hundredth of the size of a slot
    and at most as asked for. *)
Theorem second_nucleus_near : forall shift nb range r up, (0 < nb)%Q -> 0 < range -> 0 <= r ->
  exists s', second_shift shift nb range r up = Some s' /\
  (let d := if up then s' - shift else shift - s' in nb * (1 # 100) <= d /\ d <= nb * (inject_Z range * (1 # 100)))%Q.
Proof.
  intros shift nb range r up N R Rr. unfold second_shift. destruct (rand_range r range Rr R) as (k & -> & K1 & K2). cbn [bind]. eexists. split; [reflexivity|].
  cbn zeta. assert (L1 : (1 <= inject_Z k)%Q) by (apply (inj_le 1 k); lia). assert (L2 : (inject_Z k <= inject_Z range)%Q) by (apply inj_le; lia).
  assert (E : ((if up then shift + nb * (inject_Z k * 1) / 100 * (if up then 1 else -1) - shift else shift - (shift + nb * (inject_Z k * 1) / 100 * (if up then 1 else -1))) == nb * (inject_Z k * (1 # 100)))%Q) by (destruct up; field).
  rewrite E. rewrite !(Qmult_comm nb). split; (apply Qmult_le_compat_r; [|lra]).
  - setoid_replace (1 # 100)%Q with (1 * (1 # 100))%Q by ring. apply Qmult_le_compat_r; [exact L1|lra].
  - apply Qmult_le_compat_r; [exact L2|lra].
Qed.
Print Assumptions second_nucleus_near.
Example second_nucleus_sample : option_map Qred (second_shift 5 2 100 1233 false) = Some (108 # 25)%Q.
Proof. vm_compute. reflexivity. Qed.
