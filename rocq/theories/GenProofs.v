(** Lemmas about GenModel.v. *)
From Coq Require Import QArith Qround ZArith List Bool Lia Lqa Permutation.
From Verif Require Import Arr AabModel AabProofs TileModel GenModel.
Import ListNotations.
Open Scope Z_scope.

Lemma rand_range r m : 0 <= r -> 0 < m -> exists k, get_rand_number r m = Some k /\ 1 <= k <= m.
Proof.
  intros R M. unfold get_rand_number. destruct (Z.eqb_spec m 0); [lia|]. eexists. split; [reflexivity|].
  pose proof (Z.rem_bound_pos r m R M). lia.
Qed.

(** * Slots *)
Definition positive (n : axis -> Z) : Prop := forall a, 0 < n a.
Definition slot (n : axis -> Z) (idx : Z) (a : axis) : Z := match a with AX => slot_x n idx | AY => slot_y n idx | AZ => slot_z n idx end.

Lemma slot_spec n idx : positive n -> 0 <= idx < total_slots n ->
  (forall a, 0 <= slot n idx a < n a) /\ idx = slot n idx AZ * (n AX * n AY) + slot n idx AY * n AX + slot n idx AX.
Proof.
  intros P [I1 I2]. pose proof (P AX) as PX. pose proof (P AY) as PY. pose proof (P AZ) as PZ. unfold total_slots in I2.
  set (nx := n AX) in *. set (ny := n AY) in *. set (nz := n AZ) in *. assert (XY : 0 < nx * ny) by nia.
  pose proof (Z.mod_pos_bound idx (nx * ny) XY) as B. set (m := idx mod (nx * ny)) in *.
  assert (EX : slot_x n idx = m mod nx). { unfold slot_x. fold nx ny. rewrite (Z.rem_mod_nonneg idx (nx * ny)) by lia. fold m. rewrite Z.rem_mod_nonneg by lia. reflexivity. }
  assert (EY : slot_y n idx = m / nx). { unfold slot_y. fold nx ny. rewrite (Z.rem_mod_nonneg idx (nx * ny)) by lia. fold m. rewrite Z.quot_div_nonneg by lia. reflexivity. }
  assert (EZ : slot_z n idx = idx / (nx * ny)). { unfold slot_z. fold nx ny. rewrite Z.quot_div_nonneg by lia. reflexivity. }
  pose proof (Z.div_mod idx (nx * ny)) as D. pose proof (Z.div_mod m nx) as D2. fold m in D.
  pose proof (Z.mod_pos_bound m nx PX) as B2.
  assert (Q1 : 0 <= idx / (nx * ny) < nz). { split; [apply Z.div_pos; lia|apply Z.div_lt_upper_bound; lia]. }
  assert (Q2 : 0 <= m / nx < ny). { split; [apply Z.div_pos; lia|apply Z.div_lt_upper_bound; lia]. }
  assert (X1 : idx = nx * ny * (idx / (nx * ny)) + m) by (apply D; lia). assert (X2 : m = nx * (m / nx) + m mod nx) by (apply D2; lia).
  split; [intros []; cbn [slot]; rewrite ?EX, ?EY, ?EZ; assumption|]. cbn [slot]. rewrite EX, EY, EZ. lia.
Qed.

Lemma slot_inj n i j : positive n -> 0 <= i < total_slots n -> 0 <= j < total_slots n -> i <> j -> exists a, slot n i a <> slot n j a.
Proof.
  intros P I J NE. destruct (slot_spec n i P I) as [_ Ei]. destruct (slot_spec n j P J) as [_ Ej].
  destruct (Z.eq_dec (slot n i AX) (slot n j AX)) as [X|X]; [|exists AX; exact X].
  destruct (Z.eq_dec (slot n i AY) (slot n j AY)) as [Y|Y]; [|exists AY; exact Y].
  destruct (Z.eq_dec (slot n i AZ) (slot n j AZ)) as [Z0|Z0]; [|exists AZ; exact Z0].
  exfalso. apply NE. rewrite Ei, Ej, X, Y, Z0. reflexivity.
Qed.

Open Scope Q_scope.
Definition positive_vec (v : vec) : Prop := forall a, 0 < v a.
Lemma num_fits nb vb a : positive_vec nb -> inject_Z (nuclei_num nb vb a) * nb a <= vb a.
Proof.
  intros P. unfold nuclei_num. pose proof (Qfloor_le (vb a / nb a)) as F. specialize (P a).
  apply (Qmult_le_r _ _ _ P) in F. rewrite (Qmult_comm (vb a / nb a)), Qmult_div_r in F by lra. exact F.
Qed.

Lemma mult_le (x y z : Q) : 0 <= z -> x <= y -> x * z <= y * z.
Proof. intros. now apply Qmult_le_compat_r. Qed.
Lemma inj_le x y : (x <= y)%Z -> inject_Z x <= inject_Z y.
Proof. intros H. rewrite <- Zle_Qle. exact H. Qed.

(** A nucleus stays inside the box of its vessel. *)
Lemma slot_inside nb vb base idx p : positive_vec nb -> positive (nuclei_num nb vb) -> (0 <= idx < total_slots (nuclei_num nb vb))%Z ->
  (forall a, 0 <= p a <= nb a) -> forall a, base a <= p a + slot_shift nb (nuclei_num nb vb) base idx a <= base a + vb a.
Proof.
  intros Pn Pp I P a. destruct (slot_spec _ _ Pp I) as [B _]. specialize (B a). specialize (P a). pose proof (num_fits nb vb a Pn) as F. pose proof (Pn a) as Pa.
  assert (E : slot_shift nb (nuclei_num nb vb) base idx a == inject_Z (slot (nuclei_num nb vb) idx a) * nb a + base a) by (unfold slot_shift; destruct a; reflexivity).
  rewrite E. set (s := slot (nuclei_num nb vb) idx a) in *. assert (L1 : 0 <= inject_Z s * nb a).
  { setoid_replace 0 with (inject_Z 0 * nb a) by ring. apply mult_le; [lra|]. apply inj_le. lia. }
  assert (L2 : inject_Z (s + 1) * nb a <= inject_Z (nuclei_num nb vb a) * nb a) by (apply mult_le; [lra|apply inj_le; lia]).
  rewrite inject_Z_plus in L2. change (inject_Z 1) with 1 in L2. lra.
Qed.

(** Two different slots of one vessel, or any of two vessels, are apart along some axis. *)
Lemma slots_apart nb vb i j k i' j' k' idx idx' : positive_vec nb -> positive_vec vb -> positive (nuclei_num nb vb) ->
  (0 <= idx < total_slots (nuclei_num nb vb))%Z -> (0 <= idx' < total_slots (nuclei_num nb vb))%Z -> (i, j, k, idx) <> (i', j', k', idx') ->
  let s := slot_shift nb (nuclei_num nb vb) (vessel_base vb i j k) idx in let s' := slot_shift nb (nuclei_num nb vb) (vessel_base vb i' j' k') idx' in
  exists a, forall p p', (forall a, 0 <= p a <= nb a) -> (forall a, 0 <= p' a <= nb a) ->
    (s a < s' a /\ p a + s a <= p' a + s' a) \/ (s' a < s a /\ p' a + s' a <= p a + s a).
Proof.
  intros Pn Pv Pp I I' NE s s'. set (n := nuclei_num nb vb) in *.
  assert (K : (exists a, (match a with AX => i | AY => j | AZ => k end) <> (match a with AX => i' | AY => j' | AZ => k' end)) \/ (i = i' /\ j = j' /\ k = k' /\ idx <> idx')).
  { destruct (Z.eq_dec i i'); [|left; now exists AX]. destruct (Z.eq_dec j j'); [|left; now exists AY]. destruct (Z.eq_dec k k'); [|left; now exists AZ].
    right. repeat split; auto. intro. subst. now apply NE. }
  assert (S0 : forall c idx a, slot_shift nb n c idx a == inject_Z (slot n idx a) * nb a + c a) by (intros c x []; reflexivity).
  destruct K as [[a D]|(-> & -> & -> & D)].
  - exists a. intros p p' Hp Hp'. set (c := match a with AX => i | AY => j | AZ => k end) in *. set (c' := match a with AX => i' | AY => j' | AZ => k' end) in *.
    assert (Eb : vessel_base vb i j k a == inject_Z c * vb a) by reflexivity. assert (Eb' : vessel_base vb i' j' k' a == inject_Z c' * vb a) by reflexivity.
    pose proof (slot_inside nb vb (vessel_base vb i j k) idx p Pn Pp I Hp a) as L. pose proof (slot_inside nb vb (vessel_base vb i' j' k') idx' p' Pn Pp I' Hp' a) as L'.
    pose proof (slot_inside nb vb (vessel_base vb i j k) idx (fun _ => 0) Pn Pp I) as O. specialize (O (fun a => conj (Qle_refl 0) (Qlt_le_weak _ _ (Pn a))) a).
    pose proof (slot_inside nb vb (vessel_base vb i' j' k') idx' (fun _ => 0) Pn Pp I') as O'. specialize (O' (fun a => conj (Qle_refl 0) (Qlt_le_weak _ _ (Pn a))) a).
    pose proof (slot_inside nb vb (vessel_base vb i j k) idx nb Pn Pp I) as T. specialize (T (fun a => conj (Qlt_le_weak _ _ (Pn a)) (Qle_refl _)) a).
    pose proof (slot_inside nb vb (vessel_base vb i' j' k') idx' nb Pn Pp I') as T'. specialize (T' (fun a => conj (Qlt_le_weak _ _ (Pn a)) (Qle_refl _)) a).
    fold n in L, O, T, L', O', T'. fold s in L, O, T. fold s' in L', O', T'. rewrite Eb in *. rewrite Eb' in *. specialize (Pn a). specialize (Pv a).
    assert (V : forall x y, (x < y)%Z -> inject_Z x * vb a + vb a <= inject_Z y * vb a).
    { intros x y H. setoid_replace (inject_Z x * vb a + vb a) with (inject_Z (x + 1) * vb a) by (rewrite inject_Z_plus; change (inject_Z 1) with 1; ring). apply mult_le; [lra|apply inj_le; lia]. }
    destruct (Z.lt_ge_cases c c') as [C|C]; [left|right].
    + pose proof (V c c' C). split; lra.
    + assert (C' : (c' < c)%Z) by lia. pose proof (V c' c C'). split; lra.
  - destruct (slot_inj n idx idx' Pp I I' D) as [a Da]. exists a. intros p p' Hp Hp'. specialize (Hp a). specialize (Hp' a). unfold s, s'. rewrite !S0.
    set (x := slot n idx a) in *. set (y := slot n idx' a) in *. specialize (Pn a).
    assert (V : forall x y, (x < y)%Z -> inject_Z x * nb a + nb a <= inject_Z y * nb a).
    { intros u v H. setoid_replace (inject_Z u * nb a + nb a) with (inject_Z (u + 1) * nb a) by (rewrite inject_Z_plus; change (inject_Z 1) with 1; ring). apply mult_le; [lra|apply inj_le; lia]. }
    destruct (Z.lt_ge_cases x y) as [C|C]; [left|right].
    + pose proof (V x y C). split; lra.
    + assert (C' : (y < x)%Z) by lia. pose proof (V y x C'). split; lra.
Qed.

(** * Prototypes *)
Lemma fold_points pts : forall b, fold_left acc_point pts b = fold_left acc (map IPoint pts) b.
Proof. induction pts as [|p r IH]; intros b; cbn [fold_left map]; [reflexivity|]. apply IH. Qed.
Lemma load_nucleus_box shrink pts pts' size : load_nucleus shrink pts = Some (pts', size) ->
  forall p, In p pts' -> forall a, 0 <= p a <= size a.
Proof.
  unfold load_nucleus, points_box. intros H p Hp a.
  destruct (fold_left acc_point (shrunk shrink pts) None) as [b|] eqn:E; cbn [bind] in H; [|discriminate H]. injection H as <- <-.
  assert (NE : map IPoint (shrunk shrink pts) <> []). { intro X. rewrite fold_points, X in E. discriminate E. }
  destruct (accumulate_least _ NE) as (b' & E' & C & _). rewrite <- fold_points, E in E'. injection E' as <-.
  unfold to_origin in Hp. apply in_map_iff in Hp as [q [<- Hq]]. rewrite Forall_forall in C. specialize (C (IPoint q) (in_map _ _ _ Hq)).
  cbn in C. specialize (C a). lra.
Qed.
Lemma nuclei_max_ge sizes m : nuclei_max sizes = Some m -> forall s, In s sizes -> forall a, s a <= m a.
Proof.
  unfold nuclei_max. intros H s Hs a.
  assert (G : forall l acc m, fold_left (fun m s => Some (fun a => match m with None => s a | Some m => if Qltb (m a) (s a) then s a else m a end)) l acc = Some m ->
    (forall m0 : vec, acc = Some m0 -> m0 a <= m a) /\ forall s : vec, In s l -> s a <= m a).
  { clear. induction l as [|x r IH]; intros acc m H; cbn [fold_left] in H.
    - subst acc. split; [intros m0 E; injection E as <-; lra|intros s []].
    - destruct (IH _ _ H) as [A B]. specialize (A _ eq_refl). cbn beta in A. split.
      + intros m0 ->. destruct (Qltb_spec (m0 a) (x a)); lra.
      + intros s [<-|Hs]; [|auto]. destruct acc as [m0|]; [destruct (Qltb_spec (m0 a) (x a)); lra|lra]. }
  apply (G sizes None m H). exact Hs.
Qed.

(** * Drawing slots *)
Open Scope Z_scope.
Lemma draw_spec total taken vtaken rand : forall idx rest, draw total taken vtaken rand = Some (Some idx, rest) ->
  0 <= idx < total /\ taken idx = false /\ vtaken idx = false /\ exists pre r, rand = pre ++ r :: rest /\ get_rand_number r total = Some idx.
Proof.
  induction rand as [|r rand IH]; intros idx rest H; cbn [draw] in H; [discriminate H|].
  destruct (get_rand_number r total) as [i|] eqn:G; [|discriminate H].
  destruct (Z.ltb_spec i 0); cbn [orb] in H; [discriminate H|]. destruct (Z.leb_spec total i); [discriminate H|].
  destruct (taken i || vtaken i) eqn:T.
  - destruct (IH _ _ H) as (A & B & C & pre & r' & E & F). split; [exact A|]. split; [exact B|]. split; [exact C|]. exists (r :: pre), r'. cbn. now rewrite E.
  - injection H as <- <-. apply orb_false_iff in T as [T1 T2]. split; [lia|]. split; [exact T1|]. split; [exact T2|]. now exists [], r.
Qed.
Lemma gen_slots_spec k total : forall taken vtaken rand l rest, Forall (fun r => 0 <= r) rand -> gen_slots k total taken vtaken rand = Slots l rest ->
  length l = k /\ NoDup l /\ Forall (fun i => 1 <= i < total /\ taken i = false /\ vtaken i = false) l.
Proof.
  induction k as [|k IH]; intros taken vtaken rand l rest F H; cbn [gen_slots] in H; [injection H as <- <-; repeat constructor|].
  destruct (draw total taken vtaken rand) as [[[idx|] rest0]|] eqn:D; try discriminate H.
  destruct (draw_spec _ _ _ _ _ _ D) as (R & T & V & pre & r & Er & Eg).
  destruct (gen_slots k total _ vtaken rest0) as [l' rest'| |] eqn:G; try discriminate H. injection H as <- <-.
  assert (F0 : Forall (fun r => 0 <= r) rest0 /\ 0 <= r). { rewrite Er in F. apply Forall_app in F as [_ F]. inversion F; subst. auto. }
  destruct F0 as [F0 R0]. destruct (IH _ _ _ _ _ F0 G) as (L & N & A).
  destruct (rand_range r total R0) as [i [Ei Bi]]; [lia|]. rewrite Eg in Ei. injection Ei as <-.
  split; [cbn; lia|]. split.
  - constructor; [|exact N]. intro X. rewrite Forall_forall in A. destruct (A idx X) as (_ & A2 & _). rewrite Z.eqb_refl, orb_true_r in A2. discriminate A2.
  - constructor; [repeat split; auto; lia|]. eapply Forall_impl; [|exact A]. cbn. intros i (B1 & B2 & B3). apply orb_false_iff in B2. tauto.
Qed.

(** * The vessels *)
Lemma upto_in n x : In x (upto n) <-> 0 <= x < n.
Proof.
  unfold upto. rewrite in_map_iff. split.
  - intros [k [<- H]]. apply in_seq in H. lia.
  - intros H. exists (Z.to_nat x). split; [lia|]. apply in_seq. lia.
Qed.
Lemma upto_length n : length (upto n) = Z.to_nat n.
Proof. unfold upto. now rewrite map_length, seq_length. Qed.
Lemma upto_nodup n : NoDup (upto n).
Proof. unfold upto. apply FinFun.Injective_map_NoDup; [intros a b; lia|apply seq_NoDup]. Qed.
Lemma flat_map_length_const {A B} (f : A -> list B) l n : (forall x, In x l -> length (f x) = n) -> length (flat_map f l) = (length l * n)%nat.
Proof. induction l as [|x r IH]; intros H; cbn [flat_map]; [reflexivity|]. rewrite app_length, H, IH; [cbn; lia|intros; apply H; now right|now left]. Qed.
Lemma nodup_app {A} (l l' : list A) : NoDup l -> NoDup l' -> (forall x, In x l -> ~ In x l') -> NoDup (l ++ l').
Proof.
  induction 1 as [|x r NI N IH]; intros N' D; cbn [app]; [exact N'|]. constructor.
  - intros H. apply in_app_or in H as [H|H]; [contradiction|]. exact (D x (or_introl eq_refl) H).
  - apply IH; [exact N'|]. intros y Hy. apply D. now right.
Qed.
Lemma flat_map_nodup {A B} (f : A -> list B) (g : B -> A) l : NoDup l -> (forall x, In x l -> NoDup (f x)) -> (forall x y, In y (f x) -> g y = x) -> NoDup (flat_map f l).
Proof.
  induction 1 as [|x r NI N IH]; intros F G; cbn [flat_map]; [constructor|]. apply nodup_app.
  - apply F. now left.
  - apply IH; auto. intros; apply F; now right.
  - intros y Hy H. apply in_flat_map in H as [z [Hz Hy']]. apply G in Hy. apply G in Hy'. congruence.
Qed.
Lemma vessel_jobs_spec x y z : NoDup (vessel_jobs (x, y, z)) /\ length (vessel_jobs (x, y, z)) = (Z.to_nat x * (Z.to_nat y * Z.to_nat z))%nat /\
  forall i j k, In (i, j, k) (vessel_jobs (x, y, z)) <-> 0 <= i < x /\ 0 <= j < y /\ 0 <= k < z.
Proof.
  unfold vessel_jobs. split; [|split].
  - apply flat_map_nodup with (g := fun t => fst (fst t)); [apply upto_nodup| |].
    + intros i _. apply flat_map_nodup with (g := fun t => snd (fst t)); [apply upto_nodup| |].
      * intros j _. apply FinFun.Injective_map_NoDup; [intros a b E; congruence|apply upto_nodup].
      * intros j t H. apply in_map_iff in H as [k [<- _]]. reflexivity.
    + intros i t H. apply in_flat_map in H as [j [_ H]]. apply in_map_iff in H as [k [<- _]]. reflexivity.
  - rewrite (flat_map_length_const _ _ (Z.to_nat y * Z.to_nat z)%nat); [now rewrite upto_length|]. intros i _.
    rewrite (flat_map_length_const _ _ (Z.to_nat z)); [now rewrite upto_length|]. intros j _. now rewrite map_length, upto_length.
  - intros i j k. rewrite in_flat_map. split.
    + intros [i' [Hi H]]. apply in_flat_map in H as [j' [Hj H]]. apply in_map_iff in H as [k' [E Hk]]. injection E as -> -> ->. rewrite upto_in in *. auto.
    + intros (Hi & Hj & Hk). exists i. split; [now apply upto_in|]. apply in_flat_map. exists j. split; [now apply upto_in|]. apply in_map_iff. exists k. split; [reflexivity|now apply upto_in].
Qed.

(** * Records *)
Lemma organize_all_spec size l d : organize_all size l = Some d -> d = flush l /\ Z.of_nat (length d) <= size \/ l = [].
Proof.
  unfold organize_all.
  assert (G : forall l acc d, fold_left (fun d o => do d <- d; organize_data size o d) l acc = Some d ->
    exists a, acc = Some a /\ d = a ++ flush l /\ (l <> [] -> Z.of_nat (length d) <= size)).
  { clear. induction l as [|o r IH]; intros acc d H; cbn [fold_left] in H.
    - exists d. split; [exact H|]. split; [now rewrite app_nil_r|congruence].
    - destruct (IH _ _ H) as (a & Ea & Ed & L). destruct acc as [b|]; cbn [bind] in Ea; [|discriminate Ea].
      unfold organize_data in Ea. destruct (Z.leb_spec (Z.of_nat (length b + length (record_bytes o))) size) as [Le|]; [|discriminate Ea]. injection Ea as <-.
      exists b. split; [reflexivity|]. unfold flush. cbn [flat_map]. rewrite app_assoc. split; [exact Ed|]. intros _.
      destruct r as [|o' r]; [|apply L; discriminate]. rewrite Ed. unfold flush. cbn [flat_map]. rewrite app_nil_r, app_length. exact Le. }
  intros H. destruct (G l _ d H) as (a & Ea & Ed & L). injection Ea as <-. cbn [app] in Ed. destruct l as [|o r]; [now right|left].
  split; [exact Ed|]. apply L. discriminate.
Qed.

(** * The threads *)
Definition in_hand {A} (p : gpc A) : list A := match p with Make j | Write j => [j] | _ => [] end.
Lemma set_worker_split {A} (l : list (gpc A)) i p : nth_error l i = Some p -> exists a b, l = a ++ p :: b /\ forall q, set_worker l i q = a ++ q :: b.
Proof.
  intros H. destruct (nth_error_split l i H) as (a & b & -> & <-). exists a, b. split; [reflexivity|]. intros q. unfold set_worker.
  rewrite firstn_app, Nat.sub_diag, firstn_all, firstn_O, app_nil_r. rewrite skipn_app. rewrite skipn_all2 by lia.
  replace (S (length a) - length a)%nat with 1%nat by lia. reflexivity.
Qed.
Definition everything {A} (s : gstate A) : list A := g_queue s ++ flat_map in_hand (g_workers s) ++ g_written s.
Lemma gstep_keeps {A} (s : gstate A) i : Permutation (everything (gstep s i)) (everything s).
Proof.
  destruct s as [q w out bad]. unfold gstep. destruct (nth_error w i) as [p|] eqn:E; [|reflexivity].
  destruct (set_worker_split w i p E) as (a & b & -> & S).
  destruct p; cbn [everything g_queue g_workers g_written]; try reflexivity.
  - rewrite S. unfold everything. cbn [g_queue g_workers g_written]. rewrite !flat_map_app. cbn [flat_map]. destruct q; reflexivity.
  - destruct (locked _); [reflexivity|]. rewrite S. unfold everything. cbn [g_queue g_workers g_written]. rewrite !flat_map_app. reflexivity.
  - destruct q as [|j q]; rewrite S; unfold everything; cbn [g_queue g_workers g_written]; rewrite !flat_map_app; cbn [flat_map in_hand app]; [reflexivity|].
    rewrite <- !app_assoc. cbn [app]. etransitivity; [|apply Permutation_sym; apply Permutation_middle with (l1 := [])]. cbn [app].
    rewrite !app_assoc. rewrite <- !app_assoc. rewrite (app_assoc q). symmetry. rewrite (app_assoc q). apply Permutation_middle.
  - rewrite S. unfold everything. cbn [g_queue g_workers g_written]. rewrite !flat_map_app. reflexivity.
  - destruct (locked _); [reflexivity|]. rewrite S. unfold everything. cbn [g_queue g_workers g_written]. rewrite !flat_map_app. cbn [flat_map in_hand app].
    apply Permutation_app_head. rewrite <- !app_assoc. cbn [app]. apply Permutation_app_head. rewrite (app_assoc _ out [j]). symmetry. etransitivity; [|apply Permutation_cons_append]. reflexivity.
Qed.
Lemma grun_keeps {A} sched : forall s : gstate A, Permutation (everything (grun s sched)) (everything s).
Proof. induction sched as [|i r IH]; intros s; [reflexivity|]. unfold grun in *. cbn [fold_left]. rewrite IH. apply gstep_keeps. Qed.

(** With one thread the queue it found non-empty is so when it is popped. *)
Definition alone_ok {A} (s : gstate A) : Prop :=
  g_bad s = false /\ exists p, g_workers s = [p] /\ match p with Want | Hold => g_queue s <> [] | Done => g_queue s = [] | _ => True end.
Lemma gstep_alone {A} (s : gstate A) i : alone_ok s -> alone_ok (gstep s i).
Proof.
  destruct s as [q w out bad]. intros (B & p & W & H). cbn [g_bad g_workers g_queue] in *. subst. unfold gstep.
  destruct i as [|i]; cbn [nth_error]; [|destruct i; cbn; (split; [reflexivity|]; exists p; auto)].
  unfold set_worker. cbn [firstn skipn app].
  destruct p; cbn [locked existsb]; try (split; [reflexivity|]; eexists; split; [reflexivity|]; cbn; auto; fail).
  - split; [reflexivity|]. eexists. split; [reflexivity|]. cbn [g_queue]. destruct q; [reflexivity|discriminate].
  - destruct q as [|j q]; [congruence|]. split; [reflexivity|]. eexists. split; [reflexivity|]. exact I.
Qed.
Lemma grun_alone {A} sched : forall s : gstate A, alone_ok s -> alone_ok (grun s sched).
Proof. induction sched as [|i r IH]; intros s H; [exact H|]. unfold grun in *. cbn [fold_left]. apply IH. now apply gstep_alone. Qed.
