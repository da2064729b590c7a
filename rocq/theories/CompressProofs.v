(** Proofs about the parallel compressor: invariant of all interleavings, and that the end can be reached. *)
From Coq Require Import List Bool Arith Lia Permutation.
From Verif Require Import Arr CompressModel.
Import ListNotations.

Lemma upd_split {A} (l1 : list A) x l2 y : upd (l1 ++ x :: l2) (length l1) y = l1 ++ y :: l2.
Proof. induction l1; cbn; congruence. Qed.
Lemma nth_error_upd' {A} (l : list A) i j v w : nth_error l i = Some w -> nth_error (upd l i v) j = if i =? j then Some v else nth_error l j.
Proof. revert i j. induction l as [|x l IH]; intros [|i] [|j] H; cbn in *; try discriminate; auto. Qed.
Lemma flat_upd {A B} (f : A -> list B) ws i w w' : nth_error ws i = Some w -> f w' = f w -> flat_map f (upd ws i w') = flat_map f ws.
Proof.
  intros E H. destruct (nth_error_split _ _ E) as [a [b [-> L]]]. subst i. rewrite upd_split, !flat_map_app. cbn. rewrite H. reflexivity.
Qed.
Lemma flat_upd_perm {A B} (f : A -> list B) ws i w w' : nth_error ws i = Some w ->
  exists R, Permutation (flat_map f ws) (f w ++ R) /\ Permutation (flat_map f (upd ws i w')) (f w' ++ R).
Proof.
  intros E. destruct (nth_error_split _ _ E) as [a [b [-> L]]]. subst i. exists (flat_map f a ++ flat_map f b). rewrite upd_split, !flat_map_app. cbn.
  split; apply Permutation_app_swap_app.
Qed.

Section Compressor.
Context {A B : Type} (record : A -> list B) (queue_size maximum : nat).
Notation wk := (worker A B).

Definition pending (w : wk) : list A := match w_pc w with
  | CheckStop | CheckWork | BodyCheck | Compress => if w_working w then match w_line w with Some l => [l] | None => [] end else []
  | _ => [] end.
Definition given (w : wk) : Prop := w_working w = true -> w_line w <> None.
Definition wsane (stop : bool) (w : wk) : Prop := match w_pc w with
  | CheckStop | BodyCheck => given w
  | CheckWork => given w /\ stop = true
  | Compress => w_working w = true /\ w_line w <> None
  | MaybeFlush | WantLock false | Writing false _ | ClearLine | ClearWork => w_working w = true
  | WantLock true | Writing true _ => w_working w = false /\ stop = true
  | Done => w_working w = false /\ stop = true /\ w_buf w = [] end.
Definition hand (m : mpc A) : list A := match m with Scan _ l | Assign _ l | SetWork _ l => [l] | _ => [] end.
Definition tk (c : nat) (inp : list A) : list A := match maximum with O => inp | _ => firstn (maximum - c) inp end.
Definition take (m : mpc A) (c : nat) (inp : list A) : list A := match m with Scan _ _ | Assign _ _ | SetWork _ _ => tk (S c) inp | _ => tk c inp end.
Definition msane (m : mpc A) (c : nat) (inp : list A) (stop : bool) (ws : list wk) : Prop := match m with
  | Next => stop = false /\ (maximum = 0 \/ c < maximum)
  | Scan _ _ => stop = false /\ (maximum = 0 \/ c < maximum)
  | Assign i _ => stop = false /\ (maximum = 0 \/ c < maximum) /\ exists w, nth_error ws i = Some w /\ w_working w = false
  | SetWork i l => stop = false /\ (maximum = 0 \/ c < maximum) /\ exists w, nth_error ws i = Some w /\ w_working w = false /\ w_line w = Some l
  | CheckMax => stop = false /\ 1 <= c /\ (maximum = 0 \/ c <= maximum)
  | SetStop => stop = false /\ tk c inp = []
  | Joining => stop = true /\ tk c inp = [] end.
Definition selected (lines : list A) : list A := match maximum with O => lines | _ => firstn maximum lines end.

Definition osane (ws : list wk) (out : list B) (wr : list A) : Prop := exists pre, out = flat_map record wr ++ pre /\
  (lock_free ws = true -> pre = []) /\
  forall i w last todo, nth_error ws i = Some w -> w_pc w = Writing last todo -> pre ++ todo = flat_map record (w_buf w) /\
    forall j v, nth_error ws j = Some v -> is_writing v = true -> j = i.

Definition sane (lines : list A) (g : gstate A B) : Prop :=
  (forall i w, nth_error (g_ws g) i = Some w -> wsane (g_stop g) w) /\
  msane (g_main g) (g_count g) (g_input g) (g_stop g) (g_ws g) /\
  exists wr, osane (g_ws g) (g_out g) wr /\
    Permutation (map snd (g_log g)) (wr ++ flat_map w_buf (g_ws g)) /\
    Permutation (wr ++ flat_map w_buf (g_ws g) ++ flat_map pending (g_ws g) ++ hand (g_main g) ++ take (g_main g) (g_count g) (g_input g)) (selected lines).

Lemma lock_free_spec (ws : list wk) : lock_free ws = true <-> forall i w, nth_error ws i = Some w -> is_writing w = false.
Proof.
  unfold lock_free. rewrite negb_true_iff. split.
  - intros H i w E. destruct (is_writing w) eqn:W; auto. rewrite <- H. symmetry. apply existsb_exists. exists w. split; [eapply nth_error_In; eauto|auto].
  - intros H. destruct (existsb is_writing ws) eqn:E; auto. apply existsb_exists in E. destruct E as [w [I W]]. apply In_nth_error in I. destruct I as [i I]. rewrite (H i w I) in W. discriminate.
Qed.

(** Writers do not change if one that does not write is replaced by one that does not write. *)
Lemma osane_keep ws out wr i w w' : nth_error ws i = Some w -> is_writing w = false -> is_writing w' = false -> osane ws out wr -> osane (upd ws i w') out wr.
Proof.
  intros E W W' [pre [P [F H]]]. exists pre. split; [exact P|]. split.
  - intros L. apply F. apply lock_free_spec. intros j v Ej. destruct (Nat.eq_dec i j) as [<-|N].
    + congruence.
    + apply (proj1 (lock_free_spec _) L j). rewrite (nth_error_upd' _ _ _ _ _ E). apply Nat.eqb_neq in N. rewrite N. exact Ej.
  - intros j v last todo Ej Pj. rewrite (nth_error_upd' _ _ _ _ _ E) in Ej. destruct (Nat.eqb_spec i j) as [<-|N].
    + inversion Ej; subst. unfold is_writing in W'. rewrite Pj in W'. discriminate.
    + destruct (H j v last todo Ej Pj) as [H1 H2]. split; [exact H1|]. intros k u Ek Wk. rewrite (nth_error_upd' _ _ _ _ _ E) in Ek.
      destruct (Nat.eqb_spec i k) as [<-|N2]; [inversion Ek; subst; congruence|]. eapply H2; eauto.
Qed.

Ltac inv H := inversion H; subst; clear H.

Lemma main_sane lines g g' : main_step maximum g g' -> sane lines g -> sane lines g'.
Proof.
  intros St [HW [HM [wr [HO [HL HP]]]]]. inv St; cbn [g_main g_input g_count g_stop g_ws g_out g_log] in *; unfold sane; cbn [g_main g_input g_count g_stop g_ws g_out g_log msane hand take] in *.
  - split; [exact HW|]. split; [exact HM|]. exists wr. split; [exact HO|]. split; [exact HL|].
    destruct HM as [_ HM]. assert (T : tk c (l :: rest) = [l] ++ tk (S c) rest).
    { unfold tk. destruct maximum as [|m]; [reflexivity|]. destruct HM as [HM|HM]; [discriminate|]. replace (S m - c) with (S (S m - S c)) by lia. reflexivity. }
    rewrite T in HP. exact HP.
  - split; [exact HW|]. split; [split; [apply HM|]; unfold tk; destruct maximum; [reflexivity|apply firstn_nil]|]. exists wr. auto.
  - split; [exact HW|]. split; [exact HM|]. exists wr. auto.
  - split; [exact HW|]. split; [exact HM|]. exists wr. auto.
  - split; [exact HW|]. split; [destruct HM as [? ?]; repeat split; auto; exists w; auto|]. exists wr. auto.
  - destruct HM as [Hs [Hc [w0 [E0 K0]]]]. assert (w0 = w) as -> by congruence. subst s.
    set (w' := Worker (w_pc w) (w_working w) (Some l) (w_buf w)).
    assert (Ww : wsane false w') by (specialize (HW i w H); unfold wsane, given in *; cbn; destruct (w_pc w); try destruct last; intuition (congruence || discriminate)).
    split.
    { intros j v Ej. rewrite (nth_error_upd' _ _ _ _ _ H) in Ej. destruct (Nat.eqb_spec i j); [inv Ej; exact Ww|eauto]. }
    split. { split; [reflexivity|]. split; [exact Hc|]. exists w'. rewrite (nth_error_upd' _ _ _ _ _ H), Nat.eqb_refl. auto. }
    exists wr. split.
    { destruct (is_writing w) eqn:IW; [|eapply osane_keep; eauto].
      exfalso. specialize (HW i w H). unfold is_writing in IW. unfold wsane in HW. destruct (w_pc w); try discriminate. destruct last; [destruct HW; discriminate|congruence]. }
    rewrite (flat_upd _ _ _ _ _ H) by reflexivity. split; [exact HL|]. rewrite (flat_upd pending _ _ _ _ H); [exact HP|]. unfold pending. cbn. rewrite K0. destruct (w_pc w); reflexivity.
  - destruct HM as [Hs [Hc [w0 [E0 [K0 L0]]]]]. assert (w0 = w) as -> by congruence. subst s.
    set (w' := Worker (w_pc w) true (w_line w) (w_buf w)). specialize (HW i w H) as Hi.
    assert (PC : w_pc w = CheckStop \/ w_pc w = BodyCheck). { unfold wsane in Hi. destruct (w_pc w); try destruct last; intuition (congruence || discriminate). }
    split.
    { intros j v Ej. rewrite (nth_error_upd' _ _ _ _ _ H) in Ej. destruct (Nat.eqb_spec i j); [inv Ej|eauto]. unfold wsane, given. cbn. destruct PC as [-> | ->]; congruence. }
    split. { split; [reflexivity|]. split; [lia|]. destruct Hc; [left; auto|right; lia]. }
    exists wr. split. { eapply osane_keep; eauto; unfold is_writing; cbn; destruct PC as [-> | ->]; reflexivity. }
    rewrite (flat_upd _ _ _ _ _ H) by reflexivity. split; [exact HL|].
    destruct (flat_upd_perm pending ws i w w' H) as [R [R1 R2]].
    assert (P0 : pending w = []) by (unfold pending; rewrite K0; destruct (w_pc w); reflexivity).
    assert (P1 : pending w' = [l]) by (unfold pending, w'; cbn; rewrite L0; destruct PC as [-> | ->]; reflexivity).
    rewrite P0 in R1. rewrite P1 in R2. rewrite R1 in HP. rewrite R2. cbn [app] in *. rewrite <- HP. apply Permutation_app_head, Permutation_app_head. apply Permutation_middle.
  - destruct HM as [Hs [Hc Hm]]. split; [exact HW|]. split; [split; [exact Hs|lia]|]. exists wr. auto.
  - destruct HM as [Hs [Hc Hm]]. split; [exact HW|]. split; [split; [exact Hs|]|].
    { unfold tk. destruct maximum as [|m]; [lia|]. rewrite Nat.sub_diag. reflexivity. }
    exists wr. auto.
  - destruct HM as [Hs Ht]. split; [|split; [auto|exists wr; auto]]. subst s. intros i w E. specialize (HW i w E). unfold wsane in *. destruct (w_pc w); try destruct last; intuition.
Qed.

Lemma local_quiet stop free (w w' : wk) out ls : local_step record queue_size stop free w w' out ls -> wsane stop w -> is_writing w = false -> is_writing w' = false -> ls = [] ->
  wsane stop w' /\ out = [] /\ w_buf w' = w_buf w /\ pending w' = pending w.
Proof.
  intros St S W W' L. inv St; cbn in *; try discriminate; unfold wsane, given, pending in *; cbn in *; repeat split; auto; try tauto; try discriminate; try congruence; try (destruct k; reflexivity); try (intuition congruence).
Qed.

Lemma worker_sane lines i w w' out ls m inp c s ws o lg : nth_error ws i = Some w -> local_step record queue_size s (lock_free ws) w w' out ls ->
  sane lines (G m inp c s ws o lg) -> sane lines (G m inp c s (upd ws i w') (o ++ out) (lg ++ map (pair i) ls)).
Proof.
  intros E St [HW [HM [wr [HO [HL HP]]]]]. cbn [g_main g_input g_count g_stop g_ws g_out g_log] in *. pose proof (HW i w E) as Hi.
  assert (Sane' : wsane s w').
  { inv St; unfold wsane, given in *; cbn in *; try (destruct last); repeat split; auto; try tauto; try discriminate; try congruence; intuition congruence. }
  assert (Main' : msane m c inp s (upd ws i w')).
  { destruct m as [|j l|j l|j l| | |]; try exact HM; cbn in HM |- *.
    - destruct HM as [Hs [Hc [v [Ev Kv]]]]. split; [exact Hs|]. split; [exact Hc|]. rewrite (nth_error_upd' _ _ _ _ _ E).
      destruct (Nat.eqb_spec i j) as [<-|N]; [|exists v; auto]. assert (v = w) as -> by congruence. exists w'. split; [reflexivity|].
      subst s. inv St; cbn in *; try discriminate; try congruence; unfold wsane in Hi; cbn in Hi; try (destruct last); intuition congruence.
    - destruct HM as [Hs [Hc [v [Ev [Kv Lv]]]]]. split; [exact Hs|]. split; [exact Hc|]. rewrite (nth_error_upd' _ _ _ _ _ E).
      destruct (Nat.eqb_spec i j) as [<-|N]; [|exists v; auto]. assert (v = w) as -> by congruence. exists w'. split; [reflexivity|].
      subst s. inv St; cbn in *; try discriminate; try congruence; unfold wsane in Hi; cbn in Hi; try (destruct last); intuition congruence. }
  unfold sane. cbn [g_main g_input g_count g_stop g_ws g_out g_log]. split.
  { intros j v Ej. rewrite (nth_error_upd' _ _ _ _ _ E) in Ej. destruct (Nat.eqb_spec i j); [inv Ej; exact Sane'|eauto]. }
  split; [exact Main'|].
  destruct (is_writing w) eqn:W.
  - (* the writer *)
    assert (exists last todo, w_pc w = Writing last todo) as [last [todo PW]]. { unfold is_writing in W. destruct (w_pc w); try discriminate. eauto. }
    destruct HO as [pre [P [F H]]]. destruct (H i w last todo E PW) as [H1 H2].
    inv St; cbn in PW; try discriminate; inv PW; rewrite app_nil_r.
    + exists wr. split.
      { exists (pre ++ [x]). split; [rewrite app_assoc; reflexivity|]. split.
        - intros L. assert (X := proj1 (lock_free_spec _) L i (Worker (Writing last r) k l b)). rewrite (nth_error_upd' _ _ _ _ _ E), Nat.eqb_refl in X. specialize (X eq_refl). discriminate.
        - intros j v last' todo' Ej Pj. rewrite (nth_error_upd' _ _ _ _ _ E) in Ej. destruct (Nat.eqb_spec i j) as [<-|N].
          + inv Ej. cbn in Pj. inv Pj. cbn in H1 |- *. split; [rewrite <- app_assoc; exact H1|]. intros j v Ej Wj. rewrite (nth_error_upd' _ _ _ _ _ E) in Ej.
            destruct (Nat.eqb_spec i j); [auto|]. eauto.
          + exfalso. apply N. symmetry. apply (H2 j v Ej). unfold is_writing. rewrite Pj. reflexivity. }
      rewrite (flat_upd _ _ _ _ _ E) by reflexivity. rewrite (flat_upd pending _ _ _ _ E) by reflexivity. cbn [map]. auto.
    + exists (wr ++ b). rewrite app_nil_r in H1. cbn in H1. destruct (flat_upd_perm (@w_buf A B) ws i _ (Worker ClearLine k l []) E) as [R [R1 R2]]. cbn [w_buf app] in R1, R2.
      split.
      { exists []. split; [rewrite app_nil_r, flat_map_app, <- H1; reflexivity|]. split; [auto|]. intros j v last' todo' Ej Pj. rewrite (nth_error_upd' _ _ _ _ _ E) in Ej.
        destruct (Nat.eqb_spec i j) as [<-|N]; [inv Ej; discriminate|]. exfalso. apply N. symmetry. apply (H2 j v Ej). unfold is_writing. rewrite Pj. reflexivity. }
      rewrite (flat_upd pending _ _ _ _ E) by reflexivity. rewrite R2. rewrite R1 in HL, HP. cbn [map]. rewrite app_nil_r. rewrite <- !app_assoc in *. auto.
    + exists (wr ++ b). rewrite app_nil_r in H1. cbn in H1. destruct (flat_upd_perm (@w_buf A B) ws i _ (Worker Done k l []) E) as [R [R1 R2]]. cbn [w_buf app] in R1, R2.
      split.
      { exists []. split; [rewrite app_nil_r, flat_map_app, <- H1; reflexivity|]. split; [auto|]. intros j v last' todo' Ej Pj. rewrite (nth_error_upd' _ _ _ _ _ E) in Ej.
        destruct (Nat.eqb_spec i j) as [<-|N]; [inv Ej; discriminate|]. exfalso. apply N. symmetry. apply (H2 j v Ej). unfold is_writing. rewrite Pj. reflexivity. }
      rewrite (flat_upd pending _ _ _ _ E) by reflexivity. rewrite R2. rewrite R1 in HL, HP. cbn [map]. rewrite app_nil_r. rewrite <- !app_assoc in *. auto.
  - destruct (is_writing w') eqn:W'.
    + (* the lock is taken *)
      inv St; try discriminate. rename H into LK. exists wr. rewrite app_nil_r. destruct HO as [pre [P [F H]]]. specialize (F LK). subst pre. rewrite app_nil_r in P.
      pose proof (proj1 (lock_free_spec _) LK) as LF. split.
      { exists []. split; [rewrite app_nil_r; exact P|]. split; [auto|]. intros j v last' todo' Ej Pj. rewrite (nth_error_upd' _ _ _ _ _ E) in Ej. destruct (Nat.eqb_spec i j) as [<-|N].
        - inv Ej. cbn in Pj. inv Pj. split; [reflexivity|]. intros j v Ej Wj. rewrite (nth_error_upd' _ _ _ _ _ E) in Ej. destruct (Nat.eqb_spec i j); [auto|]. rewrite (LF j v Ej) in Wj. discriminate.
        - exfalso. assert (X := LF j v Ej). unfold is_writing in X. rewrite Pj in X. discriminate. }
      rewrite (flat_upd _ _ _ _ _ E) by reflexivity. rewrite (flat_upd pending _ _ _ _ E) by reflexivity. cbn [map]. rewrite app_nil_r. auto.
    + destruct ls as [|l0 ls].
      * destruct (local_quiet _ _ _ _ _ _ St Hi W W' eq_refl) as [_ [-> [Bq Pq]]]. exists wr. rewrite !app_nil_r. split; [eapply osane_keep; eauto|].
        rewrite (flat_upd _ _ _ _ _ E Bq), (flat_upd pending _ _ _ _ E Pq). cbn [map]. auto.
      * inv St. exists wr. rewrite app_nil_r. split; [eapply osane_keep; eauto|].
        destruct (flat_upd_perm (@w_buf A B) ws i _ (Worker MaybeFlush k (Some l0) (b ++ [l0])) E) as [R [R1 R2]]. cbn [w_buf] in R1, R2.
        destruct (flat_upd_perm pending ws i _ (Worker MaybeFlush k (Some l0) (b ++ [l0])) E) as [R' [R1' R2']].
        unfold wsane in Hi. cbn in Hi. destruct Hi as [-> _]. cbn [pending w_pc w_working w_line] in R1', R2'. cbn [app] in R1', R2'.
        rewrite R2, R2'. rewrite R1 in HL, HP. rewrite R1' in HP. cbn [map]. rewrite map_app. cbn [map snd].
        split.
        -- rewrite HL. rewrite <- !app_assoc. apply Permutation_app_head, Permutation_app_head. apply (Permutation_app_comm R [l0]).
        -- rewrite <- HP. rewrite <- !app_assoc. apply Permutation_app_head, Permutation_app_head. cbn [app]. symmetry. apply (Permutation_app_swap_app R [l0]).
Qed.

Lemma cstep_sane lines g g' : cstep record queue_size maximum g g' -> sane lines g -> sane lines g'.
Proof. intros [g0 g1 M|]; [apply main_sane; exact M|eapply worker_sane; eauto]. Qed.
Lemma csteps_sane lines g g' : csteps record queue_size maximum g g' -> sane lines g -> sane lines g'.
Proof. induction 1; auto. intros. apply IHcsteps. eapply cstep_sane; eauto. Qed.

Lemma cinit_sane lines n : sane lines (cinit lines n).
Proof.
  unfold sane, cinit. cbn [g_main g_input g_count g_stop g_ws g_out g_log]. split; [|split].
  - intros i w E. apply nth_error_In, repeat_spec in E. subst. unfold wsane, given. cbn. discriminate.
  - cbn. split; [reflexivity|]. destruct maximum; [auto|right; lia].
  - exists []. assert (E1 : flat_map (@w_buf A B) (repeat (Worker CheckStop false None []) n) = []) by (induction n; cbn; auto).
    assert (E2 : flat_map pending (repeat (Worker CheckStop false None []) n) = []) by (induction n; cbn; auto).
    rewrite E1, E2. split.
    + exists []. split; [reflexivity|]. split; [auto|]. intros i w last todo E P. apply nth_error_In, repeat_spec in E. subst. discriminate.
    + split; [reflexivity|]. cbn. unfold tk, selected. destruct maximum; [|rewrite Nat.sub_0_r]; reflexivity.
Qed.

Lemma final_result lines g : sane lines g -> cfinal g -> exists order, g_out g = flat_map record order /\ Permutation order (selected lines) /\ Permutation (map snd (g_log g)) (selected lines).
Proof.
  intros [HW [HM [wr [[pre [P [F H]]] [HL HP]]]]] [FM FD].
  assert (NB : flat_map w_buf (g_ws g) = [] /\ flat_map pending (g_ws g) = [] /\ lock_free (g_ws g) = true).
  { assert (X : forall w, In w (g_ws g) -> w_buf w = [] /\ pending w = [] /\ is_writing w = false).
    { intros w Hw. rewrite Forall_forall in FD. pose proof (FD w Hw) as D. apply In_nth_error in Hw. destruct Hw as [i Ei]. specialize (HW i w Ei). unfold wsane, pending, is_writing in *. rewrite D in *. intuition. }
    split; [|split].
    - clear -X. induction (g_ws g) as [|w r IH]; cbn; [reflexivity|]. destruct (X w (or_introl eq_refl)) as [-> _]. apply IH. intros v Hv. apply X. right; auto.
    - clear -X. induction (g_ws g) as [|w r IH]; cbn; [reflexivity|]. destruct (X w (or_introl eq_refl)) as [_ [-> _]]. apply IH. intros v Hv. apply X. right; auto.
    - apply lock_free_spec. intros i w E. apply X. eapply nth_error_In; eauto. }
  destruct NB as [N1 [N2 N3]]. rewrite (F N3), app_nil_r in P. rewrite N1, N2, FM in HP. cbn [app hand take] in HP. rewrite FM in HM. destruct HM as [_ HM]. rewrite HM, app_nil_r in HP.
  rewrite N1, app_nil_r in HL. exists wr. split; [exact P|]. split; [exact HP|]. rewrite HL. exact HP.
Qed.

(** ** The end can always be reached *)
Notation reach := (csteps record queue_size maximum).
Lemma reach_trans g1 g2 g3 : reach g1 g2 -> reach g2 g3 -> reach g1 g3.
Proof. induction 1; auto. intros. econstructor; eauto. Qed.
Lemma reach_one g1 g2 : cstep record queue_size maximum g1 g2 -> reach g1 g2.
Proof. intros. econstructor; eauto. constructor. Qed.

Lemma upd_upd {X} (l : list X) i a b : upd (upd l i a) i b = upd l i b.
Proof. revert i. induction l; intros [|i]; cbn; auto. f_equal. auto. Qed.
Lemma upd_same {X} (l : list X) i a : nth_error l i = Some a -> upd l i a = l.
Proof. revert i. induction l; intros [|i] H; cbn in *; try discriminate; [congruence|]. f_equal. auto. Qed.

(** A worker that runs alone: [w] becomes [w'] while the others stand still. *)
Definition alone (g : gstate A B) (i : nat) (w' : wk) : Prop := exists g', reach g g' /\ g_main g' = g_main g /\ g_input g' = g_input g /\ g_count g' = g_count g /\ g_stop g' = g_stop g /\ g_ws g' = upd (g_ws g) i w'.

Lemma alone_step g i w w1 w2 out ls : nth_error (g_ws g) i = Some w -> local_step record queue_size (g_stop g) (lock_free (g_ws g)) w w1 out ls ->
  (forall g1, g_main g1 = g_main g -> g_stop g1 = g_stop g -> g_ws g1 = upd (g_ws g) i w1 -> alone g1 i w2) -> alone g i w2.
Proof.
  intros E St H. destruct g as [m inp c s ws o lg]. cbn in *.
  destruct (H (G m inp c s (upd ws i w1) (o ++ out) (lg ++ map (pair i) ls)) eq_refl eq_refl eq_refl) as [g' [R [E1 [E2 [E3 [E4 E5]]]]]].
  exists g'. split; [econstructor; [|exact R]; eapply c_worker; eauto|]. cbn in *. rewrite upd_upd in E5. auto 10.
Qed.
Lemma alone_zero g i w : nth_error (g_ws g) i = Some w -> alone g i w.
Proof. intros E. exists g. split; [constructor|]. rewrite (upd_same _ _ _ E). auto 10. Qed.
Lemma nth_upd_same (ws : list wk) i w v : nth_error ws i = Some w -> nth_error (upd ws i v) i = Some v.
Proof. intros E. rewrite (nth_error_upd' _ _ _ _ _ E), Nat.eqb_refl. reflexivity. Qed.

Definition resting (w : wk) : Prop := (w_pc w = CheckStop /\ w_working w = false) \/ w_pc w = Done.
Definition others_quiet (ws : list wk) (i : nat) : Prop := forall j v, nth_error ws j = Some v -> j <> i -> is_writing v = false.

Lemma rest_clear_work g i k l b : nth_error (g_ws g) i = Some (Worker ClearWork k l b) -> exists w', resting w' /\ alone g i w'.
Proof.
  intros E. exists (Worker CheckStop false l b). split; [left; auto|]. eapply alone_step; [exact E|apply w_ready|]. intros g1 _ _ E1. apply alone_zero. rewrite E1. eapply nth_upd_same; eauto.
Qed.
Ltac go E rule := eapply alone_step; [exact E|apply rule; auto|].
(** Composition: one step, then the lemma for what follows. *)
Lemma rest_step g i w w1 out ls : nth_error (g_ws g) i = Some w -> local_step record queue_size (g_stop g) (lock_free (g_ws g)) w w1 out ls ->
  (forall g1, g_main g1 = g_main g -> g_stop g1 = g_stop g -> g_ws g1 = upd (g_ws g) i w1 -> exists w', resting w' /\ alone g1 i w') -> exists w', resting w' /\ alone g i w'.
Proof.
  intros E St H. destruct g as [m inp c s ws o lg]. cbn in *.
  destruct (H (G m inp c s (upd ws i w1) (o ++ out) (lg ++ map (pair i) ls)) eq_refl eq_refl eq_refl) as [w' [Rw [g' [R [E1 [E2 [E3 [E4 E5]]]]]]]].
  exists w'. split; [exact Rw|]. exists g'. split; [econstructor; [|exact R]; eapply c_worker; eauto|]. cbn in *. rewrite upd_upd in E5. auto 10.
Qed.
Lemma rest_clear_line g i k l b : nth_error (g_ws g) i = Some (Worker ClearLine k l b) -> exists w', resting w' /\ alone g i w'.
Proof. intros E. eapply rest_step; [exact E|apply w_clear|]. intros g1 _ _ E1. eapply rest_clear_work. rewrite E1. eapply nth_upd_same; eauto. Qed.
Lemma rest_writing i todo : forall g last k l b, nth_error (g_ws g) i = Some (Worker (Writing last todo) k l b) -> exists w', resting w' /\ alone g i w'.
Proof.
  induction todo as [|x r IH]; intros g last k l b E.
  - destruct last.
    + eapply rest_step; [exact E|apply w_finish|]. intros g1 _ _ E1. exists (Worker Done k l []). split; [right; auto|]. apply alone_zero. rewrite E1. eapply nth_upd_same; eauto.
    + eapply rest_step; [exact E|apply w_unlock|]. intros g1 _ _ E1. eapply rest_clear_line. rewrite E1. eapply nth_upd_same; eauto.
  - eapply rest_step; [exact E|apply w_write|]. intros g1 _ _ E1. eapply IH. rewrite E1. eapply nth_upd_same; eauto.
Qed.
Lemma rest_want g i last k l b : nth_error (g_ws g) i = Some (Worker (WantLock last) k l b) -> others_quiet (g_ws g) i -> exists w', resting w' /\ alone g i w'.
Proof.
  intros E O. eapply rest_step; [exact E|apply w_lock|].
  - apply lock_free_spec. intros j v Ej. destruct (Nat.eq_dec j i) as [->|N]; [assert (v = Worker (WantLock last) k l b) as -> by congruence; reflexivity|eauto].
  - intros g1 _ _ E1. eapply rest_writing. rewrite E1. eapply nth_upd_same; eauto.
Qed.
Lemma quiet_upd (ws : list wk) i w v : nth_error ws i = Some w -> others_quiet ws i -> others_quiet (upd ws i v) i.
Proof. intros E O j u Ej N. rewrite (nth_error_upd' _ _ _ _ _ E) in Ej. destruct (Nat.eqb_spec i j); [congruence|eauto]. Qed.
Lemma rest_maybe g i k l b : nth_error (g_ws g) i = Some (Worker MaybeFlush k l b) -> others_quiet (g_ws g) i -> exists w', resting w' /\ alone g i w'.
Proof.
  intros E O. destruct (le_lt_dec queue_size (length b)).
  - eapply rest_step; [exact E|apply w_full; auto|]. intros g1 _ _ E1. eapply rest_want; [rewrite E1; eapply nth_upd_same; eauto|rewrite E1; eapply quiet_upd; eauto].
  - eapply rest_step; [exact E|apply w_room; auto|]. intros g1 _ _ E1. eapply rest_clear_line. rewrite E1; eapply nth_upd_same; eauto.
Qed.
Lemma rest_compress g i k l b : nth_error (g_ws g) i = Some (Worker Compress k (Some l) b) -> others_quiet (g_ws g) i -> exists w', resting w' /\ alone g i w'.
Proof. intros E O. eapply rest_step; [exact E|apply w_compress|]. intros g1 _ _ E1. eapply rest_maybe; [rewrite E1; eapply nth_upd_same; eauto|rewrite E1; eapply quiet_upd; eauto]. Qed.
Lemma rest_body g i k l b : nth_error (g_ws g) i = Some (Worker BodyCheck k l b) -> others_quiet (g_ws g) i -> (k = true -> l <> None) -> exists w', resting w' /\ alone g i w'.
Proof.
  intros E O K. destruct k.
  - destruct l as [l|]; [|exfalso; apply K; auto]. eapply rest_step; [exact E|apply w_busy|]. intros g1 _ _ E1. eapply rest_compress; [rewrite E1; eapply nth_upd_same; eauto|rewrite E1; eapply quiet_upd; eauto].
  - eapply rest_step; [exact E|apply w_idle|]. intros g1 _ _ E1. exists (Worker CheckStop false l b). split; [left; auto|]. apply alone_zero. rewrite E1; eapply nth_upd_same; eauto.
Qed.
Lemma rest_check_work g i k l b : nth_error (g_ws g) i = Some (Worker CheckWork k l b) -> others_quiet (g_ws g) i -> (k = true -> l <> None) -> exists w', resting w' /\ alone g i w'.
Proof.
  intros E O K. destruct k.
  - eapply rest_step; [exact E|apply w_yes|]. intros g1 _ _ E1. eapply rest_body; [rewrite E1; eapply nth_upd_same; eauto|rewrite E1; eapply quiet_upd; eauto|exact K].
  - eapply rest_step; [exact E|apply w_no|]. intros g1 _ _ E1. eapply rest_want; [rewrite E1; eapply nth_upd_same; eauto|rewrite E1; eapply quiet_upd; eauto].
Qed.
Lemma rest_check_stop g i k l b : nth_error (g_ws g) i = Some (Worker CheckStop k l b) -> others_quiet (g_ws g) i -> (k = true -> l <> None) -> exists w', resting w' /\ alone g i w'.
Proof.
  intros E O K. destruct (g_stop g) eqn:S.
  - eapply rest_step; [exact E|apply w_stop; auto|]. intros g1 _ _ E1. eapply rest_check_work; [rewrite E1; eapply nth_upd_same; eauto|rewrite E1; eapply quiet_upd; eauto|exact K].
  - eapply rest_step; [exact E|apply w_go; auto|]. intros g1 _ _ E1. eapply rest_body; [rewrite E1; eapply nth_upd_same; eauto|rewrite E1; eapply quiet_upd; eauto|exact K].
Qed.
Lemma worker_rests lines g i w : sane lines g -> nth_error (g_ws g) i = Some w -> others_quiet (g_ws g) i -> exists w', resting w' /\ alone g i w'.
Proof.
  intros S E O. destruct S as [HW _]. specialize (HW i w E). destruct w as [pc k l b]. unfold wsane, given in HW. cbn in HW. destruct pc.
  - eapply rest_check_stop; eauto.
  - eapply rest_check_work; eauto; tauto.
  - eapply rest_body; eauto.
  - destruct HW as [-> HW]. destruct l as [l|]; [|congruence]. eapply rest_compress; eauto.
  - eapply rest_maybe; eauto.
  - eapply rest_want; eauto.
  - eapply rest_writing; eauto.
  - eapply rest_clear_line; eauto.
  - eapply rest_clear_work; eauto.
  - exists (Worker Done k l b). split; [right; auto|]. apply alone_zero. auto.
Qed.

Lemma resting_quiet w : resting w -> is_writing w = false.
Proof. unfold resting, is_writing. intros [[-> _]| ->]; reflexivity. Qed.

(** All workers come to rest while the main thread waits. *)
Definition same_main (g g' : gstate A B) : Prop := g_main g' = g_main g /\ g_input g' = g_input g /\ g_count g' = g_count g /\ g_stop g' = g_stop g /\ length (g_ws g') = length (g_ws g).
Lemma no_writer lines g : sane lines g -> exists g', reach g g' /\ same_main g g' /\ lock_free (g_ws g') = true.
Proof.
  intros S. destruct (lock_free (g_ws g)) eqn:L.
  - exists g. split; [constructor|]. split; [repeat split|auto].
  - unfold lock_free in L. apply negb_false_iff, existsb_exists in L. destruct L as [w [I W]]. apply In_nth_error in I. destruct I as [i E].
    assert (exists last todo, w_pc w = Writing last todo) as [last [todo PW]]. { unfold is_writing in W. destruct (w_pc w); try discriminate. eauto. }
    destruct S as [HW [HM [wr [[pre [P [F H]]] R]]]] eqn:SS. destruct (H i w last todo E PW) as [_ H2].
    destruct w as [pc k l b]. cbn in PW. subst pc. destruct (rest_writing i todo g last k l b E) as [w' [Rw [g' [Rg [E1 [E2 [E3 [E4 E5]]]]]]]].
    exists g'. split; [exact Rg|]. split; [repeat split; auto; rewrite E5; apply upd_length|]. apply lock_free_spec. intros j v Ej. rewrite E5, (nth_error_upd' _ _ _ _ _ E) in Ej.
    destruct (Nat.eqb_spec i j) as [<-|N]; [inv Ej; apply resting_quiet; auto|]. destruct (is_writing v) eqn:Wv; auto. exfalso. apply N. symmetry. eapply H2; eauto.
Qed.
Lemma all_rest lines : forall n g, sane lines g -> lock_free (g_ws g) = true -> n <= length (g_ws g) ->
  exists g', reach g g' /\ same_main g g' /\ lock_free (g_ws g') = true /\ forall i w, i < n -> nth_error (g_ws g') i = Some w -> resting w.
Proof.
  induction n as [|n IH]; intros g S L N.
  - exists g. split; [constructor|]. split; [repeat split|]. split; [auto|]. lia.
  - destruct (IH g S L ltac:(lia)) as [g1 [R1 [M1 [L1 H1]]]]. pose proof (csteps_sane _ _ _ R1 S) as S1.
    destruct (nth_error (g_ws g1) n) as [w|] eqn:E; [|apply nth_error_None in E; destruct M1 as [_ [_ [_ [_ M1]]]]; lia].
    destruct (worker_rests lines g1 n w S1 E) as [w' [Rw [g2 [R2 [A1 [A2 [A3 [A4 A5]]]]]]]]. { intros j v Ej _. exact (proj1 (lock_free_spec _) L1 j v Ej). }
    exists g2. split; [eapply reach_trans; eauto|]. destruct M1 as [B1 [B2 [B3 [B4 B5]]]]. split; [repeat split; try congruence; rewrite A5, upd_length; auto|]. split.
    + apply lock_free_spec. intros j v Ej. rewrite A5, (nth_error_upd' _ _ _ _ _ E) in Ej. destruct (Nat.eqb_spec n j); [inv Ej; apply resting_quiet; auto|]. exact (proj1 (lock_free_spec _) L1 j v Ej).
    + intros i v Hi Ei. rewrite A5, (nth_error_upd' _ _ _ _ _ E) in Ei. destruct (Nat.eqb_spec n i); [inv Ei; auto|]. apply (H1 i); auto. lia.
Qed.
Lemma everyone_rests lines g : sane lines g -> exists g', reach g g' /\ same_main g g' /\ lock_free (g_ws g') = true /\ forall i w, nth_error (g_ws g') i = Some w -> resting w.
Proof.
  intros S. destruct (no_writer lines g S) as [g1 [R1 [M1 L1]]]. pose proof (csteps_sane _ _ _ R1 S) as S1.
  destruct (all_rest lines (length (g_ws g1)) g1 S1 L1 (le_n _)) as [g2 [R2 [M2 [L2 H2]]]].
  exists g2. split; [eapply reach_trans; eauto|]. split; [destruct M1 as [? [? [? [? ?]]]], M2 as [? [? [? [? ?]]]]; repeat split; congruence|]. split; [auto|].
  intros i w E. eapply H2; eauto. destruct M2 as [_ [_ [_ [_ M2]]]]. rewrite <- M2. apply nth_error_Some. congruence.
Qed.

(** The main thread reaches its end. *)
Lemma main_stops lines : forall k g, length (g_input g) = k -> sane lines g -> (g_main g = Next \/ g_main g = CheckMax) -> 0 < length (g_ws g) -> exists g', reach g g' /\ g_main g' = Joining.
Proof.
  induction k as [k IH] using lt_wf_ind. intros g K S HM N.
  assert (St : forall m inp c s ws o lg, reach (G SetStop inp c s ws o lg) (G m inp c true ws o lg) \/ True) by auto.
  destruct g as [m inp c s ws o lg]. cbn in *.
  assert (Stop : forall inp c s ws o lg, reach (G SetStop inp c s ws o lg) (G Joining inp c true ws o lg)). { intros. apply reach_one, c_main, m_stop. }
  assert (AtNext : forall c s ws o lg, length inp = k -> sane lines (G Next inp c s ws o lg) -> 0 < length ws -> exists g', reach (G Next inp c s ws o lg) g' /\ g_main g' = Joining).
  { clear HM S N St. clear c s ws o lg. intros c s ws o lg _ S N. destruct inp as [|l rest].
    - eexists. split; [eapply reach_trans; [apply reach_one, c_main, m_eof|apply Stop]|reflexivity].
    - destruct (everyone_rests lines _ S) as [[m1 i1 c1 s1 ws1 o1 lg1] [R1 [[M1 [M2 [M3 [M4 M5]]]] [L1 H1]]]]. cbn in *. subst m1 i1 c1 s1.
      pose proof (csteps_sane _ _ _ R1 S) as S1. destruct S1 as [W1 [MS1 _]]. cbn in W1, MS1.
      destruct ws1 as [|w0 r0]; [cbn in M5; lia|].
      assert (F0 : w_working w0 = false).
      { destruct (H1 0 w0 eq_refl) as [[_ X]|X]; [exact X|]. specialize (W1 0 w0 eq_refl). unfold wsane in W1. rewrite X in W1. tauto. }
      assert (R2 : reach (G Next (l :: rest) c s (w0 :: r0) o1 lg1) (G CheckMax rest (Datatypes.S c) s (upd (upd (w0 :: r0) 0 (Worker (w_pc w0) (w_working w0) (Some l) (w_buf w0))) 0 (Worker (w_pc w0) true (Some l) (w_buf w0))) o1 lg1)).
      { eapply reach_trans; [apply reach_one, c_main, m_getline|]. eapply reach_trans; [apply reach_one, c_main, (m_free _ 0 l w0); auto|].
        eapply reach_trans; [apply reach_one, c_main, (m_assign _ 0 l w0); auto|]. apply reach_one, c_main. apply (m_set maximum 0 l (Worker (w_pc w0) (w_working w0) (Some l) (w_buf w0))). reflexivity. }
      pose proof (csteps_sane _ _ _ (reach_trans _ _ _ R1 R2) S) as S2. destruct (IH (length rest) ltac:(cbn in K; lia) _ (eq_refl (length rest) : length (g_input (G CheckMax rest (Datatypes.S c) s _ o1 lg1)) = length rest) S2) as [g' [R' E']]; [right; reflexivity|cbn; lia|].
      exists g'. split; [eapply reach_trans; [exact R1|eapply reach_trans; [exact R2|exact R']]|exact E']. }
  destruct HM as [-> | ->].
  - apply AtNext; auto.
  - destruct (Nat.eq_dec c maximum) as [Ec|Ec].
    + eexists. split; [eapply reach_trans; [apply reach_one, c_main, m_enough; auto|apply Stop]|reflexivity].
    + destruct (AtNext c s ws o lg K) as [g' [R E]]; [eapply cstep_sane; [apply c_main, m_more; eauto|exact S]|auto|].
      exists g'. split; [eapply reach_trans; [apply reach_one, c_main, m_more; auto|exact R]|exact E].
Qed.

Lemma scan_ends lines : forall g i l, sane lines g -> g_main g = Scan i l -> 0 < length (g_ws g) -> exists g', reach g g' /\ (g_main g' = Next \/ g_main g' = CheckMax) /\ length (g_ws g') = length (g_ws g).
Proof.
  intros g i l S M N. destruct (everyone_rests lines _ S) as [[m1 i1 c1 s1 ws1 o1 lg1] [R1 [[M1 [M2 [M3 [M4 M5]]]] [L1 H1]]]]. cbn in *. pose proof (csteps_sane _ _ _ R1 S) as S1.
  rewrite M in M1. subst m1. destruct S1 as [W1 [MS1 _]]. cbn in W1, MS1. destruct MS1 as [-> _].
  assert (Free : forall j w, nth_error ws1 j = Some w -> w_working w = false).
  { intros j w E. destruct (H1 j w E) as [[_ X]|X]; [exact X|]. specialize (W1 j w E). unfold wsane in W1. rewrite X in W1. tauto. }
  assert (At : forall j, j < length ws1 -> exists g', reach (G (Scan j l) i1 c1 false ws1 o1 lg1) g' /\ (g_main g' = Next \/ g_main g' = CheckMax) /\ length (g_ws g') = length ws1).
  { intros j Hj. destruct (nth_error ws1 j) as [w|] eqn:E; [|apply nth_error_None in E; lia]. eexists. split; [|split].
    - eapply reach_trans; [apply reach_one, c_main, (m_free _ j l w); eauto|]. eapply reach_trans; [apply reach_one, c_main, (m_assign _ j l w); eauto|].
      apply reach_one, c_main. eapply m_set. eapply nth_upd_same; eauto.
    - right. reflexivity.
    - cbn. rewrite !upd_length. reflexivity. }
  destruct (le_lt_dec (length ws1) i) as [Hi|Hi].
  - destruct (At 0 ltac:(lia)) as [g' [R [E L]]]. exists g'. split; [|split; [exact E|congruence]].
    eapply reach_trans; [exact R1|]. eapply reach_trans; [|exact R]. apply reach_one, c_main, m_again. apply nth_error_None. exact Hi.
  - destruct (At i Hi) as [g' [R [E L]]]. exists g'. split; [|split; [exact E|congruence]]. eapply reach_trans; [exact R1|exact R].
Qed.

Lemma can_join lines g : sane lines g -> 0 < length (g_ws g) -> exists g', reach g g' /\ g_main g' = Joining.
Proof.
  intros S N.
  assert (Fin : forall g, sane lines g -> 0 < length (g_ws g) -> (g_main g = Next \/ g_main g = CheckMax) -> exists g', reach g g' /\ g_main g' = Joining).
  { intros g0 S0 N0 H. eapply main_stops; eauto. }
  destruct g as [m inp c s ws o lg]. destruct m as [|i l|i l|i l| | |].
  - apply Fin; auto.
  - destruct (scan_ends lines _ i l S eq_refl N) as [g1 [R1 [E1 L1]]]. destruct (Fin g1) as [g2 [R2 E2]]; [eapply csteps_sane; eauto|cbn in *; lia|auto|]. exists g2. split; [eapply reach_trans; eauto|auto].
  - pose proof (proj1 (proj2 S)) as HM. cbn in HM. destruct HM as [_ [_ [w [E K]]]].
    assert (R1 : reach (G (Assign i l) inp c s ws o lg) (G CheckMax inp (Datatypes.S c) s (upd (upd ws i (Worker (w_pc w) (w_working w) (Some l) (w_buf w))) i (Worker (w_pc w) true (Some l) (w_buf w))) o lg)).
    { eapply reach_trans; [apply reach_one, c_main, (m_assign _ i l w); eauto|]. apply reach_one, c_main. apply (m_set maximum i l (Worker (w_pc w) (w_working w) (Some l) (w_buf w))). eapply nth_upd_same; eauto. }
    destruct (Fin _ (csteps_sane _ _ _ R1 S)) as [g2 [R2 E2]]; [cbn in *; rewrite !upd_length; auto|right; reflexivity|]. exists g2. split; [eapply reach_trans; eauto|auto].
  - pose proof (proj1 (proj2 S)) as HM. cbn in HM. destruct HM as [_ [_ [w [E _]]]].
    assert (R1 : reach (G (SetWork i l) inp c s ws o lg) (G CheckMax inp (Datatypes.S c) s (upd ws i (Worker (w_pc w) true (w_line w) (w_buf w))) o lg)).
    { apply reach_one, c_main. apply m_set; auto. }
    destruct (Fin _ (csteps_sane _ _ _ R1 S)) as [g2 [R2 E2]]; [cbn in *; rewrite !upd_length; auto|right; reflexivity|]. exists g2. split; [eapply reach_trans; eauto|auto].
  - apply Fin; auto.
  - eexists. split; [apply reach_one, c_main, m_stop|reflexivity].
  - eexists. split; [constructor|reflexivity].
Qed.

(** After the stop flag is set a worker at rest can finish. *)
Lemma finish_one g i l b : nth_error (g_ws g) i = Some (Worker CheckStop false l b) -> g_stop g = true -> lock_free (g_ws g) = true -> exists w', w_pc w' = Done /\ alone g i w'.
Proof.
  intros E S L.
  assert (Wr : forall todo g0, nth_error (g_ws g0) i = Some (Worker (Writing true todo) false l b) -> alone g0 i (Worker Done false l [])).
  { induction todo as [|x r IH]; intros g0 E0.
    - eapply alone_step; [exact E0|apply w_finish|]. intros g1 _ _ E1. apply alone_zero. rewrite E1. eapply nth_upd_same; eauto.
    - eapply alone_step; [exact E0|apply w_write|]. intros g1 _ _ E1. apply IH. rewrite E1. eapply nth_upd_same; eauto. }
  exists (Worker Done false l []). split; [reflexivity|].
  eapply alone_step; [exact E|apply w_stop; auto|]. intros g1 _ S1 E1. assert (N1 : nth_error (g_ws g1) i = Some (Worker CheckWork false l b)) by (rewrite E1; eapply nth_upd_same; eauto).
  eapply alone_step; [exact N1|apply w_no|]. intros g2 _ S2 E2. assert (N2 : nth_error (g_ws g2) i = Some (Worker (WantLock true) false l b)) by (rewrite E2; eapply nth_upd_same; eauto).
  eapply alone_step; [exact N2|apply w_lock|].
  { apply lock_free_spec. intros j v Ej. rewrite E2, E1, upd_upd, (nth_error_upd' _ _ _ _ _ E) in Ej. destruct (Nat.eqb_spec i j); [inv Ej; reflexivity|]. exact (proj1 (lock_free_spec _) L j v Ej). }
  intros g3 _ _ E3. eapply Wr. rewrite E3. eapply nth_upd_same; eauto.
Qed.
Lemma finish_all lines : forall n g, sane lines g -> g_main g = Joining -> (forall i w, nth_error (g_ws g) i = Some w -> resting w) -> n <= length (g_ws g) ->
  exists g', reach g g' /\ g_main g' = Joining /\ length (g_ws g') = length (g_ws g) /\ (forall i w, nth_error (g_ws g') i = Some w -> resting w) /\ forall i w, i < n -> nth_error (g_ws g') i = Some w -> w_pc w = Done.
Proof.
  induction n as [|n IH]; intros g S M H N.
  - exists g. split; [constructor|]. repeat split; auto. lia.
  - destruct (IH g S M H ltac:(lia)) as [g1 [R1 [M1 [L1 [H1 D1]]]]]. pose proof (csteps_sane _ _ _ R1 S) as S1.
    destruct (nth_error (g_ws g1) n) as [w|] eqn:E; [|apply nth_error_None in E; lia].
    assert (X : exists w', w_pc w' = Done /\ alone g1 n w').
    { destruct (H1 n w E) as [[P K]|P].
      - destruct w as [pc k l b]. cbn in P, K. subst. apply (finish_one g1 n l b); auto.
        + destruct S1 as [_ [S1 _]]. rewrite M1 in S1. apply S1.
        + apply lock_free_spec. intros j v Ej. apply resting_quiet. eauto.
      - exists w. split; [exact P|apply alone_zero; auto]. }
    destruct X as [w' [P' [g2 [R2 [A1 [A2 [A3 [A4 A5]]]]]]]]. exists g2. split; [eapply reach_trans; eauto|]. split; [congruence|]. split; [rewrite A5, upd_length; auto|]. split.
    + intros i v Ei. rewrite A5, (nth_error_upd' _ _ _ _ _ E) in Ei. destruct (Nat.eqb_spec n i); [inv Ei; right; auto|eauto].
    + intros i v Hi Ei. rewrite A5, (nth_error_upd' _ _ _ _ _ E) in Ei. destruct (Nat.eqb_spec n i); [inv Ei; auto|]. apply (D1 i); auto. lia.
Qed.
Lemma can_finish lines g : sane lines g -> 0 < length (g_ws g) -> exists g', reach g g' /\ cfinal g'.
Proof.
  intros S N. destruct (can_join lines g S N) as [g1 [R1 M1]]. pose proof (csteps_sane _ _ _ R1 S) as S1.
  destruct (everyone_rests lines g1 S1) as [g2 [R2 [[M2 _] [L2 H2]]]]. pose proof (csteps_sane _ _ _ R2 S1) as S2.
  destruct (finish_all lines (length (g_ws g2)) g2 S2 ltac:(congruence) H2 (le_n _)) as [g3 [R3 [M3 [L3 [_ D3]]]]].
  exists g3. split; [eapply reach_trans; [exact R1|eapply reach_trans; eauto]|]. split; [exact M3|]. apply Forall_forall. intros w Hw. apply In_nth_error in Hw. destruct Hw as [i Ei].
  apply (D3 i w); auto. rewrite <- L3. apply nth_error_Some. congruence.
Qed.
End Compressor.
