(** Proofs about the parallel sampling. *)
From Coq Require Import List Bool Arith Lia Permutation.
From Verif Require Import Arr CompressProofs SampleModel.
Import ListNotations.

Section Sampling.
Context {A V : Type} (box : A -> list V) (n : nat).
Notation un := (unit_ A V). Notation st := (sstate A V).
Definition kept (input : list (A * bool)) : list A := map fst (filter snd input).
Definition held (u : un) : list V := u_vox u ++ flat_map box (u_lines u).

Definition usane (m : rpc A) (c : bool) (q : list A) (u : un) : Prop := match u_pc u with
  | UComplete | UWant => u_lines u = []
  | UEmpty => u_lines u = [] /\ c = true
  | UFetch _ | UProcess => True
  | UWantInsert | UInsert => u_lines u = [] /\ c = true /\ q = []
  | UDone => u_lines u = [] /\ u_vox u = [] /\ c = true /\ q = [] end.
Definition rsane (g : st) (inp : list (A * bool)) : Prop := exists pushed todo, length (pushed ++ todo) mod local_queue = 0 /\
  kept inp = pushed ++ todo ++ (match r_main g with RPush _ => [] | _ => r_buf g end) ++ kept (r_input g) /\
  Permutation (r_out g ++ flat_map held (r_us g) ++ flat_map box (r_queue g)) (flat_map box pushed) /\
  match r_main g with
  | RNext | RWait => todo = [] /\ length (r_buf g) < local_queue /\ r_complete g = false
  | RLock => todo = [] /\ length (r_buf g) = local_queue /\ r_complete g = false
  | RPush t => todo = t /\ r_complete g = false
  | RJoin => todo = [] /\ length (r_buf g) < local_queue /\ r_complete g = true /\ r_input g = [] end.
Definition lsane (m : rpc A) (us : list un) : Prop :=
  (pushing m = true -> forall i u, nth_error us i = Some u -> holding u = false) /\
  forall i j u v, nth_error us i = Some u -> nth_error us j = Some v -> holding u = true -> holding v = true -> i = j.
Definition ssane (inp : list (A * bool)) (g : st) : Prop :=
  (forall i u, nth_error (r_us g) i = Some u -> usane (r_main g) (r_complete g) (r_queue g) u) /\ lsane (r_main g) (r_us g) /\ rsane g inp.

Lemma free_spec (m : rpc A) (us : list un) : mutex_free m us = true <-> pushing m = false /\ forall i u, nth_error us i = Some u -> holding u = false.
Proof.
  unfold mutex_free. rewrite andb_true_iff, !negb_true_iff. split; intros [P H]; (split; [exact P|]).
  - intros i u E. destruct (holding u) eqn:W; auto. rewrite <- H. symmetry. apply existsb_exists. exists u. split; [eapply nth_error_In; eauto|auto].
  - destruct (existsb holding us) eqn:E; auto. apply existsb_exists in E. destruct E as [u [I W]]. apply In_nth_error in I. destruct I as [i I]. rewrite (H i u I) in W. discriminate.
Qed.
Ltac inv H := inversion H; subst; clear H.

Lemma reader_sane inp g g' : reader_step n g g' -> ssane inp g -> ssane inp g'.
Proof.
  intros St [HU [HL [pushed [todo [HM [HS [HP HX]]]]]]].
  inv St; cbn [r_main r_input r_buf r_queue r_complete r_us r_out] in *; unfold ssane; cbn [r_main r_input r_buf r_queue r_complete r_us r_out].
  - split; [exact HU|]. split; [exact HL|]. exists pushed, todo. cbn [r_main r_input r_buf r_queue r_complete r_us r_out]. auto.
  - split; [exact HU|]. split; [exact HL|]. exists pushed, todo. cbn [r_main r_input r_buf r_queue r_complete r_us r_out]. destruct HX as [-> [L C]].
    split; [exact HM|]. split; [rewrite HS; unfold kept; cbn; rewrite <- app_assoc; reflexivity|]. split; [exact HP|]. auto.
  - split; [exact HU|]. split; [exact HL|]. exists pushed, todo. cbn [r_main r_input r_buf r_queue r_complete r_us r_out]. destruct HX as [-> [L C]].
    split; [exact HM|]. split; [rewrite HS; unfold kept; cbn; rewrite <- app_assoc; reflexivity|]. split; [exact HP|]. split; [auto|]. split; [|auto]. rewrite app_length in *. cbn in *. lia.
  - apply free_spec in H. destruct H as [_ H]. split; [exact HU|]. split; [split; [auto|apply HL]|]. exists pushed, b. cbn [r_main r_input r_buf r_queue r_complete r_us r_out]. destruct HX as [-> [L C]].
    split; [rewrite app_nil_r in HM; rewrite app_length, L, Nat.add_mod, HM by (unfold local_queue; lia); reflexivity|]. split; [exact HS|]. split; [exact HP|]. auto.
  - destruct HX as [-> C]. split.
    { intros i u E. specialize (HU i u E). unfold usane in *. destruct (u_pc u); auto; intuition congruence. }
    split; [exact HL|]. exists (pushed ++ [x]), t. cbn [r_main r_input r_buf r_queue r_complete r_us r_out]. rewrite <- !app_assoc. cbn [app]. split; [exact HM|]. split; [exact HS|].
    split; [|auto]. rewrite !flat_map_app. cbn [flat_map]. rewrite !app_nil_r. rewrite !app_assoc. apply Permutation_app_tail. rewrite <- app_assoc. exact HP.
  - destruct HX as [-> C]. split; [exact HU|]. split; [split; [discriminate|apply HL]|]. exists pushed, []. cbn [r_main r_input r_buf r_queue r_complete r_us r_out].
    split; [exact HM|]. split; [exact HS|]. split; [exact HP|]. split; [auto|]. split; [cbn; unfold local_queue; lia|auto].
  - split; [exact HU|]. split; [exact HL|]. exists pushed, todo. cbn [r_main r_input r_buf r_queue r_complete r_us r_out]. auto.
  - destruct HX as [-> [L C]]. split.
    { intros i u E. specialize (HU i u E). unfold usane in *. subst c. destruct (u_pc u); auto; intuition congruence. }
    split; [exact HL|]. exists pushed, []. cbn [r_main r_input r_buf r_queue r_complete r_us r_out]. auto 12.
Qed.

Lemma unit_sane inp i u u' q q' add m r b c us o : nth_error us i = Some u -> unit_step box c (mutex_free m us) u q u' q' add ->
  ssane inp (R m r b q c us o) -> ssane inp (R m r b q' c (upd us i u') (o ++ add)).
Proof.
  intros E St [HU [HL [pushed [todo [HM [HS [HP HX]]]]]]]. cbn [r_main r_input r_buf r_queue r_complete r_us r_out] in *. pose proof (HU i u E) as Hi.
  assert (Q : q' = q \/ exists k, u_pc u = UFetch k).
  { inv St; auto; right; eexists; reflexivity. }
  assert (Pr : Permutation (add ++ held u' ++ flat_map box q') (held u ++ flat_map box q)).
  { inv St; unfold held, usane in *; cbn [u_vox u_lines app u_pc flat_map] in *; rewrite ?app_nil_r; auto.
    - rewrite flat_map_app. cbn [flat_map]. rewrite app_nil_r, <- !app_assoc. reflexivity.
    - rewrite <- !app_assoc. reflexivity.
    - destruct Hi as [-> _]. cbn. rewrite app_nil_r. reflexivity. }
  split; [|split].
  - intros j v Ej. cbn [r_main r_input r_buf r_queue r_complete r_us r_out] in *. rewrite (nth_error_upd' _ _ _ _ _ E) in Ej. destruct (Nat.eqb_spec i j) as [<-|N].
    + inv Ej. clear HU. inv St; unfold usane in *; cbn [u_pc u_lines u_vox] in *; auto; intuition (congruence || auto).
    + specialize (HU j v Ej). destruct Q as [->|[k Q]]; [exact HU|]. unfold usane in *. destruct (u_pc v) eqn:Pv; auto.
      * destruct HU as [? [? ?]]. subst q. inv St; auto; discriminate.
      * destruct HU as [? [? ?]]. subst q. inv St; auto; discriminate.
      * destruct HU as [? [? [? ?]]]. subst q. inv St; auto; discriminate.
  - cbn [r_main r_us]. destruct HL as [HL1 HL2].
    assert (Hold : holding u' = true -> holding u = true \/ mutex_free m us = true).
    { intros Hh. inv St; cbn in Hh; try discriminate; cbn; auto. }
    split.
    + intros Pm j v Ej. rewrite (nth_error_upd' _ _ _ _ _ E) in Ej. destruct (Nat.eqb_spec i j) as [<-|N]; [|eauto]. inv Ej. destruct (holding v) eqn:Hv; auto.
      destruct (Hold eq_refl) as [X|X]; [rewrite (HL1 Pm i u E) in X; discriminate|]. apply free_spec in X. destruct X. congruence.
    + intros j k v w Ej Ek Hv Hw. rewrite (nth_error_upd' _ _ _ _ _ E) in Ej. rewrite (nth_error_upd' _ _ _ _ _ E) in Ek. destruct (Nat.eqb_spec i j) as [<-|N1], (Nat.eqb_spec i k) as [<-|N2]; auto.
      * inv Ej. destruct (Hold Hv) as [X|X]; [eauto|]. apply free_spec in X. rewrite (proj2 X k w Ek) in Hw. discriminate.
      * inv Ek. destruct (Hold Hw) as [X|X]; [eauto|]. apply free_spec in X. rewrite (proj2 X j v Ej) in Hv. discriminate.
      * eauto.
  - exists pushed, todo. cbn [r_main r_input r_buf r_queue r_complete r_us r_out]. split; [exact HM|]. split; [exact HS|]. split; [|exact HX].
    destruct (flat_upd_perm held us i u u' E) as [X [X1 X2]]. rewrite X2. rewrite X1 in HP. rewrite <- HP. rewrite <- !app_assoc. apply Permutation_app_head.
    transitivity ((add ++ held u' ++ flat_map box q') ++ X).
    { rewrite <- !app_assoc. apply Permutation_app_head, Permutation_app_head, Permutation_app_comm. }
    rewrite Pr, <- app_assoc. apply Permutation_app_head, Permutation_app_comm.
Qed.
Lemma sstep_sane inp g g' : sstep box n g g' -> ssane inp g -> ssane inp g'.
Proof. intros [g0 g1 M|]; [apply reader_sane; exact M|eapply unit_sane; eauto]. Qed.
Lemma ssteps_sane inp g g' : ssteps box n g g' -> ssane inp g -> ssane inp g'.
Proof. induction 1; auto. intros. apply IHssteps. eapply sstep_sane; eauto. Qed.
Lemma sinit_sane input k : ssane input (sinit input k).
Proof.
  unfold ssane, sinit. cbn [r_main r_input r_buf r_queue r_complete r_us r_out]. split; [|split; [split|]].
  - intros i u E. apply nth_error_In, repeat_spec in E. subst. reflexivity.
  - discriminate.
  - intros i j u v E _ H. apply nth_error_In, repeat_spec in E. subst. discriminate.
  - exists [], []. cbn [r_main r_input r_buf r_queue r_complete r_us r_out app length]. assert (E : flat_map held (repeat (Unit_ UComplete [] []) k) = []) by (induction k; cbn; auto).
    rewrite E. repeat split; auto. unfold local_queue. cbn. lia.
Qed.

Lemma sample_final inp g : ssane inp g -> sfinal g -> r_us g <> [] -> Permutation (r_out g) (flat_map box (firstn (length (kept inp) / local_queue * local_queue) (kept inp))).
Proof.
  intros [HU [HL [pushed [todo [HM [HS [HP HX]]]]]]] [FM FD] NE. rewrite FM in HX, HS. destruct HX as [-> [L [C I]]]. rewrite I in HS. cbn in HS. rewrite !app_nil_r in *. rewrite Forall_forall in FD.
  assert (D : forall u, In u (r_us g) -> held u = [] /\ r_queue g = []).
  { intros u Iu. apply In_nth_error in Iu as [i E]. specialize (HU i u E). unfold usane in HU. rewrite (FD u (nth_error_In _ _ E)) in HU. destruct HU as [E1 [E2 [_ E3]]]. unfold held. rewrite E1, E2. auto. }
  assert (N : flat_map held (r_us g) = []).
  { clear -D. induction (r_us g) as [|u r IH]; [reflexivity|]. cbn. rewrite (proj1 (D u (or_introl eq_refl))). apply IH. intros; apply D; right; auto. }
  assert (Qn : r_queue g = []) by (destruct (r_us g) as [|u r]; [congruence|]; apply (D u); left; auto).
  assert (F : firstn (length (kept inp) / local_queue * local_queue) (kept inp) = pushed).
  { pose proof (Nat.div_mod (length pushed) local_queue ltac:(unfold local_queue; lia)) as Dm. rewrite HM, Nat.add_0_r in Dm.
    assert (Q : length (kept inp) / local_queue = length pushed / local_queue).
    { rewrite HS, app_length. rewrite Dm at 1. rewrite Nat.mul_comm, Nat.add_comm, Nat.div_add by (unfold local_queue; lia). rewrite (Nat.div_small (length (r_buf g))) by exact L. reflexivity. }
    rewrite Q. replace (length pushed / local_queue * local_queue) with (length pushed) by lia. rewrite HS, firstn_app, Nat.sub_diag, firstn_all. cbn. apply app_nil_r. }
  rewrite F, <- HP, N, Qn. cbn. rewrite app_nil_r. reflexivity.
Qed.

(** ** The end can always be reached *)
Notation reach := (ssteps box n).
Lemma sreach_trans g1 g2 g3 : reach g1 g2 -> reach g2 g3 -> reach g1 g3.
Proof. induction 1; auto. intros. econstructor; eauto. Qed.
Lemma sreach_one g1 g2 : sstep box n g1 g2 -> reach g1 g2.
Proof. intros. econstructor; eauto. constructor. Qed.
Definition calm (u : un) : Prop := (u_pc u = UComplete /\ u_lines u = []) \/ u_pc u = UDone.
Lemma calm_free u : calm u -> holding u = false.
Proof. intros [[P _]|P]; unfold holding; rewrite P; reflexivity. Qed.
Lemma un_same (us : list un) i w v : nth_error us i = Some w -> nth_error (upd us i v) i = Some v.
Proof. intros E. rewrite (nth_error_upd' _ _ _ _ _ E), Nat.eqb_refl. reflexivity. Qed.
Definition quiet_others (us : list un) (i : nat) : Prop := forall j v, nth_error us j = Some v -> j <> i -> holding v = false.
Lemma free_me m us i u : pushing m = false -> nth_error us i = Some u -> holding u = false -> quiet_others us i -> mutex_free m us = true.
Proof. intros P E H O. apply free_spec. split; [exact P|]. intros j v Ej. destruct (Nat.eq_dec j i) as [->|N]; [congruence|eauto]. Qed.

(** One worker runs while the others stand still. *)
Lemma one_step i u u' q q' add m r b c us o g2 : nth_error us i = Some u -> unit_step box c (mutex_free m us) u q u' q' add -> reach (R m r b q' c (upd us i u') (o ++ add)) g2 -> reach (R m r b q c us o) g2.
Proof. intros E St H. econstructor; [eapply s_unit; eauto|exact H]. Qed.

Definition ends (i : nat) (m : rpc A) r b c (us : list un) (g' : st) (q : list A) : Prop :=
  exists q' u' o', g' = R m r b q' c (upd us i u') o' /\ calm u' /\ length q' <= length q.
Lemma run_process i m r b c l : forall us q o v, nth_error us i = Some (Unit_ UProcess l v) -> exists g', reach (R m r b q c us o) g' /\ ends i m r b c us g' q.
Proof.
  induction l as [|x l IH]; intros us q o v E.
  - eexists. split; [eapply one_step; [exact E|apply u_again|constructor]|]. eexists q, _, _. split; [reflexivity|]. split; [left; auto|lia].
  - destruct (IH (upd us i (Unit_ UProcess l (v ++ box x))) q (o ++ []) (v ++ box x)) as [g' [Rg [q' [u' [o' [Eg [Cu Lq]]]]]]]; [eapply un_same; eauto|].
    exists g'. split; [eapply one_step; [exact E|apply u_process|exact Rg]|]. exists q', u', o'. rewrite Eg, upd_upd. auto.
Qed.
Lemma run_fetch i m r b c : forall k j us q o l v, j + k = local_queue -> nth_error us i = Some (Unit_ (UFetch j) l v) ->
  exists g', reach (R m r b q c us o) g' /\ exists q' u' o', g' = R m r b q' c (upd us i u') o' /\ calm u' /\ length q' <= length q - (if k =? 0 then 0 else 1).
Proof.
  induction k as [|k IH]; intros j us q o l v J E.
  - destruct (run_process i m r b c l (upd us i (Unit_ UProcess l v)) q (o ++ []) v) as [g' [Rg [q' [u' [o' [Eg [Cu Lq]]]]]]]; [eapply un_same; eauto|].
    exists g'. split; [eapply one_step; [exact E|apply u_enough; lia|exact Rg]|]. exists q', u', o'. rewrite Eg, upd_upd. cbn. split; [auto|]. split; [auto|lia].
  - destruct q as [|x q].
    + destruct (run_process i m r b c l (upd us i (Unit_ UProcess l v)) [] (o ++ []) v) as [g' [Rg [q' [u' [o' [Eg [Cu Lq]]]]]]]; [eapply un_same; eauto|].
      exists g'. split; [eapply one_step; [exact E|apply u_break; lia|exact Rg]|]. exists q', u', o'. rewrite Eg, upd_upd. cbn in *. split; [auto|]. split; [auto|lia].
    + destruct (IH (S j) (upd us i (Unit_ (UFetch (S j)) (l ++ [x]) v)) q (o ++ []) (l ++ [x]) v) as [g' [Rg [q' [u' [o' [Eg [Cu Lq]]]]]]]; [lia|eapply un_same; eauto|].
      exists g'. split; [eapply one_step; [exact E|apply u_fetch; lia|exact Rg]|]. exists q', u', o'. rewrite Eg, upd_upd. cbn. split; [auto|]. split; [auto|]. destruct (k =? 0); lia.
Qed.
Lemma run_want i m r b c us q o l v : pushing m = false -> nth_error us i = Some (Unit_ UWant l v) -> quiet_others us i ->
  exists g', reach (R m r b q c us o) g' /\ exists q' u' o', g' = R m r b q' c (upd us i u') o' /\ calm u' /\ length q' <= length q - 1.
Proof.
  intros P E O. destruct (run_fetch i m r b c local_queue 0 (upd us i (Unit_ (UFetch 0) l v)) q (o ++ []) l v) as [g' [Rg [q' [u' [o' [Eg [Cu Lq]]]]]]]; [lia|eapply un_same; eauto|].
  exists g'. split; [eapply one_step; [exact E|apply u_lock; eapply free_me; eauto|exact Rg]|]. exists q', u', o'. rewrite Eg, upd_upd. auto.
Qed.
Lemma run_insert i m r b c us q o l v : nth_error us i = Some (Unit_ UInsert l v) -> exists g', reach (R m r b q c us o) g' /\ ends i m r b c us g' q.
Proof. intros E. eexists. split; [eapply one_step; [exact E|apply u_insert|constructor]|]. eexists q, _, _. split; [reflexivity|]. split; [right; auto|lia]. Qed.

(** The holder of the mutex lets it go. *)
Lemma unit_rest inp i m r b c us q o u : ssane inp (R m r b q c us o) -> nth_error us i = Some u -> (holding u = true \/ (pushing m = false /\ quiet_others us i)) ->
  exists g', reach (R m r b q c us o) g' /\ ends i m r b c us g' q.
Proof.
  intros S E H. destruct S as [HU _]. specialize (HU i u E). cbn in HU. destruct u as [pc l v]. unfold usane in HU. cbn [u_pc u_lines u_vox] in HU. destruct pc.
  - exists (R m r b q c us o). split; [constructor|]. exists q, (Unit_ UComplete l v), o. rewrite (upd_same _ _ _ E). split; [reflexivity|]. split; [left; auto|lia].
  - destruct HU as [-> ->]. destruct H as [H|[P O]]; [discriminate|]. destruct q as [|x q].
    + eexists. split.
      * eapply one_step; [exact E|apply u_end|]. eapply one_step; [eapply un_same; eauto|apply u_lock2|]. { eapply (free_me m _ i); [auto|eapply un_same; eauto|reflexivity|]. intros j w Ej Nj. rewrite (nth_error_upd' _ _ _ _ _ E) in Ej. destruct (Nat.eqb_spec i j); [congruence|eauto]. }
        eapply one_step; [eapply un_same, un_same; eauto|apply u_insert|constructor].
      * eexists [], _, _. rewrite !upd_upd. split; [reflexivity|]. split; [right; reflexivity|lia].
    + destruct (run_want i m r b true (upd us i (Unit_ UWant [] v)) (x :: q) (o ++ []) [] v) as [g' [Rg [q' [u' [o' [Eg [Cu Lq]]]]]]]; [auto|eapply un_same; eauto| |].
      { intros j w Ej Nj. rewrite (nth_error_upd' _ _ _ _ _ E) in Ej. destruct (Nat.eqb_spec i j); [congruence|eauto]. }
      exists g'. split; [eapply one_step; [exact E|apply u_rest|exact Rg]|]. exists q', u', o'. rewrite Eg, upd_upd. split; [auto|]. split; [auto|lia].
  - destruct H as [H|[P O]]; [discriminate|]. destruct (run_want i m r b c us q o l v P E O) as [g' [Rg [q' [u' [o' [Eg [Cu Lq]]]]]]]. exists g'. split; [exact Rg|]. exists q', u', o'. split; [auto|]. split; [auto|lia].
  - destruct (le_lt_dec local_queue i0) as [Hi|Hi].
    + destruct (run_process i m r b c l (upd us i (Unit_ UProcess l v)) q (o ++ []) v) as [g' [Rg [q' [u' [o' [Eg [Cu Lq]]]]]]]; [eapply un_same; eauto|].
      exists g'. split; [eapply one_step; [exact E|apply u_enough; lia|exact Rg]|]. exists q', u', o'. rewrite Eg, upd_upd. auto.
    + destruct (run_fetch i m r b c (local_queue - i0) i0 us q o l v ltac:(lia) E) as [g' [Rg [q' [u' [o' [Eg [Cu Lq]]]]]]]. exists g'. split; [exact Rg|]. exists q', u', o'. split; [auto|]. split; [auto|lia].
  - eapply run_process; eauto.
  - destruct H as [H|[P O]]; [discriminate|]. destruct (run_insert i m r b c (upd us i (Unit_ UInsert l v)) q (o ++ []) l v) as [g' [Rg [q' [u' [o' [Eg [Cu Lq]]]]]]]; [eapply un_same; eauto|].
    exists g'. split; [eapply one_step; [exact E|apply u_lock2; eapply free_me; eauto|exact Rg]|]. exists q', u', o'. rewrite Eg, upd_upd. auto.
  - eapply run_insert; eauto.
  - exists (R m r b q c us o). split; [constructor|]. exists q, (Unit_ UDone l v), o. rewrite (upd_same _ _ _ E). split; [reflexivity|]. split; [right; auto|lia].
Qed.

Definition same_reader (g g' : st) : Prop := r_main g' = r_main g /\ r_input g' = r_input g /\ r_buf g' = r_buf g /\ r_complete g' = r_complete g /\ length (r_us g') = length (r_us g) /\ length (r_queue g') <= length (r_queue g).
Lemma same_refl g : same_reader g g. Proof. repeat split; auto. Qed.
Lemma same_trans a b c : same_reader a b -> same_reader b c -> same_reader a c.
Proof. intros [? [? [? [? [? ?]]]]] [? [? [? [? [? ?]]]]]. repeat split; congruence || lia. Qed.
Lemma ends_same i m r b c us q o g' : ends i m r b c us g' q -> same_reader (R m r b q c us o) g'.
Proof. intros [q' [u' [o' [-> [_ L]]]]]. repeat split; cbn; auto. apply upd_length. Qed.

Lemma nobody_holds inp g : ssane inp g -> pushing (r_main g) = false -> exists g', reach g g' /\ same_reader g g' /\ mutex_free (r_main g') (r_us g') = true.
Proof.
  intros S P. destruct (mutex_free (r_main g) (r_us g)) eqn:F; [exists g; split; [constructor|]; split; [apply same_refl|auto]|].
  unfold mutex_free in F. rewrite P in F. cbn in F. apply negb_false_iff, existsb_exists in F. destruct F as [u [I H]]. apply In_nth_error in I. destruct I as [i E].
  destruct g as [m r b q c us o]. cbn in *. destruct (unit_rest inp i m r b c us q o u S E (or_introl H)) as [g' [Rg En]]. exists g'. split; [exact Rg|]. split; [eapply ends_same; eauto|].
  destruct En as [q' [u' [o' [-> [Cu _]]]]]. cbn. apply free_spec. split; [auto|]. intros j v Ej. rewrite (nth_error_upd' _ _ _ _ _ E) in Ej. destruct (Nat.eqb_spec i j) as [<-|N]; [inv Ej; apply calm_free; auto|].
  destruct (holding v) eqn:Hv; auto. exfalso. apply N. destruct S as [_ [[_ HL] _]]. cbn in HL. eapply HL; eauto.
Qed.
Lemma units_rest inp : forall k g, ssane inp g -> mutex_free (r_main g) (r_us g) = true -> k <= length (r_us g) ->
  exists g', reach g g' /\ same_reader g g' /\ mutex_free (r_main g') (r_us g') = true /\ forall i u, i < k -> nth_error (r_us g') i = Some u -> calm u.
Proof.
  induction k as [|k IH]; intros g S F K.
  - exists g. split; [constructor|]. split; [apply same_refl|]. split; [auto|lia].
  - destruct (IH g S F ltac:(lia)) as [g1 [R1 [M1 [F1 H1]]]]. pose proof (ssteps_sane _ _ _ R1 S) as S1.
    destruct g1 as [m r b q c us o]. cbn in *. destruct (nth_error us k) as [u|] eqn:E; [|apply nth_error_None in E; destruct M1 as [_ [_ [_ [_ [M1 _]]]]]; cbn in M1; lia].
    apply free_spec in F1. destruct F1 as [P1 F1].
    destruct (unit_rest inp k m r b c us q o u S1 E) as [g2 [R2 En]]. { right. split; [auto|]. intros j v Ej _. eauto. }
    exists g2. split; [eapply sreach_trans; eauto|]. split; [eapply same_trans; [exact M1|eapply ends_same; eauto]|]. destruct En as [q' [u' [o' [-> [Cu _]]]]]. cbn. split.
    + apply free_spec. split; [auto|]. intros j v Ej. rewrite (nth_error_upd' _ _ _ _ _ E) in Ej. destruct (Nat.eqb_spec k j); [inv Ej; apply calm_free; auto|eauto].
    + intros i v Hi Ei. rewrite (nth_error_upd' _ _ _ _ _ E) in Ei. destruct (Nat.eqb_spec k i); [inv Ei; auto|]. apply (H1 i); auto. lia.
Qed.
Lemma all_calm inp g : ssane inp g -> pushing (r_main g) = false -> exists g', reach g g' /\ same_reader g g' /\ forall i u, nth_error (r_us g') i = Some u -> calm u.
Proof.
  intros S P. destruct (nobody_holds inp g S P) as [g1 [R1 [M1 F1]]]. destruct (units_rest inp (length (r_us g1)) g1 (ssteps_sane _ _ _ R1 S) F1 (le_n _)) as [g2 [R2 [M2 [F2 H2]]]].
  exists g2. split; [eapply sreach_trans; eauto|]. split; [eapply same_trans; eauto|]. intros i u E. eapply H2; eauto. destruct M2 as [_ [_ [_ [_ [M2 _]]]]]. rewrite <- M2. apply nth_error_Some. congruence.
Qed.

(** The workers empty the queue. *)
Lemma drain inp : forall k g, length (r_queue g) <= k -> ssane inp g -> pushing (r_main g) = false -> 0 < length (r_us g) ->
  exists g', reach g g' /\ same_reader g g' /\ (forall i u, nth_error (r_us g') i = Some u -> calm u) /\ r_queue g' = [].
Proof.
  induction k as [|k IH]; intros g K S P N; destruct (all_calm inp g S P) as [g1 [R1 [M1 C1]]].
  - exists g1. split; [auto|]. split; [auto|]. split; [auto|]. destruct M1 as [_ [_ [_ [_ [_ M1]]]]]. destruct (r_queue g1); [auto|cbn in M1; lia].
  - pose proof (ssteps_sane _ _ _ R1 S) as S1. destruct g1 as [m r b q c us o]. pose proof M1 as [E1 [E2 [E3 [E4 [E5 E6]]]]]. cbn in C1, E1, E2, E3, E4, E5, E6.
    destruct q as [|x q]; [eexists; split; [exact R1|]; split; [exact M1|]; split; [exact C1|reflexivity]|].
    destruct us as [|u us]; [cbn in E5; lia|]. destruct (C1 0 u eq_refl) as [[Pu Lu]|Pu].
    + destruct u as [pc l v]. cbn in Pu, Lu. subst pc l.
      assert (Pm : pushing m = false) by congruence.
      assert (X : exists g2, reach (R m r b (x :: q) c (Unit_ UComplete [] v :: us) o) g2 /\ exists q' u' o', g2 = R m r b q' c (upd (Unit_ UComplete [] v :: us) 0 u') o' /\ calm u' /\ length q' <= length q).
      { assert (O : forall w, quiet_others (upd (Unit_ UComplete [] v :: us) 0 w) 0). { intros w [|j] t Ej Nj; [congruence|]. cbn in Ej. apply calm_free. apply (C1 (Datatypes.S j)). exact Ej. }
        destruct c.
        - destruct (run_want 0 m r b true (upd (upd (Unit_ UComplete [] v :: us) 0 (Unit_ UEmpty [] v)) 0 (Unit_ UWant [] v)) (x :: q) ((o ++ []) ++ []) [] v Pm eq_refl) as [g2 [R2 [q' [u' [o' [Eg [Cu Lq]]]]]]]; [rewrite upd_upd; apply O|].
          exists g2. split; [eapply (one_step 0); [reflexivity|apply u_last; auto|]; eapply (one_step 0); [reflexivity|apply u_rest|exact R2]|]. exists q', u', o'. rewrite Eg, !upd_upd. cbn in Lq. split; [auto|]. split; [auto|lia].
        - destruct (run_want 0 m r b false (upd (Unit_ UComplete [] v :: us) 0 (Unit_ UWant [] v)) (x :: q) (o ++ []) [] v Pm eq_refl (O _)) as [g2 [R2 [q' [u' [o' [Eg [Cu Lq]]]]]]].
          exists g2. split; [eapply (one_step 0); [reflexivity|apply u_more; auto|exact R2]|]. exists q', u', o'. rewrite Eg, !upd_upd. cbn in Lq. split; [auto|]. split; [auto|lia]. }
      destruct X as [g2 [R2 [q' [u' [o' [Eg [Cu Lq]]]]]]]. pose proof (sreach_trans _ _ _ R1 R2) as R12.
      assert (M2 : same_reader g g2). { rewrite Eg. cbn in *. repeat split; cbn; auto; try congruence. lia. }
      destruct (IH g2) as [g3 [R3 [M3 [C3 Q3]]]].
      * rewrite Eg. cbn. cbn in E6. lia.
      * eapply ssteps_sane; eauto.
      * destruct M2 as [M2 _]. rewrite M2. auto.
      * destruct M2 as [_ [_ [_ [_ [M2 _]]]]]. lia.
      * exists g3. split; [eapply sreach_trans; eauto|]. split; [eapply same_trans; eauto|]. auto.
    + exfalso. destruct S1 as [HU _]. specialize (HU 0 u eq_refl). unfold usane in HU. rewrite Pu in HU. cbn in HU. destruct HU as [_ [_ [_ HU]]]. discriminate.
Qed.

(** The reader comes to its end. *)
Definition keeps (g g' : st) : Prop := length (r_us g') = length (r_us g).
Lemma finish_push inp : forall t g, ssane inp g -> r_main g = RPush t -> exists g', reach g g' /\ r_main g' = RWait /\ r_input g' = r_input g /\ keeps g g'.
Proof.
  induction t as [|x t IH]; intros [m r b q c us o] S M; cbn in M; subst m.
  - eexists. split; [apply sreach_one, s_reader, r_unlock|]. repeat split.
  - destruct (IH (R (RPush t) r b (q ++ [x]) c us o)) as [g' [Rg [E1 [E2 E3]]]]; [eapply sstep_sane; [apply s_reader, r_push|exact S]|reflexivity|].
    exists g'. split; [eapply ss_step; [apply s_reader, r_push|exact Rg]|]. auto.
Qed.
Lemma reader_ends inp : forall k g, length (r_input g) = k -> ssane inp g -> r_main g = RNext -> 0 < length (r_us g) -> exists g', reach g g' /\ r_main g' = RJoin /\ keeps g g'.
Proof.
  induction k as [|k IH]; intros g K S M N.
  - destruct g as [m r b q c us o]. cbn in *. subst m. destruct r; [|discriminate]. eexists. split; [apply sreach_one, s_reader, r_eof|]. split; reflexivity.
  - assert (W : forall g1, ssane inp g1 -> r_main g1 = RWait -> length (r_input g1) = k -> 0 < length (r_us g1) -> exists g', reach g1 g' /\ r_main g' = RJoin /\ keeps g1 g').
    { intros g1 S1 M1 K1 N1. destruct (drain inp _ g1 (le_n _) S1 ltac:(rewrite M1; reflexivity) N1) as [g2 [R2 [[A1 [A2 [A3 [A4 [A5 A6]]]]] [C2 Q2]]]].
      destruct g2 as [m r b q c us o]. cbn in A1, A2, A3, A4, A5, A6, C2, Q2. rewrite M1 in A1. subst m q.
      assert (R3 : reach (R RWait r b [] c us o) (R RNext r b [] c us o)) by (apply sreach_one, s_reader, r_wait; cbn; lia).
      pose proof (sreach_trans _ _ _ R2 R3) as R23. destruct (IH (R RNext r b [] c us o)) as [g4 [R4 [M4 K4]]]; [cbn; congruence|eapply ssteps_sane; eauto|reflexivity|cbn; lia|].
      exists g4. split; [eapply sreach_trans; eauto|]. split; [auto|]. unfold keeps in *. cbn in K4. congruence. }
    destruct g as [m r b q c us o]. cbn in K, M, N. subst m. destruct r as [|[l s] r]; [discriminate|]. cbn in K. destruct s.
    + destruct (Nat.eq_dec (length (b ++ [l])) local_queue) as [F|F].
      * assert (R1 : reach (R RNext ((l, true) :: r) b q c us o) (R RLock r (b ++ [l]) q c us o)) by (apply sreach_one, s_reader, r_full; auto).
        pose proof (ssteps_sane _ _ _ R1 S) as S1. destruct (nobody_holds inp _ S1 eq_refl) as [g2 [R2 [[A1 [A2 [A3 [A4 [A5 A6]]]]] F2]]]. destruct g2 as [m2 r2 b2 q2 c2 us2 o2]. cbn in A1, A2, A3, A4, A5, A6, F2. subst m2 r2 b2 c2.
        assert (R3 : reach (R RLock r (b ++ [l]) q2 c us2 o2) (R (RPush (b ++ [l])) r (b ++ [l]) q2 c us2 o2)) by (apply sreach_one, s_reader, r_lock; auto).
        pose proof (sreach_trans _ _ _ R1 (sreach_trans _ _ _ R2 R3)) as R123. pose proof (ssteps_sane _ _ _ R123 S) as S3.
        destruct (finish_push inp _ _ S3 eq_refl) as [g4 [R4 [M4 [I4 K4]]]]. unfold keeps in K4. cbn in I4, K4.
        destruct (W g4) as [g5 [R5 [M5 K5]]]; [eapply ssteps_sane; eauto|auto|rewrite I4; lia|lia|]. exists g5. split; [eapply sreach_trans; [exact R123|eapply sreach_trans; eauto]|]. split; [auto|]. unfold keeps in *. cbn. lia.
      * assert (R1 : reach (R RNext ((l, true) :: r) b q c us o) (R RWait r (b ++ [l]) q c us o)) by (apply sreach_one, s_reader, r_keep; auto).
        destruct (W _ (ssteps_sane _ _ _ R1 S) eq_refl ltac:(cbn; lia) N) as [g5 [R5 [M5 K5]]]. exists g5. split; [eapply sreach_trans; eauto|]. auto.
    + assert (R1 : reach (R RNext ((l, false) :: r) b q c us o) (R RNext r b q c us o)) by (apply sreach_one, s_reader, r_skip).
      destruct (IH (R RNext r b q c us o)) as [g5 [R5 [M5 K5]]]; [cbn; lia|exact (ssteps_sane _ _ _ R1 S)|reflexivity|auto|]. exists g5. split; [eapply sreach_trans; eauto|]. auto.
Qed.
Lemma reader_next inp g : ssane inp g -> 0 < length (r_us g) -> exists g', reach g g' /\ (r_main g' = RNext \/ r_main g' = RJoin) /\ keeps g g'.
Proof.
  intros S N.
  assert (W : forall g1, ssane inp g1 -> r_main g1 = RWait -> 0 < length (r_us g1) -> exists g', reach g1 g' /\ (r_main g' = RNext \/ r_main g' = RJoin) /\ keeps g1 g').
  { intros g1 S1 M1 N1. destruct (drain inp _ g1 (le_n _) S1 ltac:(rewrite M1; reflexivity) N1) as [g2 [R2 [[A1 [A2 [A3 [A4 [A5 A6]]]]] [C2 Q2]]]].
    destruct g2 as [m r b q c us o]. cbn in A1, A2, A3, A4, A5, A6, C2, Q2. rewrite M1 in A1. subst m q. exists (R RNext r b [] c us o). split; [eapply sreach_trans; [exact R2|apply sreach_one, s_reader, r_wait; cbn; lia]|]. auto. }
  assert (Pu : forall g1 t, ssane inp g1 -> r_main g1 = RPush t -> 0 < length (r_us g1) -> exists g', reach g1 g' /\ (r_main g' = RNext \/ r_main g' = RJoin) /\ keeps g1 g').
  { intros g1 t S1 M1 N1. destruct (finish_push inp t g1 S1 M1) as [g2 [R2 [M2 [I2 K2]]]]. destruct (W g2) as [g3 [R3 [M3 K3]]]; [eapply ssteps_sane; eauto|auto|unfold keeps in K2; lia|].
    exists g3. split; [eapply sreach_trans; eauto|]. split; [auto|]. unfold keeps in *. lia. }
  destruct (r_main g) eqn:M.
  - exists g. split; [constructor|]. split; [auto|reflexivity].
  - destruct (nobody_holds inp g S ltac:(rewrite M; reflexivity)) as [g2 [R2 [[A1 [A2 [A3 [A4 [A5 A6]]]]] F2]]]. destruct g2 as [m2 r2 b2 q2 c2 us2 o2]. cbn in A1, A2, A3, A4, A5, A6, F2. rewrite M in A1. subst m2.
    assert (R3 : reach (R RLock r2 b2 q2 c2 us2 o2) (R (RPush b2) r2 b2 q2 c2 us2 o2)) by (apply sreach_one, s_reader, r_lock; auto).
    pose proof (sreach_trans _ _ _ R2 R3) as R23. destruct (Pu _ b2 (ssteps_sane _ _ _ R23 S) eq_refl) as [g4 [R4 [M4 K4]]]; [cbn; lia|]. exists g4. split; [eapply sreach_trans; eauto|]. split; [auto|]. unfold keeps in *. cbn in K4. lia.
  - eapply Pu; eauto.
  - apply W; auto.
  - exists g. split; [constructor|]. split; [auto|reflexivity].
Qed.

(** With everything read and the queue empty each worker can leave. *)
Lemma leave_one i r b us o v : nth_error us i = Some (Unit_ UComplete [] v) -> quiet_others us i -> exists o', reach (R RJoin r b [] true us o) (R RJoin r b [] true (upd us i (Unit_ UDone [] [])) o').
Proof.
  intros E O.
  eexists. eapply one_step; [exact E|apply u_last; auto|]. eapply one_step; [eapply un_same; eauto|apply u_end|]. rewrite upd_upd. eapply one_step; [eapply un_same; eauto|apply u_lock2|].
  { eapply (free_me RJoin _ i); [reflexivity|eapply un_same; eauto|reflexivity|]. intros j w Ej Nj. rewrite (nth_error_upd' _ _ _ _ _ E) in Ej. destruct (Nat.eqb_spec i j); [congruence|eauto]. }
  rewrite upd_upd. eapply one_step; [eapply un_same; eauto|apply u_insert|]. rewrite upd_upd. constructor.
Qed.
Lemma leave_all r b : forall k us o, (forall i u, nth_error us i = Some u -> calm u) -> k <= length us ->
  exists us' o', reach (R RJoin r b [] true us o) (R RJoin r b [] true us' o') /\ length us' = length us /\ (forall i u, nth_error us' i = Some u -> calm u) /\ forall i u, i < k -> nth_error us' i = Some u -> u_pc u = UDone.
Proof.
  induction k as [|k IH]; intros us o C K.
  - exists us, o. split; [constructor|]. split; [auto|]. split; [auto|lia].
  - destruct (IH us o C ltac:(lia)) as [us1 [o1 [R1 [L1 [C1 D1]]]]]. destruct (nth_error us1 k) as [u|] eqn:E; [|apply nth_error_None in E; lia].
    destruct (C1 k u E) as [[P L]|P].
    + destruct u as [pc l v]. cbn in P, L. subst. destruct (leave_one k r b us1 o1 v E) as [o2 R2]. { intros j w Ej _. apply calm_free. eauto. }
      eexists _, o2. split; [eapply sreach_trans; eauto|]. split; [rewrite upd_length; auto|]. split.
      * intros i u Ei. rewrite (nth_error_upd' _ _ _ _ _ E) in Ei. destruct (Nat.eqb_spec k i); [inv Ei; right; reflexivity|eauto].
      * intros i u Hi Ei. rewrite (nth_error_upd' _ _ _ _ _ E) in Ei. destruct (Nat.eqb_spec k i); [inv Ei; reflexivity|]. apply (D1 i); auto. lia.
    + exists us1, o1. split; [auto|]. split; [auto|]. split; [auto|]. intros i w Hi Ei. destruct (Nat.eq_dec i k) as [->|N]; [congruence|]. apply (D1 i); auto. lia.
Qed.
Lemma sample_can_end inp g : ssane inp g -> 0 < length (r_us g) -> exists g', reach g g' /\ sfinal g'.
Proof.
  intros S N. destruct (reader_next inp g S N) as [g1 [R1 [M1 K1]]]. pose proof (ssteps_sane _ _ _ R1 S) as S1. unfold keeps in K1.
  assert (X : exists g2, reach g1 g2 /\ r_main g2 = RJoin /\ keeps g1 g2). { destruct M1 as [M1|M1]; [eapply reader_ends; eauto; lia|]. exists g1. split; [constructor|]. split; [auto|reflexivity]. }
  destruct X as [g2 [R2 [M2 K2]]]. pose proof (ssteps_sane _ _ _ R2 S1) as S2. unfold keeps in K2.
  destruct (drain inp _ g2 (le_n _) S2 ltac:(rewrite M2; reflexivity) ltac:(lia)) as [g3 [R3 [[A1 [A2 [A3 [A4 [A5 A6]]]]] [C3 Q3]]]]. pose proof (ssteps_sane _ _ _ R3 S2) as S3.
  destruct g3 as [m r b q c us o]. cbn in A1, A2, A3, A4, A5, A6, C3, Q3. rewrite M2 in A1. subst m q.
  assert (c = true). { destruct S3 as [_ [_ [pu [to [_ [_ [_ HX]]]]]]]. cbn in HX. tauto. } rewrite H in *.
  destruct (leave_all r b (length us) us o C3 (le_n _)) as [us' [o' [R4 [L4 [C4 D4]]]]].
  eexists. split; [eapply sreach_trans; [exact R1|eapply sreach_trans; [exact R2|eapply sreach_trans; [exact R3|exact R4]]]|]. split; [reflexivity|]. cbn. apply Forall_forall. intros u Hu. apply In_nth_error in Hu. destruct Hu as [i Ei].
  apply (D4 i u); auto. rewrite <- L4. apply nth_error_Some. congruence.
Qed.
End Sampling.
