(** C48: the parallel compressor (/repo/src/test/compress.cpp:32-183). *)
From Coq Require Import List Bool Arith Lia Permutation.
From Verif Require Import Arr CompressModel CompressProofs.
Import ListNotations.

(** Spec: the lines to be compressed, the first [maximum] of the input (0 stands for no limit). *)
Definition wanted {A} (maximum : nat) (lines : list A) : list A := if maximum =? 0 then lines else firstn maximum lines.
Lemma wanted_selected {A} maximum (lines : list A) : wanted maximum lines = selected maximum lines.
Proof. unfold wanted, selected. destruct maximum; reflexivity. Qed.

(** When all threads have ended, the file holds the record of every wanted line exactly once, each in one
    piece, and the list of compressions holds every wanted line exactly once. *)
Theorem compress_complete : forall {A B : Type} (record : A -> list B) (queue_size maximum n : nat) (lines : list A) g,
  csteps record queue_size maximum (cinit lines n) g -> cfinal g ->
  exists order, g_out g = concat (map record order) /\ Permutation order (wanted maximum lines) /\ Permutation (map snd (g_log g)) (wanted maximum lines).
Proof.
  intros A B record q m n lines g R F. rewrite wanted_selected. destruct (final_result record m lines g (csteps_sane record q m lines _ _ R (cinit_sane record m lines n)) F) as [order [E H]].
  exists order. rewrite E, flat_map_concat_map. auto.
Qed.
Print Assumptions compress_complete.

(** With distinct lines, no line is compressed by two workers. *)
Theorem compress_one_worker : forall {A B : Type} (record : A -> list B) (queue_size maximum n : nat) (lines : list A) g,
  csteps record queue_size maximum (cinit lines n) g -> NoDup lines ->
  forall i j l p q, nth_error (g_log g) p = Some (i, l) -> nth_error (g_log g) q = Some (j, l) -> p = q /\ i = j.
Proof.
  intros A B record q m n lines g R ND i j l x y Ex Ey.
  destruct (csteps_sane record q m lines _ _ R (cinit_sane record m lines n)) as [_ [_ [wr [_ [HL HP]]]]].
  assert (NS : NoDup (selected m lines)).
  { unfold selected. destruct m; [exact ND|]. rewrite <- (firstn_skipn (S m) lines) in ND. clear -ND. induction (firstn (S m) lines) as [|a r IH]; cbn in *; [constructor|]. inversion ND; subst. constructor; [intros X; apply H1, in_or_app; auto|auto]. }
  assert (NL : NoDup (map snd (g_log g))).
  { eapply Permutation_NoDup; [symmetry; exact HL|]. eapply Permutation_NoDup in NS; [|symmetry; exact HP]. rewrite app_assoc in NS. clear -NS. induction (wr ++ flat_map w_buf (g_ws g)) as [|a r IH]; [constructor|]. inversion NS; subst. constructor; [intros X; apply H1, in_or_app; auto|auto]. }
  assert (x = y). { apply (proj1 (NoDup_nth_error (map snd (g_log g))) NL). - rewrite map_length. apply nth_error_Some. congruence. - rewrite !nth_error_map, Ex, Ey. reflexivity. }
  subst. split; [reflexivity|congruence].
Qed.
Print Assumptions compress_one_worker.

(** At every moment the file holds whole records, followed by the begun part of one worker's buffer. *)
Theorem compress_contiguous : forall {A B : Type} (record : A -> list B) (queue_size maximum n : nat) (lines : list A) g,
  csteps record queue_size maximum (cinit lines n) g ->
  exists done part, g_out g = concat (map record done) ++ part /\ (exists rest, Permutation (done ++ rest) (wanted maximum lines)) /\
    (part = [] \/ exists i w last todo, nth_error (g_ws g) i = Some w /\ w_pc w = Writing last todo /\ part ++ todo = concat (map record (w_buf w))).
Proof.
  intros A B record q m n lines g R. rewrite wanted_selected.
  destruct (csteps_sane record q m lines _ _ R (cinit_sane record m lines n)) as [_ [_ [wr [[pre [P [F H]]] [_ HP]]]]].
  exists wr, pre. rewrite <- flat_map_concat_map. split; [exact P|]. split; [eexists; exact HP|].
  destruct (lock_free (g_ws g)) eqn:L; [left; auto|right]. unfold lock_free in L. apply negb_false_iff, existsb_exists in L. destruct L as [w [I W]]. apply In_nth_error in I. destruct I as [i E].
  unfold is_writing in W. destruct (w_pc w) as [| | | | | |last todo| | |] eqn:PW; try discriminate. destruct (H i w last todo E PW) as [H1 _].
  exists i, w, last, todo. rewrite <- flat_map_concat_map. auto.
Qed.
Print Assumptions compress_contiguous.

(** The main thread stores a line for a worker only while this worker is between two lines. *)
Theorem compress_no_overwrite : forall {A B : Type} (record : A -> list B) (queue_size maximum n : nat) (lines : list A) g,
  csteps record queue_size maximum (cinit lines n) g ->
  forall i l, g_main g = Assign i l -> exists w, nth_error (g_ws g) i = Some w /\ w_working w = false /\ (w_pc w = CheckStop \/ w_pc w = BodyCheck).
Proof.
  intros A B record q m n lines g R i l M. destruct (csteps_sane record q m lines _ _ R (cinit_sane record m lines n)) as [HW [HM _]].
  rewrite M in HM. cbn in HM. destruct HM as [Hs [_ [w [E K]]]]. exists w. split; [exact E|]. split; [exact K|]. specialize (HW i w E). rewrite Hs in HW. unfold wsane in HW. destruct (w_pc w); try destruct last; intuition congruence.
Qed.
Print Assumptions compress_no_overwrite.

(** No interleaving gets stuck: from every reachable state the end can be reached, if there is a worker. *)
Theorem compress_can_finish : forall {A B : Type} (record : A -> list B) (queue_size maximum n : nat) (lines : list A) g,
  0 < n -> csteps record queue_size maximum (cinit lines n) g -> exists g', csteps record queue_size maximum g g' /\ cfinal g'.
Proof.
  intros A B record q m n lines g N R. eapply (can_finish record q m lines).
  - eapply csteps_sane; [exact R|apply cinit_sane].
  - assert (L : forall g1 g2, csteps record q m g1 g2 -> length (g_ws g2) = length (g_ws g1)).
    { induction 1 as [|g1 g2 g3 St _ IH]; [reflexivity|]. rewrite IH. destruct St as [g0 g0' M|]; cbn; [destruct M; cbn; rewrite ?upd_length; reflexivity|apply upd_length]. }
    rewrite (L _ _ R). cbn. rewrite repeat_length. exact N.
Qed.
Print Assumptions compress_can_finish.

(** A concrete run: two workers, three lines of which two are wanted; worker 1 takes the second line while
    worker 0 is still busy.  The end exists, and its file holds both records. *)
Example compress_runs : exists g : gstate nat nat,
  csteps (fun l => [l; l + 100]) 1 2 (cinit [7; 8; 9] 2) g /\ cfinal g /\ (g_out g = [7; 107; 8; 108] \/ g_out g = [8; 108; 7; 107]).
Proof.
  destruct (compress_can_finish (fun l => [l; l + 100]) 1 2 2 [7; 8; 9] (cinit [7; 8; 9] 2) ltac:(lia) (cs_refl _ _ _ _)) as [g [R F]].
  exists g. split; [exact R|]. split; [exact F|]. destruct (compress_complete _ _ _ _ _ _ R F) as [order [E [P _]]]. cbn in P.
  apply Permutation_sym, Permutation_length_2_inv in P. destruct P as [-> | ->]; rewrite E; auto.
Qed.
Example compress_both_busy : exists g : gstate nat nat, csteps (fun l => [l; l + 100]) 1 2 (cinit [7; 8; 9] 2) g /\
  g_log g = [(1, 8)] /\ exists w, nth_error (g_ws g) 0 = Some w /\ w_pc w = Compress.
Proof.
  eexists. split; [|split].
  - eapply cs_step; [apply c_main, m_getline|]. eapply cs_step; [apply c_main; eapply m_free; reflexivity|]. eapply cs_step; [apply c_main; eapply m_assign; reflexivity|]. eapply cs_step; [apply c_main; eapply m_set; reflexivity|].
    eapply cs_step; [apply c_main; eapply m_more; lia|]. eapply cs_step; [eapply (c_worker _ _ _ 0); [reflexivity|apply w_go; reflexivity]|]. eapply cs_step; [eapply (c_worker _ _ _ 0); [reflexivity|apply w_busy]|].
    eapply cs_step; [apply c_main, m_getline|]. eapply cs_step; [apply c_main; eapply m_busy; reflexivity|]. eapply cs_step; [apply c_main; eapply m_free; reflexivity|]. eapply cs_step; [apply c_main; eapply m_assign; reflexivity|]. eapply cs_step; [apply c_main; eapply m_set; reflexivity|].
    eapply cs_step; [eapply (c_worker _ _ _ 1); [reflexivity|apply w_go; reflexivity]|]. eapply cs_step; [eapply (c_worker _ _ _ 1); [reflexivity|apply w_busy]|]. eapply cs_step; [eapply (c_worker _ _ _ 1); [reflexivity|apply w_compress]|]. apply cs_refl.
  - reflexivity.
  - eexists. split; reflexivity.
Qed.
Example compress_assigning : exists g : gstate nat nat, csteps (fun l => [l]) 1 0 (cinit [7] 1) g /\ g_main g = Assign 0 7.
Proof. eexists. split; [eapply cs_step; [apply c_main, m_getline|]; eapply cs_step; [apply c_main; eapply m_free; reflexivity|]; apply cs_refl|reflexivity]. Qed.
