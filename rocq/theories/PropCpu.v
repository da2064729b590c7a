(** C206, C207: one thread at a time has the processor; who asks may have to wait for it. *)
From Coq Require Import List Bool Arith Lia.
From Verif Require Import CpuModel.
Import ListNotations.

(** ** Specification *)
(** A thread for which request_cpu has answered true and that has not called release_cpu yet. *)
Definition has_cpu (s : st) (t : nat) : Prop := thrs s t = Use.
(** A thread that cannot go on. *)
Definition blocked (s : st) (t : nat) : Prop := forall s', ~ step t s s'.

(** ** Invariant *)
Definition inside (p : place) : bool := match p with Out | WantLock => false | _ => true end.
Definition inv (s : st) : Prop :=
  (forall t, inside (thrs s t) = true <-> lock s = Some t) /\
  (busy s = true <-> exists t, thrs s t = Use) /\
  (forall t, thrs s t <> GiveUp).
Lemma setp_eq f t p : setp f t p t = p. Proof. unfold setp. rewrite Nat.eqb_refl. reflexivity. Qed.
Lemma setp_ne f t p u : u <> t -> setp f t p u = f u. Proof. unfold setp. intros H. destruct (Nat.eqb_spec u t); congruence. Qed.
Lemma start_inv : inv start.
Proof. split; [intros t; split; intros H; discriminate H|]. split; [split; [intros H; discriminate H|intros [t H]; discriminate H]|intros t H; discriminate H]. Qed.
Lemma step_inv t s s' : inv s -> step t s s' -> inv s'.
Proof.
  intros (A & B & C) H. destruct H as [l ts E|l ts E|b ts E|l ts E|l ts E|l b ts E|l b ts E|l b ts E|l b ts E]; cbn [lock busy thrs] in *.
  - (* no *) split; [|split].
    + intros u. cbn [thrs lock]. destruct (Nat.eq_dec u t) as [->|N]; [rewrite setp_eq, <- A, E; reflexivity|rewrite setp_ne by exact N; apply A].
    + split; [intros _|reflexivity]. destruct (proj1 B eq_refl) as [u U]. exists u. cbn [thrs]. rewrite setp_ne; [exact U|intros ->; congruence].
    + intros u. cbn [thrs]. destruct (Nat.eq_dec u t) as [->|N]; [rewrite setp_eq; discriminate|rewrite setp_ne by exact N; apply C].
  - (* try *) split; [|split].
    + intros u. cbn [thrs lock]. destruct (Nat.eq_dec u t) as [->|N]; [rewrite setp_eq, <- A, E; reflexivity|rewrite setp_ne by exact N; apply A].
    + cbn [busy thrs]. split; [intros X; discriminate X|]. intros [u U]. apply B. exists u. destruct (Nat.eq_dec u t) as [->|N]; [rewrite setp_eq in U; discriminate U|rewrite setp_ne in U by exact N; exact U].
    + intros u. cbn [thrs]. destruct (Nat.eq_dec u t) as [->|N]; [rewrite setp_eq; discriminate|rewrite setp_ne by exact N; apply C].
  - (* lock *) assert (Bf : b = false). { destruct b; [|reflexivity]. destruct (proj1 B eq_refl) as [u U]. specialize (A u). rewrite U in A. pose proof (proj1 A eq_refl) as X. discriminate X. }
    split; [|split].
    + intros u. cbn [thrs lock]. destruct (Nat.eq_dec u t) as [->|N]; [rewrite setp_eq; split; reflexivity|rewrite setp_ne by exact N]. rewrite A. split; [intros X; discriminate X|intros X; injection X as <-; congruence].
    + cbn [busy thrs]. rewrite Bf. split; [intros X; discriminate X|]. intros [u U]. rewrite <- Bf. apply B. exists u. destruct (Nat.eq_dec u t) as [->|N]; [rewrite setp_eq in U; discriminate U|rewrite setp_ne in U by exact N; exact U].
    + intros u. cbn [thrs]. destruct (Nat.eq_dec u t) as [->|N]; [rewrite setp_eq; discriminate|rewrite setp_ne by exact N; apply C].
  - (* free *) split; [|split].
    + intros u. cbn [thrs lock]. destruct (Nat.eq_dec u t) as [->|N]; [rewrite setp_eq, <- A, E; reflexivity|rewrite setp_ne by exact N; apply A].
    + cbn [busy thrs]. split; [intros X; discriminate X|]. intros [u U]. apply B. exists u. destruct (Nat.eq_dec u t) as [->|N]; [rewrite setp_eq in U; discriminate U|rewrite setp_ne in U by exact N; exact U].
    + intros u. cbn [thrs]. destruct (Nat.eq_dec u t) as [->|N]; [rewrite setp_eq; discriminate|rewrite setp_ne by exact N; apply C].
  - (* taken: never *) exfalso. destruct (proj1 B eq_refl) as [u U].
    assert (Lt : l = Some t) by (apply A; rewrite E; reflexivity). assert (Lu : l = Some u) by (apply A; rewrite U; reflexivity).
    rewrite Lt in Lu. injection Lu as ->. congruence.
  - (* set *) split; [|split].
    + intros u. cbn [thrs lock]. destruct (Nat.eq_dec u t) as [->|N]; [rewrite setp_eq, <- A, E; reflexivity|rewrite setp_ne by exact N; apply A].
    + cbn [busy thrs]. split; [intros _; exists t; apply setp_eq|reflexivity].
    + intros u. cbn [thrs]. destruct (Nat.eq_dec u t) as [->|N]; [rewrite setp_eq; discriminate|rewrite setp_ne by exact N; apply C].
  - (* give up: never *) exfalso. exact (C t E).
  - (* clear *) assert (Lt : l = Some t) by (apply A; rewrite E; reflexivity). split; [|split].
    + intros u. cbn [thrs lock]. destruct (Nat.eq_dec u t) as [->|N]; [rewrite setp_eq, <- A, E; reflexivity|rewrite setp_ne by exact N; apply A].
    + cbn [busy thrs]. split; [intros X; discriminate X|]. intros [u U]. exfalso. destruct (Nat.eq_dec u t) as [->|N]; [rewrite setp_eq in U; discriminate U|rewrite setp_ne in U by exact N].
      assert (Lu : l = Some u) by (apply A; rewrite U; reflexivity). congruence.
    + intros u. cbn [thrs]. destruct (Nat.eq_dec u t) as [->|N]; [rewrite setp_eq; discriminate|rewrite setp_ne by exact N; apply C].
  - (* unlock *) assert (Lt : l = Some t) by (apply A; rewrite E; reflexivity).
    assert (No : forall u, u <> t -> ts u <> Use). { intros u N U. assert (Lu : l = Some u) by (apply A; rewrite U; reflexivity). congruence. }
    split; [|split].
    + intros u. cbn [thrs lock]. destruct (Nat.eq_dec u t) as [->|N]; [rewrite setp_eq; split; intros X; discriminate X|rewrite setp_ne by exact N]. rewrite A, Lt. split; [intros X; injection X as ->; congruence|intros X; discriminate X].
    + cbn [busy thrs]. rewrite B. split; intros [u U].
      * destruct (Nat.eq_dec u t) as [->|N]; [congruence|destruct (No u N U)].
      * destruct (Nat.eq_dec u t) as [->|N]; [rewrite setp_eq in U; discriminate U|rewrite setp_ne in U by exact N; destruct (No u N U)].
    + intros u. cbn [thrs]. destruct (Nat.eq_dec u t) as [->|N]; [rewrite setp_eq; discriminate|rewrite setp_ne by exact N; apply C].
Qed.
Lemma steps_inv s : steps start s -> inv s.
Proof. intros H. remember start as s0 eqn:E. induction H as [s|s s' s'' t H IH St]; [subst; exact start_inv|]. exact (step_inv t s' s'' (IH E) St). Qed.

(** C206: whatever the threads do, at most one has the processor, and it is marked busy exactly then. *)
Theorem cpu_exclusive : forall s, steps start s ->
  (forall t u, has_cpu s t -> has_cpu s u -> t = u) /\ (busy s = true <-> exists t, has_cpu s t).
Proof.
  intros s H. destruct (steps_inv s H) as (A & B & C). split; [|exact B].
  intros t u T U. assert (L1 : lock s = Some t) by (apply A; unfold has_cpu in T; rewrite T; reflexivity).
  assert (L2 : lock s = Some u) by (apply A; unfold has_cpu in U; rewrite U; reflexivity). congruence.
Qed.
Print Assumptions cpu_exclusive.
(** Who has passed the first test does not get false any more: the second test never fails. *)
Theorem cpu_second_test : forall s t, steps start s -> thrs s t <> GiveUp /\ (thrs s t = Check -> busy s = false).
Proof.
  intros s t H. destruct (steps_inv s H) as (A & B & C). split; [apply C|]. intros K.
  destruct (busy s) eqn:E; [|reflexivity]. destruct (proj1 B eq_refl) as [u U].
  assert (L1 : lock s = Some t) by (apply A; rewrite K; reflexivity). assert (L2 : lock s = Some u) by (apply A; rewrite U; reflexivity). congruence.
Qed.
Print Assumptions cpu_second_test.

(** C207: request_cpu looks at cpu_busy in order not to wait, and yet may wait: a thread that asked
    while the processor was free is blocked as long as another one computes. *)
Theorem cpu_no_wait_refuted : exists s t u, steps start s /\ has_cpu s t /\ t <> u /\ thrs s u = WantLock /\ blocked s u.
Proof.
  exists (St (Some 0) true (setp (setp (setp (setp (setp (fun _ => Out) 0 WantLock) 1 WantLock) 0 Check) 0 SetBusy) 0 Use)), 0, 1.
  split; [|split; [reflexivity|split; [discriminate|split; [reflexivity|]]]].
  - eapply steps_next; [eapply steps_next; [eapply steps_next; [eapply steps_next; [eapply steps_next; [apply steps_refl|]|]|]|]|].
    + apply (s_try 0). reflexivity.
    + apply (s_try 1). reflexivity.
    + apply (s_lock 0). reflexivity.
    + apply (s_free 0). reflexivity.
    + apply (s_set 0). reflexivity.
  - intros s' H. inversion H as [l ts E|l ts E|b ts E|l ts E|l ts E|l b ts E|l b ts E|l b ts E|l b ts E]; discriminate E.
Qed.
Print Assumptions cpu_no_wait_refuted.
(** What holds: whenever a thread is blocked, another one holds the lock and can go on; so when the
    processor is given back, nobody stays blocked for good. *)
Theorem cpu_no_wait_partial : forall s u, steps start s -> blocked s u ->
  exists t s', t <> u /\ lock s = Some t /\ step t s s' /\ (busy s = false -> thrs s t <> Use).
Proof.
  intros [l b ts] u H K. destruct (steps_inv _ H) as (A & B & C). cbn [lock busy thrs] in *.
  assert (W : ts u = WantLock /\ l <> None).
  { destruct (ts u) eqn:E.
    - exfalso. destruct b; eapply K; [apply s_no|apply s_try]; exact E.
    - split; [reflexivity|]. intros ->. eapply K. apply s_lock. exact E.
    - exfalso. destruct b; eapply K; [apply s_taken|apply s_free]; exact E.
    - exfalso. eapply K. apply s_set. exact E.
    - exfalso. eapply K. apply s_giveup. exact E.
    - exfalso. eapply K. apply s_clear. exact E.
    - exfalso. eapply K. apply s_unlock. exact E. }
  destruct W as [W L]. destruct l as [t|]; [|congruence]. pose proof (proj2 (A t) eq_refl) as I.
  assert (N : t <> u) by (intros ->; rewrite W in I; discriminate I).
  assert (G : exists s', step t (St (Some t) b ts) s').
  { destruct (ts t) eqn:E; try discriminate I.
    - destruct b; eexists; [apply s_taken|apply s_free]; exact E.
    - eexists. apply s_set; exact E.
    - eexists. apply s_giveup; exact E.
    - eexists. apply s_clear; exact E.
    - eexists. apply s_unlock; exact E. }
  destruct G as [s' G]. exists t, s'. split; [exact N|]. split; [reflexivity|]. split; [exact G|].
  intros Bf U. assert (X : b = true) by (apply B; exists t; exact U). congruence.
Qed.
Print Assumptions cpu_no_wait_partial.

(** ** Examples *)
(** Two threads one after the other: the second gets the processor after the first gave it back. *)
Example cpu_turns : exists s, steps start s /\ has_cpu s 1 /\ thrs s 0 = Out.
Proof.
  eexists. split; [|split].
  - eapply steps_next; [eapply steps_next; [eapply steps_next; [eapply steps_next; [eapply steps_next; [eapply steps_next; [eapply steps_next; [eapply steps_next; [eapply steps_next; [eapply steps_next; [apply steps_refl|]|]|]|]|]|]|]|]|]|].
    + apply (s_try 0). reflexivity.
    + apply (s_try 1). reflexivity.
    + apply (s_lock 0). reflexivity.
    + apply (s_free 0). reflexivity.
    + apply (s_set 0). reflexivity.
    + apply (s_clear 0). reflexivity.
    + apply (s_unlock 0). reflexivity.
    + apply (s_lock 1). reflexivity.
    + apply (s_free 1). reflexivity.
    + apply (s_set 1). reflexivity.
  - reflexivity.
  - reflexivity.
Qed.
