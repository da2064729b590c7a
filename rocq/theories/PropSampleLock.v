(** C166: the lock of the parallel extraction of voxels. *)
From Coq Require Import List Bool Arith Lia.
From Verif Require Import Arr SampleModel SampleProofs.
Import ListNotations.

(** The parts that run between pthread_mutex_lock and unlock (partition.cpp:42-50, 71-74, 123-127). *)
Definition inside_lock {A V} (g : sstate A V) (who : option nat) : Prop :=
  match who with
  | None => exists todo, r_main g = RPush todo
  | Some i => exists u, nth_error (r_us g) i = Some u /\ (u_pc u = UInsert \/ exists k, u_pc u = UFetch k)
  end.
(** At most one thread is between lock and unlock. *)
Theorem sampling_lock_excludes : forall {A V : Type} (box : A -> list V) (n : nat) (input : list (A * bool)) g a b,
  ssteps box n (sinit input n) g -> inside_lock g a -> inside_lock g b -> a = b.
Proof.
  intros A V box n input g a b R HA HB. destruct (ssteps_sane box n input _ _ R (sinit_sane box input n)) as (_ & (L1 & L2) & _).
  assert (H : forall i, inside_lock g (Some i) -> exists u, nth_error (r_us g) i = Some u /\ holding u = true).
  { intros i (u & E & [P|[k P]]); exists u; (split; [exact E|]); unfold holding; rewrite P; reflexivity. }
  assert (P : forall t, r_main g = RPush t -> forall i, inside_lock g (Some i) -> False).
  { intros t E i I. destruct (H i I) as (u & Eu & Hu). rewrite (L1 ltac:(rewrite E; reflexivity) i u Eu) in Hu. discriminate Hu. }
  destruct a as [i|], b as [j|]; [|exfalso; destruct HB as [t E]; exact (P t E i HA)|exfalso; destruct HA as [t E]; exact (P t E j HB)|reflexivity].
  destruct (H i HA) as (u & Eu & Hu). destruct (H j HB) as (v & Ev & Hv). f_equal. exact (L2 i j u v Eu Ev Hu Hv).
Qed.
Print Assumptions sampling_lock_excludes.

(** ** The queue is not always used under the lock *)
(** Threads whose next step reads the queue: a worker looking whether it is empty (line 39), the main
    thread waiting for it to shrink (line 131), the loops under the lock. *)
Definition reads_queue {A V} (g : sstate A V) (who : option nat) : Prop :=
  match who with
  | None => r_main g = RWait \/ exists todo, r_main g = RPush todo
  | Some i => exists u, nth_error (r_us g) i = Some u /\ (u_pc u = UEmpty \/ exists k, u_pc u = UFetch k)
  end.
(** A step of thread [who] that changes the queue. *)
Definition changes_queue {A V} (box : A -> list V) (n : nat) (g : sstate A V) (who : option nat) : Prop :=
  match who with
  | None => exists g', reader_step n g g' /\ r_queue g' <> r_queue g
  | Some i => exists u u' q' add, nth_error (r_us g) i = Some u /\ unit_step box (r_complete g) (mutex_free (r_main g) (r_us g)) u (r_queue g) u' q' add /\ q' <> r_queue g
  end.
(** A change of the queue happens under the lock. *)
Theorem sampling_changes_locked : forall {A V : Type} (box : A -> list V) n (g : sstate A V) who, changes_queue box n g who -> inside_lock g who.
Proof.
  intros A V box n g [i|] H.
  - destruct H as (u & u' & q' & add & E & S & N). exists u. split; [exact E|]. inversion S as [ | | | | |k l v x q|k l v| | | | | ]; subst; cbn [u_pc]; try congruence; right; eexists; reflexivity.
  - destruct H as (g' & S & N). inversion S; subst; cbn [r_queue r_main] in *; try congruence. eexists; reflexivity.
Qed.
Print Assumptions sampling_changes_locked.

Ltac reader := eapply ss_step; [apply s_reader; first [apply r_lock; reflexivity|apply r_full; reflexivity|apply r_keep; cbn; unfold local_queue; lia|apply r_push|apply r_unlock|apply r_wait; cbn; unfold local_queue; lia]|].
Definition ten : list nat := [0; 1; 2; 3; 4; 5; 6; 7; 8; 9].
Definition race_state : sstate nat nat := R RWait [(10, true)] [] ten false [Unit_ (UFetch 0) [] []] [].
Lemma race_reachable : ssteps (fun a => [a]) 1 (sinit (map (fun i => (i, true)) (ten ++ [10])) 1) race_state.
Proof.
  unfold sinit, ten. cbn [map app repeat]. do 31 reader.
  eapply ss_step; [eapply (s_unit _ _ 0); [reflexivity|apply u_more; reflexivity]|]. cbn [upd app].
  eapply ss_step; [eapply (s_unit _ _ 0); [reflexivity|apply u_lock; reflexivity]|]. cbn [upd app]. apply ss_refl.
Qed.
(** The claim that nobody reads the queue while another thread changes it is false: the main thread reads
    its length while a worker takes a line out.  In C++ this is a data race (undefined). *)
Theorem sampling_queue_race_refuted : exists (box : nat -> list nat) n input (g : sstate nat nat) a b,
  ssteps box n (sinit input n) g /\ a <> b /\ changes_queue box n g a /\ reads_queue g b.
Proof.
  exists (fun a => [a]), 1, (map (fun i => (i, true)) (ten ++ [10])), race_state, (Some 0), None.
  split; [exact race_reachable|]. split; [intro H; discriminate H|]. split.
  - exists (Unit_ (UFetch 0) [] []), (Unit_ (UFetch 1) [0] []), (tl ten), []. split; [reflexivity|]. split; [apply (u_fetch _ _ _ 0 [] [] 0 (tl ten)); unfold local_queue; lia|]. intro H. discriminate H.
  - left. reflexivity.
Qed.
Print Assumptions sampling_queue_race_refuted.
Example sampling_lock_nonvacuous : ssteps (fun a => [a]) 1 (sinit (map (fun i => (i, true)) (ten ++ [10])) 1) race_state /\ inside_lock race_state (Some 0) /\ ~ inside_lock race_state None.
Proof.
  split; [exact race_reachable|]. split; [exists (Unit_ (UFetch 0) [] []); split; [reflexivity|right; exists 0; reflexivity]|]. intros [t H]. discriminate H.
Qed.
