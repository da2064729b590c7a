(** Sharing of the graphics cards: properties of DeviceModel.v. *)
From Coq Require Import List ZArith Bool Arith Lia.
Import ListNotations.
From Verif Require Import DeviceModel DeviceProofs.
Open Scope Z_scope.

(** Threads that ask for devices in any number, with any requests and in any interleaving: a device
    is never computing for two threads, what is asked for fits the device given, and when nobody is
    inside every device is free again. *)
Theorem device_exclusive mem todo s : steps mem (start todo) s ->
  (forall t u i, t_pc (thrs s t) = Use i -> t_pc (thrs s u) = Use i -> t = u) /\
  (forall t i, t_pc (thrs s t) = Use i -> exists m, nth_error mem i = Some m /\ t_size (thrs s t) + 1 < m) /\
  ((forall t, t_pc (thrs s t) = Idle) -> forall i, locks s i = None /\ busy s i = false).
Proof.
  intro R. pose proof (inv_steps _ _ _ R (inv_start todo)) as I.
  split; [|split].
  - intros t u i A B. eapply (inv_one s I i); unfold marks; tauto.
  - intros t i A. apply (fit_steps _ _ _ R (fit_start mem todo) t i). unfold past, holds. tauto.
  - intros A i. assert (Q : forall t, quiet (t_pc (thrs s t))) by (intro t; rewrite A; exact Logic.I).
    destruct (all_quiet_free s I Q) as [L B]. auto.
Qed.
Print Assumptions device_exclusive.

(** Two threads, one device: the first computes while the second waits for the lock. *)
Definition two (t : nat) : list Z := if Nat.ltb t 2 then [10; 20] else [].
Example device_exclusive_case : exists s, steps [2048] (start two) s /\
  t_pc (thrs s 0%nat) = Use 0 /\ t_pc (thrs s 1%nat) = WantLock 0 /\ t_size (thrs s 0%nat) = 10.
Proof.
  eexists. split.
  - unfold start.
    eapply steps_next; [eapply (s_request _ _ _ _ 0%nat); reflexivity|].
    eapply steps_next; [eapply (s_request _ _ _ _ 1%nat); reflexivity|].
    eapply steps_next; [eapply (s_try _ _ _ _ 0%nat); reflexivity|].
    eapply steps_next; [eapply (s_try _ _ _ _ 1%nat); reflexivity|].
    eapply steps_next; [eapply (s_lock _ _ _ _ 0%nat); reflexivity|].
    eapply steps_next; [eapply (s_free _ _ _ _ 0%nat); reflexivity|].
    eapply steps_next; [eapply (s_set _ _ _ _ 0%nat); reflexivity|].
    apply steps_refl.
  - repeat split.
Qed.

(** No deadlock: if every request fits some device then, however the threads have been interleaved
    so far, they can all still get to the end of their requests. *)
Theorem devices_never_deadlock mem todo n s :
  (forall t, (n <= t)%nat -> todo t = []) ->
  (forall t z, In z (todo t) -> exists i m, nth_error mem i = Some m /\ z + 1 < m) ->
  steps mem (start todo) s ->
  exists s', steps mem s s' /\ (forall t, t_pc (thrs s' t) = Idle /\ t_todo (thrs s' t) = []) /\
             forall i, locks s' i = None /\ busy s' i = false.
Proof.
  intros E F R.
  assert (I : inv s) by (eapply inv_steps; [exact R|apply inv_start]).
  assert (Z : silent n s).
  { assert (Z0 : silent n (start todo)) by (intros t L; cbn; auto).
    clear - R Z0. induction R; auto. apply IHR. eapply silent_step; eauto. }
  assert (O : forall t, th_ok mem (thrs s t)).
  { assert (O0 : forall t, th_ok mem (thrs (start todo) t)).
    { intro t. split; cbn; [congruence|]. exact (F t). }
    clear - R O0. induction R; auto. apply IHR. eapply th_ok_step; eauto. }
  destruct (can_finish mem n s I Z O) as (s' & S' & D). exists s'. split; [exact S'|]. split; [exact D|].
  apply (device_exclusive mem todo s'); [eapply steps_trans; eauto|]. intro t. apply D.
Qed.
Print Assumptions devices_never_deadlock.

Example devices_never_deadlock_case :
  (forall t, (2 <= t)%nat -> two t = []) /\
  (forall t z, In z (two t) -> exists i m, nth_error [15; 2048] i = Some m /\ z + 1 < m).
Proof.
  split.
  - intros t L. unfold two. apply Nat.ltb_ge in L. now rewrite L.
  - intros t z. unfold two. destruct (Nat.ltb t 2); cbn; [|tauto].
    intros H. exists 1%nat, 2048. split; [reflexivity|]. lia.
Qed.

(** A run with the record of which thread began to compute, with which request. *)
Inductive run (mem : list Z) : st -> list (nat * Z) -> st -> Prop :=
| run_nil s : run mem s [] s
| run_use s s' s'' t i lg : step mem s s' -> t_pc (thrs s t) <> Use i -> t_pc (thrs s' t) = Use i ->
    run mem s' lg s'' -> run mem s ((t, t_size (thrs s' t)) :: lg) s''
| run_other s s' s'' lg : step mem s s' -> (forall t i, t_pc (thrs s' t) = Use i -> t_pc (thrs s t) = Use i) ->
    run mem s' lg s'' -> run mem s lg s''.
Definition of_thread (t : nat) (lg : list (nat * Z)) : list Z := map snd (filter (fun e => Nat.eqb (fst e) t) lg).

(** The request a thread is waiting for, and the ones to come. *)
Definition pending (x : thr) : list Z :=
  match t_pc x with Scan _ | WantLock _ | Check _ | SetBusy _ | GiveUp _ => t_size x :: t_todo x | _ => t_todo x end.

Lemma pending_use mem s s' t i : step mem s s' -> t_pc (thrs s t) <> Use i -> t_pc (thrs s' t) = Use i ->
  pending (thrs s t) = t_size (thrs s' t) :: pending (thrs s' t) /\ forall u, u <> t -> pending (thrs s u) = pending (thrs s' u).
Proof.
  intros ST A B. destruct ST; cbn [thrs] in *;
    (destruct (Nat.eq_dec t t0) as [<-|U]; [rewrite setf_eq in *|rewrite setf_ne in B by exact U; congruence]);
    cbn [t_pc] in B; try discriminate B.
  rewrite H. split; [reflexivity|]. intros u U. now rewrite setf_ne.
Qed.

Lemma pending_other mem s s' : step mem s s' -> (forall t i, t_pc (thrs s' t) = Use i -> t_pc (thrs s t) = Use i) ->
  forall u, pending (thrs s u) = pending (thrs s' u).
Proof.
  intros ST A u. destruct ST; cbn [thrs] in *; specialize (A t);
    (destruct (Nat.eq_dec u t) as [->|U]; [rewrite setf_eq in *; rewrite H in *|now rewrite setf_ne]); try reflexivity.
  specialize (A i eq_refl). discriminate A.
Qed.

(** No request is lost, repeated or overtaken: a thread that has got to its end computed exactly its
    requests, in their order; and every sequence of steps has such a record. *)
Theorem requests_served_in_order mem todo lg s t : run mem (start todo) lg s ->
  t_pc (thrs s t) = Idle -> t_todo (thrs s t) = [] -> of_thread t lg = todo t.
Proof.
  intros R I E. assert (X : forall a, run mem a lg s -> pending (thrs a t) = of_thread t lg ++ pending (thrs s t)).
  { clear. intros a R. induction R as [s|s s' s'' u i lg ST A B R IH|s s' s'' lg ST A R IH].
    - reflexivity.
    - destruct (pending_use mem s s' u i ST A B) as [P Q]. unfold of_thread in *. cbn [filter fst].
      destruct (Nat.eqb u t) eqn:UT.
      + apply Nat.eqb_eq in UT. subst u. cbn [map snd app]. rewrite P. now rewrite IH.
      + apply Nat.eqb_neq in UT. rewrite Q by auto. exact IH.
    - rewrite (pending_other mem s s' ST A t). exact IH. }
  specialize (X _ R). unfold pending in X. rewrite I, E in X. cbn in X. now rewrite app_nil_r in X.
Qed.
Print Assumptions requests_served_in_order.

Theorem every_run_recorded mem s s' : steps mem s s' -> exists lg, run mem s lg s'.
Proof.
  induction 1 as [s|s s' s'' ST _ [lg IH]]; [exists []; constructor|].
  assert (D : (exists t i, t_pc (thrs s t) <> Use i /\ t_pc (thrs s' t) = Use i) \/ (forall t i, t_pc (thrs s' t) = Use i -> t_pc (thrs s t) = Use i)).
  { destruct ST; cbn [thrs].
    8: { left. exists t, i. rewrite setf_eq, H. split; [discriminate|reflexivity]. }
    all: right; intros u j; (destruct (Nat.eq_dec u t) as [->|U]; [rewrite setf_eq; cbn [t_pc]; intro X; discriminate X|now rewrite setf_ne]). }
  destruct D as [(t & i & A & B)|A].
  - eexists. eapply run_use; eauto.
  - eexists. eapply run_other; eauto.
Qed.
Print Assumptions every_run_recorded.

Example requests_served_case : exists s lg, run [15; 2048] (start two) lg s /\ forall t, of_thread t lg = two t.
Proof.
  destruct devices_never_deadlock_case as [A B].
  destruct (devices_never_deadlock [15; 2048] two 2 (start two) A B (steps_refl _ _)) as (s & S & D & _).
  destruct (every_run_recorded _ _ _ S) as [lg R]. exists s, lg. split; [exact R|].
  intro t. destruct (D t). eapply requests_served_in_order; eauto.
Qed.

(** A batch of segments that is too large for every device: the call never returns and never
    computes, although the number of segments is far below the 32 bits of data_size. A device of
    any size counts as at most 2048 megabytes. *)
Theorem request_always_served_refuted :
  exists n, 0 <= n < 2 ^ 32 / 24 /\
  forall totals todo, (forall t, todo t = if Nat.eqb t 0 then [wanted 6 n] else []) ->
  forall s, steps (map mem_size totals) (start todo) s ->
    (forall i, t_pc (thrs s 0%nat) <> Use i) /\ ~ (t_pc (thrs s 0%nat) = Idle /\ t_todo (thrs s 0%nat) = []).
Proof.
  exists 100000000. split; [now vm_compute|]. intros totals todo E s R.
  assert (K : stuck (map mem_size totals) (wanted 6 100000000) [] 0 s).
  { eapply stuck_steps; [|exact R|].
    - intros i m H. apply nth_error_In, in_map_iff in H. destruct H as (x & <- & _).
      replace (wanted 6 100000000) with 2288 by (vm_compute; reflexivity).
      unfold mem_size. destruct (2048 <? _) eqn:C; [lia|apply Z.ltb_ge in C; lia].
    - left. cbn. rewrite E. auto. }
  destruct K as [[A B]|[[i A] [B C]]].
  - split; [intros i; congruence|]. intros [_ D]. congruence.
  - split; [intros j; congruence|]. intros [D _]. congruence.
Qed.
Print Assumptions request_always_served_refuted.

(** The batch whose size wraps: 715827883 segments ask for no memory at all. *)
Theorem wanted_wraps_refuted : exists n, 0 <= n < 2 ^ 32 /\ 1000 * (wanted 6 n + 1) * 2 ^ 20 < n * 6 * 4.
Proof. exists 715827883. vm_compute. repeat split; discriminate. Qed.
Print Assumptions wanted_wraps_refuted.

(** One part lies before another. *)
Definition before (a b : Z * Z) : Prop := 0 <= fst a /\ 0 <= snd a /\ fst a + snd a <= fst b.

Lemma mod_le a : 0 <= a -> 0 <= a mod 2 ^ 32 <= a.
Proof. intro H. split; [apply Z.mod_pos_bound; reflexivity|apply Z.mod_le; [exact H|reflexivity]]. Qed.

(** The parts of a batch in the memory of the device never overlap. *)
Theorem device_parts_apart n p : 0 <= n < 2 ^ 32 -> 0 <= p < 2 ^ 32 ->
  ForallOrdPairs before (seg_parts n p) /\ ForallOrdPairs before (tri_parts n p).
Proof.
  intros N P. unfold seg_parts, tri_parts. rewrite (Z.mul_comm 9 n).
  pose proof (mod_le (n * 6) ltac:(lia)). pose proof (mod_le (n * 9) ltac:(lia)). pose proof (mod_le (p * 4) ltac:(lia)).
  set (a := n * 6 mod 2 ^ 32) in *. set (b := n * 9 mod 2 ^ 32) in *. set (c := p * 4 mod 2 ^ 32) in *.
  split; repeat (constructor; [repeat (constructor; [unfold before; cbn [fst snd]; lia|]); constructor|]); constructor.
Qed.
Print Assumptions device_parts_apart.
Example device_parts_apart_case : seg_parts 1000 30 = [(0, 24000); (24000, 12000); (36000, 120); (36120, 480)].
Proof. reflexivity. Qed.

(** The parts lie in the memory of the device that was granted: for triangles up to 52428 pairs. *)
Definition inside (m : Z) (a : Z * Z) : Prop := 0 <= fst a /\ fst a + snd a <= m * 2 ^ 20.

Lemma wanted_bound k n : (n * k mod 2 ^ 32) * 4 < (wanted k n + 1) * 2 ^ 20.
Proof.
  unfold wanted. set (x := n * k mod 2 ^ 32 * 4). change (2 ^ 20) with (1024 * 1024).
  rewrite Z.div_div by lia. pose proof (Z.mod_pos_bound x (1024 * 1024) ltac:(lia)).
  pose proof (Z.div_mod x (1024 * 1024) ltac:(lia)). lia.
Qed.

Theorem tri_batch_inside_partial n p m : 0 <= n < 2 ^ 32 -> 0 <= p <= 52428 -> wanted 9 n + 1 < m ->
  Forall (inside m) (tri_parts n p).
Proof.
  intros N P W. unfold tri_parts. rewrite (Z.mul_comm 9 n).
  pose proof (mod_le (n * 9) ltac:(lia)). pose proof (mod_le (p * 4) ltac:(lia)). pose proof (wanted_bound 9 n).
  set (b := n * 9 mod 2 ^ 32) in *. set (c := p * 4 mod 2 ^ 32) in *. set (w := wanted 9 n) in *.
  change (2 ^ 20) with 1048576 in *.
  repeat (constructor; [unfold inside; cbn [fst snd]; change (2 ^ 20) with 1048576; lia|]). constructor.
Qed.
Print Assumptions tri_batch_inside_partial.
Example tri_batch_inside_case : (0 <= 50000000 < 2 ^ 32) /\ (0 <= 50000 <= 52428) /\ wanted 9 50000000 + 1 < 2048.
Proof. vm_compute. repeat split; discriminate. Qed.

Theorem tri_batch_inside_refuted : exists n p, 0 <= n < 2 ^ 32 /\ 0 <= p < 2 ^ 32 /\ wanted 9 n + 1 < 2048 /\ ~ Forall (inside 2048) (tri_parts n p).
Proof.
  exists 59000000, 2000000. split; [now vm_compute|]. split; [now vm_compute|]. split; [now vm_compute|].
  intro F. unfold tri_parts in F. inversion_clear F as [|a l _ G]. inversion_clear G as [|a l _ K]. inversion_clear K as [|a l [_ X] _].
  vm_compute in X. now apply X.
Qed.
Print Assumptions tri_batch_inside_refuted.

(** For segments the vectors are not counted: the parts fit as long as they and the tables take
    at most the one spare megabyte. *)
Theorem seg_batch_inside_partial n p m : 0 <= n -> 0 <= p -> 12 * n + 20 * p <= 2 ^ 20 -> wanted 6 n + 1 < m ->
  Forall (inside m) (seg_parts n p).
Proof.
  intros N P S W. unfold seg_parts. change (2 ^ 20) with 1048576 in *.
  pose proof (mod_le (n * 6) ltac:(lia)). pose proof (mod_le (p * 4) ltac:(lia)). pose proof (wanted_bound 6 n).
  rewrite (Z.mod_small (n * 6)) in * by (change (2 ^ 32) with 4294967296; lia).
  set (c := p * 4 mod 2 ^ 32) in *. set (w := wanted 6 n) in *. change (2 ^ 20) with 1048576 in *.
  repeat (constructor; [unfold inside; cbn [fst snd]; change (2 ^ 20) with 1048576; lia|]). constructor.
Qed.
Print Assumptions seg_batch_inside_partial.
Example seg_batch_inside_case : 12 * 80000 + 20 * 4000 <= 2 ^ 20 /\ wanted 6 80000 + 1 < 3.
Proof. vm_compute. split; [discriminate|reflexivity]. Qed.

Theorem seg_batch_inside_refuted : exists n p, 0 <= n < 2 ^ 32 /\ 0 <= p < 2 ^ 32 /\ wanted 6 n + 1 < 2048 /\
  ~ Forall (inside 2048) (seg_parts n p).
Proof.
  exists 80000000, 1. split; [now vm_compute|]. split; [now vm_compute|]. split; [now vm_compute|].
  intro F. unfold seg_parts in F. inversion_clear F as [|a l _ G]. inversion_clear G as [|a l [_ X] _].
  vm_compute in X. now apply X.
Qed.
Print Assumptions seg_batch_inside_refuted.
