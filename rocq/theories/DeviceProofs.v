(** Proofs about the sharing of the graphics cards (DeviceModel.v). *)
From Coq Require Import List ZArith Bool Arith Lia.
Import ListNotations.
From Verif Require Import DeviceModel.
Open Scope Z_scope.

Lemma setf_eq {A} (f : nat -> A) i x : setf f i x i = x.
Proof. unfold setf. now rewrite Nat.eqb_refl. Qed.
Lemma setf_ne {A} (f : nat -> A) i x j : j <> i -> setf f i x j = f j.
Proof. unfold setf. intro H. apply Nat.eqb_neq in H. now rewrite H. Qed.

(** A thread that holds the lock of device i; one that has it marked busy. *)
Definition holds (p : pc) (i : nat) : Prop := p = Check i \/ p = SetBusy i \/ p = GiveUp i \/ p = Use i.
Definition marks (p : pc) (i : nat) : Prop := p = Use i \/ p = Clear i.

Record inv (s : st) : Prop := {
  inv_lock : forall i t, holds (t_pc (thrs s t)) i <-> locks s i = Some t;
  inv_busy : forall i, busy s i = true -> exists t, marks (t_pc (thrs s t)) i;
  inv_mark : forall i t, marks (t_pc (thrs s t)) i -> busy s i = true;
  inv_one : forall i t u, marks (t_pc (thrs s t)) i -> marks (t_pc (thrs s u)) i -> t = u;
  inv_set : forall i t, t_pc (thrs s t) = SetBusy i -> busy s i = false;
}.

Lemma inv_start todo : inv (start todo).
Proof.
  constructor; cbn; unfold holds, marks; intros.
  - split; intro H; [|discriminate H]. repeat destruct H as [H|H]; discriminate H.
  - discriminate H.
  - destruct H; discriminate H.
  - destruct H; discriminate H.
  - discriminate H.
Qed.

(** The effect of a step on one thread, the lock and the mark of one device, all the rest left alone. *)
Lemma inv_upd l b ts t i p p' l' b' :
  inv (St l b ts) -> t_pc (ts t) = p ->
  (forall j, j <> i -> ~ holds p j /\ ~ marks p j) ->
  (forall j, j <> i -> ~ holds (t_pc p') j /\ ~ marks (t_pc p') j /\ t_pc p' <> SetBusy j) ->
  (forall j, j <> i -> l' j = l j) -> (forall j, j <> i -> b' j = b j) ->
  ((l' i = l i /\ (holds p i <-> holds (t_pc p') i)) \/
   (l i = None /\ l' i = Some t /\ holds (t_pc p') i) \/
   (holds p i /\ l' i = None /\ ~ holds (t_pc p') i)) ->
  ((b' i = b i /\ (marks p i <-> marks (t_pc p') i)) \/
   (p = SetBusy i /\ b' i = true /\ marks (t_pc p') i) \/
   (marks p i /\ b' i = false /\ ~ marks (t_pc p') i)) ->
  (t_pc p' = SetBusy i -> b' i = false) ->
  inv (St l' b' (setf ts t p')).
Proof.
  intros [IL IB IM IO IS] Hp N N' L B HL HB HS. cbn in *.
  assert (M : forall j, j <> i -> forall u, marks (t_pc (setf ts t p' u)) j <-> marks (t_pc (ts u)) j).
  { intros j J u. destruct (Nat.eq_dec u t) as [->|U].
    - rewrite setf_eq, Hp. destruct (N j J), (N' j J) as [? []]. tauto.
    - rewrite setf_ne by exact U. tauto. }
  (* if p = SetBusy i, nobody marks i *)
  assert (NM : p = SetBusy i -> forall u, ~ marks (t_pc (ts u)) i).
  { intros E u Mu. apply IM in Mu. specialize (IS i t). rewrite Hp in IS. specialize (IS E). congruence. }
  constructor; cbn; intros.
  - destruct (Nat.eq_dec i0 i) as [->|J].
    + destruct (Nat.eq_dec t0 t) as [->|U].
      * rewrite setf_eq. pose proof (IL i t) as X. rewrite Hp in X.
        destruct HL as [[E H]|[[E [F H]]|[H [E F]]]].
        -- rewrite E. tauto.
        -- rewrite F. tauto.
        -- rewrite E. split; [tauto|discriminate].
      * rewrite setf_ne by exact U. pose proof (IL i t0) as X. pose proof (IL i t) as Y. rewrite Hp in Y.
        destruct HL as [[E H]|[[E [F H]]|[H [E F]]]].
        -- rewrite E. exact X.
        -- rewrite F. rewrite E in X. split; [intro Z; apply X in Z; discriminate Z|intro Z; congruence].
        -- rewrite E. split; [|discriminate]. intro Z. apply X in Z. apply Y in H. congruence.
    + rewrite (L _ J). destruct (Nat.eq_dec t0 t) as [->|U].
      * rewrite setf_eq. pose proof (IL i0 t) as X. rewrite Hp in X. destruct (N _ J), (N' _ J). tauto.
      * rewrite setf_ne by exact U. apply IL.
  - destruct (Nat.eq_dec i0 i) as [->|J].
    + destruct HB as [[E HB']|[[E [F G]]|[G [E F]]]].
      * rewrite E in H. destruct (IB i H) as [u Hu]. exists u.
        destruct (Nat.eq_dec u t) as [->|U]; [rewrite setf_eq; rewrite Hp in Hu; tauto|].
        now rewrite setf_ne.
      * exists t. now rewrite setf_eq.
      * congruence.
    + rewrite (B _ J) in H. destruct (IB _ H) as [u Hu]. exists u. now apply M.
  - destruct (Nat.eq_dec i0 i) as [->|J].
    + destruct (Nat.eq_dec t0 t) as [->|U].
      * rewrite setf_eq in H. destruct HB as [[E HB']|[[E [F G]]|[G [E F]]]]; [|exact F|tauto].
        rewrite E. apply (IM i t). rewrite Hp. tauto.
      * rewrite setf_ne in H by exact U. destruct HB as [[E HB']|[[E [F G]]|[G [E F]]]].
        -- rewrite E. eapply IM; eauto.
        -- exact F.
        -- exfalso. apply U. apply (IO i); [exact H|]. now rewrite Hp.
    + rewrite (B _ J). apply M in H; [|exact J]. eapply IM; eauto.
  - destruct (Nat.eq_dec i0 i) as [->|J].
    + destruct HB as [[E HB']|[[E [F G]]|[G [E F]]]].
      * assert (R : forall x, marks (t_pc (setf ts t p' x)) i -> marks (t_pc (ts x)) i).
        { intros x. destruct (Nat.eq_dec x t) as [->|X]; [rewrite setf_eq, Hp; tauto|now rewrite setf_ne]. }
        apply (IO i); auto.
      * specialize (NM E).
        destruct (Nat.eq_dec t0 t) as [->|U], (Nat.eq_dec u t) as [->|U']; auto.
        -- rewrite setf_ne in H0 by exact U'. now apply NM in H0.
        -- rewrite setf_ne in H by exact U. now apply NM in H.
        -- rewrite setf_ne in H by exact U. now apply NM in H.
      * destruct (Nat.eq_dec t0 t) as [->|U]; [rewrite setf_eq in H; tauto|].
        destruct (Nat.eq_dec u t) as [->|U']; [rewrite setf_eq in H0; tauto|].
        rewrite setf_ne in H by exact U. rewrite setf_ne in H0 by exact U'. eapply IO; eauto.
    + apply M in H; [|exact J]. apply M in H0; [|exact J]. eapply IO; eauto.
  - destruct (Nat.eq_dec t0 t) as [->|U].
    + rewrite setf_eq in H. destruct (Nat.eq_dec i0 i) as [->|J]; [auto|].
      destruct (N' _ J) as [_ [_ X]]. tauto.
    + rewrite setf_ne in H by exact U. destruct (Nat.eq_dec i0 i) as [->|J].
      * destruct HB as [[E HB']|[[E [F G]]|[G [E F]]]].
        -- rewrite E. eapply IS; eauto.
        -- exfalso. apply U.
           assert (X : locks (St l b ts) i = Some t0) by (cbn; apply IL; unfold holds; tauto).
           assert (Y : locks (St l b ts) i = Some t) by (cbn; apply IL; unfold holds; rewrite Hp; tauto).
           congruence.
        -- exact E.
      * rewrite (B _ J). eapply IS; eauto.
Qed.

Ltac hm := unfold holds, marks in *; cbn [t_pc] in *;
  repeat match goal with |- _ /\ _ => split | |- ~ _ => intro | |- _ <-> _ => split; intro | H : _ \/ _ |- _ => destruct H end;
  try congruence; auto.

Ltac fin := intros; first [ now rewrite setf_ne | solve [hm] | solve [left; hm]
  | solve [right; left; rewrite ?setf_eq; hm] | solve [right; right; rewrite ?setf_eq; hm] ].

Lemma inv_step mem s s' : step mem s s' -> inv s -> inv s'.
Proof.
  intros ST I. destruct ST.
  - apply (inv_upd l b ts t 0 Idle _ l b I); [now rewrite H|..]; fin.
  - apply (inv_upd l b ts t 0 (Scan i) _ l b I); [now rewrite H|..]; fin.
  - apply (inv_upd l b ts t 0 (Scan i) _ l b I); [now rewrite H|..]; fin.
  - apply (inv_upd l b ts t 0 (Scan i) _ l b I); [now rewrite H|..]; fin.
  - apply (inv_upd l b ts t i (WantLock i) _ (setf l i (Some t)) b I); [now rewrite H|..]; fin.
  - apply (inv_upd l b ts t i (Check i) _ l b I); [now rewrite H|..]; fin.
  - apply (inv_upd l b ts t i (Check i) _ l b I); [now rewrite H|..]; fin.
  - apply (inv_upd l b ts t i (SetBusy i) _ l (setf b i true) I); [now rewrite H|..]; fin.
  - apply (inv_upd l b ts t i (GiveUp i) _ (setf l i None) b I); [now rewrite H|..]; fin.
  - apply (inv_upd l b ts t i (Use i) _ (setf l i None) b I); [now rewrite H|..]; fin.
  - apply (inv_upd l b ts t i (Clear i) _ l (setf b i false) I); [now rewrite H|..]; fin.
Qed.

Lemma inv_steps mem s s' : steps mem s s' -> inv s -> inv s'.
Proof. induction 1; auto. intro. apply IHsteps. eapply inv_step; eauto. Qed.

Lemma steps_trans mem a b c : steps mem a b -> steps mem b c -> steps mem a c.
Proof. induction 1; auto. intro. econstructor; eauto. Qed.
Lemma steps_one mem a b : step mem a b -> steps mem a b.
Proof. intro. econstructor; [eassumption|constructor]. Qed.

(** What a thread past the test 56 asked for fits the device. *)
Definition past (p : pc) (i : nat) : Prop := p = WantLock i \/ holds p i \/ p = Clear i.
Definition fit_inv (mem : list Z) (s : st) : Prop :=
  forall t i, past (t_pc (thrs s t)) i -> exists m, nth_error mem i = Some m /\ t_size (thrs s t) + 1 < m.

Lemma fit_step mem s s' : step mem s s' -> fit_inv mem s -> fit_inv mem s'.
Proof.
  intros ST I. unfold fit_inv in *. destruct ST; cbn [thrs] in *; intros u j P;
    (destruct (Nat.eq_dec u t) as [->|U]; [rewrite setf_eq in P |- *|rewrite setf_ne in P |- * by exact U; exact (I u j P)]);
    cbn [t_pc t_size] in *;
    try (unfold past, holds in P; intuition discriminate).
  all: try (assert (j = i) by (unfold past, holds in P; intuition congruence); subst j;
    specialize (I t i); rewrite H in I; cbn [t_pc t_size] in I; apply I; unfold past, holds; tauto).
  assert (j = i) by (unfold past, holds in P; intuition congruence); subst j.
  exists m. split; [assumption|]. apply andb_prop in H1 as [_ F]. unfold fits in F. now apply Z.ltb_lt.
Qed.

Lemma fit_steps mem s s' : steps mem s s' -> fit_inv mem s -> fit_inv mem s'.
Proof. induction 1; auto. intro. apply IHsteps. eapply fit_step; eauto. Qed.

Lemma fit_start mem todo : fit_inv mem (start todo).
Proof. intros t i P. unfold past, holds in P. cbn in P. intuition discriminate. Qed.

(** Every request, made or to come, has a device it fits. *)
Definition fittable (mem : list Z) (z : Z) : Prop := exists i m, nth_error mem i = Some m /\ z + 1 < m.
Definition th_ok (mem : list Z) (t : thr) : Prop :=
  (t_pc t <> Idle -> fittable mem (t_size t)) /\ forall z, In z (t_todo t) -> fittable mem z.

Lemma th_ok_step mem s s' : step mem s s' -> (forall t, th_ok mem (thrs s t)) -> forall t, th_ok mem (thrs s' t).
Proof.
  intros ST I u. destruct ST; cbn [thrs] in *;
    (destruct (Nat.eq_dec u t) as [->|U]; [rewrite setf_eq|rewrite setf_ne by exact U; exact (I u)]);
    specialize (I t); rewrite H in I; destruct I as [I J]; cbn [t_pc t_size t_todo] in *;
    (split; cbn [t_pc t_size t_todo]; [intro N|]).
  all: try (exact J).
  all: try (apply I; discriminate).
  - apply J. now left.
  - intros z Hz. apply J. now right.
Qed.

(** Threads that have asked for nothing keep asking for nothing. *)
Definition silent (n : nat) (s : st) : Prop := forall t, (n <= t)%nat -> t_pc (thrs s t) = Idle /\ t_todo (thrs s t) = [].

Lemma silent_step mem n s s' : step mem s s' -> silent n s -> silent n s'.
Proof.
  intros ST I u L. specialize (I u L). destruct ST; cbn [thrs] in *;
    (destruct (Nat.eq_dec u t) as [->|U]; [rewrite H in I; cbn in I; destruct I as [A B]; discriminate|rewrite setf_ne by exact U; exact I]).
Qed.

(** A thread that neither holds a lock nor marks a device. *)
Definition quiet (p : pc) : Prop := match p with Idle | Scan _ | WantLock _ => True | _ => False end.
Definition same_but (t : nat) (s s' : st) : Prop := forall u, u <> t -> thrs s' u = thrs s u.

Lemma same_but_set t l b ts l' b' x : same_but t (St l b ts) (St l' b' (setf ts t x)).
Proof. intros u U. cbn. now apply setf_ne. Qed.
Lemma same_but_trans t a b c : same_but t a b -> same_but t b c -> same_but t a c.
Proof. intros A B u U. rewrite (B u U). auto. Qed.

(** One step of thread t from a state whose thread t is known. *)
Ltac go r := eexists; split; [eapply steps_one; eapply r; eassumption|split; [apply same_but_set|cbn [thrs]; apply setf_eq]].

Lemma finish_clear mem s t i z td : thrs s t = Th (Clear i) z td ->
  exists s', steps mem s s' /\ same_but t s s' /\ thrs s' t = Th Idle z td.
Proof. destruct s as [l b ts]. cbn [thrs]. intro H. go s_clear. Qed.

Ltac chain H1 L := let s1 := fresh "s" in let S1 := fresh "S" in let B1 := fresh "B" in let E1 := fresh "E" in
  destruct H1 as (s1 & S1 & B1 & E1); destruct (L s1 E1) as (s2 & S2 & B2 & E2);
  exists s2; split; [eapply steps_trans; eassumption|split; [eapply same_but_trans; eassumption|exact E2]].

Lemma finish_use mem s t i z td : thrs s t = Th (Use i) z td ->
  exists s', steps mem s s' /\ same_but t s s' /\ thrs s' t = Th Idle z td.
Proof.
  intro H. assert (X : exists s', steps mem s s' /\ same_but t s s' /\ thrs s' t = Th (Clear i) z td).
  { destruct s as [l b ts]. cbn [thrs] in H. go s_unlock. }
  chain X (fun s1 => finish_clear mem s1 t i z td).
Qed.

Lemma finish_set mem s t i z td : thrs s t = Th (SetBusy i) z td ->
  exists s', steps mem s s' /\ same_but t s s' /\ thrs s' t = Th Idle z td.
Proof.
  intro H. assert (X : exists s', steps mem s s' /\ same_but t s s' /\ thrs s' t = Th (Use i) z td).
  { destruct s as [l b ts]. cbn [thrs] in H. go s_set. }
  chain X (fun s1 => finish_use mem s1 t i z td).
Qed.

Lemma settle mem s t : exists s', steps mem s s' /\ same_but t s s' /\ quiet (t_pc (thrs s' t)).
Proof.
  destruct (thrs s t) as [p z td] eqn:H.
  assert (W : forall x, (exists s', steps mem s s' /\ same_but t s s' /\ thrs s' t = x) -> quiet (t_pc x) ->
              exists s', steps mem s s' /\ same_but t s s' /\ quiet (t_pc (thrs s' t))).
  { intros x (s' & A & B & C) Q. exists s'. rewrite C. auto. }
  assert (G : forall i, thrs s t = Th (GiveUp i) z td -> exists s', steps mem s s' /\ same_but t s s' /\ thrs s' t = Th (Scan (S i)) z td).
  { intros i Hi. destruct s as [l b ts]. cbn [thrs] in Hi. go s_giveup. }
  destruct p.
  1-3: exists s; split; [constructor|split; [intros u U; reflexivity|rewrite H; exact I]].
  - (* Check *) destruct s as [l b ts] eqn:Es. cbn [thrs] in H. destruct (b i) eqn:Bi.
    + assert (X : exists s', steps mem (St l b ts) s' /\ same_but t (St l b ts) s' /\ thrs s' t = Th (GiveUp i) z td) by go s_taken.
      destruct X as ([l1 b1 ts1] & S1 & B1 & E1). cbn [thrs] in E1.
      eexists. split; [eapply steps_trans; [exact S1|eapply steps_one; eapply s_giveup; exact E1]|].
      split; [eapply same_but_trans; [exact B1|apply same_but_set]|]. cbn [thrs]. rewrite setf_eq. exact I.
    + assert (X : exists s', steps mem (St l b ts) s' /\ same_but t (St l b ts) s' /\ thrs s' t = Th (SetBusy i) z td) by go s_free.
      apply (W (Th Idle z td)); [|exact I].
      chain X (fun s1 => finish_set mem s1 t i z td).
  - apply (W (Th Idle z td)); [|exact I]. eapply finish_set; eauto.
  - apply (W (Th (Scan (S i)) z td)); [|exact I]. now apply G.
  - apply (W (Th Idle z td)); [|exact I]. eapply finish_use; eauto.
  - apply (W (Th Idle z td)); [|exact I]. eapply finish_clear; eauto.
Qed.

Lemma settle_all mem n : forall s, exists s', steps mem s s' /\
  (forall t, (t < n)%nat -> quiet (t_pc (thrs s' t))) /\ (forall t, (n <= t)%nat -> thrs s' t = thrs s t).
Proof.
  induction n as [|n IH]; intro s.
  - exists s. split; [constructor|]. split; [lia|reflexivity].
  - destruct (IH s) as (s1 & S1 & Q1 & R1). destruct (settle mem s1 n) as (s2 & S2 & B2 & Q2).
    exists s2. split; [eapply steps_trans; eauto|]. split.
    + intros t L. destruct (Nat.eq_dec t n) as [->|N]; [exact Q2|]. rewrite (B2 t N). apply Q1. lia.
    + intros t L. rewrite (B2 t) by lia. apply R1. lia.
Qed.

Lemma all_quiet_free s : inv s -> (forall t, quiet (t_pc (thrs s t))) -> (forall i, locks s i = None) /\ forall i, busy s i = false.
Proof.
  intros I Q. split; intro i.
  - destruct (locks s i) as [t|] eqn:E; [|reflexivity]. exfalso. apply (inv_lock s I) in E. specialize (Q t).
    unfold holds in E. destruct E as [E|[E|[E|E]]]; rewrite E in Q; exact Q.
  - destruct (busy s i) eqn:E; [|reflexivity]. exfalso. destruct (inv_busy s I i E) as [t M]. specialize (Q t).
    destruct M as [M|M]; rewrite M in Q; exact Q.
Qed.

Definition all_quiet (s : st) : Prop := forall t, quiet (t_pc (thrs s t)).

(** In a quiet state one thread alone. *)
Lemma serve_lock mem s t i z td : inv s -> all_quiet s -> thrs s t = Th (WantLock i) z td ->
  exists s', steps mem s s' /\ same_but t s s' /\ thrs s' t = Th Idle z td.
Proof.
  intros I Q H. destruct (all_quiet_free s I Q) as [L B].
  destruct s as [l b ts]. cbn [thrs locks busy] in *.
  assert (X : step mem (St l b ts) (St (setf l i (Some t)) b (setf ts t (Th (Check i) z td)))) by (apply s_lock; auto).
  assert (Y : step mem (St (setf l i (Some t)) b (setf ts t (Th (Check i) z td)))
     (St (setf l i (Some t)) b (setf (setf ts t (Th (Check i) z td)) t (Th (SetBusy i) z td)))).
  { apply s_free; [apply setf_eq|apply B]. }
  destruct (finish_set mem (St (setf l i (Some t)) b (setf (setf ts t (Th (Check i) z td)) t (Th (SetBusy i) z td))) t i z td) as (s' & S1 & B1 & E1).
  { cbn [thrs]. apply setf_eq. }
  exists s'. split; [econstructor; [exact X|econstructor; [exact Y|exact S1]]|]. split; [|exact E1].
  intros u U. rewrite (B1 u U). cbn [thrs]. now rewrite !setf_ne.
Qed.

Lemma quiet_set s t s' : all_quiet s -> same_but t s s' -> quiet (t_pc (thrs s' t)) -> all_quiet s'.
Proof. intros Q B H u. destruct (Nat.eq_dec u t) as [->|U]; [exact H|]. rewrite (B u U). apply Q. Qed.

Lemma serve_scan mem t z td : forall k s i m, inv s -> all_quiet s -> thrs s t = Th (Scan i) z td ->
  nth_error mem (i + k) = Some m -> z + 1 < m ->
  exists s', steps mem s s' /\ same_but t s s' /\ thrs s' t = Th Idle z td.
Proof.
  induction k as [|k IH]; intros s i m I Q H N F; destruct (all_quiet_free s I Q) as [L B].
  - rewrite Nat.add_0_r in N.
    assert (X : exists s', step mem s s' /\ same_but t s s' /\ thrs s' t = Th (WantLock i) z td).
    { destruct s as [l b ts]. cbn [thrs busy locks] in *. eexists. split; [eapply s_try; [exact H|exact N|]|split; [apply same_but_set|apply setf_eq]].
      rewrite B. unfold fits. apply Z.ltb_lt in F. now rewrite F. }
    destruct X as (s1 & S1 & B1 & E1).
    destruct (serve_lock mem s1 t i z td) as (s2 & S2 & B2 & E2); [eapply inv_step; eauto|eapply quiet_set; eauto; rewrite E1; exact Logic.I|exact E1|].
    exists s2. split; [econstructor; eauto|]. split; [eapply same_but_trans; eauto|exact E2].
  - assert (V : exists mi, nth_error mem i = Some mi).
    { destruct (nth_error mem i) eqn:E; [eauto|]. exfalso. apply nth_error_None in E.
      assert (nth_error mem (i + S k) <> None) by congruence. apply nth_error_Some in H0. lia. }
    destruct V as [mi V]. destruct (fits mi z) eqn:Fi.
    + assert (X : exists s', step mem s s' /\ same_but t s s' /\ thrs s' t = Th (WantLock i) z td).
      { destruct s as [l b ts]. cbn [thrs busy locks] in *. eexists. split; [eapply s_try; [exact H|exact V|]|split; [apply same_but_set|apply setf_eq]].
        now rewrite B, Fi. }
      destruct X as (s1 & S1 & B1 & E1).
      destruct (serve_lock mem s1 t i z td) as (s2 & S2 & B2 & E2); [eapply inv_step; eauto|eapply quiet_set; eauto; rewrite E1; exact Logic.I|exact E1|].
      exists s2. split; [econstructor; eauto|]. split; [eapply same_but_trans; eauto|exact E2].
    + assert (X : exists s', step mem s s' /\ same_but t s s' /\ thrs s' t = Th (Scan (S i)) z td).
      { destruct s as [l b ts]. cbn [thrs busy locks] in *. eexists. split; [eapply s_skip; [exact H|exact V|]|split; [apply same_but_set|apply setf_eq]].
        now rewrite Fi, andb_false_r. }
      destruct X as (s1 & S1 & B1 & E1).
      destruct (IH s1 (S i) m) as (s2 & S2 & B2 & E2); [eapply inv_step; eauto|eapply quiet_set; eauto; rewrite E1; exact Logic.I|exact E1| |exact F|].
      { replace (S i + k)%nat with (i + S k)%nat by lia. exact N. }
      exists s2. split; [econstructor; eauto|]. split; [eapply same_but_trans; eauto|exact E2].
Qed.

(** From any device on: served, or back at the first one. *)
Lemma serve_wrap mem t z td : forall k s i, inv s -> all_quiet s -> thrs s t = Th (Scan i) z td -> (length mem - i <= k)%nat ->
  exists s', steps mem s s' /\ same_but t s s' /\ (thrs s' t = Th Idle z td \/ thrs s' t = Th (Scan 0) z td).
Proof.
  induction k as [|k IH]; intros s i I Q H Lk.
  - destruct s as [l b ts]. cbn [thrs] in *. eexists. split; [eapply steps_one, s_again; [exact H|apply nth_error_None; lia]|].
    split; [apply same_but_set|right; apply setf_eq].
  - destruct (nth_error mem i) as [mi|] eqn:V.
    + destruct (Z_lt_dec (z + 1) mi) as [F|F].
      * destruct (serve_scan mem t z td 0 s i mi I Q H) as (s' & A & B & C); [rewrite Nat.add_0_r; exact V|exact F|].
        exists s'. auto.
      * assert (X : exists s', step mem s s' /\ same_but t s s' /\ thrs s' t = Th (Scan (S i)) z td).
        { destruct s as [l b ts]. cbn [thrs busy locks] in *. eexists. split; [eapply s_skip; [exact H|exact V|]|split; [apply same_but_set|apply setf_eq]].
          unfold fits. apply Z.ltb_nlt in F. now rewrite F, andb_false_r. }
        destruct X as (s1 & S1 & B1 & E1).
        destruct (IH s1 (S i)) as (s2 & S2 & B2 & E2); [eapply inv_step; eauto|eapply quiet_set; eauto; rewrite E1; exact Logic.I|exact E1|lia|].
        exists s2. split; [econstructor; eauto|]. split; [eapply same_but_trans; eauto|exact E2].
    + destruct s as [l b ts]. cbn [thrs] in *. eexists. split; [eapply steps_one, s_again; [exact H|exact V]|].
      split; [apply same_but_set|right; apply setf_eq].
Qed.

Lemma serve_request mem s t i z td : inv s -> all_quiet s -> thrs s t = Th (Scan i) z td -> fittable mem z ->
  exists s', steps mem s s' /\ same_but t s s' /\ thrs s' t = Th Idle z td.
Proof.
  intros I Q H (j & m & N & F).
  destruct (serve_wrap mem t z td _ s i I Q H (le_n _)) as (s1 & S1 & B1 & [E1|E1]).
  - exists s1. auto.
  - destruct (serve_scan mem t z td j s1 0 m) as (s2 & S2 & B2 & E2); [eapply inv_steps; eauto|eapply quiet_set; eauto; rewrite E1; exact Logic.I|exact E1|exact N|exact F|].
    exists s2. split; [eapply steps_trans; eauto|]. split; [eapply same_but_trans; eauto|exact E2].
Qed.

Lemma serve_idle mem t : forall td s z, inv s -> all_quiet s -> thrs s t = Th Idle z td -> (forall x, In x td -> fittable mem x) ->
  exists s' z', steps mem s s' /\ same_but t s s' /\ thrs s' t = Th Idle z' [].
Proof.
  induction td as [|x td IH]; intros s z I Q H F.
  - exists s, z. split; [constructor|]. split; [intros u U; reflexivity|exact H].
  - assert (X : exists s', step mem s s' /\ same_but t s s' /\ thrs s' t = Th (Scan 0) x td).
    { destruct s as [l b ts]. cbn [thrs] in *. eexists. split; [eapply s_request; exact H|split; [apply same_but_set|apply setf_eq]]. }
    destruct X as (s1 & S1 & B1 & E1).
    destruct (serve_request mem s1 t 0 x td) as (s2 & S2 & B2 & E2); [eapply inv_step; eauto|eapply quiet_set; eauto; rewrite E1; exact Logic.I|exact E1|apply F; now left|].
    destruct (IH s2 x) as (s3 & z' & S3 & B3 & E3).
    + eapply inv_steps; [exact S2|]. eapply inv_step; eauto.
    + eapply quiet_set; [eapply quiet_set; [exact Q|exact B1|rewrite E1; exact Logic.I]|exact B2|rewrite E2; exact Logic.I].
    + exact E2.
    + intros y Y. apply F. now right.
    + exists s3, z'. split; [econstructor; [exact S1|eapply steps_trans; eauto]|].
      split; [eapply same_but_trans; [exact B1|eapply same_but_trans; eauto]|exact E3].
Qed.

Lemma serve_thread mem s t : inv s -> all_quiet s -> th_ok mem (thrs s t) ->
  exists s', steps mem s s' /\ same_but t s s' /\ t_pc (thrs s' t) = Idle /\ t_todo (thrs s' t) = [].
Proof.
  intros I Q [F1 F2]. pose proof (Q t) as Qt. destruct (thrs s t) as [p z td] eqn:E. cbn [t_pc t_size t_todo] in *.
  assert (X : exists s', steps mem s s' /\ same_but t s s' /\ thrs s' t = Th Idle z td).
  { destruct p; try (exfalso; exact Qt).
    - exists s. split; [constructor|]. split; [intros u U; reflexivity|exact E].
    - eapply serve_request; eauto. apply F1. discriminate.
    - eapply serve_lock; eauto. }
  destruct X as (s1 & S1 & B1 & E1).
  destruct (serve_idle mem t td s1 z) as (s2 & z' & S2 & B2 & E2); [eapply inv_steps; eauto|eapply quiet_set; eauto; rewrite E1; exact Logic.I|exact E1|exact F2|].
  exists s2. split; [eapply steps_trans; eauto|]. split; [eapply same_but_trans; eauto|]. rewrite E2. auto.
Qed.

Definition done (s : st) (t : nat) : Prop := t_pc (thrs s t) = Idle /\ t_todo (thrs s t) = [].

Lemma done_quiet s t : done s t -> quiet (t_pc (thrs s t)).
Proof. intros [H _]. rewrite H. exact I. Qed.

Lemma serve_all mem n : forall s, inv s -> all_quiet s -> (forall t, th_ok mem (thrs s t)) ->
  exists s', steps mem s s' /\ (forall t, (t < n)%nat -> done s' t) /\ (forall t, (n <= t)%nat -> thrs s' t = thrs s t).
Proof.
  induction n as [|n IH]; intros s I Q F.
  - exists s. split; [constructor|]. split; [lia|reflexivity].
  - destruct (IH s I Q F) as (s1 & S1 & D1 & R1).
    assert (I1 : inv s1) by (eapply inv_steps; eauto).
    assert (Q1 : all_quiet s1).
    { intro t. destruct (Nat.lt_ge_cases t n) as [L|L]; [apply done_quiet; auto|rewrite (R1 t L); apply Q]. }
    destruct (serve_thread mem s1 n I1 Q1) as (s2 & S2 & B2 & E2); [rewrite R1 by lia; apply F|].
    exists s2. split; [eapply steps_trans; eauto|]. split.
    + intros t L. destruct (Nat.eq_dec t n) as [->|N]; [exact E2|]. unfold done. rewrite (B2 t N). apply D1. lia.
    + intros t L. rewrite (B2 t) by lia. apply R1. lia.
Qed.

Lemma can_finish mem n s : inv s -> silent n s -> (forall t, th_ok mem (thrs s t)) ->
  exists s', steps mem s s' /\ forall t, done s' t.
Proof.
  intros I Z F. destruct (settle_all mem n s) as (s1 & S1 & Q1 & R1).
  assert (Q : all_quiet s1).
  { intro t. destruct (Nat.lt_ge_cases t n) as [L|L]; [auto|]. rewrite (R1 t L). apply done_quiet. exact (Z t L). }
  assert (I1 : inv s1) by (eapply inv_steps; eauto).
  assert (F1 : forall t, th_ok mem (thrs s1 t)).
  { clear - S1 F. induction S1; auto. apply IHS1. eapply th_ok_step; eauto. }
  destruct (serve_all mem n s1 I1 Q F1) as (s2 & S2 & D2 & R2).
  exists s2. split; [eapply steps_trans; eauto|]. intro t.
  destruct (Nat.lt_ge_cases t n) as [L|L]; [auto|]. unfold done. rewrite (R2 t L), (R1 t L). exact (Z t L).
Qed.

(** A request that fits no device never gets past the test. *)
Definition stuck (mem : list Z) (z : Z) (td : list Z) (t : nat) (s : st) : Prop :=
  (t_pc (thrs s t) = Idle /\ t_todo (thrs s t) = z :: td) \/
  (exists i, t_pc (thrs s t) = Scan i) /\ t_size (thrs s t) = z /\ t_todo (thrs s t) = td.

Lemma stuck_step mem z td t s s' : (forall i m, nth_error mem i = Some m -> m <= z + 1) ->
  step mem s s' -> stuck mem z td t s -> stuck mem z td t s'.
Proof.
  intros N ST K. unfold stuck in *. destruct ST; cbn [thrs] in *;
    (destruct (Nat.eq_dec t t0) as [<-|U]; [rewrite setf_eq|rewrite setf_ne by exact U; exact K]);
    rewrite H in K; cbn [t_pc t_size t_todo] in *.
  all: destruct K as [[A B]|[[j A] [B C]]]; try discriminate A.
  - injection B as -> ->. right. eauto.
  - right. eauto.
  - right. eauto.
  - exfalso. apply andb_prop in H1 as [_ F]. unfold fits in F. apply Z.ltb_lt in F. specialize (N i m H0). lia.
Qed.

Lemma stuck_steps mem z td t s s' : (forall i m, nth_error mem i = Some m -> m <= z + 1) ->
  steps mem s s' -> stuck mem z td t s -> stuck mem z td t s'.
Proof. intro N. induction 1; auto. intro. apply IHsteps. eapply stuck_step; eauto. Qed.
