(** C168, C169, C170: tiles are deleted once and not used afterwards, joins return, and the queue of tile pairs. *)
From Coq Require Import List Bool Arith Permutation Lia.
From Verif Require Import BatchModel BatchProofs JoinMainModel.
Import ListNotations.

(** * Specification *)
(** The tiles of a pair. *)
Definition tiles_of (p : tile_pair) : list nat := nodup Nat.eq_dec [fst p; snd p].
(** No tile is in two pairs. *)
Definition apart (pairs : list tile_pair) : Prop := NoDup (flat_map tiles_of pairs).
(** Nothing happens to a tile once it is deleted. *)
Definition safe (tr : list tevent) : Prop := forall a b t, tr = a ++ Delete t :: b -> ~ In (Use t) b /\ ~ In (Delete t) b.
Definition deleted (tr : list tevent) : list nat := flat_map (fun e => match e with Delete t => [t] | Use _ => [] end) tr.

(** * Proofs *)
Lemma tiles_of_in p t : In t (tiles_of p) <-> t = fst p \/ t = snd p.
Proof. unfold tiles_of. rewrite nodup_In. cbn [In]. intuition. Qed.
Lemma deleted_pair p : Permutation (deleted (delete_pair p)) (tiles_of p).
Proof.
  destruct p as [a b]. unfold delete_pair, tiles_of. cbn [fst snd nodup in_dec]. destruct (Nat.eqb_spec b a) as [-> |N]; cbn.
  - destruct (Nat.eq_dec a a); [apply Permutation_refl|congruence].
  - destruct (Nat.eq_dec b a); [congruence|]. apply perm_swap.
Qed.
Lemma deleted_app a b : deleted (a ++ b) = deleted a ++ deleted b.
Proof. apply flat_map_app. Qed.
Lemma deleted_in tr t : In t (deleted tr) <-> In (Delete t) tr.
Proof.
  unfold deleted. rewrite in_flat_map. split.
  - intros (e & I & J). destruct e; [destruct J|]. destruct J as [-> |[]]. exact I.
  - intro I. exists (Delete t). split; [exact I|left; reflexivity].
Qed.
Lemma app_split {A} (l1 l2 a b : list A) x : l1 ++ l2 = a ++ x :: b ->
  (exists c, l1 = a ++ x :: c /\ b = c ++ l2) \/ (exists c, l2 = c ++ x :: b /\ a = l1 ++ c).
Proof.
  revert a. induction l1 as [|y l1 IH]; intros a H; cbn in H; [right; exists a; auto|].
  destruct a as [|z a]; cbn in H; injection H as -> H.
  - left. exists l1. split; [reflexivity|auto].
  - destruct (IH _ H) as [(c & -> & ->)|(c & -> & ->)]; [left; exists c; auto|right; exists c; auto].
Qed.
(** More may happen to tiles that are not deleted. *)
Lemma safe_app tr ev : safe tr -> safe ev -> (forall t, In t (deleted tr) -> ~ In (Use t) ev /\ ~ In (Delete t) ev) -> safe (tr ++ ev).
Proof.
  intros S1 S2 H a b t E. apply app_split in E as [(c & E & ->)|(c & E & ->)].
  - destruct (S1 _ _ _ E) as [A B]. destruct (H t) as [C D]; [apply deleted_in; rewrite E; apply in_elt|]. rewrite !in_app_iff. tauto.
  - exact (S2 _ _ _ E).
Qed.
Lemma delete_pair_in p e : In e (delete_pair p) -> exists t, e = Delete t /\ In t (tiles_of p).
Proof.
  unfold delete_pair. rewrite in_app_iff. intros [H|[<- |[]]].
  - destruct (snd p =? fst p); [destruct H|]. destruct H as [<- |[]]. exists (snd p). rewrite tiles_of_in. auto.
  - exists (fst p). rewrite tiles_of_in. auto.
Qed.
Lemma delete_pair_safe p : safe (delete_pair p).
Proof.
  intros a b t E. assert (N : NoDup (deleted (delete_pair p))). { apply (Permutation_NoDup (Permutation_sym (deleted_pair p))), NoDup_nodup. }
  split; intro I.
  - assert (J : In (Use t) (delete_pair p)) by (rewrite E; apply in_or_app; right; right; exact I). apply delete_pair_in in J as (u & J & _). discriminate J.
  - rewrite E, deleted_app in N. cbn [deleted flat_map app] in N. apply NoDup_remove_2 in N. apply N, in_or_app. right. apply deleted_in, I.
Qed.
Lemma run_steps pairs n s tr : run pairs n s tr -> jsteps (jinit pairs n) s.
Proof. induction 1; [apply js_refl|assumption| |]; eapply js_step; eassumption. Qed.
Lemma tiles_perm l l' : Permutation l l' -> Permutation (flat_map tiles_of l) (flat_map tiles_of l').
Proof.
  induction 1; cbn [flat_map]; [apply perm_nil|apply Permutation_app_head; assumption| |eapply Permutation_trans; eassumption].
  rewrite !app_assoc. apply Permutation_app_tail, Permutation_app_comm.
Qed.
Lemma run_deleted pairs n s tr : run pairs n s tr -> Permutation (deleted tr) (flat_map tiles_of (j_joined s)).
Proof.
  induction 1 as [|s tr p t R IH I J|s tr s' R IH S E|s tr s' p R IH S E].
  - apply perm_nil.
  - rewrite deleted_app. cbn [deleted flat_map app]. rewrite app_nil_r. exact IH.
  - rewrite E. exact IH.
  - rewrite E, deleted_app, flat_map_app. apply Permutation_app; [exact IH|]. cbn [flat_map]. rewrite app_nil_r. apply deleted_pair.
Qed.
Lemma nodup_app_r {A} (l1 l2 : list A) : NoDup (l1 ++ l2) -> NoDup l1 /\ (forall x, In x l1 -> ~ In x l2).
Proof.
  induction l1 as [|x l1 IH]; cbn [app]; intro H; [split; [constructor|intros x []]|]. inversion_clear H. destruct (IH H1) as [A1 A2]. rewrite in_app_iff in H0.
  split; [constructor; tauto|]. intros y [<- |I] K; [tauto|exact (A2 _ I K)].
Qed.
(** What is in a worker's hands is not deleted. *)
Lemma not_deleted pairs n s tr : apart pairs -> run pairs n s tr -> forall p t, In p (hands (j_workers s)) -> In t (tiles_of p) -> ~ In t (deleted tr).
Proof.
  intros AP R p t I J K. pose proof (jsteps_sane _ _ _ (run_steps _ _ _ _ R)) as [P _].
  apply (Permutation_in _ (run_deleted _ _ _ _ R)) in K. unfold apart in AP. apply (Permutation_NoDup (Permutation_sym (tiles_perm _ _ P))) in AP.
  rewrite flat_map_app in AP. apply nodup_app_r in AP as [_ AP]. apply (AP t K). rewrite flat_map_app. apply in_or_app. left. apply in_flat_map. exists p. auto.
Qed.
Lemma joined_in_hand s s' p : jstep s s' -> j_joined s' = j_joined s ++ [p] -> In (@Joining tile_pair p) (j_workers s).
Proof.
  assert (X : forall log : list tile_pair, log = log ++ [p] -> False). { intros log E. apply (f_equal (@length _)) in E. rewrite app_length in E. cbn in E. lia. }
  destruct 1; cbn [j_joined j_workers]; intro E; try (exfalso; exact (X _ E)). apply app_inv_head in E. injection E as ->. apply in_elt.
Qed.
Lemma hand_in (ws : list (wpc tile_pair)) p : In (Joining p) ws -> In p (hands ws).
Proof. intro I. unfold hands. apply in_flat_map. exists (Joining p). split; [exact I|left; reflexivity]. Qed.

Lemma made_above two : forall r next p t, In p (make_tile_pairs two r next) -> In t (tiles_of p) -> next <= t.
Proof.
  induction r as [|r IH]; intros next p t I J; cbn [make_tile_pairs] in I; [destruct I|]. destruct two; (destruct I as [<- |I]; [apply tiles_of_in in J; cbn [fst snd] in J; lia|]);
    specialize (IH _ _ _ I J); lia.
Qed.
Lemma made_apart two : forall r next, apart (make_tile_pairs two r next).
Proof.
  unfold apart. induction r as [|r IH]; intro next; cbn [make_tile_pairs]; [constructor|].
  assert (G : forall p next', (forall t, In t (tiles_of p) -> t < next') -> NoDup (flat_map tiles_of (p :: make_tile_pairs two r next'))).
  { intros p next' H. cbn [flat_map]. specialize (IH next'). assert (ND : NoDup (tiles_of p)) by apply NoDup_nodup.
    assert (D : forall t, In t (tiles_of p) -> ~ In t (flat_map tiles_of (make_tile_pairs two r next'))).
    { intros t I K. apply in_flat_map in K as (q & K1 & K2). pose proof (made_above _ _ _ _ _ K1 K2). specialize (H t I). lia. }
    revert ND D. generalize (tiles_of p) as l. induction l as [|x l IHl]; intros ND D; cbn [app]; [exact IH|]. inversion_clear ND. constructor.
    - rewrite in_app_iff. intros [K|K]; [tauto|]. apply (D x); [left; reflexivity|exact K].
    - apply IHl; [assumption|]. intros t I. apply D. right. exact I. }
  destruct two; apply G; intros t I; apply tiles_of_in in I; cbn [fst snd] in I; lia.
Qed.

(** C168.  Whatever the schedule of however many workers, no tile is used or deleted after it was
    deleted; when all workers have stopped, every tile has been deleted. *)
Theorem tiles_deleted_once : forall pairs n s tr, apart pairs -> 0 < n -> run pairs n s tr ->
  safe tr /\ NoDup (deleted tr) /\ (forall t, In t (deleted tr) -> In t (flat_map tiles_of pairs)) /\
  (Forall (fun w => w = Stopped) (j_workers s) -> Permutation (deleted tr) (flat_map tiles_of pairs)).
Proof.
  intros pairs n s tr AP Hn R.
  assert (IN : forall t, In t (deleted tr) -> In t (flat_map tiles_of pairs)).
  { intros t I. apply (Permutation_in _ (run_deleted _ _ _ _ R)) in I. pose proof (jsteps_sane _ _ _ (run_steps _ _ _ _ R)) as [P _].
    apply (Permutation_in _ (tiles_perm _ _ P)). rewrite flat_map_app. apply in_or_app. left. exact I. }
  split; [|split; [|split; [exact IN|]]].
  - clear IN. induction R as [|s tr p t R IH I J|s tr s' R IH S E|s tr s' p R IH S E].
    + intros a b t E. destruct a; discriminate E.
    + apply safe_app; [exact IH| |].
      * intros a b u E. destruct a as [|? [|? ?]]; discriminate E.
      * intros u K. assert (N : u <> t). { intros ->. apply (not_deleted _ _ _ _ AP R p t); [apply hand_in, I|apply tiles_of_in, J|exact K]. }
        split; intros [X|[]]; [injection X; congruence|discriminate X].
    + exact IH.
    + apply safe_app; [exact IH|apply delete_pair_safe|]. intros u K. split; intro X; apply delete_pair_in in X as (v & X & Y); [discriminate X|]. injection X as <-.
      apply (not_deleted _ _ _ _ AP R p u); [apply hand_in, (joined_in_hand _ _ _ S E)|exact Y|exact K].
  - pose proof (jsteps_sane _ _ _ (run_steps _ _ _ _ R)) as [P _]. unfold apart in AP. apply (Permutation_NoDup (Permutation_sym (tiles_perm _ _ P))) in AP.
    rewrite flat_map_app in AP. apply nodup_app_r in AP as [AP _]. exact (Permutation_NoDup (Permutation_sym (run_deleted _ _ _ _ R)) AP).
  - intro ST. destruct (all_stopped pairs n s (jsteps_sane _ _ _ (run_steps _ _ _ _ R)) Hn ST) as [P _].
    eapply Permutation_trans; [exact (run_deleted _ _ _ _ R)|apply tiles_perm, P].
Qed.
Print Assumptions tiles_deleted_once.
(** The joiner's tiles meet the condition, with or without --tile2, for every --repeat. *)
Theorem joiner_tiles_apart : forall tile2 repeated next, apart (make_tile_pairs tile2 repeated next) /\
  length (make_tile_pairs tile2 repeated next) = repeated /\
  (forall p, In p (make_tile_pairs tile2 repeated next) -> (fst p = snd p <-> tile2 = false)).
Proof.
  intros two r next. split; [apply made_apart|]. split; revert next; (induction r as [|r IH]; intro next; cbn [make_tile_pairs]).
  - reflexivity.
  - destruct two; cbn [length]; rewrite IH; reflexivity.
  - intros p [].
  - intros p I. destruct two; (destruct I as [<- |I]; [cbn [fst snd]; split; [|]; intro X; (lia || reflexivity || discriminate X)|exact (IH _ _ I)]).
Qed.
Print Assumptions joiner_tiles_apart.
(** A tile in two pairs is used after it was deleted, and deleted again. *)
Ltac later H := eapply run_quiet; [|apply H|reflexivity]; cbn [app].
Theorem shared_tile_deleted_twice_refuted : exists pairs s tr, run pairs 2 s tr /\ ~ safe tr /\ ~ NoDup (deleted tr).
Proof.
  exists [(0, 1); (0, 2)], (JState [] [Check; Check] [(0, 1); (0, 2)]), ((([] ++ delete_pair (0, 1)) ++ [Use 0]) ++ delete_pair (0, 2)). split; [|split].
  - eapply run_join; [|apply (j_join (0, 2) [] [Check] [] [(0, 1)])|reflexivity].
    apply (run_use _ _ _ _ (0, 2)); [|right; left; reflexivity|left; reflexivity].
    eapply run_join; [|apply (j_join (0, 1) [] [] [Joining (0, 2)] [])|reflexivity].
    later (j_unlock (0, 2) [] [Joining (0, 1)] [] (@nil tile_pair)).
    later (j_pop (0, 2) [] [Joining (0, 1)] [] (@nil tile_pair)).
    later (j_held (0, 2) [] [Joining (0, 1)] [] (@nil tile_pair)).
    eapply run_quiet; [|apply (j_lock [(0, 2)] [Joining (0, 1)] [] (@nil tile_pair)); reflexivity|reflexivity].
    later (j_check (0, 2) [] [Joining (0, 1)] [] (@nil tile_pair)).
    later (j_unlock (0, 1) [(0, 2)] [] [Check] (@nil tile_pair)).
    later (j_pop (0, 1) [(0, 2)] [] [Check] (@nil tile_pair)).
    later (j_held (0, 1) [(0, 2)] [] [Check] (@nil tile_pair)).
    eapply run_quiet; [|apply (j_lock [(0, 1); (0, 2)] [] [Check] (@nil tile_pair)); reflexivity|reflexivity].
    later (j_check (0, 1) [(0, 2)] [] [Check] (@nil tile_pair)). apply run_init.
  - intro S. destruct (S [Delete 1] [Use 0; Delete 2; Delete 0] 0 eq_refl) as [H _]. apply H. left. reflexivity.
  - intro N. cbn in N. inversion_clear N. inversion_clear H0. apply H1. right. left. reflexivity.
Qed.
Print Assumptions shared_tile_deleted_twice_refuted.
Example tiles_deleted_once_nonvacuous : make_tile_pairs true 2 5 = [(5, 6); (7, 8)] /\ make_tile_pairs false 2 5 = [(5, 5); (6, 6)] /\
  delete_pair (5, 6) = [Delete 6; Delete 5] /\ delete_pair (6, 6) = [Delete 6] /\ flat_map tiles_of (make_tile_pairs true 2 5) = [5; 6; 7; 8].
Proof. repeat split. Qed.

(** C169.  With a worker, every schedule that goes on while it can ends with the join returning. *)
Theorem join_returns_partial : forall pairs n s, 0 < n -> jsteps (jinit pairs n) s ->
  (forall t, ~ jstep s t) <-> join_returns s.
Proof.
  intros pairs n s Hn R. pose proof (jsteps_sane _ _ _ R) as S. split.
  - intro H. destruct (jstep_progress pairs n s S) as [F|(t & T)]; [|destruct (H t T)]. destruct (all_stopped pairs n s S Hn F) as [_ Q]. split; assumption.
  - intros [Q F] t T. revert F. destruct T; cbn [j_workers]; intro F; rewrite Forall_forall in F; match type of F with (forall x, In x (_ ++ ?w :: _) -> _) => specialize (F w (in_elt _ _ _)); discriminate F end.
Qed.
Print Assumptions join_returns_partial.
(** With --threads 0 a join of any tiles at all waits for ever. *)
Theorem join_without_threads_refuted : forall pairs s, pairs <> [] -> jsteps (jinit pairs 0) s -> s = jinit pairs 0 /\ ~ join_returns s /\ forall t, ~ jstep s t.
Proof.
  intros pairs s N R. assert (E : forall t : jstate tile_pair, ~ jstep (jinit pairs 0) t).
  { intros t T. unfold jinit in T. cbn [repeat] in T. remember (JState pairs [] []) as i. destruct T; injection Heqi as _ Q _; destruct l; discriminate Q. }
  assert (G : s = jinit pairs 0). { remember (jinit pairs 0) as i. induction R as [|a b c R IH T]; [reflexivity|]. subst a. specialize (IH eq_refl E). subst b. destruct (E _ T). }
  subst s. split; [reflexivity|]. split; [|exact E]. intros [Q _]. exact (N Q).
Qed.
Print Assumptions join_without_threads_refuted.
Example join_returns_nonvacuous : join_returns (JState [] [Stopped; Stopped] [(1, 2)]) /\ make_tile_pairs false 1 3 <> [].
Proof. split; [split; [reflexivity|repeat constructor]|discriminate]. Qed.

(** C170.  A worker that changes the queue holds the lock, and only one worker does; but another one
    may read the queue at the same moment, and so may the caller (855) and the message (839). *)
Definition changes_queue (w : wpc tile_pair) : Prop := w = Front.
Definition reads_queue (w : wpc tile_pair) : Prop := w = Check \/ w = Held.
Theorem tile_queue_changes_locked : forall pairs n s, jsteps (jinit pairs n) s ->
  (forall l w r, j_workers s = l ++ w :: r -> changes_queue w -> Forall (fun v => ~ changes_queue v /\ v <> Held) (l ++ r)) /\
  (forall s', jstep s s' -> j_queue s' <> j_queue s -> exists w, In w (j_workers s) /\ changes_queue w).
Proof.
  intros pairs n s R. split.
  - intros l w r E C. destruct (jsteps_sane _ _ _ R) as (_ & _ & H & _). rewrite E, held_mid in H. unfold changes_queue in C. subst w. cbn [holds_lock] in H.
    apply Forall_forall. intros v I. assert (V : holds_lock v = false).
    { destruct (holds_lock v) eqn:V; [|reflexivity]. exfalso. apply in_app_or in I as [I|I]; apply in_split in I as (a & b & ->); rewrite held_mid, V in H; lia. }
    split; [intros ->|intros ->]; discriminate V.
  - intros s' T D. destruct T; cbn [j_queue j_workers] in *; try congruence. exists Front. split; [apply in_elt|reflexivity].
Qed.
Print Assumptions tile_queue_changes_locked.
Theorem tile_queue_race_refuted : exists pairs s l w v r, jsteps (jinit pairs 2) s /\ j_workers s = l ++ w :: v :: r /\ changes_queue w /\ reads_queue v.
Proof.
  exists [(0, 0)], (JState [(0, 0)] [Front; Check] []), [], Front, Check, []. split; [|split; [reflexivity|split; [reflexivity|left; reflexivity]]].
  eapply js_step; [|apply (j_held (0, 0) [] [] [Check] [])]. eapply js_step; [|apply (j_lock [(0, 0)] [] [Check] []); reflexivity].
  eapply js_step; [|apply (j_check (0, 0) [] [] [Check] [])]. apply js_refl.
Qed.
Print Assumptions tile_queue_race_refuted.
