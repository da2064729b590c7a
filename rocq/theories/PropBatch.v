(** C32-C35: batches and threads. *)
From Coq Require Import ZArith List Bool Lia Permutation.
From Verif Require Import BatchModel BatchProofs.
Import ListNotations.
Open Scope Z_scope.

(** Sum of the sizes of the voxels. *)
Fixpoint sizes (size : nat -> Z) (vs : list nat) : Z := match vs with [] => 0 | v :: r => size v + sizes size r end.
Lemma sizes_total size vs : sizes size vs = total size vs.
Proof. induction vs as [|v r IH]; cbn [sizes total]; [reflexivity|]. now rewrite IH. Qed.

(** C32.  [vs] are the different voxels of the batch; together they have less than 2^32 floats.
    Whatever the order [l] in which the map is iterated, every voxel is stored once, inside the
    buffer, apart from the others, and the quadruple of each pair leads to the data of its voxels. *)
Theorem packing_exact : forall (A : Type) (wrap w : Z) (size : nat -> Z) (data : nat -> Z -> A) pairs vs l,
  wrap = 2 ^ 32 \/ wrap = 2 ^ 64 -> 0 < w -> (forall v, 0 <= size v) ->
  NoDup vs -> (forall v, In v vs <-> exists p, In p pairs /\ (v = fst p \/ v = snd p)) -> w * sizes size vs < 2 ^ 32 ->
  let m := fst (layout wrap size pairs) in let n := snd (layout wrap size pairs) in Permutation l m ->
  Permutation (map fst m) vs /\ length (offset_size m pairs) = length pairs /\
  forall i p, nth_error pairs i = Some p -> exists o1 o2,
    nth_error (offset_size m pairs) i = Some ((o1, size (fst p)), (o2, size (snd p))) /\
    (forall k, 0 <= k < size (fst p) * w -> operand w (fill w size data l) (o1, size (fst p)) k = Some (data (fst p) k)) /\
    (forall k, 0 <= k < size (snd p) * w -> operand w (fill w size data l) (o2, size (snd p)) k = Some (data (snd p) k)) /\
    0 <= o1 /\ o1 * w + size (fst p) * w <= allocated wrap w n /\ 0 <= o2 /\ o2 * w + size (snd p) * w <= allocated wrap w n /\
    (fst p <> snd p -> o1 + size (fst p) <= o2 \/ o2 + size (snd p) <= o1).
Proof.
  intros A wrap w size data pairs vs l Hw W S N V B m n P.
  destruct (layout_keys wrap size pairs) as [Nk Kk].
  assert (Pm : Permutation (map fst m) vs).
  { apply NoDup_Permutation; [exact Nk|exact N|]. intros v. rewrite V. apply Kk. }
  rewrite sizes_total, <- (total_perm size _ _ Pm) in B.
  assert (Hwrap : 2 ^ 32 <= wrap) by (destruct Hw; subst; lia).
  destruct (packing size S wrap Hwrap data w W pairs l B P) as [_ [_ [L F]]].
  split; [exact Pm|]. split; [exact L|exact F].
Qed.
Print Assumptions packing_exact.
(** Two pairs sharing a voxel. *)
Example packing_sample : let size v := match v with 7%nat => 2 | 8%nat => 3 | _ => 1 end in let pairs := [(7, 8); (7, 9)]%nat in
  (forall v, 0 <= size v) /\ NoDup [7; 8; 9]%nat /\ (forall v, In v [7; 8; 9]%nat <-> exists p, In p pairs /\ (v = fst p \/ v = snd p)) /\
  6 * sizes size [7; 8; 9]%nat < 2 ^ 32 /\ offset_size (fst (layout (2 ^ 32) size pairs)) pairs = [((0, 2), (2, 3)); ((0, 2), (5, 1))] /\
  operand 6 (fill 6 size (fun v k => (v, k)) (fst (layout (2 ^ 32) size pairs))) (5, 1) 4 = Some (9%nat, 4).
Proof.
  cbn zeta. split; [intros v; do 10 (destruct v as [|v]; [lia|]); lia|].
  split; [repeat constructor; cbn; intuition discriminate|]. split; [|vm_compute; auto].
  intros v. cbn [In]. split.
  - intros [<-|[<-|[<-|[]]]]; [exists (7, 8)%nat|exists (7, 8)%nat|exists (7, 9)%nat]; cbn; auto.
  - intros [p [[<-|[<-|[]]] [-> | ->]]]; cbn; auto.
Qed.

(** Beyond 2^32 floats the offsets wrap: the second voxel overwrites the first, and the buffer is
    smaller than its contents, although each voxel size fits an int. *)
Theorem packing_overflow_refuted : exists (size : nat -> Z) (data : nat -> Z -> nat) p k,
  (forall v, 0 <= size v < 2 ^ 31) /\ fst p <> snd p /\
  let m := fst (layout (2 ^ 32) size [p]) in let n := snd (layout (2 ^ 32) size [p]) in
  let q := fst (quad m p) in
  0 <= k < size (fst p) * 6 /\ operand 6 (fill 6 size data m) q k <> Some (data (fst p) k) /\
  allocated (2 ^ 32) 6 n < size (fst p) * 6.
Proof.
  exists (fun v => match v with 0%nat => 2 ^ 30 | _ => 10 end), (fun v _ => v), (0, 1)%nat, (2 ^ 31).
  split; [intros [|v]; lia|]. split; [discriminate|]. vm_compute. repeat split; discriminate.
Qed.
Print Assumptions packing_overflow_refuted.

(** C33.  For every number of pairs and threads and every interleaving, every pair is computed by
    one thread, only once among the threads, and all results are in place at the end. *)
Theorem distance_batch_complete : forall p t tr, 0 <= p -> 0 < t -> interleaved (snd (distance_runs p t)) tr ->
  (forall y, 0 <= y < p -> count_occ Z.eq_dec tr y = 1%nat) /\ (forall y, In y tr -> 0 <= y < p) /\
  forall (A : Type) (f : Z -> A) y, 0 <= y < p -> store f (concat (fst (distance_runs p t)) ++ tr) y = Some (f y).
Proof.
  intros p t tr Hp Ht H. apply interleaved_perm in H. unfold distance_runs in *. cbn [fst snd] in *. rewrite distance_concat in H by assumption.
  split; [|split].
  - intros y Hy. assert (N : NoDup tr) by (apply (Permutation_NoDup (Permutation_sym H)), upto_nodup).
    apply NoDup_count_occ'; [exact N|]. apply (Permutation_in y (Permutation_sym H)). apply upto_in. lia.
  - intros y Hy. apply (Permutation_in y H) in Hy. apply upto_in in Hy. lia.
  - intros A f y Hy. rewrite store_spec. replace (existsb (Z.eqb y) _) with true; [reflexivity|]. symmetry. apply existsb_exists. exists y.
    split; [|apply Z.eqb_refl]. apply in_or_app. right. apply (Permutation_in y (Permutation_sym H)). apply upto_in. lia.
Qed.
Print Assumptions distance_batch_complete.
Example distance_batch_sample : snd (distance_runs 7 3) = [[0; 1; 2]; [3; 4; 5]; [6]] /\ interleaved [[0; 1]; [2]] [0; 2; 1].
Proof.
  split; [vm_compute; reflexivity|]. apply (il_step [] 0 [1] [[2]]). apply (il_step [[1]] 2 [] []). apply (il_step [] 1 [] [[]]).
  apply il_done. repeat constructor.
Qed.
(** With more than one thread the caller computes nothing itself, so each pair is computed exactly
    once in all.  Missing for C33: the single-thread case below. *)
Theorem distance_batch_once_partial : forall p t tr, 0 <= p -> 0 < t -> distance_threads p t <> 1 -> interleaved (snd (distance_runs p t)) tr ->
  forall y, 0 <= y < p -> count_occ Z.eq_dec (concat (fst (distance_runs p t)) ++ tr) y = 1%nat.
Proof.
  intros p t tr Hp Ht D H y Hy. destruct (distance_batch_complete p t tr Hp Ht H) as [C _].
  unfold distance_runs. cbn [fst]. destruct (Z.eqb_spec (distance_threads p t) 1); [contradiction|]. cbn [concat app]. auto.
Qed.
Print Assumptions distance_batch_once_partial.
Example distance_batch_once_sample : distance_threads 7 3 <> 1 /\ distance_threads 2 8 <> 1.
Proof. split; discriminate. Qed.
(** With a single thread (the default) every pair is computed twice. *)
Theorem distance_batch_single_thread_twice : forall p tr, 0 <= p -> interleaved (snd (distance_runs p 1)) tr ->
  forall y, 0 <= y < p -> count_occ Z.eq_dec (concat (fst (distance_runs p 1)) ++ tr) y = 2%nat.
Proof.
  intros p tr Hp H y Hy. destruct (distance_batch_complete p 1 tr Hp ltac:(lia) H) as [C _].
  rewrite count_occ_app, (C y Hy). unfold distance_runs. cbn [fst].
  assert (E : distance_threads p 1 = 1).
  { unfold distance_threads. rewrite Z.div_1_r. destruct (Z.eqb_spec p 0); [lia|reflexivity]. }
  rewrite E. cbn [Z.eqb Pos.eqb]. rewrite distance_concat by lia.
  rewrite (proj1 (NoDup_count_occ' Z.eq_dec _) (upto_nodup 0 p) y); [reflexivity|]. apply upto_in. lia.
Qed.
Print Assumptions distance_batch_single_thread_twice.
Theorem distance_batch_once_refuted : exists p t tr y, 0 <= p /\ 0 < t /\ interleaved (snd (distance_runs p t)) tr /\ 0 <= y < p /\
  count_occ Z.eq_dec (concat (fst (distance_runs p t)) ++ tr) y = 2%nat.
Proof.
  exists 2, 1, [0; 1], 1. split; [lia|]. split; [lia|]. split; [|split; [lia|vm_compute; reflexivity]].
  change (interleaved [[0; 1]] [0; 1]). apply (il_step [] 0 [1] []). apply (il_step [] 1 [] []). apply il_done. repeat constructor.
Qed.
Print Assumptions distance_batch_once_refuted.

(** C34 is false: the remainder of the division is never computed.  What is computed, exactly: *)
Theorem intersect_batch_covers_partial : forall p t tr, 0 <= p -> 0 < t -> interleaved (snd (intersect_runs p t)) tr ->
  forall (A : Type) (f : Z -> A) y, 0 <= y < p ->
  store f (concat (fst (intersect_runs p t)) ++ tr) y = if y <? t * (p / t) then Some (f y) else None.
Proof.
  intros p t tr Hp Ht H A f y Hy. apply interleaved_perm in H. unfold intersect_runs in *. cbn [fst snd] in *. rewrite intersect_concat in H by assumption.
  rewrite store_spec.
  assert (E : existsb (Z.eqb y) (concat (if t =? 1 then map unit_pairs (intersect_chunks p t) else []) ++ tr) = (y <? t * (p / t))).
  { apply Bool.eq_iff_eq_true. rewrite existsb_exists, Z.ltb_lt. split.
    - intros [x [Hx Ex]]. apply Z.eqb_eq in Ex. subst x. apply in_app_or in Hx as [Hx|Hx].
      + destruct (t =? 1); [|destruct Hx]. rewrite intersect_concat in Hx by assumption. apply upto_in in Hx. lia.
      + apply (Permutation_in y H) in Hx. apply upto_in in Hx. lia.
    - intros L. exists y. split; [|apply Z.eqb_refl]. apply in_or_app. right. apply (Permutation_in y (Permutation_sym H)). apply upto_in. lia. }
  now rewrite E.
Qed.
Print Assumptions intersect_batch_covers_partial.
Example intersect_batch_sample : snd (intersect_runs 7 3) = [[0; 1]; [2; 3]; [4; 5]] /\ snd (intersect_runs 2 4) = [[]; []; []; []].
Proof. vm_compute. auto. Qed.
Theorem intersect_batch_remainder_lost : forall p t, 0 < p -> 0 < t -> p mod t <> 0 ->
  exists y, 0 <= y < p /\ forall tr (A : Type) (f : Z -> A), interleaved (snd (intersect_runs p t)) tr ->
  store f (concat (fst (intersect_runs p t)) ++ tr) y = None.
Proof.
  intros p t Hp Ht M. pose proof (Z.mod_pos_bound p t Ht). pose proof (Z.div_mod p t ltac:(lia)). exists (p - 1). split; [lia|].
  intros tr A f H1. rewrite (intersect_batch_covers_partial p t tr ltac:(lia) Ht H1 A f (p - 1) ltac:(lia)).
  destruct (Z.ltb_spec (p - 1) (t * (p / t))); [lia|reflexivity].
Qed.
Print Assumptions intersect_batch_remainder_lost.
Theorem intersect_batch_remainder_refuted : exists p t y, 0 < p /\ 0 < t /\ 0 <= y < p /\
  forall tr (A : Type) (f : Z -> A), interleaved (snd (intersect_runs p t)) tr -> store f (concat (fst (intersect_runs p t)) ++ tr) y = None.
Proof.
  exists 7, 3, 6. split; [lia|]. split; [lia|]. split; [lia|]. intros tr A f H.
  rewrite (intersect_batch_covers_partial 7 3 tr ltac:(lia) ltac:(lia) H A f 6 ltac:(lia)). reflexivity.
Qed.
Print Assumptions intersect_batch_remainder_refuted.
Example intersect_remainder_sample : 7 mod 3 <> 0.
Proof. discriminate. Qed.

(** C35.  In every reachable state each queued pair is joined, in the hands of one worker, or still
    queued; at most one worker is in the critical section; as long as a worker has not stopped some
    worker can move; when all have stopped every pair has been joined exactly once. *)
Theorem join_each_pair_once : forall (A : Type) (pairs : list A) n s, (0 < n)%nat -> jsteps (jinit pairs n) s ->
  Permutation (j_joined s ++ flat_map (fun w => match w with Popped x | Joining x => [x] | _ => [] end) (j_workers s) ++ j_queue s) pairs /\
  (length (filter holds_lock (j_workers s)) <= 1)%nat /\
  (Forall (fun w => w = Stopped) (j_workers s) \/ exists t, jstep s t) /\
  (Forall (fun w => w = Stopped) (j_workers s) -> Permutation (j_joined s) pairs /\ j_queue s = []).
Proof.
  intros A pairs n s Hn R. pose proof (jsteps_sane pairs n s R) as S. split; [apply S|]. split; [apply S|].
  split; [exact (jstep_progress pairs n s S)|exact (all_stopped pairs n s S Hn)].
Qed.
Print Assumptions join_each_pair_once.
Example join_sample : jsteps (jinit [10; 20] 2) (JState [] [Stopped; Check] [10; 20]).
Proof.
  unfold jinit. cbn [repeat].
  eapply js_step; [|apply (j_check_empty [] [Check] [10; 20])].
  eapply js_step; [|apply (j_join 20 [] [Check] [] [10])]. eapply js_step; [|apply (j_join 10 [] [] [Joining 20] [])].
  eapply js_step; [|apply (j_unlock 20 [] [Joining 10] [] [])]. eapply js_step; [|apply (j_pop 20 [] [Joining 10] [] [])].
  eapply js_step; [|apply (j_held 20 [] [Joining 10] [] [])]. eapply js_step; [|apply (j_lock [20] [Joining 10] [] []); reflexivity].
  eapply js_step; [|apply (j_unlock 10 [20] [] [Want] [])]. eapply js_step; [|apply (j_pop 10 [20] [] [Want] [])].
  eapply js_step; [|apply (j_held 10 [20] [] [Want] [])]. eapply js_step; [|apply (j_check 10 [20] [Held] [] [])].
  eapply js_step; [|apply (j_lock [10; 20] [] [Check] []); reflexivity]. eapply js_step; [|apply (j_check 10 [20] [] [Check] [])].
  apply js_refl.
Qed.
(** No schedule runs for ever. *)
Theorem join_terminates : forall (A : Type) (f : nat -> jstate A), ~ forall i, jstep (f i) (f (S i)).
Proof.
  intros A f H.
  assert (G : forall i, (budget (f i) + i <= budget (f O))%nat).
  { induction i as [|i IH]; [lia|]. pose proof (jstep_budget _ _ (H i)). lia. }
  specialize (G (S (budget (f O)))). lia.
Qed.
Print Assumptions join_terminates.
