(** C62 and C156: a batch of distances on the graphics card, all pairs together. *)
From Coq Require Import QArith Lqa List Bool Arith Lia Permutation.
From Verif Require Import AabModel SegDistModel SegDistProofs SegGpuModel SegGpuProofs TriIntModel TriSetProofs GpuAllModel PropSegDist.
Import ListNotations.
Open Scope nat_scope.

Lemma kernel_ext S T A B A' B' : (forall i, A i = A' i) -> (forall i, B i = B' i) -> SegDist_kernel S T A B = SegDist_kernel S T A' B'.
Proof. intros HA HB. unfold SegDist_kernel, vdot, sum3. rewrite !HA, !HB. reflexivity. Qed.

Lemma set_at_nth {A} (d : A) l : forall i j x, i < length l -> nth j (set_at l i x) d = if j =? i then x else nth j l d.
Proof.
  induction l as [|y l IH]; intros i j x H; cbn [length] in H; [lia|]. destruct i as [|i], j as [|j]; cbn [set_at nth Nat.eqb]; try reflexivity. apply IH. lia.
Qed.
Lemma nth_error_set_at {A} (l : list A) : forall i x, i < length l -> nth_error (set_at l i x) i = Some x.
Proof. induction l as [|y l IH]; intros i x H; cbn [length] in H; [lia|]. destruct i as [|i]; cbn [set_at nth_error]; [reflexivity|]. apply IH. lia. Qed.

(** The vectors: whatever the order of the threads, and whatever the memory held before. *)
Lemma vector_thread_spec data n vec id : length vec = n * 3 -> let r := vector_thread data n vec id in
  length r = n * 3 /\ forall s c, s < n -> c < 3 -> nth (s * 3 + c) r 0%Q =
    if s =? id then (nth (s * 6 + 3 + c)%nat data 0 - nth (s * 6 + c)%nat data 0)%Q else nth (s * 3 + c) vec 0%Q.
Proof.
  intros L r. unfold r, vector_thread. destruct (Nat.ltb_spec id n) as [I|I].
  - split; [rewrite !set_at_length; exact L|]. intros s c Hs Hc. rewrite !set_at_nth by (rewrite ?set_at_length; lia).
    destruct (Nat.eqb_spec s id) as [->|N].
    + assert (C : c = 0 \/ c = 1 \/ c = 2) by lia. destruct C as [-> | [-> | ->]].
      * rewrite (proj2 (Nat.eqb_neq _ _)) by lia. rewrite (proj2 (Nat.eqb_neq _ _)) by lia. rewrite (proj2 (Nat.eqb_eq _ _)) by lia. cbn [vsub vec_at v3]. rewrite !Nat.add_0_r. reflexivity.
      * rewrite (proj2 (Nat.eqb_neq _ _)) by lia. rewrite (proj2 (Nat.eqb_eq _ _)) by lia. reflexivity.
      * rewrite (proj2 (Nat.eqb_eq _ _)) by lia. reflexivity.
    + rewrite !(proj2 (Nat.eqb_neq _ _)) by lia. reflexivity.
  - split; [exact L|]. intros s c Hs Hc. rewrite (proj2 (Nat.eqb_neq s id)) by lia. reflexivity.
Qed.
Lemma fill_vectors_spec data n : forall order vec, length vec = n * 3 -> let r := fill_vectors data n order vec in
  length r = n * 3 /\ forall s c, s < n -> c < 3 -> nth (s * 3 + c) r 0%Q =
    if existsb (Nat.eqb s) order then (nth (s * 6 + 3 + c)%nat data 0 - nth (s * 6 + c)%nat data 0)%Q else nth (s * 3 + c) vec 0%Q.
Proof.
  induction order as [|id r IH]; intros vec L; cbn [existsb]; [split; [exact L|reflexivity]|].
  destruct (vector_thread_spec data n vec id L) as [L' V]. destruct (IH _ L') as [L'' V']. cbv zeta. split; [exact L''|].
  intros s c Hs Hc. change (fill_vectors data n (id :: r) vec) with (fill_vectors data n r (vector_thread data n vec id)). rewrite V' by assumption. rewrite V by assumption.
  destruct (s =? id), (existsb (Nat.eqb s) r); reflexivity.
Qed.
Lemma vectors_right data n order vec s : Permutation order (tri_grid (N.to_nat 1024) n) -> length vec = n * 3 -> s < n ->
  forall i, vec_at (fill_vectors data n order vec) (3 * s) i = vsub (vec_at data (6 * s + 3)) (vec_at data (6 * s)) i.
Proof.
  intros P L Hs. destruct (fill_vectors_spec data n order vec L) as [_ V].
  assert (E : existsb (Nat.eqb s) order = true).
  { apply existsb_exists. exists s. split; [|apply Nat.eqb_refl]. apply (Permutation_in s (Permutation_sym P)). apply grid_covers; [lia|exact Hs]. }
  pose proof (V s 0 Hs ltac:(lia)) as V0. pose proof (V s 1 Hs ltac:(lia)) as V1. pose proof (V s 2 Hs ltac:(lia)) as V2. rewrite E in V0, V1, V2. rewrite !Nat.add_0_r in V0.
  rewrite (Nat.mul_comm s 6), (Nat.mul_comm s 3) in *. intros []; cbn [vec_at v3 vsub]; assumption.
Qed.

(** One block among the others: its own cell changes only by its own threads. *)
Lemma tstep_ext d d' ths s s' : (forall p, In p ths -> d p = d' p) -> tstep d ths s s' -> tstep d' ths s s'.
Proof.
  intros E H. destruct H.
  - rewrite (E (0, 0)) by (eapply nth_error_In; eauto). apply ts_first; auto.
  - eapply ts_load; eauto.
  - rewrite (E p) by (eapply nth_error_In; eauto). eapply ts_store; eauto.
Qed.
Lemma gsteps_block d d' ths s s' k : (forall p, In p (ths k) -> d k p = d' p) -> gsteps d ths s s' ->
  forall c st, nth_error (fst s) k = Some c -> nth_error (snd s) k = Some st ->
  exists c' st', nth_error (fst s') k = Some c' /\ nth_error (snd s') k = Some st' /\ tsteps d' (ths k) (c, st) (c', st').
Proof.
  intros E H. induction H as [s|s s1 s2 H1 _ IH]; intros c st Hc Hs; [exists c, st; repeat split; auto; constructor|].
  destruct H1 as [j cells sts cj stj cj' stj' Nc Ns T]. cbn [fst snd] in *. destruct (Nat.eq_dec j k) as [J|J].
  - subst j. rewrite Hc in Nc. rewrite Hs in Ns. injection Nc as <-. injection Ns as <-.
    assert (Lc : k < length cells) by (apply nth_error_Some; rewrite Hc; discriminate). assert (Ls : k < length sts) by (apply nth_error_Some; rewrite Hs; discriminate).
    destruct (IH cj' stj' (nth_error_set_at cells k cj' Lc) (nth_error_set_at sts k stj' Ls)) as (c' & st' & A1 & A2 & A3).
    exists c', st'. repeat split; auto. eapply tss_cons; [|exact A3]. eapply tstep_ext; eauto.
  - apply IH; rewrite set_at_other; auto.
Qed.
Lemma grid_block n d d' ths cells cells' k c : k < n -> (forall p, In p (ths k) -> d k p = d' p) -> nth_error cells k = Some c -> grid_run n d ths cells cells' ->
  exists c', nth_error cells' k = Some c' /\ launch_run d' (ths k) c c'.
Proof.
  intros Hk E Hc R. assert (M : forall x, nth_error (map (fun k => repeat x (length (ths k))) (seq 0 n)) k = Some (repeat x (length (ths k)) : list tst)).
  { intro x. rewrite nth_error_map. rewrite (nth_error_nth' _ 0) by (rewrite seq_length; exact Hk). cbn [option_map]. rewrite seq_nth by exact Hk. reflexivity. }
  destruct (gsteps_block _ d' _ _ _ k E R c _ Hc (M Start)) as (c' & st' & A1 & A2 & A3). cbn [fst snd] in *. rewrite M in A2. injection A2 as <-. exists c'. split; [exact A1|exact A3].
Qed.
Lemma grids_block n d d' os k : k < n -> (forall i j, i < os_at os (k * 4 + 1) -> j < os_at os (k * 4 + 3) -> d k (i, j) = d' (i, j)) ->
  forall ls cells cells' c, grids_run n d (block_threads os) ls cells cells' -> nth_error cells k = Some c ->
  exists c', nth_error cells' k = Some c' /\ batch_run d' (os_at os (k * 4 + 1)) (os_at os (k * 4 + 3)) ls c c'.
Proof.
  intros Hk E ls cells cells' c R. revert c. induction R as [cells|l ls cells cells1 cells2 R1 _ IH]; intros c Hc; [exists c; split; [exact Hc|constructor]|].
  assert (E' : forall p, In p (block_threads os l k) -> d k p = d' p).
  { intros [i j] Hp. unfold block_threads, threads in Hp. destruct l as [[c1 start] dim2]. destruct (Nat.leb_spec (os_at os (k * 4 + 1)) c1); [destruct Hp|].
    apply in_map_iff in Hp. destruct Hp as (x & Ex & Hx). injection Ex as <- <-. apply filter_In in Hx. destruct Hx as [_ Hx]. apply Nat.ltb_lt in Hx. apply E; assumption. }
  destruct (grid_block n d d' _ _ _ k c Hk E' Hc R1) as (c1 & H1 & L1).
  destruct (IH c1 H1) as (c2 & H2 & B2). exists c2. split; [exact H2|]. eapply br_cons; eauto.
Qed.

Lemma max_sizes_ge os n : forall k, k < n -> os_at os (k * 4 + 1) <= fst (max_sizes os n) /\ os_at os (k * 4 + 3) <= snd (max_sizes os n).
Proof.
  unfold max_sizes. set (f := fun (m : nat * nat) i => _). 
  assert (G : forall l m, fst m <= fst (fold_left f l m) /\ snd m <= snd (fold_left f l m) /\ forall k, In k l -> os_at os (k * 4 + 1) <= fst (fold_left f l m) /\ os_at os (k * 4 + 3) <= snd (fold_left f l m)).
  { induction l as [|x l IH]; intros m; cbn [fold_left]; [split; [lia|split; [lia|intros k []]]|].
    destruct (IH (f m x)) as (A & B & C). assert (F : fst m <= fst (f m x) /\ os_at os (x * 4 + 1) <= fst (f m x) /\ snd m <= snd (f m x) /\ os_at os (x * 4 + 3) <= snd (f m x)).
    { unfold f. cbn [fst snd]. destruct (Nat.ltb_spec (fst m) (os_at os (x * 4 + 1))), (Nat.ltb_spec (snd m) (os_at os (x * 4 + 3))); lia. }
    split; [lia|]. split; [lia|]. intros k [->|Hk]; [lia|]. apply C. exact Hk. }
  intros k Hk. apply G. apply in_seq. lia.
Qed.

(** * Specification *)
(** The segments of one side of a pair, as a range of the segments of the batch. *)
Definition range {A} (l : list A) (offset size : nat) : list A := firstn size (skipn offset l).
(** The distance of two segments of the batch, as the program for the processor computes it. *)
Definition same_dist (x y : dist_t) : Prop := match x, y with Some a, Some b => (a == b)%Q | None, None => True | _, _ => False end.

Lemma nth_range {A} (d : A) l o n i : i < n -> nth i (range l o n) d = nth (o + i) l d.
Proof.
  intro H. unfold range. revert l. induction o as [|o IH]; intro l.
  - cbn [skipn Nat.add]. revert l i H. induction n as [|n IH]; intros l i H; [lia|]. destruct l as [|x l]; [destruct i; reflexivity|]. destruct i as [|i]; [reflexivity|]. cbn [firstn nth]. apply IH. lia.
  - destruct l as [|x l]; [destruct i; cbn; destruct n; reflexivity|]. cbn [skipn Nat.add nth]. apply IH.
Qed.
Lemma range_length {A} (l : list A) o n : o + n <= length l -> length (range l o n) = n.
Proof. intro H. unfold range. rewrite firstn_length, skipn_length. lia. Qed.

Lemma dist_of_range segs order vec os k i j : Permutation order (tri_grid (N.to_nat 1024) (length segs)) -> length vec = length segs * 3 ->
  os_at os (k * 4) + os_at os (k * 4 + 1) <= length segs -> os_at os (k * 4 + 2) + os_at os (k * 4 + 3) <= length segs ->
  i < os_at os (k * 4 + 1) -> j < os_at os (k * 4 + 3) ->
  thread_dist (seg_buffer segs) (fill_vectors (seg_buffer segs) (length segs) order vec) os k (i, j) =
  kernel_dist (seg_buffer (range segs (os_at os (k * 4)) (os_at os (k * 4 + 1)))) (seg_buffer (range segs (os_at os (k * 4 + 2)) (os_at os (k * 4 + 3)))) (i, j).
Proof.
  intros P L B1 B2 Hi Hj. unfold thread_dist, kernel_dist. cbn [fst snd].
  set (s := os_at os (k * 4) + i). set (t := os_at os (k * 4 + 2) + j).
  rewrite (kernel_ext _ _ _ _ (vsub (vec_at (seg_buffer segs) (6 * s + 3)) (vec_at (seg_buffer segs) (6 * s))) (vsub (vec_at (seg_buffer segs) (6 * t + 3)) (vec_at (seg_buffer segs) (6 * t))))
    by (apply vectors_right; auto; unfold s, t; lia).
  destruct (vec_at_seg segs s ltac:(unfold s; lia)) as [S1 S2], (vec_at_seg segs t ltac:(unfold t; lia)) as [T1 T2].
  rewrite (Nat.mul_comm 6 s), (Nat.mul_comm 6 t), S1, S2, T1, T2.
  destruct (vec_at_seg (range segs (os_at os (k * 4)) (os_at os (k * 4 + 1))) i) as [-> ->]; [rewrite range_length; lia|].
  destruct (vec_at_seg (range segs (os_at os (k * 4 + 2)) (os_at os (k * 4 + 3))) j) as [-> ->]; [rewrite range_length; lia|].
  rewrite !nth_range by assumption. reflexivity.
Qed.

(** C156.  In a batch of any number of pairs, in every interleaving of all threads of all blocks, with
    the vectors made in any order, and whatever the memory of the card held before: the value of a
    pair is one that a run of that pair by itself can give.  So it is the distance of two segments of
    that pair, whatever the other pairs are, and the smallest if its second side is one segment. *)
Theorem gpu_batch_pairs_apart : forall segs os pair_num order vec dist result k,
  Permutation order (tri_grid (N.to_nat 1024) (length segs)) -> length vec = length segs * 3 -> length dist = pair_num ->
  SegDist_batch_gpu (seg_buffer segs) os pair_num (length segs) order vec dist result -> k < pair_num ->
  os_at os (k * 4) + os_at os (k * 4 + 1) <= length segs -> os_at os (k * 4 + 2) + os_at os (k * 4 + 3) <= length segs ->
  let l1 := range segs (os_at os (k * 4)) (os_at os (k * 4 + 1)) in
  let l2 := range segs (os_at os (k * 4 + 2)) (os_at os (k * 4 + 3)) in
  (exists r garbage max1 max2, nth_error result k = Some r /\ length l1 <= max1 /\ length l2 <= max2 /\
     gpu_batch (seg_buffer l1) (seg_buffer l2) (length l1) (length l2) max1 max2 garbage r) /\
  (l1 <> [] -> l2 <> [] -> exists r s1 s2, nth_error result k = Some r /\ In s1 l1 /\ In s2 l2 /\ same_dist r (pair_dist s1 s2) /\
     (length l2 = 1 -> forall s e, In s l1 -> pair_dist s s2 = Some e -> exists d, r = Some d /\ (d <= e)%Q)).
Proof.
  intros segs os n order vec dist result k P Lv Ld R Hk B1 B2 l1 l2.
  assert (N1 : length l1 = os_at os (k * 4 + 1)) by (apply range_length; exact B1). assert (N2 : length l2 = os_at os (k * 4 + 3)) by (apply range_length; exact B2).
  assert (X : exists r garbage max1 max2, nth_error result k = Some r /\ length l1 <= max1 /\ length l2 <= max2 /\
     gpu_batch (seg_buffer l1) (seg_buffer l2) (length l1) (length l2) max1 max2 garbage r).
  { destruct (nth_error dist k) as [g|] eqn:Eg; [|apply nth_error_None in Eg; lia].
    assert (D : forall i j, i < os_at os (k * 4 + 1) -> j < os_at os (k * 4 + 3) ->
      thread_dist (seg_buffer segs) (fill_vectors (seg_buffer segs) (length segs) order vec) os k (i, j) = kernel_dist (seg_buffer l1) (seg_buffer l2) (i, j))
      by (intros i j Hi Hj; apply dist_of_range; auto).
    destruct (grids_block n _ _ os k Hk D _ _ _ g R Eg) as (r & Hr & Br).
    exists r, g, (fst (max_sizes os n)), (snd (max_sizes os n)). split; [exact Hr|]. destruct (max_sizes_ge os n k Hk). rewrite N1, N2. split; [assumption|]. split; [assumption|]. exact Br. }
  split; [exact X|]. intros E1 E2. destruct X as (r & g & m1 & m2 & Hr & H1 & H2 & Br).
  assert (P1 : 0 < length l1) by (destruct l1; [congruence|cbn; lia]). assert (P2 : 0 < length l2) by (destruct l2; [congruence|cbn; lia]).
  destruct (gpu_batch_minimum_partial _ _ _ _ _ _ _ _ (conj P1 H1) (conj P2 H2) Br) as [(i & j & [Hi Hj] & Er) M].
  exists r, (nth i l1 none_seg), (nth j l2 none_seg). split; [exact Hr|]. split; [apply nth_In; exact Hi|]. split; [apply nth_In; exact Hj|].
  split; [rewrite Er; apply gpu_kernel_of_segments; assumption|].
  intros L2 s e Hs He. assert (j = 0) by lia. subst j. apply In_nth with (d := none_seg) in Hs. destruct Hs as (i' & Hi' & <-).
  pose proof (gpu_kernel_of_segments l1 l2 i' 0 Hi' ltac:(lia)) as K. rewrite He in K.
  destruct (kernel_dist (seg_buffer l1) (seg_buffer l2) (i', 0)) as [x|] eqn:Ex; [|destruct K].
  destruct (M L2 i' x Hi' Ex) as (d & -> & Hd). exists d. split; [reflexivity|]. rewrite <- K. exact Hd.
Qed.
Print Assumptions gpu_batch_pairs_apart.

(** Three segments, two pairs that share the first, the blocks interleaved. *)
Definition ex_all : list (point * point) := [((0, 0, 0), (1, 0, 0)); ((0, 3, 0), (1, 3, 0)); ((0, 1, 0), (1, 1, 0))]%Q.
Example gpu_batch_pairs_nonvacuous :
  SegDist_batch_gpu (seg_buffer ex_all) [0; 1; 1; 1; 2; 1; 0; 1] 2 3 (rev (tri_grid (N.to_nat 1024) 3)) (repeat 7%Q 9) [None; Some 0%Q] [Some 9; Some 1]%Q.
Proof.
  unfold SegDist_batch_gpu. assert (E : launches (fst (max_sizes [0; 1; 1; 1; 2; 1; 0; 1] 2)) (snd (max_sizes [0; 1; 1; 1; 2; 1; 0; 1] 2)) = [(0, 0, 1)]) by (vm_compute; reflexivity).
  cbv zeta. rewrite E. set (v := fill_vectors _ _ _ _). vm_compute in v.
  eapply gr_cons; [|apply gr_nil]. unfold grid_run. change (map (fun k => repeat Start (length (block_threads [0; 1; 1; 1; 2; 1; 0; 1] (0, 0, 1) k))) (seq 0 2)) with [[Start]; [Start]].
  change (map (fun k => repeat Done (length (block_threads [0; 1; 1; 1; 2; 1; 0; 1] (0, 0, 1) k))) (seq 0 2)) with [[Done]; [Done]].
  eapply gss_cons; [apply (gs _ _ 1 _ _ (Some 0%Q) [Start] (Some 1%Q) [Done]); [reflexivity|reflexivity|]|].
  - replace (Some 1%Q) with (thread_dist (seg_buffer ex_all) v [0; 1; 1; 1; 2; 1; 0; 1] 1 (0, 0)) by (vm_compute; reflexivity). apply (ts_first _ _ 0); reflexivity.
  - cbn [set_at]. eapply gss_cons; [apply (gs _ _ 0 _ _ None [Start] (Some 9%Q) [Done]); [reflexivity|reflexivity|]|cbn [set_at]; apply gss_nil].
    replace (Some 9%Q) with (thread_dist (seg_buffer ex_all) v [0; 1; 1; 1; 2; 1; 0; 1] 0 (0, 0)) by (vm_compute; reflexivity). apply (ts_first _ _ 0); reflexivity.
Qed.

(** * The schedules under which the minimum is found *)
(** Every thread reads and writes without another in between. *)
Inductive atomic_steps (d : nat * nat -> dist_t) (ths : list (nat * nat)) : dist_t * list tst -> dist_t * list tst -> Prop :=
| as_nil s : atomic_steps d ths s s
| as_thread i p cell st s : nth_error ths i = Some p -> p <> (0, 0) -> nth_error st i = Some Start ->
    atomic_steps d ths (if dlt (d p) cell then d p else cell, set_at st i Done) s -> atomic_steps d ths (cell, st) s.
(** The thread of the first two segments, if it is in the launch, comes before all others. *)
Definition launch_atomic (d : nat * nat -> dist_t) (ths : list (nat * nat)) (cell cell' : dist_t) : Prop :=
  match ths with
  | (0, 0) :: _ => atomic_steps d ths (d (0, 0), Done :: repeat Start (length ths - 1)) (cell', repeat Done (length ths))
  | _ => atomic_steps d ths (cell, repeat Start (length ths)) (cell', repeat Done (length ths))
  end.
Inductive batch_atomic (d : nat * nat -> dist_t) (size1 size2 : nat) : list (nat * nat * nat) -> dist_t -> dist_t -> Prop :=
| ba_nil cell : batch_atomic d size1 size2 [] cell cell
| ba_cons l ls cell cell' cell'' : launch_atomic d (threads size1 size2 l) cell cell' ->
    batch_atomic d size1 size2 ls cell' cell'' -> batch_atomic d size1 size2 (l :: ls) cell cell''.

Lemma set_at_twice {A} (l : list A) : forall i x y, set_at (set_at l i x) i y = set_at l i y.
Proof. induction l as [|z l IH]; intros i x y; [reflexivity|]. destruct i; cbn [set_at]; [reflexivity|]. f_equal. apply IH. Qed.
Lemma atomic_is_run d ths s s' : atomic_steps d ths s s' -> tsteps d ths s s'.
Proof.
  induction 1 as [s|i p cell st s Hp Np Hs _ IH]; [constructor|].
  assert (L : i < length st) by (apply nth_error_Some; rewrite Hs; discriminate).
  eapply tss_cons; [apply (ts_load d ths i p); eauto|]. eapply tss_cons; [apply (ts_store d ths i p cell); [exact Hp|apply nth_error_set_at; exact L]|].
  rewrite set_at_twice. exact IH.
Qed.
Lemma launch_atomic_run d ths c c' : launch_atomic d ths c c' -> launch_run d ths c c'.
Proof.
  unfold launch_atomic, launch_run. destruct ths as [|[[|a] [|b]] r]; try (intro H; apply atomic_is_run; exact H).
  intro H. eapply tss_cons; [apply (ts_first d _ 0 c); reflexivity|]. cbn [length repeat set_at]. cbn [length] in H. rewrite Nat.sub_succ, Nat.sub_0_r in H. apply atomic_is_run. exact H.
Qed.
Lemma batch_atomic_run d size1 size2 ls c c' : batch_atomic d size1 size2 ls c c' -> batch_run d size1 size2 ls c c'.
Proof. induction 1; [constructor|]. eapply br_cons; [apply launch_atomic_run; eassumption|assumption]. Qed.

Lemma atomic_min d ths s s' : atomic_steps d ths s s' -> dle (fst s') (fst s) /\
  forall i p, nth_error ths i = Some p -> nth_error (snd s) i = Some Start -> nth_error (snd s') i = Some Done -> dle (fst s') (d p).
Proof.
  induction 1 as [s|i p cell st s Hp Np Hs _ [IH1 IH2]]; [split; [apply dle_refl|intros; congruence]|]. cbn [fst snd] in *.
  destruct (dmin_spec cell (d p)) as (D1 & D2 & _). unfold dmin in D1, D2. split; [eapply dle_trans; eauto|].
  intros j q Hq Sq Dq. destruct (Nat.eq_dec j i) as [->|N]; [rewrite Hp in Hq; injection Hq as <-; eapply dle_trans; eauto|].
  apply (IH2 j q); auto. rewrite set_at_other; auto.
Qed.
Lemma nth_error_repeat {A} (x : A) n i : i < n -> nth_error (repeat x n) i = Some x.
Proof. revert i. induction n as [|n IH]; intros i H; [lia|]. destruct i; [reflexivity|]. cbn. apply IH. lia. Qed.
Lemma launch_atomic_min d ths c c' : launch_atomic d ths c c' -> (forall p, In p ths -> dle c' (d p)) /\ (nth_error ths 0 = Some (0, 0) \/ dle c' c).
Proof.
  intro H. assert (G : forall st c0, atomic_steps d ths (c0, st) (c', repeat Done (length ths)) ->
    forall i p, nth_error ths i = Some p -> nth_error st i = Some Start -> dle c' (d p)).
  { intros st c0 A i p Hp Hs. apply (proj2 (atomic_min _ _ _ _ A) i p Hp Hs). apply nth_error_repeat. apply nth_error_Some. rewrite Hp. discriminate. }
  assert (O : atomic_steps d ths (c, repeat Start (length ths)) (c', repeat Done (length ths)) -> (forall p, In p ths -> dle c' (d p)) /\ dle c' c).
  { intro A. split; [|exact (proj1 (atomic_min _ _ _ _ A))]. intros p Hp. apply In_nth_error in Hp. destruct Hp as [i Hi]. apply (G _ _ A i p Hi). apply nth_error_repeat. apply nth_error_Some. rewrite Hi. discriminate. }
  unfold launch_atomic in H. destruct ths as [|[[|a] [|b]] r]; try (destruct (O H); split; [assumption|right; assumption]).
  split; [|left; reflexivity]. intros p [<-|Hp]; [exact (proj1 (atomic_min _ _ _ _ H))|].
  apply In_nth_error in Hp. destruct Hp as [i Hi]. apply (G _ _ H (S i) p Hi). cbn [nth_error length]. rewrite Nat.sub_succ, Nat.sub_0_r. apply nth_error_repeat. apply nth_error_Some. rewrite Hi. discriminate.
Qed.

Lemma threads_first size1 size2 l : nth_error (threads size1 size2 l) 0 = Some (0, 0) -> fst (fst l) = 0 /\ snd (fst l) = 0.
Proof.
  unfold threads. destruct l as [[c1 start] dim2]. destruct (Nat.leb size1 c1); [intro H; discriminate H|]. intro H. apply nth_error_In in H. apply in_map_iff in H. destruct H as (x & E & H). injection E as -> ->.
  apply filter_In in H. destruct H as [H _]. apply in_seq in H. cbn [fst snd]. lia.
Qed.
Lemma batch_atomic_min d size1 size2 ls c c' : batch_atomic d size1 size2 ls c c' -> (forall l, In l ls -> fst (fst l) = 0 -> snd (fst l) = 0 -> False) ->
  dle c' c /\ forall l p, In l ls -> In p (threads size1 size2 l) -> dle c' (d p).
Proof.
  induction 1 as [c|l ls c c1 c2 L _ IH]; intro N; [split; [apply dle_refl|intros l p []]|].
  destruct (launch_atomic_min _ _ _ _ L) as [A [B|B]]; [apply threads_first in B; exfalso; apply (N l); [left; reflexivity|apply B|apply B]|].
  destruct IH as [I1 I2]; [intros l' Hl; apply N; right; exact Hl|]. split; [eapply dle_trans; eauto|].
  intros l' p [<-|Hl] Hp; [eapply dle_trans; eauto|]. apply (I2 l' p Hl Hp).
Qed.

(** C62, the schedules for which it is true: every thread reads and writes without another in between,
    and the thread of the first two segments comes first.  These are schedules of the program, and
    the value is the smallest distance of the pair. *)
Theorem gpu_batch_minimum_atomic : forall data1 data2 size1 size2 max1 max2 garbage result,
  0 < size1 <= max1 -> 0 < size2 <= max2 ->
  batch_atomic (kernel_dist data1 data2) size1 size2 (launches max1 max2) garbage result ->
  gpu_batch data1 data2 size1 size2 max1 max2 garbage result /\
  (exists i j, i < size1 /\ j < size2 /\ result = kernel_dist data1 data2 (i, j)) /\
  forall i j e, i < size1 -> j < size2 -> kernel_dist data1 data2 (i, j) = Some e -> exists m, result = Some m /\ (m <= e)%Q.
Proof.
  intros data1 data2 size1 size2 max1 max2 g r H1 H2 B. assert (R : gpu_batch data1 data2 size1 size2 max1 max2 g r) by (apply batch_atomic_run; exact B).
  split; [exact R|]. split; [destruct (gpu_batch_minimum_partial _ _ _ _ _ _ _ _ H1 H2 R) as [(i & j & [A1 A2] & A3) _]; exists i, j; auto|].
  intros i j e Hi Hj He. assert (D : dle r (kernel_dist data1 data2 (i, j))); [|rewrite He in D; destruct r as [m|]; [exists m; auto|destruct D]].
  assert (T : exists l, In l (launches max1 max2) /\ In (i, j) (threads size1 size2 l)) by (apply in_flat_map, thread_iff; [lia|lia|cbn [fst snd]; lia]).
  destruct T as (l & Hl & Hp). destruct (first_launch max1 max2) as (ls & E & N); [lia|lia|]. rewrite E in B, Hl.
  inversion B as [|l0 ls0 c c1 c2 L B' E1 E2 E3]; subst. destruct (launch_atomic_min _ _ _ _ L) as [A _].
  destruct (batch_atomic_min _ _ _ _ _ _ B') as [C1 C2]; [intros l0 Hl0 Ha Hb; destruct (N l0 Hl0); lia|].
  destruct Hl as [<-|Hl]; [eapply dle_trans; [exact C1|apply A; exact Hp]|]. apply (C2 l (i, j) Hl Hp).
Qed.
Print Assumptions gpu_batch_minimum_atomic.
(** The pair for which the other schedule loses the smallest. *)
Example gpu_batch_atomic_nonvacuous :
  batch_atomic (kernel_dist (seg_buffer [((0, 0, 0), (1, 0, 0))]) (seg_buffer [((0, 3, 0), (1, 3, 0)); ((0, 1, 0), (1, 1, 0))]))%Q 1 2 (launches 1 2) None (Some 1%Q).
Proof.
  assert (E : launches 1 2 = [(0, 0, 2)]) by (vm_compute; reflexivity). rewrite E. eapply ba_cons; [|apply ba_nil].
  unfold launch_atomic. cbn [threads Nat.leb seq map filter Nat.ltb length Nat.sub repeat].
  apply (as_thread _ _ 1 (0, 1)); [reflexivity|discriminate|reflexivity|]. cbn [set_at].
  match goal with |- atomic_steps _ _ (?x, _) _ => replace x with (Some 1%Q) by (vm_compute; reflexivity) end. apply as_nil.
Qed.
