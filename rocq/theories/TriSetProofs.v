(** Proofs about sets of triangles and the device batch. *)
From Coq Require Import QArith List Bool Arith Lia Permutation.
From Verif Require Import AabModel SegDistModel SegDistProofs TriIntModel TriIntProofs TriFlatProofs.
Import ListNotations.
Open Scope Q_scope.

(** A triangle as the three points stored for it: a corner and the two edge vectors. *)
Definition triangle := (point * point * point)%type.
Definition tri_floats (t : triangle) : list Q :=
  let '((a, b, c), (d, e, f), (g, h, i)) := t in [a; b; c; d; e; f; g; h; i].
Definition tri_buffer (l : list triangle) : list Q := flat_map tri_floats l.
(** The test on two triangles, and the set of points they have in common. *)
Definition tri_pair (t1 t2 : triangle) : bool :=
  let '(c, p, r) := t1 in let '(d, q, s) := t2 in TriInt (pt c) (pt p) (pt r) (pt d) (pt q) (pt s).
Definition tri_share (t1 t2 : triangle) : Prop :=
  let '(c, p, r) := t1 in let '(d, q, s) := t2 in share (pt c) (pt p) (pt r) (pt d) (pt q) (pt s).
Definition solid (t : triangle) : Prop := let '(c, p, r) := t in ~ (forall i, vcross (pt p) (pt r) i == 0).

Definition none_tri : triangle := ((0, 0, 0), (0, 0, 0), (0, 0, 0)).
Lemma vec_at_tri l : forall i, (i < length l)%nat ->
  let '(c, p, r) := nth i l none_tri in
  vec_at (tri_buffer l) (9 * i) = pt c /\ vec_at (tri_buffer l) (9 * i + 3) = pt p /\ vec_at (tri_buffer l) (9 * i + 6) = pt r.
Proof.
  induction l as [|[[[[a b] c] [[d e] f]] [[g h] k]] l IH]; intros i Hi; [cbn in Hi; lia|].
  destruct i as [|i]; [cbn; repeat split; reflexivity|].
  specialize (IH i ltac:(cbn in Hi; lia)). cbn [nth]. destruct (nth i l none_tri) as [[x y] z].
  replace (9 * S i)%nat with (9 + 9 * i)%nat by lia. exact IH.
Qed.
Lemma tri_int_at_pair l1 l2 i j : (i < length l1)%nat -> (j < length l2)%nat ->
  tri_int_at (tri_buffer l1) (tri_buffer l2) i j = tri_pair (nth i l1 none_tri) (nth j l2 none_tri).
Proof.
  intros Hi Hj. pose proof (vec_at_tri l1 i Hi) as A. pose proof (vec_at_tri l2 j Hj) as B. unfold tri_int_at.
  destruct (nth i l1 none_tri) as [[x y] z], (nth j l2 none_tri) as [[u v] w].
  destruct A as (-> & -> & ->), B as (-> & -> & ->). reflexivity.
Qed.
Lemma find_from_iff f n : forall i, find_from f i n = true <-> exists k, (i <= k < i + n)%nat /\ f k = true.
Proof.
  induction n as [|n IH]; intros i; cbn [find_from].
  - split; [discriminate|]. intros (k & H & _). lia.
  - destruct (f i) eqn:E.
    + split; [|reflexivity]. intros _. exists i. split; [lia|exact E].
    + rewrite IH. split; intros (k & H & F).
      * exists k. split; [lia|exact F].
      * assert (k <> i) by congruence. exists k. split; [lia|exact F].
Qed.
Lemma single_iff l1 l2 : TriInt_single (tri_buffer l1) (tri_buffer l2) (length l1) (length l2) = true <->
  exists t1 t2, In t1 l1 /\ In t2 l2 /\ tri_pair t1 t2 = true.
Proof.
  unfold TriInt_single. rewrite find_from_iff. split.
  - intros (i & Hi & H). apply find_from_iff in H as (j & Hj & H).
    rewrite tri_int_at_pair in H by lia. exists (nth i l1 none_tri), (nth j l2 none_tri).
    split; [apply nth_In; lia|split; [apply nth_In; lia|exact H]].
  - intros (t1 & t2 & H1 & H2 & H). apply (In_nth _ _ none_tri) in H1 as (i & Hi & <-).
    apply (In_nth _ _ none_tri) in H2 as (j & Hj & <-).
    exists i. split; [lia|]. apply find_from_iff. exists j. split; [lia|]. rewrite tri_int_at_pair by lia. exact H.
Qed.

(** ** The device *)
Lemma kernel_iff l os idx : 
  (os_at os (idx * 4) + os_at os (idx * 4 + 1) <= length l)%nat ->
  (os_at os (idx * 4 + 2) + os_at os (idx * 4 + 3) <= length l)%nat ->
  tri_kernel (tri_buffer l) os idx = true <->
  exists t1 t2, In t1 (firstn (os_at os (idx * 4 + 1)) (skipn (os_at os (idx * 4)) l)) /\
    In t2 (firstn (os_at os (idx * 4 + 3)) (skipn (os_at os (idx * 4 + 2)) l)) /\ tri_pair t1 t2 = true.
Proof.
  intros B1 B2. unfold tri_kernel. set (o1 := os_at os (idx * 4)) in *. set (n1 := os_at os (idx * 4 + 1)) in *.
  set (o2 := os_at os (idx * 4 + 2)) in *. set (n2 := os_at os (idx * 4 + 3)) in *. clearbody o1 n1 o2 n2.
  assert (M : forall o n t, (o + n <= length l)%nat -> (In t (firstn n (skipn o l)) <-> exists s, (s < n)%nat /\ t = nth (o + s) l none_tri)).
  { intros o n t Hb.
    assert (L : length (firstn n (skipn o l)) = n) by (rewrite firstn_length, skipn_length; lia).
    assert (G : forall s, (s < n)%nat -> nth s (firstn n (skipn o l)) none_tri = nth (o + s) l none_tri).
    { intros s Hs. rewrite <- (firstn_skipn o l) at 2. rewrite app_nth2 by (rewrite firstn_length; lia).
      rewrite firstn_length. replace (o + s - Nat.min o (length l))%nat with s by lia.
      rewrite <- (firstn_skipn n (skipn o l)) at 2. rewrite app_nth1 by lia. reflexivity. }
    split.
    - intros H. apply (In_nth _ _ none_tri) in H as (s & Hs & <-). exists s. split; [lia|]. apply G. lia.
    - intros (s & Hs & ->). rewrite <- G by exact Hs. apply nth_In. lia. }
  rewrite find_from_iff. split.
  - intros (i & Hi & H). apply find_from_iff in H as (j & Hj & H). rewrite tri_int_at_pair in H by lia.
    exists (nth (o1 + i) l none_tri), (nth (o2 + j) l none_tri).
    split; [apply M; [lia|]; exists i; split; [lia|reflexivity]|]. split; [apply M; [lia|]; exists j; split; [lia|reflexivity]|exact H].
  - intros (t1 & t2 & H1 & H2 & H). apply M in H1 as (i & Hi & ->); [|lia]. apply M in H2 as (j & Hj & ->); [|lia].
    exists i. split; [lia|]. apply find_from_iff. exists j. split; [lia|]. rewrite tri_int_at_pair by lia. exact H.
Qed.

Lemma tri_thread_spec data os n inter idx : length inter = n ->
  length (tri_thread data os n inter idx) = n /\
  forall k, (k < n)%nat -> nth k (tri_thread data os n inter idx) true = if (k =? idx)%nat then tri_kernel data os idx else nth k inter true.
Proof.
  intros L. unfold tri_thread. destruct (Nat.leb_spec n idx) as [H|H].
  - split; [exact L|]. intros k Hk. destruct (Nat.eqb_spec k idx); [lia|reflexivity].
  - split.
    + rewrite app_length, firstn_length. cbn [length]. rewrite skipn_length. lia.
    + intros k Hk. destruct (Nat.eqb_spec k idx) as [->|N].
      * rewrite app_nth2 by (rewrite firstn_length; lia). rewrite firstn_length. replace (idx - Nat.min idx (length inter))%nat with O by lia. reflexivity.
      * destruct (Nat.lt_ge_cases k idx).
        -- rewrite app_nth1 by (rewrite firstn_length; lia). rewrite <- (firstn_skipn idx inter) at 2.
           rewrite app_nth1 by (rewrite firstn_length; lia). reflexivity.
        -- rewrite app_nth2 by (rewrite firstn_length; lia). rewrite firstn_length.
           replace (k - Nat.min idx (length inter))%nat with (S (k - idx - 1)) by lia. cbn [nth].
           rewrite <- (firstn_skipn (S idx) inter) at 2. rewrite app_nth2 by (rewrite firstn_length; lia). f_equal.
           rewrite firstn_length. lia.
Qed.
Lemma tri_batch_spec data os n order : forall inter, length inter = n ->
  length (tri_batch data os n order inter) = n /\
  forall k, (k < n)%nat -> nth k (tri_batch data os n order inter) true = if existsb (Nat.eqb k) order then tri_kernel data os k else nth k inter true.
Proof.
  unfold tri_batch. induction order as [|idx order IH]; intros inter L; cbn [fold_left existsb]; [split; [exact L|reflexivity]|].
  destruct (tri_thread_spec data os n inter idx L) as [L' T]. destruct (IH _ L') as [L2 T2]. split; [exact L2|].
  intros k Hk. rewrite T2, T by exact Hk. destruct (Nat.eqb_spec k idx) as [->|]; cbn [orb]; destruct (existsb _ order); reflexivity.
Qed.
Lemma grid_covers block n k : (0 < block)%nat -> (k < n)%nat -> In k (tri_grid block n).
Proof.
  intros Hb Hk. unfold tri_grid. apply in_flat_map. exists (k / block)%nat. split.
  - apply in_seq. pose proof (Nat.div_le_mono k n block). lia.
  - apply in_map_iff. exists (k mod block)%nat. split.
    + pose proof (Nat.div_mod k block). lia.
    + apply in_seq. pose proof (Nat.mod_upper_bound k block). lia.
Qed.
