(** The program that takes meshes apart, merges points and fills holes: what it does to a mesh. *)
From Coq Require Import List ZArith Bool Arith Lia Relations Permutation.
From Verif Require Import Arr FixerModel FixerProofs.
Import ListNotations.
Open Scope nat_scope.

(** * Meshes, in terms of corners *)
(** The side leaving corner [i] of face [k]. *)
Definition side_at {P} (p : poly P) (k i a b : nat) : Prop :=
  exists f, nth_error (faces p) k = Some f /\ nth_error f i = Some a /\ nth_error f (S i mod length f) = Some b.
Definition is_side {P} (p : poly P) (a b : nat) : Prop := exists k i, side_at p k i a b.
(** No two faces run along the same side in the same direction. *)
Definition once {P} (p : poly P) : Prop := forall k i k' i' a b, side_at p k i a b -> side_at p k' i' a b -> k = k' /\ i = i'.
Definition open_side {P} (p : poly P) (a b : nat) : Prop := is_side p a b /\ ~ is_side p b a.
Definition watertight {P} (p : poly P) : Prop := once p /\ forall a b, ~ open_side p a b.
(** No two holes meet in a vertex. *)
Definition simple_holes {P} (p : poly P) : Prop := forall v b b', open_side p v b -> open_side p v b' -> b = b'.
(** The table of edges is that of the faces. *)
Definition built {P} (p : poly P) : Prop := forall a b, In (a, b) (edges p) <-> is_side p a b.
Definition valid {P} (p : poly P) : Prop := Forall (fun f => f <> [] /\ Forall (fun v => v < length (points p)) f) (faces p).

Lemma nth_combine A B (l : list A) : forall (l' : list B) i, nth_error (combine l l') i = match nth_error l i, nth_error l' i with Some x, Some y => Some (x, y) | _, _ => None end.
Proof.
  induction l as [|x l IH]; intros l' i; [destruct i; reflexivity|]. destruct l' as [|y l']; cbn [combine].
  - destruct i as [|i]; cbn [nth_error]; [reflexivity|]. destruct (nth_error l i); reflexivity.
  - destruct i as [|i]; cbn [nth_error]; [reflexivity|apply IH].
Qed.
Lemma sides_nth f i a b : nth_error (sides f) i = Some (a, b) <-> nth_error f i = Some a /\ nth_error f (S i mod length f) = Some b.
Proof.
  unfold sides. rewrite nth_combine. destruct (Nat.lt_ge_cases i (length f)) as [H|H].
  - assert (E : nth_error (tl f ++ firstn 1 f) i = nth_error f (S i mod length f)).
    { destruct f as [|x f]; [cbn [length] in H; lia|]. cbn [tl firstn length] in *. destruct (Nat.eq_dec i (length f)) as [->|N].
      - rewrite Nat.mod_same by lia. rewrite nth_error_app2 by lia. rewrite Nat.sub_diag. reflexivity.
      - rewrite Nat.mod_small by lia. rewrite nth_error_app1 by lia. reflexivity. }
    rewrite E. destruct (nth_error f i), (nth_error f (S i mod length f)); split; try (intros [K1 K2]); try congruence; intro K; injection K; auto; discriminate.
  - rewrite (proj2 (nth_error_None f i) H). split; [discriminate|intros [K _]; discriminate K].
Qed.
Lemma side_list P (p : poly P) k i a b : side_at p k i a b <-> exists l, nth_error (map sides (faces p)) k = Some l /\ nth_error l i = Some (a, b).
Proof.
  unfold side_at. rewrite nth_error_map. split.
  - intros (f & H1 & H2). exists (sides f). rewrite H1. split; [reflexivity|]. apply sides_nth. exact H2.
  - intros (l & H1 & H2). destruct (nth_error (faces p) k) as [f|]; [|discriminate H1]. injection H1 as <-. exists f. split; [reflexivity|]. apply sides_nth. exact H2.
Qed.
Lemma is_side_in P (p : poly P) a b : is_side p a b <-> In (a, b) (flat_map sides (faces p)).
Proof.
  rewrite flat_map_concat_map, in_concat. split.
  - intros (k & i & H). apply side_list in H. destruct H as (l & H1 & H2). exists l. split; [exact (nth_error_In _ _ H1)|exact (nth_error_In _ _ H2)].
  - intros (l & H1 & H2). apply In_nth_error in H1. apply In_nth_error in H2. destruct H1 as (k & H1), H2 as (i & H2). exists k, i. apply side_list. exists l. auto.
Qed.
Lemma nodup_concat A (ls : list (list A)) : NoDup (concat ls) <->
  forall k i k' i' x l l', nth_error ls k = Some l -> nth_error l i = Some x -> nth_error ls k' = Some l' -> nth_error l' i' = Some x -> k = k' /\ i = i'.
Proof.
  induction ls as [|m ls IH]; cbn [concat].
  - split; [|constructor]. intros _ [|k] i k' i' x l l' H; discriminate H.
  - split.
    + intro ND. assert (N2 := nodup_app_r _ _ _ ND). assert (N1 : NoDup m). { apply (nodup_app_r _ (concat ls)). apply (Permutation_NoDup (l := m ++ concat ls)); [apply Permutation_app_comm|exact ND]. }
      assert (D : forall x, In x m -> ~ In x (concat ls)).
      { intros x H1 H2. apply in_split in H1. destruct H1 as (a & b & ->). rewrite <- app_assoc in ND. apply nodup_app_r in ND. cbn [app] in ND. inversion ND as [|? ? K _]. apply K. apply in_app_iff. auto. }
      assert (C : forall k i x l, nth_error ls k = Some l -> nth_error l i = Some x -> In x (concat ls)).
      { intros k i x l H1 H2. apply in_concat. exists l. split; [exact (nth_error_In _ _ H1)|exact (nth_error_In _ _ H2)]. }
      intros [|k] i [|k'] i' x l l' H1 H2 H3 H4; cbn [nth_error] in H1, H3.
      * injection H1 as <-. injection H3 as <-. split; [reflexivity|]. apply (proj1 (NoDup_nth_error m) N1); [apply nth_error_Some; congruence|congruence].
      * exfalso. injection H1 as <-. apply (D x (nth_error_In _ _ H2)). exact (C _ _ _ _ H3 H4).
      * exfalso. injection H3 as <-. apply (D x (nth_error_In _ _ H4)). exact (C _ _ _ _ H1 H2).
      * destruct (proj1 IH N2 k i k' i' x l l' H1 H2 H3 H4) as [-> ->]. auto.
    + intro H. assert (N2 : NoDup (concat ls)).
      { apply IH. intros k i k' i' x l l' H1 H2 H3 H4. destruct (H (S k) i (S k') i' x l l' H1 H2 H3 H4) as [E1 E2]. split; [lia|exact E2]. }
      assert (N1 : NoDup m). { apply NoDup_nth_error. intros i j Hi E. destruct (nth_error m i) as [x|] eqn:Ei; [|apply nth_error_Some in Hi; congruence]. apply (H 0 i 0 j x m m); auto. }
      assert (D : forall x, In x m -> ~ In x (concat ls)).
      { intros x H1 H2. apply in_concat in H2. destruct H2 as (l & H2 & H3). apply In_nth_error in H1, H2, H3. destruct H1 as (i & H1), H2 as (k & H2), H3 as (j & H3).
        destruct (H 0 i (S k) j x m l eq_refl H1 H2 H3) as [E _]. discriminate E. }
      clear - N1 N2 D. induction m as [|x m IH]; cbn [app]; [exact N2|]. inversion N1 as [|? ? K1 K2]; subst. constructor; [|apply IH; [exact K2|intros y Hy; apply D; right; exact Hy]].
      intro K. apply in_app_iff in K. destruct K as [K|K]; [contradiction|]. exact (D x (or_introl eq_refl) K).
Qed.
Lemma once_nodup P (p : poly P) : once p <-> NoDup (flat_map sides (faces p)).
Proof.
  rewrite flat_map_concat_map, nodup_concat. split.
  - intros H k i k' i' [a b] l l' H1 H2 H3 H4. apply (H k i k' i' a b); apply side_list; [exists l|exists l']; auto.
  - intros H k i k' i' a b H1 H2. apply side_list in H1, H2. destruct H1 as (l & H1 & H3), H2 as (l' & H2 & H4). exact (H k i k' i' (a, b) l l' H1 H3 H2 H4).
Qed.
Lemma open_single P (p : poly P) a b : open_side p a b <-> single (flat_map sides (faces p)) a b.
Proof. unfold open_side, single. rewrite !is_side_in. reflexivity. Qed.

(** * Taking apart *)
Definition share_face {P} (p : poly P) (a b : nat) : Prop := exists f, In f (faces p) /\ In a f /\ In b f.
Definition joined {P} (p : poly P) : nat -> nat -> Prop := clos_refl_sym_trans nat (share_face p).
(** [q] is part [i] of [p] under the numbering that sends vertex [v] to vertex [k v] of part [g v]. *)
Definition part_of {P} (p : poly P) (g k : nat -> nat) (i : nat) (q : poly P) : Prop :=
  (forall v, v < length (points p) -> g v = i -> nth_error (points q) (k v) = nth_error (points p) v) /\
  (forall j, j < length (points q) -> exists v, v < length (points p) /\ g v = i /\ k v = j) /\
  points q <> [] /\
  faces q = map (map k) (filter (fun f => g (hd 0 f) =? i) (faces p)) /\ built q.
(** The parts are the connected pieces; in each the points keep their order. *)
Definition parts_of {P} (p : poly P) (g k : nat -> nat) (parts : list (poly P)) : Prop :=
  (forall v, v < length (points p) -> g v < length parts) /\
  (forall u v, u < length (points p) -> v < length (points p) -> (g u = g v <-> joined p u v)) /\
  (forall u v, u < length (points p) -> v < length (points p) -> g u = g v -> u < v -> k u < k v) /\
  (forall i q, nth_error parts i = Some q -> part_of p g k i q).

Lemma nth_numbered A B (h : nat * A -> B) l : forall s i, nth_error (map h (combine (seq s (length l)) l)) i = option_map (fun c => h (s + i, c)) (nth_error l i).
Proof.
  induction l as [|x l IH]; intros s i; cbn [length seq combine map]; [destruct i; reflexivity|]. destruct i as [|i]; cbn [nth_error option_map].
  - rewrite Nat.add_0_r. reflexivity.
  - rewrite IH. replace (S s + i) with (s + S i) by lia. reflexivity.
Qed.
Lemma linked_joined P (p : poly P) u v : linked (connections (faces p)) u v <-> joined p u v.
Proof.
  split.
  - induction 1 as [a b H|a|a b c _ I1 _ I2]; [|apply rst_refl|eapply rst_trans; eauto]. apply connections_in in H.
    assert (G : forall x y, In (x, y) (flat_map sides (faces p)) -> share_face p x y). { intros x y K. apply in_flat_map in K. destruct K as (f & Hf & K). exists f. split; [exact Hf|]. apply sides_in. exact K. }
    destruct H as [H|H]; [apply rst_step; auto|apply rst_sym, rst_step; auto].
  - induction 1 as [a b (f & H1 & H2 & H3)|a|a b _ I|a b c _ I1 _ I2].
    + exact (face_linked (faces p) f a b H1 H2 H3).
    + apply rt_refl.
    + apply linked_sym; [|exact I]. intros x y K. apply connections_in. apply connections_in in K. tauto.
    + eapply rt_trans; eauto.
Qed.
Lemma built_parts P (ps : list P) fs : built (fold_left add_face fs (Poly ps [] [])).
Proof. intros a b. destruct (add_faces P fs (Poly ps [] [])) as (_ & H2 & H3). rewrite H3, is_side_in, H2. cbn [edges faces app In]. tauto. Qed.
Lemma rank_lt (c : nat -> bool) u v : u < v -> c u = true -> length (filter c (seq 0 u)) < length (filter c (seq 0 v)).
Proof.
  intros H Hc. replace v with (u + S (v - u - 1)) by lia. rewrite seq_app, filter_app, app_length. cbn [seq filter Nat.add]. rewrite Hc. cbn [length]. lia.
Qed.
Lemma filter_bounded (c : nat -> bool) n : Forall (fun v => v < n) (filter c (seq 0 n)).
Proof. apply Forall_forall. intros v H. apply filter_In in H. destruct H as [H _]. apply in_seq in H. lia. Qed.

Theorem depart_components : forall P (p : poly P), valid p -> exists N, forall fuel, N <= fuel ->
  exists parts g k, depart fuel p = Some parts /\ parts_of p g k parts.
Proof.
  intros P p V. set (n := length (points p)). set (conn := connections (faces p)). set (D := 2 * length (flat_map sides (faces p)) + 1).
  exists (1 + 2 * D * n). intros fuel HF.
  assert (SY : forall a b, In b (conn a) -> In a (conn b)). { intros a b K. apply connections_in. apply connections_in in K. tauto. }
  assert (CN : forall v w, In w (conn v) -> w < n).
  { intros v w K. apply connections_in in K. assert (G : forall x y, In (x, y) (flat_map sides (faces p)) -> x < n /\ y < n).
    { intros x y G. apply in_flat_map in G. destruct G as (f & Hf & G). apply sides_in in G. unfold valid in V. rewrite Forall_forall in V. destruct (V f Hf) as [_ F]. rewrite Forall_forall in F. split; apply F; tauto. }
    destruct K as [K|K]; apply G in K; tauto. }
  destruct (components_total conn n D CN (conn_length (faces p)) n fuel (fun _ => false)) as (cs & EC).
  { unfold left_over. etransitivity; [apply filter_le|]. rewrite seq_length. lia. } { exact HF. }
  destruct (components_spec conn n SY n fuel (fun _ => false) cs EC) as (S1 & S2 & S3); [intros u w K; discriminate K|].
  assert (AT : forall v, v < n -> exists i c, nth_error cs i = Some c /\ c v = true /\ cg_map cs 0 v 0 = i /\ pid_map cs v 0 = length (filter c (seq 0 v))).
  { intros v Hv. destruct (S2 v Hv eq_refl) as (i & c & Ei & Hc). exists i, c. destruct (cg_spec cs S3 i c v Ei Hc 0 0) as [H1 H2]. rewrite H1, H2. auto. }
  assert (CL : forall i c u v, nth_error cs i = Some c -> c u = true -> (c v = true <-> linked conn u v)).
  { intros i c u v Ei Hu. rewrite Forall_forall in S1. destruct (S1 c (nth_error_In _ _ Ei)) as (s & _ & _ & Hs). rewrite Hs in *. split; intro K.
    - eapply rt_trans; [apply linked_sym; [exact SY|exact Hu]|exact K].
    - eapply rt_trans; [exact Hu|exact K]. }
  unfold depart. fold n. fold conn.
  assert (G : negb (forallb (forallb (fun v => v <? n)) (faces p)) || existsb (fun f => length f =? 0) (faces p) = false).
  { apply orb_false_iff. unfold valid in V. rewrite Forall_forall in V. split.
    - apply negb_false_iff. apply forallb_forall. intros f Hf. apply forallb_forall. intros v Hv. apply Nat.ltb_lt. destruct (V f Hf) as [_ F]. rewrite Forall_forall in F. exact (F v Hv).
    - destruct (existsb _ _) eqn:E; [|reflexivity]. apply existsb_exists in E. destruct E as (f & Hf & K). apply Nat.eqb_eq in K. destruct (V f Hf) as [N _]. destruct f; [contradiction|discriminate K]. }
  rewrite G, EC. cbn [bind].
  set (h := fun ic : nat * (nat -> bool) => fold_left add_face _ _). 
  exists (map h (combine (seq 0 (length cs)) cs)), (fun v => cg_map cs 0 v 0), (fun v => pid_map cs v 0). split; [reflexivity|].
  assert (LE : length (map h (combine (seq 0 (length cs)) cs)) = length cs) by (rewrite map_length, combine_length, seq_length; lia).
  split; [|split; [|split]].
  - intros v Hv. destruct (AT v Hv) as (i & c & Ei & _ & -> & _). rewrite LE. apply nth_error_Some. congruence.
  - intros u v Hu Hv. destruct (AT u Hu) as (i & c & Ei & Hc & -> & _). destruct (AT v Hv) as (j & d & Ej & Hd & -> & _). rewrite <- linked_joined. fold conn. rewrite <- (CL i c u v Ei Hc). split.
    + intros <-. assert (c = d) by congruence. subst d. exact Hd.
    + intro K. destruct (cg_spec cs S3 i c v Ei K 0 0) as [H1 _]. destruct (cg_spec cs S3 j d v Ej Hd 0 0) as [H2 _]. lia.
  - intros u v Hu Hv E L. destruct (AT u Hu) as (i & c & Ei & Hc & Eu & ->). destruct (AT v Hv) as (j & d & Ej & Hd & Ev & ->). assert (i = j) by congruence. subst j. assert (d = c) by congruence. subst d.
    apply rank_lt; assumption.
  - intros i q Hq. rewrite nth_numbered in Hq. destruct (nth_error cs i) as [c|] eqn:Ei; [|discriminate Hq]. cbn [option_map Nat.add] in Hq. injection Hq as <-. unfold h. cbn [fst snd].
    set (ps := flat_map _ (filter c (seq 0 n))). set (fs := map _ (filter _ (faces p))). destruct (add_faces P fs (Poly ps [] [])) as (H1 & H2 & H3). cbn [points faces] in H1, H2.
    assert (PS : forall j, nth_error ps j = match nth_error (filter c (seq 0 n)) j with Some v => nth_error (points p) v | None => None end) by (intro j; unfold ps; apply nth_flat; apply filter_bounded).
    assert (IN : forall v, v < n -> c v = true -> cg_map cs 0 v 0 = i /\ pid_map cs v 0 = length (filter c (seq 0 v))) by (intros v Hv Hc; destruct (cg_spec cs S3 i c v Ei Hc 0 0) as [E1 E2]; split; [exact E1|apply E2]).
    split; [|split; [|split; [|split]]].
    + intros v Hv Ev. destruct (AT v Hv) as (i' & c' & Ei' & Hc & Ev' & ->). assert (i' = i) by congruence. subst i'. assert (c' = c) by congruence. subst c'. rewrite H1, PS, (rank_spec c n v Hv Hc). reflexivity.
    + rewrite H1. intros j Hj. apply nth_error_Some in Hj. rewrite PS in Hj. destruct (nth_error (filter c (seq 0 n)) j) as [v|] eqn:Ej; [|contradiction].
      assert (K : In v (filter c (seq 0 n))) by exact (nth_error_In _ _ Ej). apply filter_In in K. destruct K as [K Hc]. apply in_seq in K. assert (Hv : v < n) by lia. exists v. split; [exact Hv|].
      destruct (IN v Hv Hc) as [E1 E2]. split; [exact E1|]. rewrite E2. assert (R := rank_spec c n v Hv Hc).
      apply (proj1 (NoDup_nth_error (filter c (seq 0 n)))); [apply NoDup_filter, seq_NoDup|apply nth_error_Some; congruence|congruence].
    + rewrite H1. rewrite Forall_forall in S1. destruct (S1 c (nth_error_In _ _ Ei)) as (s & Hs & _ & Hc). assert (K : c s = true) by (apply Hc; apply rt_refl). assert (R := rank_spec c n s Hs K).
      intro E. assert (X := PS (length (filter c (seq 0 s)))). rewrite R, E in X. assert (Y : nth_error (points p) s <> None) by (apply nth_error_Some; exact Hs). destruct (length (filter c (seq 0 s))); cbn [nth_error] in X; congruence.
    + rewrite H2. reflexivity.
    + apply built_parts.
Qed.
(** Two pieces whose vertices are mixed, and a point of its own. *)
Definition mixed : poly nat := fold_left add_face [[0; 2; 4]; [5; 3; 1]; [2; 0; 6]; [1; 3; 8]] (Poly [10; 11; 12; 13; 14; 15; 16; 17; 18] [] []).
Example depart_components_nonvacuous : valid mixed /\
  option_map (map (fun q => (points q, faces q))) (depart 40 mixed) = Some [([10; 12; 14; 16], [[0; 1; 2]; [1; 0; 3]]); ([11; 13; 15; 18], [[2; 1; 0]; [0; 1; 3]]); ([17], [])].
Proof. split; [|vm_compute; reflexivity]. unfold valid, mixed. cbn. repeat (constructor; [split; [discriminate|repeat constructor; lia]|]). constructor. Qed.

(** * Filling holes *)
Lemma add_built P (p : poly P) ls : built p -> built (fold_left add_face ls p).
Proof.
  intros B a b. destruct (add_faces P ls p) as (_ & H2 & H3). rewrite H3, (B a b), !is_side_in, H2, flat_map_app, in_app_iff. reflexivity.
Qed.
Lemma nodup_app A (a b : list A) : NoDup a -> NoDup b -> (forall x, In x a -> ~ In x b) -> NoDup (a ++ b).
Proof.
  intros N1 N2 D. induction a as [|x a IH]; cbn [app]; [exact N2|]. inversion N1 as [|? ? K1 K2]; subst. constructor; [|apply IH; [exact K2|intros y Hy; apply D; right; exact Hy]].
  intro K. apply in_app_iff in K. destruct K as [K|K]; [contradiction|]. exact (D x (or_introl eq_refl) K).
Qed.
Theorem fill_holes_closes : forall P (p : poly P), built p -> once p -> simple_holes p ->
  exists q new, fill_holes p = Some q /\ points q = points p /\ faces q = faces p ++ new /\ built q /\ watertight q /\
    NoDup (concat new) /\ Forall (fun f => f <> []) new /\ (forall v, In v (concat new) <-> exists b, open_side p v b).
Proof.
  intros P p B O S. destruct (fill_holes_spec P p) as (ls & R1 & R2 & R3 & R4 & R5).
  - intros [a b]. rewrite (B a b), is_side_in. reflexivity.
  - apply once_nodup. exact O.
  - intros v b b' H H'. apply open_single in H, H'. exact (S v b b' H H').
  - exists (fold_left add_face ls p), ls. destruct (add_faces P ls p) as (H1 & H2 & H3). split; [exact R1|]. split; [exact H1|]. split; [exact H2|]. split; [apply add_built; exact B|].
    split; [|split; [exact R3|split; [exact R2|]]].
    + assert (SD : flat_map sides (faces (fold_left add_face ls p)) = flat_map sides (faces p) ++ flat_map sides ls) by (rewrite H2; apply flat_map_app). split.
      * apply once_nodup. rewrite SD. apply nodup_app.
        -- apply once_nodup. exact O.
        -- apply (NoDup_map_inv fst). rewrite flat_sides_fst. exact R3.
        -- intros [a b] K1 K2. apply R5 in K2. destruct K2 as [_ K2]. contradiction.
      * intros a b. rewrite open_single, SD. intros [K1 K2]. apply K2. rewrite in_app_iff in *. destruct K1 as [K1|K1].
        -- destruct (in_dec (fun x y : nat * nat => ltac:(decide equality; apply Nat.eq_dec)) (b, a) (flat_map sides (faces p))) as [K|K]; [left; exact K|right]. apply R5. split; assumption.
        -- apply R5 in K1. left. apply K1.
    + intro v. rewrite R4. split; intros (b & K); exists b; apply open_single; exact K.
Qed.
(** A cube without two opposite faces, which do not meet. *)
Definition tube : poly nat := fold_left add_face [[0; 1; 5; 4]; [1; 2; 6; 5]; [2; 3; 7; 6]; [3; 0; 4; 7]] (Poly (seq 0 8) [] []).
Lemma once_check P (p : poly P) : (fix nd l := match l with [] => true | e :: r => negb (has e r) && nd r end) (flat_map sides (faces p)) = true -> once p.
Proof.
  intro H. apply once_nodup. induction (flat_map sides (faces p)) as [|e l IH]; [constructor|]. apply andb_true_iff in H. destruct H as [H1 H2]. constructor; [|apply IH; exact H2].
  intro K. apply has_in in K. rewrite K in H1. discriminate H1.
Qed.
Lemma simple_check P (p : poly P) : (let ss := single_edges (flat_map sides (faces p)) in forallb (fun e => forallb (fun d => negb (fst e =? fst d) || (snd e =? snd d)) ss) ss) = true -> simple_holes p.
Proof.
  intros H v b b' K K'. apply open_single in K, K'. apply single_in in K, K'. cbv zeta in H. rewrite forallb_forall in H. specialize (H _ K). rewrite forallb_forall in H. specialize (H _ K'). cbn [fst snd] in H.
  rewrite Nat.eqb_refl in H. apply Nat.eqb_eq. exact H.
Qed.
Lemma built_faces P (ps : list P) fs : built (fold_left add_face fs (Poly ps [] [])).
Proof. apply add_built. intros a b. rewrite is_side_in. cbn [edges faces flat_map In]. tauto. Qed.
Example fill_holes_closes_nonvacuous : built tube /\ once tube /\ simple_holes tube /\ open_side tube 0 1 /\
  option_map (fun q => skipn 4 (faces q)) (fill_holes tube) = Some [[0; 3; 2; 1]; [4; 5; 6; 7]].
Proof.
  split; [apply built_faces|]. split; [apply once_check; vm_compute; reflexivity|]. split; [apply simple_check; vm_compute; reflexivity|]. split; [|vm_compute; reflexivity].
  apply open_single. apply single_in. vm_compute. auto.
Qed.
(** Two triangles that meet in a vertex: both holes go through it, and one of them stays. *)
Definition bowtie : poly nat := fold_left add_face [[0; 1; 2]; [0; 3; 4]] (Poly (seq 0 5) [] []).
Theorem fill_holes_closes_all_refuted : exists p : poly nat, valid p /\ built p /\ once p /\
  exists q, fill_holes p = Some q /\ exists a b, open_side q a b.
Proof.
  exists bowtie. split; [repeat (constructor; [split; [discriminate|repeat constructor; vm_compute; lia]|]); constructor|]. split; [apply built_faces|]. split; [apply once_check; vm_compute; reflexivity|].
  destruct (fill_holes bowtie) as [q|] eqn:E; [|vm_compute in E; discriminate E]. exists q. split; [reflexivity|].
  vm_compute in E. injection E as <-. first [exists 0, 1; apply open_single, single_in; vm_compute; tauto|exists 1, 2; apply open_single, single_in; vm_compute; tauto|exists 0, 3; apply open_single, single_in; vm_compute; tauto|exists 3, 4; apply open_single, single_in; vm_compute; tauto].
Qed.

(** * Merging points *)
Definition decides {P} (eqb : P -> P -> bool) : Prop := forall x y, eqb x y = true <-> x = y.
Lemma find_least (t : nat -> bool) n j : find t (seq 0 n) = Some j -> t j = true /\ j < n /\ forall i, i < j -> t i = false.
Proof.
  assert (G : forall s, find t (seq s n) = Some j -> t j = true /\ s <= j < s + n /\ forall i, s <= i < j -> t i = false).
  { induction n as [|n IH]; intros s H; cbn [seq find] in H; [discriminate H|]. destruct (t s) eqn:E.
    - injection H as <-. split; [exact E|]. split; [lia|]. intros i Hi. lia.
    - destruct (IH (S s) H) as (H1 & H2 & H3). split; [exact H1|]. split; [lia|]. intros i Hi. destruct (Nat.eq_dec i s) as [->|N]; [exact E|apply H3; lia]. }
  intro H. destruct (G 0 H) as (H1 & H2 & H3). split; [exact H1|]. split; [lia|]. intros i Hi. apply H3. lia.
Qed.
Lemma vid_spec P (eqb : P -> P -> bool) ps i : decides eqb -> i < length ps ->
  vid_map eqb ps i <= i /\ nth_error ps (vid_map eqb ps i) = nth_error ps i /\ forall j, nth_error ps j = nth_error ps i -> vid_map eqb ps i <= j.
Proof.
  intros DE Hi. unfold vid_map. destruct (nth_error ps i) as [x|] eqn:Ei; [|apply nth_error_Some in Hi; congruence].
  set (t := fun j => match nth_error ps j with Some y => eqb y x | None => false end).
  assert (T : forall j, t j = true <-> nth_error ps j = Some x). { intro j. unfold t. destruct (nth_error ps j) as [y|]; [rewrite (DE y x)|]; split; congruence. }
  destruct (find t (seq 0 (length ps))) as [j|] eqn:E.
  - apply find_least in E. destruct E as (E1 & E2 & E3). assert (M : forall k, nth_error ps k = Some x -> j <= k). { intros k Hk. destruct (Nat.lt_ge_cases k j) as [L|L]; [|exact L]. apply T in Hk. rewrite (E3 k L) in Hk. discriminate Hk. }
    split; [apply M; exact Ei|]. split; [apply T; exact E1|exact M].
  - exfalso. assert (K := find_none _ _ E i). rewrite (proj2 (T i) Ei) in K. discriminate K. apply in_seq. lia.
Qed.
(** Faces keep their corners' coordinates; corners with the same coordinates become one vertex, the
    first one; nothing else changes. *)
Theorem merge_vertex_corners : forall P (eqb : P -> P -> bool) (p : poly P), decides eqb -> valid p -> exists r,
  faces (merge_vertex eqb p) = map (map r) (faces p) /\ points (merge_vertex eqb p) = points p /\ edges (merge_vertex eqb p) = edges p /\
  (forall v, v < length (points p) -> nth_error (points p) (r v) = nth_error (points p) v /\ r v <= v) /\
  (forall u v, u < length (points p) -> v < length (points p) -> (r u = r v <-> nth_error (points p) u = nth_error (points p) v)) /\
  valid (merge_vertex eqb p).
Proof.
  intros P eqb p DE V. exists (vid_map eqb (points p)). split; [reflexivity|]. split; [reflexivity|]. split; [reflexivity|].
  split; [intros v Hv; destruct (vid_spec P eqb (points p) v DE Hv) as (H1 & H2 & _); auto|]. split.
  - intros u v Hu Hv. destruct (vid_spec P eqb (points p) u DE Hu) as (U1 & U2 & U3). destruct (vid_spec P eqb (points p) v DE Hv) as (V1 & V2 & V3). split; [congruence|]. intro E.
    apply Nat.le_antisymm; [apply U3; congruence|apply V3; congruence].
  - unfold valid in *. cbn [merge_vertex faces points]. rewrite Forall_map. eapply Forall_impl; [|exact V]. intros f [N F]. split; [destruct f; [contradiction|discriminate]|]. rewrite Forall_map. eapply Forall_impl; [|exact F].
    intros v Hv. cbv beta in *. destruct (vid_spec P eqb (points p) v DE Hv) as (H1 & _). lia.
Qed.
Lemma nat_decides : decides Nat.eqb.
Proof. intros x y. apply Nat.eqb_eq. Qed.
(** A tetrahedron one of whose faces has its own copy of a point. *)
Definition split_tet : poly nat := fold_left add_face [[4; 1; 2]; [0; 3; 1]; [1; 3; 2]; [2; 3; 0]] (Poly [10; 11; 12; 13; 10] [] []).
Lemma split_tet_valid : valid split_tet.
Proof. repeat (constructor; [split; [discriminate|repeat constructor; vm_compute; lia]|]). constructor. Qed.
Example merge_vertex_corners_nonvacuous : valid split_tet /\ faces (merge_vertex Nat.eqb split_tet) = [[0; 1; 2]; [0; 3; 1]; [1; 3; 2]; [2; 3; 0]].
Proof. split; [exact split_tet_valid|vm_compute; reflexivity]. Qed.
Lemma open_check P (p : poly P) : single_edges (flat_map sides (faces p)) = [] -> forall a b, ~ open_side p a b.
Proof. intros E a b H. apply open_single in H. apply single_in in H. rewrite E in H. exact H. Qed.
(** The unused point stays and the table of edges is that from before: the mesh is closed after
    merging, and filling its holes breaks it. *)
Theorem merge_then_fill_refuted : exists p : poly nat, valid p /\ built p /\ watertight (merge_vertex Nat.eqb p) /\ ~ built (merge_vertex Nat.eqb p) /\
  (exists i j, i <> j /\ nth_error (points (merge_vertex Nat.eqb p)) i = nth_error (points (merge_vertex Nat.eqb p)) j /\ nth_error (points (merge_vertex Nat.eqb p)) i <> None) /\
  exists q, fill_holes (merge_vertex Nat.eqb p) = Some q /\ ~ watertight q /\ length (faces q) = S (length (faces p)).
Proof.
  exists split_tet. split; [exact split_tet_valid|]. split; [apply built_faces|]. split; [split; [apply once_check; vm_compute; reflexivity|apply open_check; vm_compute; reflexivity]|].
  split; [intro B; assert (K : is_side (merge_vertex Nat.eqb split_tet) 4 1) by (apply (B 4 1); vm_compute; tauto); apply is_side_in in K; vm_compute in K; intuition discriminate|].
  split; [exists 0, 4; split; [lia|]; split; [reflexivity|discriminate]|].
  destruct (fill_holes (merge_vertex Nat.eqb split_tet)) as [q|] eqn:E; [|vm_compute in E; discriminate E]. exists q. split; [reflexivity|]. vm_compute in E. injection E as <-. split; [|reflexivity].
  intros [O N]. apply once_nodup in O. apply (N 4 2) || apply (N 1 4) || idtac.
  all: try (apply open_single; apply single_in; vm_compute; intuition discriminate).
Qed.

(** * The whole program *)
Lemma sides_map (k : nat -> nat) f : sides (map k f) = map (fun e => (k (fst e), k (snd e))) (sides f).
Proof.
  unfold sides. destruct f as [|x f]; [reflexivity|]. cbn [map tl firstn]. 
  change (k x :: map k f) with (map k (x :: f)). change [k x] with (map k [x]). rewrite <- map_app.
  assert (G : forall a b : list nat, combine (map k a) (map k b) = map (fun e => (k (fst e), k (snd e))) (combine a b)).
  { induction a as [|u a IH]; intros [|v b]; cbn [map combine]; [reflexivity|reflexivity|reflexivity|]. rewrite IH. reflexivity. }
  apply G.
Qed.
Lemma flat_sides_map (k : nat -> nat) fs : flat_map sides (map (map k) fs) = map (fun e => (k (fst e), k (snd e))) (flat_map sides fs).
Proof. induction fs as [|f fs IH]; cbn [map flat_map]; [reflexivity|]. rewrite sides_map, IH, map_app. reflexivity. Qed.
Lemma nodup_flat_filter (h : list nat -> bool) fs : NoDup (flat_map sides fs) -> NoDup (flat_map sides (filter h fs)).
Proof.
  induction fs as [|f fs IH]; cbn [filter flat_map]; [auto|]. intro H. assert (H2 := nodup_app_r _ _ _ H). destruct (h f); [|auto]. cbn [flat_map]. apply nodup_app; [|auto|].
  - apply (nodup_app_r _ (flat_map sides fs)). apply (Permutation_NoDup (l := sides f ++ flat_map sides fs)); [apply Permutation_app_comm|exact H].
  - intros x K1 K2. apply in_flat_map in K2. destruct K2 as (f' & Hf & K2). apply filter_In in Hf. apply in_split in K1. destruct K1 as (a & b & E). rewrite E, <- app_assoc in H. apply nodup_app_r in H. cbn [app] in H.
    inversion H as [|? ? N _]. apply N. apply in_app_iff. right. apply in_flat_map. exists f'. tauto.
Qed.
Lemma nodup_map_inj A B (h : A -> B) l : (forall x y, In x l -> In y l -> h x = h y -> x = y) -> NoDup l -> NoDup (map h l).
Proof.
  intros I N. induction N as [|x l H N IH]; cbn [map]; [constructor|]. constructor; [|apply IH; intros u v Hu Hv; apply I; right; assumption].
  intro K. apply in_map_iff in K. destruct K as (y & E & Hy). apply H. rewrite (I x y); [exact Hy|left; reflexivity|right; exact Hy|symmetry; exact E].
Qed.
Section Part.
  Variables (P : Type) (p q : poly P) (parts : list (poly P)) (g k : nat -> nat) (i : nat).
  Hypothesis V : valid p.
  Hypothesis PO : parts_of p g k parts.
  Hypothesis Eq : nth_error parts i = Some q.
  Notation fs := (filter (fun f => g (hd 0 f) =? i) (faces p)).
  Lemma k_inj u v : u < length (points p) -> v < length (points p) -> g u = g v -> k u = k v -> u = v.
  Proof. destruct PO as (_ & _ & H & _). intros Hu Hv E K. destruct (Nat.lt_total u v) as [L|[L|L]]; [|exact L|]; [assert (X := H u v Hu Hv E L)|assert (X := H v u Hv Hu (eq_sym E) L)]; lia. Qed.
  Lemma same_part f u v : In f (faces p) -> In u f -> In v f -> u < length (points p) /\ g u = g v.
  Proof.
    intros Hf Hu Hv. unfold valid in V. rewrite Forall_forall in V. destruct (V f Hf) as [_ F]. rewrite Forall_forall in F. split; [exact (F u Hu)|]. destruct PO as (_ & H & _). apply H; [exact (F u Hu)|exact (F v Hv)|]. apply rst_step. exists f. auto.
  Qed.
  Lemma in_fs f : In f fs <-> In f (faces p) /\ exists u, In u f /\ g u = i.
  Proof.
    rewrite filter_In, Nat.eqb_eq. split; intros [H1 H2]; (split; [exact H1|]).
    - unfold valid in V. rewrite Forall_forall in V. destruct (V f H1) as [N _]. destruct f as [|x f]; [contradiction|]. exists x. split; [left; reflexivity|exact H2].
    - destruct H2 as (u & Hu & <-). assert (N : f <> []) by (destruct f; [destruct Hu|discriminate]). destruct f as [|x f]; [contradiction|]. cbn [hd]. apply (same_part (x :: f) x u H1); [left; reflexivity|exact Hu].
  Qed.
  Lemma part_side a b : In (a, b) (flat_map sides fs) <-> In (a, b) (flat_map sides (faces p)) /\ g a = i.
  Proof.
    rewrite !in_flat_map. split.
    - intros (f & Hf & K). apply in_fs in Hf. destruct Hf as [Hf (u & Hu & Eu)]. split; [exists f; auto|]. rewrite <- Eu. apply (same_part f a u Hf); [apply (sides_in f a b K)|exact Hu].
    - intros [(f & Hf & K) Ea]. exists f. split; [|exact K]. apply in_fs. split; [exact Hf|]. exists a. split; [apply (sides_in f a b K)|exact Ea].
  Qed.
  Lemma side_valid a b : In (a, b) (flat_map sides (faces p)) -> a < length (points p) /\ b < length (points p) /\ g a = g b.
  Proof. rewrite in_flat_map. intros (f & Hf & K). apply sides_in in K. destruct K as [Ka Kb]. destruct (same_part f a b Hf Ka Kb) as [H1 H2]. destruct (same_part f b a Hf Kb Ka) as [H3 _]. auto. Qed.
  Lemma part_sides : flat_map sides (faces q) = map (fun e => (k (fst e), k (snd e))) (flat_map sides fs).
  Proof. destruct PO as (_ & _ & _ & H). destruct (H i q Eq) as (_ & _ & _ & -> & _). apply flat_sides_map. Qed.
  Lemma part_side_q a b : a < length (points p) -> b < length (points p) -> g a = i -> g b = i -> (is_side q (k a) (k b) <-> is_side p a b).
  Proof.
    intros Ha Hb Ea Eb. rewrite !is_side_in, part_sides, in_map_iff. split.
    - intros ([a' b'] & E & K). cbn [fst snd] in E. apply part_side in K. destruct K as [K Ea']. destruct (side_valid a' b' K) as (Ha' & Hb' & E'). injection E as E1 E2.
      assert (a' = a) by (apply k_inj; try assumption; congruence). assert (b' = b) by (apply k_inj; try assumption; congruence). subst. exact K.
    - intro K. exists (a, b). split; [reflexivity|]. apply part_side. auto.
  Qed.
  Lemma part_side_inv x y : is_side q x y -> exists a b, x = k a /\ y = k b /\ a < length (points p) /\ b < length (points p) /\ g a = i /\ g b = i /\ is_side p a b.
  Proof.
    rewrite is_side_in, part_sides, in_map_iff. intros ([a b] & E & K). cbn [fst snd] in E. apply part_side in K. destruct K as [K Ea]. destruct (side_valid a b K) as (Ha & Hb & Eab). injection E as <- <-. exists a, b.
    split; [reflexivity|]. split; [reflexivity|]. split; [exact Ha|]. split; [exact Hb|]. split; [exact Ea|]. split; [congruence|]. apply is_side_in. exact K.
  Qed.
  Lemma part_built : built q.
  Proof. destruct PO as (_ & _ & _ & H). destruct (H i q Eq) as (_ & _ & _ & _ & B). exact B. Qed.
  Lemma part_once : once p -> once q.
  Proof.
    intro O. apply once_nodup. rewrite part_sides. apply nodup_map_inj; [|apply nodup_flat_filter; apply once_nodup; exact O].
    intros [a b] [a' b'] H H' E. cbn [fst snd] in E. injection E as E1 E2. apply part_side in H, H'. destruct H as [H Ea], H' as [H' Ea']. destruct (side_valid a b H) as (A1 & A2 & A3). destruct (side_valid a' b' H') as (B1 & B2 & B3).
    f_equal; apply k_inj; try assumption; congruence.
  Qed.
  Lemma part_open x y : open_side q x y -> exists a b, x = k a /\ y = k b /\ a < length (points p) /\ b < length (points p) /\ g a = i /\ g b = i /\ open_side p a b.
  Proof.
    intros [H N]. destruct (part_side_inv x y H) as (a & b & -> & -> & Ha & Hb & Ea & Eb & K). exists a, b. split; [reflexivity|]. split; [reflexivity|]. split; [exact Ha|]. split; [exact Hb|]. split; [exact Ea|]. split; [exact Eb|].
    split; [exact K|]. intro R. apply N. apply part_side_q; assumption.
  Qed.
  Lemma part_simple : simple_holes p -> simple_holes q.
  Proof.
    intros S v b b' H H'. destruct (part_open v b H) as (x & y & E1 & E2 & Hx & Hy & Gx & Gy & K). destruct (part_open v b' H') as (x' & y' & E1' & E2' & Hx' & Hy' & Gx' & Gy' & K').
    assert (x = x') by (apply k_inj; try assumption; congruence). subst x'. rewrite E2, E2'. f_equal. exact (S x y y' K K').
  Qed.
  Lemma part_points : NoDup (points p) -> NoDup (points q).
  Proof.
    intro N. rewrite NoDup_nth_error in *. destruct PO as (_ & _ & _ & H). destruct (H i q Eq) as (H1 & H2 & _). intros x y Hx E. 
    assert (Hy : y < length (points q)) by (apply nth_error_Some; rewrite <- E; apply nth_error_Some; exact Hx).
    destruct (H2 x Hx) as (u & Hu & Gu & <-). destruct (H2 y Hy) as (v & Hv & Gv & <-). rewrite (H1 u Hu Gu), (H1 v Hv Gv) in E. f_equal. apply N; [exact Hu|exact E].
  Qed.
  Lemma part_valid : valid q.
  Proof.
    destruct PO as (_ & _ & _ & H). destruct (H i q Eq) as (H1 & _ & _ & EF & _). unfold valid. rewrite EF, Forall_map. apply Forall_forall. intros f Hf. apply in_fs in Hf. destruct Hf as [Hf (u & Hu & Gu)].
    split; [destruct f; [destruct Hu|discriminate]|]. rewrite Forall_map. apply Forall_forall. intros v Hv. destruct (same_part f v u Hf Hv Hu) as [Lv Gv]. apply nth_error_Some. rewrite (H1 v Lv); [|congruence]. apply nth_error_Some. exact Lv.
  Qed.
End Part.
Lemma merge_nothing P (eqb : P -> P -> bool) (p : poly P) : decides eqb -> valid p -> NoDup (points p) -> merge_vertex eqb p = p.
Proof.
  intros DE V N. unfold merge_vertex. replace (map (map (vid_map eqb (points p))) (faces p)) with (faces p); [destruct p; reflexivity|].
  symmetry. rewrite <- (map_id (faces p)) at 2. apply map_ext_in. intros f Hf. rewrite <- (map_id f) at 2. apply map_ext_in. intros v Hv.
  unfold valid in V. rewrite Forall_forall in V. destruct (V f Hf) as [_ F]. rewrite Forall_forall in F. specialize (F v Hv). destruct (vid_spec P eqb (points p) v DE F) as (H1 & H2 & _).
  rewrite NoDup_nth_error in N. apply N; [lia|exact H2].
Qed.
(** A mesh without repeated points, whose faces do not run along a side twice and whose holes do not
    meet: each of its pieces of more than 100 points is written, closed, under a name made of its
    numbers of points and faces. *)
Definition repaired {P} (q r : poly P) : Prop := points r = points q /\ watertight r /\ exists new, faces r = faces q ++ new.
Theorem fixer_writes_closed_pieces_partial : forall P (eqb : P -> P -> bool) (p : poly P), decides eqb -> valid p -> NoDup (points p) -> once p -> simple_holes p ->
  exists N, forall fuel, N <= fuel -> exists parts g k files, parts_of p g k parts /\ fixer_main eqb fuel p = Some files /\
    Forall2 (fun q f => repaired q (snd f) /\ fst f = (length (points (snd f)), length (faces (snd f)))) (filter (fun q => 100 <? length (points q)) parts) files /\
    (NoDup (map fst files) -> forall f, In f files -> written files (fst f) = Some (snd f)).
Proof.
  intros P eqb p DE V ND O S. destruct (depart_components P p V) as (N & H). exists N. intros fuel HF. destruct (H fuel HF) as (parts & g & k & ED & PO). exists parts, g, k.
  assert (G : forall l, (forall q, In q l -> In q parts) -> exists files,
    fold_right (fun q acc => do l <- acc; if least_points <? length (points q) then do r <- fixed_part eqb q; Some ((length (points r), length (faces r), r) :: l) else Some l) (Some []) l = Some files /\
    Forall2 (fun q f => repaired q (snd f) /\ fst f = (length (points (snd f)), length (faces (snd f)))) (filter (fun q => 100 <? length (points q)) l) files).
  { induction l as [|q l IH]; intro IN; cbn [fold_right filter]; [exists []; split; [reflexivity|constructor]|]. destruct IH as (files & E & F); [intros q' Hq; apply IN; right; exact Hq|]. rewrite E. cbn [bind].
    change least_points with 100. destruct (100 <? length (points q)); [|exists files; auto].
    destruct (In_nth_error parts q (IN q (or_introl eq_refl))) as (i & Ei). unfold fixed_part.
    rewrite (merge_nothing P eqb q DE (part_valid P p q parts g k i V PO Ei) (part_points P p q parts g k i PO Ei ND)).
    destruct (fill_holes_closes P q (part_built P p q parts g k i PO Ei) (part_once P p q parts g k i V PO Ei O) (part_simple P p q parts g k i V PO Ei S)) as (r & new & R1 & R2 & R3 & R4 & R5 & _).
    rewrite R1. cbn [bind]. eexists. split; [reflexivity|]. constructor; [|exact F]. cbn [fst snd]. split; [|reflexivity]. split; [exact R2|]. split; [exact R5|]. exists new. exact R3. }
  destruct (G parts (fun q Hq => Hq)) as (files & E & F). exists files. split; [exact PO|]. split; [unfold fixer_main; rewrite ED; cbn [bind]; exact E|]. split; [exact F|].
  intros NF f Hf. unfold written. assert (X : forall l, (forall x, In x l -> In x files) -> In f l -> find (fun x => pair_eq (fst x) (fst f)) l = Some f).
  { induction l as [|x l IH]; intros IN Hl; [destruct Hl|]. cbn [find]. destruct (pair_eq (fst x) (fst f)) eqn:Ex.
    - apply pair_eq_spec in Ex. f_equal. assert (K := IN x (or_introl eq_refl)). clear - NF Hf K Ex. induction files as [|y l IH]; [destruct K|]. cbn [map] in NF. inversion NF as [|? ? N1 N2]; subst.
      destruct K as [->|K], Hf as [->|Hf]; [reflexivity| | |auto]; exfalso; apply N1; [rewrite Ex|rewrite <- Ex]; apply in_map; assumption.
    - destruct Hl as [->|Hl]; [assert (Y : pair_eq (fst f) (fst f) = true) by (apply pair_eq_spec; reflexivity); congruence|]. apply IH; [intros y Hy; apply IN; right; exact Hy|exact Hl]. }
  rewrite (X (rev files)); [reflexivity|intros x Hx; apply in_rev; exact Hx|apply -> in_rev; exact Hf].
Qed.

(** ** Pieces with the same numbers of points and faces *)
Lemma depart_shape P fuel (p : poly P) parts : depart fuel p = Some parts -> forall q, In q parts -> q = fold_left add_face (faces q) (Poly (points q) [] []).
Proof.
  unfold depart. destruct (_ || _); [intro H; discriminate H|]. destruct (components _ _ _ _ _) as [cs|]; cbn [bind]; [|intro H; discriminate H]. intro H. injection H as <-. intros q Hq.
  apply in_map_iff in Hq. destruct Hq as ([i c] & <- & _). cbn [fst snd]. set (ps := flat_map _ _). set (fs := map _ _). destruct (add_faces P fs (Poly ps [] [])) as (H1 & H2 & _). rewrite H1, H2. reflexivity.
Qed.
Definition with_points {P} (ps : list P) (q : poly P) : poly P := Poly ps (faces q) (edges q).
Lemma add_with P (ps : list P) fs : forall q, fold_left add_face fs (with_points ps q) = with_points ps (fold_left add_face fs q).
Proof. induction fs as [|f fs IH]; intro q; cbn [fold_left]; [reflexivity|]. rewrite <- IH. reflexivity. Qed.
Lemma fill_with P (ps : list P) conn keys fuel : forall k assigned q, fill conn keys fuel k assigned (with_points ps q) = option_map (with_points ps) (fill conn keys fuel k assigned q).
Proof.
  induction k as [|k IH]; intros assigned q; cbn [fill]; destruct (find _ keys) as [v|]; try reflexivity. destruct (trace conn fuel assigned [] v) as [[[f b] a']|]; cbn [bind fst snd]; [|reflexivity].
  rewrite <- IH. destruct b; reflexivity.
Qed.
Lemma fill_holes_with P (ps : list P) q : fill_holes (with_points ps q) = option_map (with_points ps) (fill_holes q).
Proof. unfold fill_holes. change (edges (with_points ps q)) with (edges q). destruct (single_edges (edges q)); [reflexivity|apply fill_with]. Qed.

(** [A] and a copy of it elsewhere. *)
Definition doubled {P} (A : poly P) (other : list P) : poly P :=
  fold_left add_face (faces A ++ map (map (fun v => length (points A) + v)) (faces A)) (Poly (points A ++ other) [] []).
Definition connected {P} (A : poly P) : Prop := forall u v, u < length (points A) -> v < length (points A) -> joined A u v.
Lemma nth_ext_list P (l l' : list P) : length l = length l' -> (forall j, j < length l -> nth_error l j = nth_error l' j) -> l = l'.
Proof.
  revert l'. induction l as [|x l IH]; intros [|y l'] E H; cbn [length] in E; try discriminate E; [reflexivity|].
  assert (X := H 0 ltac:(cbn [length]; lia)). cbn [nth_error] in X. injection X as <-. f_equal. apply IH; [lia|]. intros j Hj. exact (H (S j) ltac:(cbn [length]; lia)).
Qed.
Section Doubled.
  Variables (P : Type) (A : poly P) (other : list P).
  Notation n := (length (points A)).
  Notation D := (doubled A other).
  Hypothesis V : valid A.
  Hypothesis C : connected A.
  Hypothesis LO : length other = n.
  Hypothesis POS : 0 < n.
  Lemma d_points : points D = points A ++ other.
  Proof. apply (add_faces P _ (Poly (points A ++ other) [] [])). Qed.
  Lemma d_faces : faces D = faces A ++ map (map (fun v => n + v)) (faces A).
  Proof. apply (proj1 (proj2 (add_faces P _ (Poly (points A ++ other) [] [])))). Qed.
  Lemma d_len : length (points D) = n + n.
  Proof. rewrite d_points, app_length, LO. reflexivity. Qed.
  Lemma d_valid : valid D.
  Proof.
    unfold valid in *. rewrite d_faces, d_len, Forall_app, Forall_map. split; (eapply Forall_impl; [|exact V]); intros f [N F]; (split; [destruct f; [contradiction|discriminate]|]); [|rewrite Forall_map]; (eapply Forall_impl; [|exact F]); intros v Hv; cbv beta in *; lia.
  Qed.
  Lemma d_apart u v : joined D u v -> (u < n <-> v < n).
  Proof.
    induction 1 as [a b (f & Hf & Ha & Hb)|a|a b _ I|a b c _ I1 _ I2]; [|tauto|tauto|tauto]. rewrite d_faces in Hf. apply in_app_iff in Hf. unfold valid in V. rewrite Forall_forall in V. destruct Hf as [Hf|Hf].
    - destruct (V f Hf) as [_ F]. rewrite Forall_forall in F. assert (X := F a Ha). assert (Y := F b Hb). lia.
    - apply in_map_iff in Hf. destruct Hf as (f' & <- & _). apply in_map_iff in Ha, Hb. destruct Ha as (a' & <- & _), Hb as (b' & <- & _). lia.
  Qed.
  Lemma d_near u v : joined A u v -> joined D u v /\ joined D (n + u) (n + v).
  Proof.
    induction 1 as [a b (f & Hf & Ha & Hb)|a|a b _ [I J]|a b c _ [I1 J1] _ [I2 J2]].
    - split; apply rst_step; [exists f|exists (map (fun v => n + v) f)]; (split; [rewrite d_faces; apply in_app_iff|]); [left; exact Hf|auto|right; apply in_map; exact Hf|split; apply (in_map (fun v => n + v)); assumption].
    - split; apply rst_refl.
    - split; apply rst_sym; assumption.
    - split; eapply rst_trans; eauto.
  Qed.
  Variables (parts : list (poly P)) (g k : nat -> nat) (fuel : nat).
  Hypothesis ED : depart fuel D = Some parts.
  Hypothesis PO : parts_of D g k parts.
  Lemma g_low v : v < n -> g v = g 0.
  Proof. intro H. destruct PO as (_ & G & _). rewrite d_len in G. apply G; [lia|lia|]. apply d_near. apply C; lia. Qed.
  Lemma g_high v : v < n -> g (n + v) = g n.
  Proof. intro H. destruct PO as (_ & G & _). rewrite d_len in G. apply G; [lia|lia|]. replace n with (n + 0) at 2 by lia. apply d_near. apply C; lia. Qed.
  Lemma g_diff : g 0 <> g n.
  Proof. intro E. destruct PO as (_ & G & _). rewrite d_len in G. apply G in E; [|lia|lia]. apply d_apart in E. lia. Qed.
  (** The part that starts at vertex [s]. *)
  Lemma part_at s ps : (s = 0 /\ ps = points A) \/ (s = n /\ ps = other) -> nth_error parts (g s) = Some (with_points ps (fold_left add_face (faces A) (Poly (points A) [] []))).
  Proof.
    intro Hs. assert (GS : forall v, v < n -> g (s + v) = g s) by (intros v Hv; destruct Hs as [[-> _]|[-> _]]; [apply g_low|apply g_high]; exact Hv).
    assert (SN : s + n <= length (points D)) by (rewrite d_len; destruct Hs as [[-> _]|[-> _]]; lia).
    assert (GO : forall v, v < length (points D) -> g v = g s -> s <= v < s + n).
    { intros v Hv E. rewrite d_len in Hv. destruct Hs as [[-> _]|[-> _]].
      - destruct (Nat.lt_ge_cases v n) as [L|L]; [lia|]. exfalso. apply g_diff. rewrite <- E. replace v with (n + (v - n)) by lia. apply g_high. lia.
      - destruct (Nat.lt_ge_cases v n) as [L|L]; [|lia]. exfalso. apply g_diff. rewrite <- E. symmetry. apply g_low. exact L. }
    destruct PO as (G1 & _ & G3 & G4). assert (L : g s < length parts) by (apply G1; lia). destruct (nth_error parts (g s)) as [q|] eqn:Eq; [|apply nth_error_Some in L; congruence]. f_equal.
    destruct (G4 (g s) q Eq) as (Q1 & Q2 & _ & Q4 & _).
    assert (KL : forall j, j < n -> k (s + j) < length (points q)). { intros j Hj. apply nth_error_Some. rewrite Q1; [apply nth_error_Some; lia|lia|apply GS; exact Hj]. }
    assert (KG : forall j, j < n -> j <= k (s + j)).
    { induction j as [|j IH]; intro Hj; [lia|]. assert (X := IH ltac:(lia)). assert (Y : k (s + j) < k (s + S j)) by (apply G3; [lia|lia|rewrite !GS by lia; reflexivity|lia]). lia. }
    assert (KS : forall j, j < n -> k (s + j) = j).
    { induction j as [j IH] using lt_wf_ind. intro Hj. assert (X := KG j Hj). assert (Y := KL j Hj). destruct (Q2 j) as (v & Hv & Gv & Kv); [lia|]. assert (R := GO v Hv Gv).
      destruct (Nat.lt_total v (s + j)) as [L1|[L1|L1]].
      - assert (Z := IH (v - s) ltac:(lia) ltac:(lia)). replace (s + (v - s)) with v in Z by lia. lia.
      - subst v. exact Kv.
      - assert (Z : k (s + j) < k v) by (apply G3; [lia|lia|rewrite Gv; apply GS; exact Hj|exact L1]). lia. }
    assert (PL : length (points q) = n).
    { apply Nat.le_antisymm.
      - destruct (Nat.lt_ge_cases n (length (points q))) as [L1|L1]; [|exact L1]. destruct (Q2 n L1) as (v & Hv & Gv & Kv). assert (R := GO v Hv Gv). assert (Z := KS (v - s) ltac:(lia)). replace (s + (v - s)) with v in Z by lia. lia.
      - assert (Z := KL (n - 1) ltac:(lia)). rewrite KS in Z by lia. lia. }
    assert (PQ : points q = ps).
    { assert (PP : forall j, j < n -> nth_error (points q) j = nth_error ps j).
      { intros j Hj. rewrite <- (KS j Hj) at 1. rewrite Q1; [|lia|apply GS; exact Hj]. rewrite d_points. destruct Hs as [[-> ->]|[-> ->]]; [apply nth_error_app1; lia|]. rewrite nth_error_app2 by lia. f_equal. lia. }
      assert (LP : length ps = n) by (destruct Hs as [[_ ->]|[_ ->]]; [reflexivity|exact LO]).
      apply (nth_ext_list P (points q) ps); [lia|]. intros j Hj. apply PP. lia. }
    assert (FQ : faces q = faces A).
    { rewrite Q4, d_faces, filter_app, map_app. 
      assert (VF : forall f, In f (faces A) -> exists x r, f = x :: r /\ forall v, In v f -> v < n). { unfold valid in V. rewrite Forall_forall in V. intros f Hf. destruct (V f Hf) as [N F]. destruct f as [|x r]; [contradiction|]. rewrite Forall_forall in F. exists x, r. auto. }
      assert (FT : forall (h : list nat -> bool) l, (forall f, In f l -> h f = true) -> filter h l = l). { induction l as [|f l IH]; intro H; cbn [filter]; [reflexivity|]. rewrite (H f (or_introl eq_refl)), IH; [reflexivity|]. intros f' Hf'. apply H. right. exact Hf'. }
      assert (FF : forall (h : list nat -> bool) l, (forall f, In f l -> h f = false) -> filter h l = []). { induction l as [|f l IH]; intro H; cbn [filter]; [reflexivity|]. rewrite (H f (or_introl eq_refl)). apply IH. intros f' Hf'. apply H. right. exact Hf'. }
      destruct Hs as [[-> _]|[-> _]].
      - rewrite FT, FF.
        + cbn [map]. rewrite app_nil_r. rewrite <- (map_id (faces A)) at 2. apply map_ext_in. intros f Hf. destruct (VF f Hf) as (x & r & _ & F). rewrite <- (map_id f) at 2. apply map_ext_in. intros v Hv. exact (KS v (F v Hv)).
        + intros f Hf. apply in_map_iff in Hf. destruct Hf as (f' & <- & Hf). destruct (VF f' Hf) as (x & r & -> & F). cbn [map hd]. rewrite g_high by (apply F; left; reflexivity). apply Nat.eqb_neq. intro E. apply g_diff. auto.
        + intros f Hf. destruct (VF f Hf) as (x & r & -> & F). cbn [hd]. apply Nat.eqb_eq. apply g_low. apply F. left. reflexivity.
      - rewrite FF, FT.
        + cbn [map app]. rewrite map_map. rewrite <- (map_id (faces A)) at 2. apply map_ext_in. intros f Hf. destruct (VF f Hf) as (x & r & _ & F). rewrite map_map. rewrite <- (map_id f) at 2. apply map_ext_in. intros v Hv. exact (KS v (F v Hv)).
        + intros f Hf. apply in_map_iff in Hf. destruct Hf as (f' & <- & Hf). destruct (VF f' Hf) as (x & r & -> & F). cbn [map hd]. apply Nat.eqb_eq. apply g_high. apply F. left. reflexivity.
        + intros f Hf. destruct (VF f Hf) as (x & r & -> & F). cbn [hd]. rewrite g_low by (apply F; left; reflexivity). apply Nat.eqb_neq. exact g_diff. }
    rewrite (depart_shape P fuel D parts ED q (nth_error_In _ _ Eq)), FQ, PQ. rewrite <- add_with. reflexivity.
  Qed.
  Lemma two_parts : exists a b, parts = [a; b] /\ forall s ps, (s = 0 /\ ps = points A) \/ (s = n /\ ps = other) -> In (with_points ps (fold_left add_face (faces A) (Poly (points A) [] []))) [a; b].
  Proof.
    assert (H0 := part_at 0 (points A) (or_introl (conj eq_refl eq_refl))). assert (H1 := part_at n other (or_intror (conj eq_refl eq_refl))).
    assert (ONLY : forall i, i < length parts -> i = g 0 \/ i = g n).
    { intros i Hi. destruct PO as (_ & _ & _ & G4). destruct (nth_error parts i) as [q|] eqn:Ei; [|apply nth_error_Some in Hi; congruence]. destruct (G4 i q Ei) as (_ & Q2 & NE & _).
      destruct (Q2 0) as (v & Hv & <- & _); [destruct (points q); [contradiction|cbn [length]; lia]|]. rewrite d_len in Hv. destruct (Nat.lt_ge_cases v n) as [L|L]; [left; apply g_low; exact L|right].
      replace v with (n + (v - n)) by lia. apply g_high. lia. }
    assert (DI := g_diff). assert (L0 : g 0 < length parts) by (apply nth_error_Some; congruence). assert (L1 : g n < length parts) by (apply nth_error_Some; congruence).
    assert (LP : length parts = 2).
    { destruct (Nat.lt_total (length parts) 2) as [X|[X|X]]; [lia|exact X|]. exfalso. destruct (ONLY 0 ltac:(lia)), (ONLY 1 ltac:(lia)), (ONLY 2 ltac:(lia)); lia. }
    assert (T : forall l : list (poly P), length l = 2 -> exists a b, l = [a; b]). { intros [|a [|b [|c r]]] X; cbn [length] in X; try discriminate X. exists a, b. reflexivity. }
    destruct (T parts LP) as (a & b & E). exists a, b. split; [exact E|]. intros s ps Hs. rewrite <- E. apply (nth_error_In parts (g s)). apply part_at. exact Hs.
  Qed.
End Doubled.
(** A connected mesh of more than 100 points and a copy of it elsewhere: two files are written under
    the same name, so that one of the two is lost. *)
Theorem fixer_same_name : forall P (eqb : P -> P -> bool) (A : poly P) other, decides eqb -> valid A -> connected A -> 100 < length (points A) -> once A -> simple_holes A ->
  length other = length (points A) -> NoDup (points A ++ other) ->
  exists N, forall fuel, N <= fuel -> exists name r r', fixer_main eqb fuel (doubled A other) = Some [(name, r); (name, r')] /\
    ((points r = points A /\ points r' = other) \/ (points r = other /\ points r' = points A)) /\ written [(name, r); (name, r')] name = Some r'.
Proof.
  intros P eqb A other DE V C HL O S LO ND. destruct (depart_components P (doubled A other) (d_valid P A other V LO (Nat.lt_trans 0 100 _ (Nat.lt_0_succ 99) HL))) as (N & H). exists N. intros fuel HF. destruct (H fuel HF) as (parts & g & k & ED & PO).
  assert (POS : 0 < length (points A)) by lia. set (A' := fold_left add_face (faces A) (Poly (points A) [] [])).
  destruct (two_parts P A other V C LO POS parts g k fuel ED PO) as (a & b & E & IN). fold A' in IN.
  assert (FA : faces A' = faces A) by (unfold A'; apply (proj1 (proj2 (add_faces P (faces A) (Poly (points A) [] []))))).
  assert (SAME : forall x y, is_side A' x y <-> is_side A x y) by (intros x y; rewrite !is_side_in, FA; reflexivity).
  assert (BA : built A') by apply built_faces.
  assert (OA : once A') by (apply once_nodup; rewrite FA; apply once_nodup; exact O).
  assert (SA : simple_holes A') by (intros v x y [K1 K2] [K3 K4]; apply (S v x y); split; rewrite <- SAME; assumption).
  destruct (fill_holes_closes P A' BA OA SA) as (r & new & R1 & _).
  assert (VW : forall ps, length ps = length (points A) -> valid (with_points ps A')). { intros ps Hp. unfold valid in *. cbn [with_points faces points]. rewrite FA, Hp. exact V. }
  assert (FX : forall ps, length ps = length (points A) -> NoDup ps -> fixed_part eqb (with_points ps A') = Some (with_points ps r)).
  { intros ps Hp Np. unfold fixed_part. rewrite merge_nothing; [|exact DE|apply VW; exact Hp|exact Np]. rewrite fill_holes_with, R1. reflexivity. }
  assert (NA : NoDup (points A)) by (apply (nodup_app_r _ other); apply (Permutation_NoDup (l := points A ++ other)); [apply Permutation_app_comm|exact ND]).
  assert (NO := nodup_app_r _ _ _ ND).
  assert (I1 := IN 0 (points A) (or_introl (conj eq_refl eq_refl))). assert (I2 := IN (length (points A)) other (or_intror (conj eq_refl eq_refl))).
  assert (DIFF : points A <> other). { intro X. rewrite <- X in ND. destruct (points A) as [|x l]; [cbn [length] in POS; lia|]. cbn [app] in ND. inversion ND as [|? ? K _]. apply K. apply in_app_iff. right. left. reflexivity. }
  assert (LT : (100 <? length (points A)) = true) by (apply Nat.ltb_lt; exact HL). assert (LT2 : (100 <? length other) = true) by (rewrite LO; exact LT).
  assert (CASES : (a = with_points (points A) A' /\ b = with_points other A') \/ (a = with_points other A' /\ b = with_points (points A) A')).
  { destruct I1 as [I1|[I1|[]]], I2 as [I2|[I2|[]]]; subst; auto; exfalso; apply DIFF; [injection I2; auto|injection I2; auto]. }
  assert (W : forall (x y : poly P) nm, written [(nm, x); (nm, y)] nm = Some y). { intros x y nm. unfold written. cbn [rev app find fst]. rewrite (proj2 (pair_eq_spec nm nm) eq_refl). reflexivity. }
  exists (length (points A), length (faces r)).
  destruct CASES as [[-> ->]|[-> ->]]; [exists (with_points (points A) r), (with_points other r)|exists (with_points other r), (with_points (points A) r)];
  (split; [unfold fixer_main; rewrite ED, E; cbn [bind fold_right]; change least_points with 100; cbn [with_points points]; fold (with_points (points A) A'); fold (with_points other A'); rewrite LT, LT2; cbn [bind]; rewrite !FX by auto; cbn [bind with_points points faces]; rewrite LO; reflexivity|split; [cbn [with_points points]; auto|apply W]]).
Qed.
(** A fan of 99 triangles around vertex 0. *)
Definition fan : list (list nat) := map (fun i => [0; i; S i]) (seq 1 99).
Definition fan_mesh : poly nat := Poly (seq 0 101) fan [].
Lemma fan_nth k f : nth_error fan k = Some f -> k < 99 /\ f = [0; S k; S (S k)].
Proof.
  intro H. assert (L : k < length fan) by (apply nth_error_Some; congruence). unfold fan in *. rewrite map_length, seq_length in L. split; [exact L|]. rewrite nth_error_map in H.
  rewrite (nth_error_nth' (seq 1 99) 0) in H by (rewrite seq_length; exact L). rewrite seq_nth in H by exact L. cbn [option_map] in H. injection H as <-. reflexivity.
Qed.
Lemma fan_side k i a b : side_at fan_mesh k i a b -> k < 99 /\ ((i = 0 /\ a = 0 /\ b = S k) \/ (i = 1 /\ a = S k /\ b = S (S k)) \/ (i = 2 /\ a = S (S k) /\ b = 0)).
Proof.
  intros (f & H & H1 & H2). apply fan_nth in H. destruct H as [H ->]. split; [exact H|]. destruct i as [|[|[|i]]]; cbn in H1, H2; try (destruct i; discriminate H1); injection H1 as <-; injection H2 as <-; auto 10.
Qed.
Lemma fan_is a b : is_side fan_mesh a b <-> (a = 0 /\ 1 <= b <= 99) \/ (1 <= a <= 99 /\ b = S a) \/ (2 <= a <= 100 /\ b = 0).
Proof.
  split.
  - intros (k & i & H). apply fan_side in H. lia.
  - intro H. assert (G : forall k i, k < 99 -> nth_error [0; S k; S (S k)] i = Some a -> nth_error [0; S k; S (S k)] (S i mod 3) = Some b -> is_side fan_mesh a b).
    { intros k i Hk H1 H2. exists k, i, [0; S k; S (S k)]. split; [|split; [exact H1|exact H2]]. cbn [fan_mesh faces]. unfold fan. rewrite nth_error_map, (nth_error_nth' (seq 1 99) 0) by (rewrite seq_length; exact Hk). rewrite seq_nth by exact Hk. reflexivity. }
    destruct H as [[-> H]|[[H ->]|[H ->]]].
    + apply (G (b - 1) 0); [lia|reflexivity|]. cbn. f_equal. lia.
    + apply (G (a - 1) 1); [lia| |]; cbn; f_equal; lia.
    + apply (G (a - 2) 2); [lia| |reflexivity]; cbn; f_equal; lia.
Qed.
Lemma fan_good : valid fan_mesh /\ connected fan_mesh /\ once fan_mesh /\ simple_holes fan_mesh.
Proof.
  assert (IN : forall f, In f fan -> exists k, k < 99 /\ f = [0; S k; S (S k)]). { intros f Hf. apply In_nth_error in Hf. destruct Hf as (k & Hk). apply fan_nth in Hk. exists k. exact Hk. }
  split; [|split; [|split]].
  - apply Forall_forall. intros f Hf. destruct (IN f Hf) as (k & Hk & ->). split; [discriminate|]. cbn [fan_mesh points]. rewrite seq_length. constructor; [lia|]. constructor; [lia|]. constructor; [lia|]. constructor.
  - assert (Z : forall v, v < 101 -> joined fan_mesh 0 v).
    { intros v Hv. destruct (Nat.eq_dec v 0) as [->|N0]; [apply rst_refl|]. apply rst_step. destruct (Nat.eq_dec v 100) as [->|N1].
      - exists [0; 99; 100]. split; [apply in_map_iff; exists 99; split; [reflexivity|apply in_seq; lia]|]. cbn. auto.
      - exists [0; v; S v]. split; [apply in_map_iff; exists v; split; [reflexivity|apply in_seq; lia]|]. cbn. auto. }
    intros u v Hu Hv. cbn [fan_mesh points] in Hu, Hv. rewrite seq_length in Hu, Hv. eapply rst_trans; [apply rst_sym; apply Z; exact Hu|apply Z; exact Hv].
  - intros k i k' i' a b H H'. apply fan_side in H, H'. lia.
  - intros v b b' [H N] [H' N']. rewrite fan_is in *. lia.
Qed.
Example fixer_writes_closed_pieces_nonvacuous : valid fan_mesh /\ NoDup (points fan_mesh) /\ once fan_mesh /\ simple_holes fan_mesh /\ open_side fan_mesh 0 1 /\ 100 < length (points fan_mesh).
Proof.
  destruct fan_good as (V & _ & O & S). split; [exact V|]. split; [apply seq_NoDup|]. split; [exact O|]. split; [exact S|]. split; [split; rewrite fan_is; lia|]. cbn [fan_mesh points]. rewrite seq_length. lia.
Qed.
Theorem fixer_writes_closed_pieces_refuted : exists p : poly nat, valid p /\ NoDup (points p) /\
  exists N, forall fuel, N <= fuel -> exists name r r', fixer_main Nat.eqb fuel p = Some [(name, r); (name, r')] /\ points r <> points r' /\ 100 < length (points r) /\ 
    forall name', written [(name, r); (name, r')] name' <> Some r.
Proof.
  destruct fan_good as (V & C & O & S). assert (ND : NoDup (points fan_mesh ++ seq 101 101)) by (change (points fan_mesh ++ seq 101 101) with (seq 0 101 ++ seq (0 + 101) 101); rewrite <- (seq_app 101 101 0); apply seq_NoDup).
  assert (LO : length (seq 101 101) = length (points fan_mesh)) by (cbn [fan_mesh points]; rewrite !seq_length; reflexivity).
  assert (HL : 100 < length (points fan_mesh)) by (cbn [fan_mesh points]; rewrite seq_length; lia).
  exists (doubled fan_mesh (seq 101 101)). split; [apply d_valid; [exact V|exact LO|lia]|]. split; [rewrite d_points; exact ND|].
  destruct (fixer_same_name nat Nat.eqb fan_mesh (seq 101 101) nat_decides V C HL O S LO ND) as (N & H). exists N. intros fuel HF. destruct (H fuel HF) as (name & r & r' & E & PT & W). exists name, r, r'. split; [exact E|].
  assert (DIFF : points r <> points r'). { intro X. assert (Y : points fan_mesh = seq 101 101) by (destruct PT as [[P1 P2]|[P1 P2]]; congruence). apply (f_equal (hd 0)) in Y. discriminate Y. }
  split; [exact DIFF|]. split; [destruct PT as [[-> _]|[-> _]]; [exact HL|rewrite LO; exact HL]|].
  intros name' K. unfold written in K. cbn [rev app find fst] in K. destruct (pair_eq name name'); cbn [option_map snd] in K; [|discriminate K]. injection K as <-. apply DIFF. reflexivity.
Qed.

(** ** Separate faces *)
(** Triangles each of which has its own three points: nothing is written, however many there are. *)
Definition soup {P} (ts : list (P * P * P)) : poly P :=
  fold_left add_face (map (fun i => [3 * i; 3 * i + 1; 3 * i + 2]) (seq 0 (length ts))) (Poly (flat_map (fun t => let '(a, b, c) := t in [a; b; c]) ts) [] []).
Lemma soup_points P (ts : list (P * P * P)) : length (points (soup ts)) = 3 * length ts.
Proof.
  unfold soup. rewrite (proj1 (add_faces P _ _)). cbn [points]. induction ts as [|[[a b] c] ts IH]; cbn [flat_map app length]; [reflexivity|]. rewrite IH. lia.
Qed.
Lemma soup_faces P (ts : list (P * P * P)) : faces (soup ts) = map (fun i => [3 * i; 3 * i + 1; 3 * i + 2]) (seq 0 (length ts)).
Proof. unfold soup. rewrite (proj1 (proj2 (add_faces P _ _))). reflexivity. Qed.
Lemma soup_valid P (ts : list (P * P * P)) : valid (soup ts).
Proof. unfold valid. rewrite soup_faces, soup_points, Forall_map. apply Forall_forall. intros i Hi. apply in_seq in Hi. split; [discriminate|]. constructor; [lia|]. constructor; [lia|]. constructor; [lia|]. constructor. Qed.
Lemma soup_apart P (ts : list (P * P * P)) u v : joined (soup ts) u v -> u / 3 = v / 3.
Proof.
  induction 1 as [a b (f & Hf & Ha & Hb)|a|a b _ I|a b c _ I1 _ I2]; [|reflexivity|symmetry; exact I|congruence]. rewrite soup_faces in Hf. apply in_map_iff in Hf. destruct Hf as (i & <- & _).
  assert (G : forall x, In x [3 * i; 3 * i + 1; 3 * i + 2] -> x / 3 = i). { intros x [<-|[<-|[<-|[]]]]; [symmetry; apply (Nat.div_unique (3 * i) 3 i 0)|symmetry; apply (Nat.div_unique (3 * i + 1) 3 i 1)|symmetry; apply (Nat.div_unique (3 * i + 2) 3 i 2)]; lia. }
  rewrite (G a Ha), (G b Hb). reflexivity.
Qed.
Theorem fixer_separate_faces_refuted : forall P (eqb : P -> P -> bool) (ts : list (P * P * P)), exists N, forall fuel, N <= fuel -> fixer_main eqb fuel (soup ts) = Some [].
Proof.
  intros P eqb ts. destruct (depart_components P (soup ts) (soup_valid P ts)) as (N & H). exists N. intros fuel HF. destruct (H fuel HF) as (parts & g & k & ED & PO). unfold fixer_main. rewrite ED. cbn [bind].
  assert (SM : forall q, In q parts -> length (points q) <= 3).
  { intros q Hq. apply In_nth_error in Hq. destruct Hq as (i & Ei). destruct PO as (_ & G2 & G3 & G4). destruct (G4 i q Ei) as (Q1 & Q2 & NE & _).
    destruct (Q2 0) as (v0 & Hv0 & Gv0 & _); [destruct (points q); [contradiction|cbn [length]; lia]|].
    assert (X : incl (seq 0 (length (points q))) (map k [3 * (v0 / 3); 3 * (v0 / 3) + 1; 3 * (v0 / 3) + 2])).
    { intros j Hj. apply in_seq in Hj. destruct (Q2 j) as (v & Hv & Gv & Kv); [lia|]. apply in_map_iff. exists v. split; [exact Kv|].
      assert (E : v / 3 = v0 / 3) by (apply (soup_apart P ts); apply G2; [exact Hv|exact Hv0|congruence]). assert (DM := Nat.div_mod v 3 ltac:(lia)). assert (MB := Nat.mod_upper_bound v 3 ltac:(lia)). rewrite E in DM.
      destruct (v mod 3) as [|[|[|m]]]; [left; lia|right; left; lia|right; right; left; lia|lia]. }
    apply NoDup_incl_length in X; [|apply seq_NoDup]. rewrite seq_length, map_length in X. exact X. }
  clear - SM. induction parts as [|q parts IH]; cbn [fold_right]; [reflexivity|]. rewrite IH by (intros q' Hq; apply SM; right; exact Hq). cbn [bind]. change least_points with 100. assert (X := SM q (or_introl eq_refl)).
  destruct (Nat.ltb_spec 100 (length (points q))); [lia|reflexivity].
Qed.
(** A closed surface given in this way: a tetrahedron. *)
Example fixer_separate_faces_nonvacuous : watertight (merge_vertex Nat.eqb (soup [(10, 11, 12); (10, 13, 11); (11, 13, 12); (12, 13, 10)])) /\
  fixer_main Nat.eqb 100 (soup [(10, 11, 12); (10, 13, 11); (11, 13, 12); (12, 13, 10)]) = Some [].
Proof. split; [split; [apply once_check; vm_compute; reflexivity|apply open_check; vm_compute; reflexivity]|vm_compute; reflexivity]. Qed.

(** * The numbers printed *)
Lemma fold_length fs : forall e, fold_left (fun e (f : list nat) => e + length f) fs e = e + length (flat_map sides fs).
Proof.
  induction fs as [|f fs IH]; intro e; cbn [fold_left flat_map]; [cbn [length]; lia|]. rewrite IH, app_length. assert (X : length (sides f) = length f) by (rewrite <- (map_length fst), sides_fst; reflexivity). lia.
Qed.
(** For a closed mesh the number of edges printed is that of its edges. *)
Theorem evaluate_counts_edges : forall P (p : poly P), watertight p -> (forall a, ~ is_side p a a) ->
  exists es, NoDup es /\ (forall a b, In (a, b) es <-> a < b /\ is_side p a b) /\
    evaluate p = (length (points p), length (faces p), length es, (Z.of_nat (length (points p)) + Z.of_nat (length (faces p)) - Z.of_nat (length es))%Z).
Proof.
  intros P p [O N] NL. set (L := flat_map sides (faces p)). assert (ND : NoDup L) by (apply once_nodup; exact O). exists (filter (fun e => fst e <? snd e) L).
  split; [apply NoDup_filter; exact ND|]. split; [intros a b; rewrite filter_In, is_side_in; cbn [fst snd]; rewrite Nat.ltb_lt; tauto|].
  assert (SW : forall a b, In (a, b) L -> In (b, a) L).
  { intros a b H. destruct (in_dec (fun x y : nat * nat => ltac:(decide equality; apply Nat.eq_dec)) (b, a) L) as [K|K]; [exact K|]. exfalso. apply (N a b). apply open_single. split; assumption. }
  assert (HALF : length L = 2 * length (filter (fun e => fst e <? snd e) L)).
  { assert (S1 : length L = length (filter (fun e => fst e <? snd e) L) + length (filter (fun e => negb (fst e <? snd e)) L)). { clear. induction L as [|e l IH]; cbn [filter length]; [reflexivity|]. destruct (fst e <? snd e); cbn [negb length]; lia. }
    assert (S2 : length (filter (fun e => fst e <? snd e) L) = length (filter (fun e => negb (fst e <? snd e)) L)).
    { apply Nat.le_antisymm.
      - rewrite <- (map_length swap). apply NoDup_incl_length; [apply FinFun.Injective_map_NoDup; [exact swap_inj|apply NoDup_filter; exact ND]|]. intros x Hx. apply in_map_iff in Hx. destruct Hx as ([a b] & <- & K). apply filter_In in K. destruct K as [K1 K2]. cbn [fst snd] in K2. apply Nat.ltb_lt in K2.
        apply filter_In. unfold swap. cbn [fst snd]. split; [apply SW; exact K1|]. apply negb_true_iff, Nat.ltb_ge. lia.
      - rewrite <- (map_length swap). apply NoDup_incl_length; [apply FinFun.Injective_map_NoDup; [exact swap_inj|apply NoDup_filter; exact ND]|]. intros x Hx. apply in_map_iff in Hx. destruct Hx as ([a b] & <- & K). apply filter_In in K. destruct K as [K1 K2]. cbn [fst snd] in K2. apply negb_true_iff, Nat.ltb_ge in K2.
        apply filter_In. unfold swap. cbn [fst snd]. split; [apply SW; exact K1|]. apply Nat.ltb_lt. destruct (Nat.eq_dec a b) as [->|D]; [|lia]. exfalso. apply (NL b). apply is_side_in. exact K1. }
    lia. }
  unfold evaluate. rewrite fold_length. fold L. cbn [Nat.add]. rewrite HALF, Nat.mul_comm, Nat.div_mul by lia. reflexivity.
Qed.
Example evaluate_counts_edges_nonvacuous : watertight (fold_left add_face [[0; 3; 2; 1]; [4; 5; 6; 7]] tube) /\ evaluate (fold_left add_face [[0; 3; 2; 1]; [4; 5; 6; 7]] tube) = (8, 6, 12, 2%Z).
Proof. split; [split; [apply once_check; vm_compute; reflexivity|apply open_check; vm_compute; reflexivity]|vm_compute; reflexivity]. Qed.

(** * Files *)
Definition small (x : pt3) : Prop := let '(a, b, c) := x in (Z.abs a < 1000000 /\ Z.abs b < 1000000 /\ Z.abs c < 1000000)%Z.
Lemma print6_small z : (Z.abs z < 1000000)%Z -> print6 z = z.
Proof. intro H. unfold print6. destruct (Z.ltb_spec (Z.abs z) 1000000); [reflexivity|lia]. Qed.
Lemma read_points_dump ps : Forall small ps -> forall s, read_points (length ps) (flat_map (fun x : pt3 => let '(a, b, c) := x in [print6 a; print6 b; print6 c]) ps ++ s) = Some (ps, s).
Proof.
  induction 1 as [|[[a b] c] ps (H1 & H2 & H3) _ IH]; intro s; cbn [length flat_map read_points app]; [reflexivity|]. rewrite !print6_small by assumption. rewrite IH. reflexivity.
Qed.
Lemma read_faces_dump fs : Forall (fun f => length f = 3) fs -> forall p, read_faces (length fs) (flat_map (fun f => Z.of_nat (length f) :: map Z.of_nat f) fs) p = Some (fold_left add_face fs p).
Proof.
  induction 1 as [|f fs H _ IH]; intro p; cbn [length flat_map read_faces]; [reflexivity|]. destruct f as [|a [|b [|c [|d f]]]]; cbn [length] in H; try discriminate H. cbn [map app]. rewrite !Nat2Z.id, IH. reflexivity.
Qed.
(** A mesh of triangles, with whole coordinates of at most six digits, is read back as it was. *)
Theorem fixer_files_partial : forall p : poly pt3, Forall small (points p) -> Forall (fun f => length f = 3) (faces p) ->
  exists q, load (dumpto p) = Some q /\ points q = points p /\ faces q = faces p /\ built q.
Proof.
  intros p SM TR. exists (fold_left add_face (faces p) (Poly (points p) [] [])). destruct (add_faces pt3 (faces p) (Poly (points p) [] [])) as (H1 & H2 & _). split; [|split; [exact H1|split; [exact H2|apply built_faces]]].
  unfold load, dumpto. cbn [app]. rewrite Nat2Z.id, read_points_dump by exact SM. cbn [bind]. rewrite Nat2Z.id. apply read_faces_dump. exact TR.
Qed.
Example fixer_files_nonvacuous : Forall small [(0, 0, 0); (-999999, 5, 7); (1, 2, 3)]%Z /\ Forall (fun f => length f = 3) [[0; 1; 2]; [2; 1; 0]].
Proof. split; repeat constructor. Qed.
(** What is printed for a whole number of seven to eleven digits: a multiple of the power of ten of
    which the number has between 100000 and 999999, no farther from it than half of that power. *)
Theorem fixer_digits : forall z, (1000000 <= Z.abs z < 10 ^ 11)%Z ->
  exists t, (In t [10; 100; 1000; 10000; 100000] /\ 100000 * t <= Z.abs z < 1000000 * t /\ (t | print6 z) /\ 2 * Z.abs (print6 z - z) <= t)%Z.
Proof.
  intros z [L H]. change (10 ^ 11)%Z with 100000000000%Z in H. unfold print6. destruct (Z.ltb_spec (Z.abs z) 1000000); [lia|].
  assert (D : exists t, In t [10; 100; 1000; 10000; 100000]%Z /\ drop_digits 5 z = t /\ (100000 * t <= Z.abs z < 1000000 * t)%Z).
  { unfold drop_digits. cbn [Nat.sub Z.of_nat Pos.of_succ_nat Pos.succ]. change (10 ^ 1)%Z with 10%Z. change (10 ^ 2)%Z with 100%Z. change (10 ^ 3)%Z with 1000%Z. change (10 ^ 4)%Z with 10000%Z. change (10 ^ 5)%Z with 100000%Z.
    repeat match goal with |- context[(?a <? ?b)%Z] => destruct (Z.ltb_spec a b); [eexists; split; [|split; [reflexivity|lia]]; cbn [In]; auto 10; fail|] end. lia. }
  destruct D as (t & I & E & T). exists t. rewrite E. cbv zeta. split; [exact I|]. split; [exact T|].
  assert (P : (0 < t)%Z) by (cbn [In] in I; lia). pose proof (Z.div_mod (Z.abs z) t ltac:(lia)) as DM. pose proof (Z.mod_pos_bound (Z.abs z) t P) as MB.
  set (q := (Z.abs z / t)%Z) in *. set (r := (Z.abs z mod t)%Z) in *. set (q' := if (2 * r <? t)%Z then q else if (t <? 2 * r)%Z then (q + 1)%Z else if Z.even q then q else (q + 1)%Z).
  split; [exists (Z.sgn z * q')%Z; ring|].
  assert (B : (2 * Z.abs (q' * t - Z.abs z) <= t)%Z).
  { unfold q'. destruct (Z.ltb_spec (2 * r) t); [nia|]. destruct (Z.ltb_spec t (2 * r)); [nia|]. destruct (Z.even q); nia. }
  replace (Z.sgn z * (q' * t) - z)%Z with (Z.sgn z * (q' * t - Z.abs z))%Z by nia. rewrite Z.abs_mul. nia.
Qed.
Example fixer_digits_nonvacuous : (1000000 <= Z.abs (-1234567890) < 10 ^ 11 /\ print6 (-1234567890) = -1234570000 /\ print6 1000005 = 1000000 /\ print6 1000015 = 1000020)%Z.
Proof. split; [cbn; lia|]. split; [reflexivity|]. split; reflexivity. Qed.
(** What filling a hole may add, a face of four vertices, is not read back; nor are seven digits. *)
Theorem fixer_files_refuted : (exists p : poly pt3, Forall small (points p) /\ valid p /\ exists q, load (dumpto p) = Some q /\ faces q <> faces p) /\
  (exists p : poly pt3, valid p /\ Forall (fun f => length f = 3) (faces p) /\ exists q, load (dumpto p) = Some q /\ points q <> points p).
Proof.
  split.
  - exists (Poly [(0, 0, 0); (1, 0, 0); (1, 1, 0); (0, 1, 0)]%Z [[0; 1; 2; 3]] []). split; [repeat constructor|]. split; [repeat (constructor; [split; [discriminate|repeat constructor; cbn; lia]|]); constructor|].
    eexists. split; [vm_compute; reflexivity|]. cbn. discriminate.
  - exists (Poly [(0, 0, 0); (1234567, 0, 0); (1, 1, 0)]%Z [[0; 1; 2]] []). split; [repeat (constructor; [split; [discriminate|repeat constructor; cbn; lia]|]); constructor|]. split; [repeat constructor|].
    eexists. split; [vm_compute; reflexivity|]. cbn. discriminate.
Qed.

Print Assumptions depart_components.
Print Assumptions fill_holes_closes.
Print Assumptions fill_holes_closes_all_refuted.
Print Assumptions merge_vertex_corners.
Print Assumptions merge_then_fill_refuted.
Print Assumptions fixer_writes_closed_pieces_partial.
Print Assumptions fixer_same_name.
Print Assumptions fixer_writes_closed_pieces_refuted.
Print Assumptions fixer_separate_faces_refuted.
Print Assumptions evaluate_counts_edges.
Print Assumptions fixer_files_partial.
Print Assumptions fixer_files_refuted.
Print Assumptions fixer_digits.
