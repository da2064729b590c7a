(** Proofs about the convexity test. *)
From Coq Require Import QArith List Bool Arith Lia Lqa Permutation.
From Verif Require Import Arr AabModel AabProofs SegDistModel PpmcModel ConvexModel.
Import ListNotations.
Open Scope Q_scope.
Notation vadd := SegDistModel.vadd.

Definition veq (a b : qvec) : Prop := forall x, a x == b x.
(** The sides of a closed polygon. *)
Definition cyc {A} (l : list A) : list (A * A) := match l with [] => [] | x :: r => combine l (r ++ [x]) end.
(** Twice the area vector. *)
Definition area_of (es : list (qvec * qvec)) : qvec := fold_right (fun e acc => vadd (cross (fst e) (snd e)) acc) origin es.
Definition area (l : list qvec) : qvec := area_of (cyc l).
(** Which side of the line p q, seen along n, the point x lies on. *)
Definition det (n p q x : qvec) : Q := vdot (cross (qsub q p) n) (qsub x p).

Lemma cyc_nth A (d : A) l i : (i < length l)%nat -> nth i (cyc l) (d, d) = (nth i l d, nth (Nat.modulo (i + 1) (length l)) l d).
Proof.
  destruct l as [|x r]; cbn [length]; [lia|]. intros H. unfold cyc. rewrite combine_nth by (rewrite app_length; cbn [length]; lia). f_equal.
  destruct (Nat.eq_dec i (length r)) as [->|N].
  - replace (length r + 1)%nat with (S (length r)) by lia. rewrite Nat.mod_same by lia. rewrite app_nth2 by lia. now rewrite Nat.sub_diag.
  - rewrite Nat.mod_small by lia. rewrite app_nth1 by lia. now rewrite Nat.add_1_r.
Qed.
Lemma cyc_length A (l : list A) : length (cyc l) = length l.
Proof. destruct l as [|x r]; [reflexivity|]. unfold cyc. rewrite combine_length, app_length. cbn [length]. lia. Qed.
Lemma cyc_in A (d : A) l e : In e (cyc l) <-> exists i, (i < length l)%nat /\ e = (nth i l d, nth (Nat.modulo (i + 1) (length l)) l d).
Proof.
  split.
  - intros H. apply (In_nth _ _ (d, d)) in H as (i & L & E). rewrite cyc_length in L. exists i. split; [exact L|]. now rewrite <- E, cyc_nth.
  - intros (i & L & ->). rewrite <- cyc_nth by exact L. apply nth_In. now rewrite cyc_length.
Qed.

Lemma area_cons e a x : area_of (e :: a) x = cross (fst e) (snd e) x + area_of a x.
Proof. reflexivity. Qed.
Lemma vadd_at (a b : qvec) x : vadd a b x = a x + b x.
Proof. reflexivity. Qed.
Lemma area_app a b : veq (area_of (a ++ b)) (vadd (area_of a) (area_of b)).
Proof.
  induction a as [|e a IH]; intros x; rewrite vadd_at.
  - change (area_of b x == 0 + area_of b x). ring.
  - rewrite <- app_comm_cons, !area_cons, (IH x), vadd_at. ring.
Qed.
Lemma area_perm a b : Permutation a b -> veq (area_of a) (area_of b).
Proof.
  induction 1 as [|e a b P IH|e f a|a b c P IH P' IH']; intros x; rewrite ?area_cons.
  - reflexivity.
  - rewrite (IH x). reflexivity.
  - ring.
  - rewrite (IH x). apply IH'.
Qed.
Lemma fold_area (f : nat -> qvec) is acc : veq (fold_left (fun n i => vadd n (f i)) is acc) (vadd acc (fold_right (fun i n => vadd (f i) n) origin is)).
Proof.
  revert acc. induction is as [|i is IH]; intros acc x; cbn [fold_left fold_right]; rewrite ?vadd_at; [change (acc x == acc x + 0); ring|].
  specialize (IH (vadd acc (f i)) x). rewrite !vadd_at in *. rewrite IH. ring.
Qed.
Lemma normal_area l : veq (normal_sum l) (area l).
Proof.
  intros x. unfold normal_sum. eapply Qeq_trans; [exact (fold_area (fun i => cross (point l i) (point l (Nat.modulo (i + 1) (length l)))) _ _ x)|].
  assert (E : cyc l = map (fun i => (point l i, point l (Nat.modulo (i + 1) (length l)))) (seq 0 (length l))).
  { apply nth_ext with (d := (origin, origin)) (d' := (origin, origin)); [now rewrite cyc_length, map_length, seq_length|].
    intros i H. rewrite cyc_length in H. rewrite cyc_nth by exact H.
    rewrite nth_indep with (d' := (fun i => (point l i, point l (Nat.modulo (i + 1) (length l)))) 0%nat) by (now rewrite map_length, seq_length).
    rewrite (map_nth (fun i => (point l i, point l (Nat.modulo (i + 1) (length l))))), seq_nth by exact H. reflexivity. }
  unfold area. rewrite E. generalize (seq 0 (length l)). intros is. rewrite vadd_at.
  change (origin x) with 0. rewrite Qplus_0_l. induction is as [|i is IH]; [reflexivity|]. cbn [fold_right map]. rewrite area_cons, vadd_at. cbn [fst snd]. rewrite IH. reflexivity.
Qed.

Lemma vdot_eq a a' b b' : veq a a' -> veq b b' -> vdot a b == vdot a' b'.
Proof. intros A B. unfold vdot, sum3. now rewrite (A AX), (A AY), (A AZ), (B AX), (B AY), (B AZ). Qed.
Lemma cross_eq a a' b b' : veq a a' -> veq b b' -> veq (cross a b) (cross a' b').
Proof. intros A B []; cbn [cross v3]; rewrite ?(A AX), ?(A AY), ?(A AZ), ?(B AX), ?(B AY), ?(B AZ); reflexivity. Qed.
Lemma det_eq n n' p q x : veq n n' -> det n p q x == det n' p q x.
Proof. intros N. unfold det. apply vdot_eq; [|intros a; reflexivity]. apply cross_eq; [intros a; reflexivity|exact N]. Qed.

(** The projection changes nothing. *)
Lemma project_det nn sq l i k j : vdot (cross (qsub (project nn sq l k) (project nn sq l i)) nn) (qsub (project nn sq l j) (project nn sq l i)) ==
  det nn (point l i) (point l k) (point l j).
Proof.
  unfold det, project. cbv zeta.
  generalize (vdot (qsub (point l i) (point l 0)) nn / sq) (vdot (qsub (point l j) (point l 0)) nn / sq) (vdot (qsub (point l k) (point l 0)) nn / sq).
  intros di dj dk. unfold vdot, sum3, cross, v3, qsub, SegDistModel.vsub. ring.
Qed.

Definition tol2 (n : qvec) : Q := (1 # 1000000) * (1 # 1000000) * vdot n n.
Lemma dot_nonneg n : 0 <= vdot n n.
Proof. unfold vdot, sum3. pose proof (sq_nonneg (n AX)). pose proof (sq_nonneg (n AY)). pose proof (sq_nonneg (n AZ)). lra. Qed.
Lemma tol2_nonneg n : 0 <= tol2 n.
Proof. unfold tol2. apply Qmult_le_0_compat; [vm_compute; discriminate|apply dot_nonneg]. Qed.
(** Clearly to the left, clearly to the right. *)
Definition lefts (n p q x : qvec) : Prop := 0 < det n p q x /\ tol2 n < det n p q x * det n p q x.
Definition rights (n p q x : qvec) : Prop := det n p q x < 0 /\ tol2 n < det n p q x * det n p q x.
Lemma lefts_eq n n' p q x : veq n n' -> lefts n p q x -> lefts n' p q x.
Proof. intros N [A B]. unfold lefts, tol2 in *. pose proof (det_eq n n' p q x N) as E. pose proof (vdot_eq n n' n n' N N) as E'. rewrite <- E, <- E'. auto. Qed.
Lemma rights_eq n n' p q x : veq n n' -> rights n p q x -> rights n' p q x.
Proof. intros N [A B]. unfold rights, tol2 in *. pose proof (det_eq n n' p q x N) as E. pose proof (vdot_eq n n' n n' N N) as E'. rewrite <- E, <- E'. auto. Qed.

Lemma side_spec sq cp d : cp == d -> 0 <= tolerance * tolerance * sq ->
  (side sq cp = 1%nat <-> 0 < d /\ tolerance * tolerance * sq < d * d) /\ (side sq cp = 2%nat <-> d < 0 /\ tolerance * tolerance * sq < d * d) /\ (side sq cp < 3)%nat.
Proof.
  intros E P. unfold side. destruct (Qltb_spec (tolerance * tolerance * sq) (cp * cp)) as [L|L].
  - destruct (Qltb_spec 0 cp) as [M|M]; rewrite E in *; (split; [|split]); try lia; split; try (intros; discriminate); try (intros [? ?]; lra); try (intros [? ?]; discriminate); auto.
    intros _. split; [|exact L]. destruct (Qlt_le_dec d 0) as [?|G]; [assumption|]. exfalso. assert (d == 0) as Z by lra. rewrite Z in L. lra.
  - rewrite E in L. split; [|split]; [| |lia]; (split; [intros H; discriminate H|intros [_ ?]; lra]).
Qed.

Lemma same_side_spec nn sq proj s i js g :
  let f j := side sq (vdot (cross (qsub (proj (Nat.modulo (i + 1) s)) (proj i)) nn) (qsub (proj j) (proj i))) in
  (forall j, (f j < 3)%nat) -> (forall j, (j = i \/ j = i + 1)%nat -> In j js -> f j = 0%nat) -> (g < 3)%nat ->
  same_side nn sq proj s i js g = true <-> ~ ((g = 1 \/ exists j, In j js /\ f j = 1)%nat /\ (g = 2 \/ exists j, In j js /\ f j = 2)%nat).
Proof.
  intros f F0 Fs. revert g. induction js as [|j js IH]; intros g G; cbn [same_side].
  - split; [intros _ [[A|(j & [] & _)] [B|(j' & [] & _)]]; lia|reflexivity].
  - fold (f j). assert (Fs' : forall j0, (j0 = i \/ j0 = i + 1)%nat -> In j0 js -> f j0 = 0%nat) by (intros; apply Fs; [assumption|now right]).
    assert (Q1 : forall v, (exists j0, In j0 (j :: js) /\ f j0 = v) <-> f j = v \/ exists j0, In j0 js /\ f j0 = v).
    { intros v. split; [intros (j0 & [<-|H] & E); [now left|right; eauto]|intros [E|(j0 & H & E)]; [exists j|exists j0]; split; auto; now (left + right)]. }
    rewrite (Q1 1%nat), (Q1 2%nat).
    destruct (Nat.eqb_spec j i) as [E|N]; [|destruct (Nat.eqb_spec j (i + 1)) as [E|N']]; cbn [orb].
    + rewrite (IH Fs' g G). rewrite (Fs j) by (auto; now left). intuition discriminate.
    + rewrite (IH Fs' g G). rewrite (Fs j) by (auto; now left). intuition discriminate.
    + pose proof (F0 j) as B. fold (f j). destruct (f j) as [|[|[|?]]] eqn:E; try lia; (destruct g as [|[|[|?]]]; try lia); cbn [comp nth Nat.mul Nat.add Nat.eqb];
        first [rewrite IH by (auto; lia); intuition discriminate | split; [intros X; discriminate X|intros X; exfalso; apply X; auto]].
Qed.

Theorem isConvex_edges l : isConvex l = true <-> forall p q x y, In (p, q) (cyc l) -> In x l -> In y l -> ~ (lefts (area l) p q x /\ rights (area l) p q y).
Proof.
  unfold isConvex. cbv zeta. set (nn := normal_sum l). set (sq := vdot nn nn). set (s := length l).
  assert (P : 0 <= tolerance * tolerance * sq) by apply (tol2_nonneg nn).
  set (f := fun i j => side sq (vdot (cross (qsub (project nn sq l (Nat.modulo (i + 1) s)) (project nn sq l i)) nn) (qsub (project nn sq l j) (project nn sq l i)))).
  assert (F : forall i j, (f i j = 1%nat <-> lefts nn (point l i) (point l (Nat.modulo (i + 1) s)) (point l j)) /\
                          (f i j = 2%nat <-> rights nn (point l i) (point l (Nat.modulo (i + 1) s)) (point l j)) /\ (f i j < 3)%nat).
  { intros i j. apply side_spec; [apply project_det|exact P]. }
  assert (Z : forall i j, det nn (point l i) (point l (Nat.modulo (i + 1) s)) (point l j) == 0 -> f i j = 0%nat).
  { intros i j D. destruct (F i j) as (A & B & C). destruct (f i j) as [|[|[|?]]]; [reflexivity| | |lia].
    - destruct (proj1 A eq_refl). lra. - destruct (proj1 B eq_refl). lra. }
  rewrite forallb_forall. transitivity (forall i, (i < s)%nat -> ~ ((exists j, (j < s)%nat /\ f i j = 1%nat) /\ (exists j, (j < s)%nat /\ f i j = 2%nat))).
  - assert (S1 : forall i, (i < s)%nat -> same_side nn sq (project nn sq l) s i (seq 0 s) 0 = true <->
      ~ ((exists j, (j < s)%nat /\ f i j = 1%nat) /\ (exists j, (j < s)%nat /\ f i j = 2%nat))).
    { intros i Hi. rewrite (same_side_spec nn sq (project nn sq l) s i (seq 0 s) 0).
      - assert (Q1 : forall v, (0%nat = v \/ exists j, In j (seq 0 s) /\ f i j = v) <-> 0%nat = v \/ exists j, (j < s)%nat /\ f i j = v).
        { intros v. split; (intros [?|(j & H & E)]; [now left|right; exists j; split; [|exact E]]); [apply in_seq in H; lia|apply in_seq; lia]. }
        change (~ ((0%nat = 1%nat \/ exists j, In j (seq 0 s) /\ f i j = 1%nat) /\ (0%nat = 2%nat \/ exists j, In j (seq 0 s) /\ f i j = 2%nat)) <->
          ~ ((exists j, (j < s)%nat /\ f i j = 1%nat) /\ (exists j, (j < s)%nat /\ f i j = 2%nat))).
        rewrite (Q1 1%nat), (Q1 2%nat). intuition discriminate.
      - intros j. apply F.
      - intros j [->| ->] H; apply Z; unfold det.
        + unfold vdot, sum3, cross, v3, qsub, SegDistModel.vsub. ring.
        + apply in_seq in H. rewrite Nat.mod_small by lia. unfold vdot, sum3, cross, v3, qsub, SegDistModel.vsub. ring.
      - lia. }
    split; [intros H i Hi; apply (S1 i Hi), H, in_seq; lia|intros H i Hi; apply in_seq in Hi; apply S1; [lia|apply H; lia]].
  - split.
    + intros H p q x y He Hx Hy [L R]. apply (cyc_in _ origin) in He as (i & Hi & E). injection E as -> ->.
      apply (In_nth _ _ origin) in Hx as (j & Hj & <-). apply (In_nth _ _ origin) in Hy as (k & Hk & <-).
      assert (N : veq (area l) nn) by (intros a; symmetry; apply normal_area).
      apply (H i Hi). split; [exists j|exists k]; (split; [assumption|]); apply F; [now apply (lefts_eq _ _ _ _ _ N)|now apply (rights_eq _ _ _ _ _ N)].
    + intros H i Hi [(j & Hj & L) (k & Hk & R)]. apply F in L. apply F in R. pose proof (normal_area l) as N. fold nn in N.
      apply (H (point l i) (point l (Nat.modulo (i + 1) s)) (point l j) (point l k)); try (apply nth_In; assumption).
      * apply (cyc_in _ origin). exists i. split; [assumption|reflexivity].
      * split; [now apply (lefts_eq _ _ _ _ _ N)|now apply (rights_eq _ _ _ _ _ N)].
Qed.

(** Moving, turning round, starting elsewhere and enlarging a polygon. *)
Lemma cyc_map A B (f : A -> B) l : cyc (map f l) = map (fun e => (f (fst e), f (snd e))) (cyc l).
Proof.
  destruct l as [|x r]; [reflexivity|]. unfold cyc. cbn [map]. change [f x] with (map f [x]). rewrite <- map_app.
  generalize (r ++ [x]). intros k. change (f x :: map f r) with (map f (x :: r)). generalize (x :: r). clear.
  intros l. revert k. induction l as [|a l IH]; intros [|b k]; cbn [map combine]; try reflexivity. now rewrite IH.
Qed.
(** Walking along a chain: the sum of the differences of the ends. *)
Fixpoint chain (p : qvec) (l : list qvec) : list (qvec * qvec) := match l with [] => [] | q :: r => (p, q) :: chain q r end.
Lemma cyc_chain A (x : A) r : cyc (x :: r) = (fix ch p l := match l with [] => [] | q :: r => (p, q) :: ch q r end) x (r ++ [x]).
Proof.
  unfold cyc. generalize x at 2 4. intros z. revert x. induction r as [|y r IH]; intros x; [reflexivity|]. cbn [app combine]. f_equal. apply IH.
Qed.
Lemma last_app (l : list qvec) x d : last (l ++ [x]) d = x.
Proof. induction l as [|a l IH]; [reflexivity|]. cbn [app last]. rewrite IH. now destruct (l ++ [x]) eqn:E; [destruct l|]. Qed.
Lemma chain_cross_sum (t : qvec) p l : forall a,
  area_of (map (fun e => (vadd (fst e) t, vadd (snd e) t)) (chain p l)) a ==
  area_of (chain p l) a + cross t (qsub (last l p) p) a.
Proof.
  revert p. induction l as [|q r IH]; intros p a.
  - cbn [chain map last]. change (area_of [] a) with 0. destruct a; cbn [cross v3]; unfold qsub, SegDistModel.vsub; ring.
  - cbn [chain map]. rewrite !area_cons. rewrite IH. replace (last (q :: r) p) with (last r q).
    2:{ destruct r as [|y r]; [reflexivity|]. cbn [last]. clear. revert y. induction r as [|z r IH]; intros y; [reflexivity|]. apply IH. }
    cbn [fst snd]. generalize (area_of (chain q r) a) (last r q). intros A L. destruct a; cbn [cross v3]; unfold qsub, SegDistModel.vsub, SegDistModel.vadd; ring.
Qed.
Lemma area_translate t (l : list qvec) : veq (area (map (fun p => vadd p t) l)) (area l).
Proof.
  intros a. unfold area. rewrite cyc_map. destruct l as [|x r]; [reflexivity|].
  replace (cyc (x :: r)) with (chain x (r ++ [x])) by (symmetry; apply cyc_chain).
  rewrite chain_cross_sum, last_app. destruct a; cbn [cross v3]; unfold qsub, SegDistModel.vsub; ring.
Qed.
Definition scaled (c : Q) (p : qvec) : qvec := fun a => c * p a.
Lemma area_scale c (l : list qvec) : veq (area (map (scaled c) l)) (fun a => c * c * area l a).
Proof.
  intros a. unfold area. rewrite cyc_map. generalize (cyc l). intros es. induction es as [|e es IH]; cbn [map].
  - change (0 == c * c * 0). ring.
  - rewrite !area_cons, IH. cbn [fst snd]. destruct a; cbn [cross v3]; unfold scaled; ring.
Qed.
Lemma swap_area es : veq (area_of (map (fun e => (snd e, fst e)) es)) (fun a => - area_of es a).
Proof.
  intros a. induction es as [|e es IH]; cbn [map]; [change (0 == - 0); ring|]. rewrite !area_cons, IH. cbn [fst snd]. destruct a; cbn [cross v3]; ring.
Qed.
Lemma cyc_rotate A (a b : list A) : Permutation (cyc (a ++ b)) (cyc (b ++ a)).
Proof.
  destruct a as [|x a]; [cbn [app]; now rewrite app_nil_r|]. destruct b as [|y b]; [now rewrite app_nil_r|].
  cbn [app]. rewrite !cyc_chain.
  set (ch := fix ch (p : A) (l : list A) := match l with [] => [] | q :: r => (p, q) :: ch q r end).
  assert (C : forall l p z k, ch p (l ++ z :: k) = ch p (l ++ [z]) ++ ch z k).
  { induction l as [|w l IH]; intros p z k; cbn [app ch]; [reflexivity|]. fold ch. cbn [app]. f_equal. apply IH. }
  rewrite <- !app_assoc. cbn [app]. rewrite (C a x y (b ++ [x])), (C b y x (a ++ [y])). apply Permutation_app_comm.
Qed.
Lemma cyc_rev A (l : list A) : Permutation (cyc (rev l)) (map (fun e => (snd e, fst e)) (cyc l)).
Proof.
  destruct l as [|x r]; [reflexivity|]. cbn [rev]. rewrite cyc_rotate. cbn [app]. rewrite !cyc_chain.
  set (ch := fix ch (p : A) (l : list A) := match l with [] => [] | q :: r => (p, q) :: ch q r end).
  assert (C : forall l p z k, ch p (l ++ z :: k) = ch p (l ++ [z]) ++ ch z k).
  { induction l as [|w l IH]; intros p z k; cbn [app ch]; [reflexivity|]. fold ch. cbn [app]. f_equal. apply IH. }
  assert (R : forall l p z, Permutation (ch p (rev l ++ [z])) (map (fun e => (snd e, fst e)) (ch z (l ++ [p])))).
  { induction l as [|w l IH]; intros p z; cbn [rev app ch map fst snd]; [reflexivity|]. fold ch. rewrite <- app_assoc. cbn [app]. rewrite (C (rev l) p w [z]).
    rewrite (IH p w). cbn [ch]. rewrite Permutation_app_comm. reflexivity. }
  apply R.
Qed.
