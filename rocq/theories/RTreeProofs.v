(** Proofs about the R-tree. *)
From Coq Require Import QArith ZArith List Bool Arith Lia Permutation Lqa.
From Verif Require Import AabModel AabProofs RTreeModel.
Import ListNotations.
Open Scope nat_scope.

(** ** Rectangles *)
Lemma combine_comm a : forall b, combine_rect a b = combine_rect b a.
Proof. induction a as [|[x y] a IH]; intros [|[u v] b]; cbn; try reflexivity. f_equal; [f_equal; lia|apply IH]. Qed.
Lemma combine_assoc a : forall b c, combine_rect a (combine_rect b c) = combine_rect (combine_rect a b) c.
Proof. induction a as [|[x y] a IH]; intros [|[u v] b] [|[s t] c]; cbn; try reflexivity. f_equal; [f_equal; lia|apply IH]. Qed.
Lemma combine_idem a : combine_rect a a = a.
Proof. induction a as [|[x y] a IH]; cbn; [reflexivity|]. f_equal; [f_equal; lia|apply IH]. Qed.
Lemma overlap_combine q : forall a b, overlap q a = true -> overlap q (combine_rect a b) = true.
Proof.
  induction q as [|[x y] q IH]; intros [|[u v] a] [|[s t] b] H; cbn in *; try reflexivity.
  destruct ((v <? x)%Z || (y <? u)%Z) eqn:E; [discriminate|].
  apply orb_false_elim in E. destruct E as [E F]. apply Z.ltb_ge in E, F.
  replace ((Z.max v t <? x)%Z) with false by (symmetry; apply Z.ltb_ge; lia).
  replace ((y <? Z.min u s)%Z) with false by (symmetry; apply Z.ltb_ge; lia). cbn. apply IH. exact H.
Qed.

(** ** Lists *)
Lemma upd_nth_app {A} (l1 : list A) x y l2 : upd_nth (length l1) y (l1 ++ x :: l2) = l1 ++ y :: l2.
Proof. induction l1; cbn; [reflexivity|]. rewrite IHl1. reflexivity. Qed.
Lemma upd_nth_length {A} (y : A) l : forall i, length (upd_nth i y l) = length l.
Proof. induction l; intros [|i]; cbn; try reflexivity. rewrite IHl. reflexivity. Qed.
Lemma upd_nth_get {A} (l : list A) i x j : i < length l -> nth_error (upd_nth i x l) j = if j =? i then Some x else nth_error l j.
Proof.
  revert i j. induction l as [|a l IH]; intros [|i] [|j] H; cbn in *; try lia; try reflexivity.
  apply IH. lia.
Qed.

(** ** Specification *)
(** The entries stored below a node, with their rectangles. *)
Fixpoint entries {D} (n : item D) : list (Rect * D) :=
  match n with
  | Data _ => []
  | Node _ br => flat_map (fun b => match snd b with Data d => [(fst b, d)] | Node _ _ => entries (snd b) end) br
  end.
Definition branch_entries {D} (b : branch D) : list (Rect * D) :=
  match snd b with Data d => [(fst b, d)] | Node _ _ => entries (snd b) end.
Definition size {D} (n : item D) : nat := match n with Data _ => 0 | Node _ br => length br end.
(** What is known of every rectangle, kept by covers: that it has [k] sides, or more. *)
Lemma combine_length k a b : length a = k -> length b = k -> length (combine_rect a b) = k.
Proof. revert a b. induction k; intros [|[x y] a] [|[u v] b] A B; cbn in *; try discriminate; [reflexivity|]. f_equal. apply IHk; lia. Qed.
Record rpred : Type := { holds :> Rect -> Prop; kept : forall a b, holds a -> holds b -> holds (combine_rect a b) }.
Definition len (k : nat) : rpred := {| holds := fun r => length r = k; kept := combine_length k |}.
Coercion len : nat >-> rpred.
(** A node of height [h]: every leaf at depth [h], no node over the maximum, none below the root
    under the minimum, every branch rectangle as [dim] says and, above the leaves, the exact cover
    of its child. *)
Fixpoint shaped {D} (dim : rpred) (M m h : nat) (n : item D) : Prop :=
  match n with
  | Data _ => False
  | Node level br =>
      level = h /\ length br <= M /\
      match h with
      | O => Forall (fun b => dim (fst b) /\ exists d, snd b = Data d) br
      | S h => br <> [] /\ Forall (fun b => dim (fst b) /\ shaped dim M m h (snd b) /\ m <= size (snd b) /\ NodeCover (snd b) = Some (fst b)) br
      end
  end.

Section Proofs.
Context {D : Type}.
Variable dim : rpred.
Variables M m : nat.
Variable vol : Rect -> Q.
Variable sub : Q -> Q -> Q.
Notation item := (item D). Notation branch := (Rect * item)%type.

(** ** Covers *)
Definition cat2 (a b : option Rect) : option Rect :=
  match a, b with Some a, Some b => Some (combine_rect a b) | Some a, None => Some a | None, b => b end.
Lemma cat2_assoc a b c : cat2 a (cat2 b c) = cat2 (cat2 a b) c.
Proof. destruct a, b, c; cbn; try reflexivity. rewrite combine_assoc. reflexivity. Qed.
Lemma cat2_comm a b : cat2 a b = cat2 b a.
Proof. destruct a, b; cbn; try reflexivity. rewrite combine_comm. reflexivity. Qed.
Lemma cat2_shuffle x l y k : cat2 x (cat2 l (cat2 y k)) = cat2 (cat2 y x) (cat2 l k).
Proof. rewrite (cat2_comm y x), (cat2_assoc l y k), (cat2_comm l y), <- !cat2_assoc. reflexivity. Qed.
Lemma fold_cover (l : list branch) : forall r, Some (fold_left (fun r b => combine_rect r (fst b)) l r) = cat2 (Some r) (cover_list l).
Proof.
  induction l as [|b l IH]; intros r; [reflexivity|]. cbn [fold_left]. rewrite IH. unfold cover_list. rewrite IH.
  rewrite cat2_assoc. reflexivity.
Qed.
Lemma cover_cons (b : branch) l : cover_list (b :: l) = cat2 (Some (fst b)) (cover_list l).
Proof. unfold cover_list at 1. apply fold_cover. Qed.
Lemma cover_app (l1 l2 : list branch) : cover_list (l1 ++ l2) = cat2 (cover_list l1) (cover_list l2).
Proof. induction l1; [reflexivity|]. cbn [app]. rewrite !cover_cons, IHl1. apply cat2_assoc. Qed.
Lemma cover_perm (l1 l2 : list branch) : Permutation l1 l2 -> cover_list l1 = cover_list l2.
Proof.
  induction 1.
  - reflexivity.
  - rewrite !cover_cons, IHPermutation. reflexivity.
  - rewrite !cover_cons, !cat2_assoc, (cat2_comm (Some (fst x))). reflexivity.
  - congruence.
Qed.
Lemma cover_nonempty (l : list branch) : l <> [] -> exists r, cover_list l = Some r.
Proof. destruct l; [congruence|]. intros _. eexists. reflexivity. Qed.
Lemma cover_length (k : rpred) (l : list branch) : Forall (fun b => k (fst b)) l -> forall r, cover_list l = Some r -> k r.
Proof.
  induction 1 as [|b l H A IH]; intros r C; [discriminate|]. rewrite cover_cons in C. destruct (cover_list l) as [s|]; cbn in C; injection C as <-; [|exact H].
  apply kept; [exact H|]. apply IH. reflexivity.
Qed.
Lemma cover_overlap q (l : list branch) r : cover_list l = Some r -> forall b, In b l -> overlap q (fst b) = true -> overlap q r = true.
Proof.
  revert r. induction l as [|a l IH]; [discriminate|]. intros r C b I O. rewrite cover_cons in C.
  destruct (cover_list l) as [s|] eqn:E; cbn in C; injection C as <-.
  - destruct I as [<-|I]; [apply overlap_combine; exact O|]. rewrite combine_comm. apply overlap_combine. eapply IH; eauto.
  - destruct l; [|discriminate]. destruct I as [<-|[]]. exact O.
Qed.

(** ** PickBranch *)
Lemma pick_loop_lt r (l : list branch) : forall i best, (forall j a b, best = Some (j, a, b) -> j < i) ->
  i + length l > 0 -> (best = None -> i = 0) -> pick_loop vol sub r l i best < i + length l.
Proof.
  induction l as [|b l IH]; intros i best H P N; cbn [pick_loop length] in *.
  - destruct best as [[[j a] c]|]; [|specialize (N eq_refl); lia]. specialize (H j a c eq_refl). lia.
  - replace (i + S (length l)) with (S i + length l) by lia. apply IH; [|lia|].
    + intros j a c. destruct best as [[[j0 a0] c0]|].
      * specialize (H j0 a0 c0 eq_refl). repeat destruct (Qltb _ _); repeat destruct (Qeq_bool _ _); cbn [andb]; intros E; injection E as <- _ _; lia.
      * intros E; injection E as <- _ _; lia.
    + destruct best as [[[j0 a0] c0]|]; repeat destruct (Qltb _ _); repeat destruct (Qeq_bool _ _); discriminate.
Qed.
Lemma PickBranch_lt r (l : list branch) : l <> [] -> PickBranch vol sub r l < length l.
Proof. intros N. apply (pick_loop_lt r l 0 None); [discriminate| |reflexivity]. destruct l; [congruence|cbn; lia]. Qed.

(** ** The partition *)
Definition is_group (g : bool) (x : option bool) : bool := match x with Some h => eqb h g | None => false end.
Definition cnt (g : bool) (l : list (option bool)) : nat := length (filter (is_group g) l).
Definition pinv (total : nat) (pv : pvars) : Prop :=
  length (p_part pv) = total /\ forall g, p_count pv g = cnt g (p_part pv).
Lemma cnt_total l : cnt false l + cnt true l + length (filter (fun x => match x with None => true | _ => false end) l) = length l.
Proof. unfold cnt. induction l as [|[[]|] l IH]; cbn in *; lia. Qed.
Lemma cnt_cons g x l : cnt g (x :: l) = (if is_group g x then 1 else 0) + cnt g l.
Proof. unfold cnt. cbn [filter]. destruct (is_group g x); reflexivity. Qed.
Lemma cnt_upd g h (l : list (option bool)) : forall i, nth_error l i = Some None ->
  cnt g (upd_nth i (Some h) l) = (if eqb g h then 1 else 0) + cnt g l.
Proof.
  unfold cnt. induction l as [|x l IH]; intros [|i] H; cbn in *; try discriminate.
  - injection H as ->. destruct g, h; cbn; reflexivity.
  - specialize (IH i H). destruct (is_group g x); cbn; lia.
Qed.
Lemma not_taken_ex (l : list (option bool)) : cnt false l + cnt true l < length l -> exists i, i < length l /\ nth_error l i = Some None.
Proof.
  pose proof (cnt_total l). intros L.
  destruct (filter (fun x : option bool => match x with None => true | _ => false end) l) as [|x t] eqn:E; [cbn in *; lia|].
  assert (I : In x l /\ match x with None => true | _ => false end = true).
  { apply (filter_In (fun x : option bool => match x with None => true | _ => false end)). rewrite E. left. reflexivity. }
  destruct I as [I J]. destruct x; [discriminate|]. apply In_nth_error in I. destruct I as [i I]. exists i. split; [|exact I].
  apply nth_error_Some. congruence.
Qed.
Lemma classify_inv total (buf : list branch) i g pv : pinv total pv -> nth_error (p_part pv) i = Some None ->
  pinv total (Classify vol buf i g pv) /\ forall h, p_count (Classify vol buf i g pv) h = (if eqb h g then 1 else 0) + p_count pv h.
Proof.
  intros [L C] N.
  assert (K : forall h, p_count (Classify vol buf i g pv) h = (if eqb h g then 1 else 0) + p_count pv h).
  { intros h. cbn [Classify p_count]. unfold upd_group. destruct (eqb h g) eqn:E; [|reflexivity].
    apply eqb_prop in E. subst. reflexivity. }
  split; [|exact K]. split; [cbn [Classify p_part]; rewrite upd_nth_length; exact L|].
  intros h. rewrite K, C. cbn [Classify p_part]. symmetry. apply cnt_upd. exact N.
Qed.

Definition scan_ok (pv : pvars) (st : Q * nat * bool) : Prop :=
  let '(diff, chosen, _) := st in (0 <= diff)%Q /\ nth_error (p_part pv) chosen = Some None.
Lemma scan_step_ok (buf : list branch) pv st i :
  scan_ok pv st -> scan_ok pv (scan_step vol sub buf pv st i).
Proof.
  destruct st as [[d c] b]. unfold scan_step. destruct (nth_error (p_part pv) i) as [[|]|] eqn:E; intros H; try exact H.
  cbv zeta. match goal with |- context [Qle_bool 0 ?x] => generalize x end. intros x.
  destruct (Qle_bool 0 x) eqn:F; destruct (Qltb d _) eqn:G.
  - split; [apply Qle_bool_iff; exact F|exact E].
  - destruct (Qeq_bool _ _ && _); [|exact H]. split; [apply H|exact E].
  - split; [|exact E]. destruct (Qlt_le_dec x 0) as [Lx|Lx]; [lra|]. apply Qle_bool_iff in Lx. congruence.
  - destruct (Qeq_bool _ _ && _); [|exact H]. split; [apply H|exact E].
Qed.
Lemma scan_step_first (buf : list branch) pv c b i :
  (nth_error (p_part pv) i = Some None -> scan_ok pv (scan_step vol sub buf pv ((-1)%Q, c, b) i)) /\
  (nth_error (p_part pv) i <> Some None -> scan_step vol sub buf pv ((-1)%Q, c, b) i = ((-1)%Q, c, b)).
Proof.
  unfold scan_step. destruct (nth_error (p_part pv) i) as [[|]|] eqn:E; split; intros H; try congruence; try reflexivity.
  cbv zeta. match goal with |- context [Qle_bool 0 ?x] => generalize x end. intros x.
  destruct (Qle_bool 0 x) eqn:F.
  - assert (X : (0 <= x)%Q) by (apply Qle_bool_iff; exact F).
    destruct (Qltb_spec (-1) x); [split; assumption|lra].
  - assert (X : (x < 0)%Q) by (destruct (Qlt_le_dec x 0) as [Lx|Lx]; [lra|apply Qle_bool_iff in Lx; congruence]).
    destruct (Qltb_spec (-1) (-x)); [split; [lra|assumption]|lra].
Qed.
Lemma scan_fold (buf : list branch) pv l : forall st, scan_ok pv st -> scan_ok pv (fold_left (scan_step vol sub buf pv) l st).
Proof. induction l; intros st H; cbn [fold_left]; [exact H|]. apply IHl, scan_step_ok, H. Qed.
Lemma scan_found (buf : list branch) pv l : forall c b, (exists i, In i l /\ nth_error (p_part pv) i = Some None) ->
  scan_ok pv (fold_left (scan_step vol sub buf pv) l ((-1)%Q, c, b)).
Proof.
  induction l as [|a l IH]; intros c b (i & I & E); [destruct I|]. cbn [fold_left].
  destruct (scan_step_first buf pv c b a) as [F G].
  destruct (nth_error (p_part pv) a) as [[x|]|] eqn:A.
  - rewrite G by discriminate. apply IH. exists i. destruct I as [->|I]; [congruence|split; assumption].
  - apply scan_fold, F. reflexivity.
  - rewrite G by discriminate. apply IH. exists i. destruct I as [->|I]; [congruence|split; assumption].
Qed.

(** The state of the main loop: both groups have members, and neither is over its limit. *)
Definition bal (total minFill : nat) (pv : pvars) : Prop :=
  pinv total pv /\ forall g, 1 <= p_count pv g <= total - minFill.
Lemma choose_loop_ok (buf : list branch) minFill : forall fuel pv c b,
  bal (length buf) minFill pv -> length buf <= fuel + p_count pv false + p_count pv true ->
  let pv' := choose_loop vol sub fuel buf minFill pv c b in
  bal (length buf) minFill pv' /\
  (p_count pv' false + p_count pv' true = length buf \/ exists g, p_count pv' g = length buf - minFill).
Proof.
  induction fuel as [|fuel IH]; intros pv c b B F; cbn [choose_loop].
  - split; [exact B|]. left. destruct B as [[L C] _]. pose proof (cnt_total (p_part pv)). rewrite !C in *. lia.
  - destruct ((p_count pv false + p_count pv true <? length buf) && (p_count pv false <? length buf - minFill) &&
      (p_count pv true <? length buf - minFill)) eqn:E.
    + apply andb_prop in E. destruct E as [E E3]. apply andb_prop in E. destruct E as [E1 E2].
      apply Nat.ltb_lt in E1, E2, E3. destruct B as [P Q].
      assert (X : scan_ok pv (fold_left (scan_step vol sub buf pv) (seq 0 (length buf)) ((-1)%Q, c, b))).
      { apply scan_found. destruct P as [L C]. destruct (not_taken_ex (p_part pv)) as (i & I & N); [rewrite <- !C, L; exact E1|].
        exists i. split; [apply in_seq; lia|exact N]. }
      destruct (fold_left _ _ _) as [[d c'] b']. destruct X as [_ X].
      destruct (classify_inv _ buf c' b' pv P X) as [P' K]. apply IH.
      * split; [exact P'|]. intros g. rewrite K. specialize (Q g). destruct g, b'; cbn in *; lia.
      * rewrite !K. destruct b'; cbn; lia.
    + split; [exact B|]. destruct B as [[L C] Q]. pose proof (cnt_total (p_part pv)).
      destruct (Nat.ltb_spec (p_count pv false + p_count pv true) (length buf)); [|left; rewrite !C in *; lia].
      right. cbn [andb] in E. destruct (Nat.ltb_spec (p_count pv false) (length buf - minFill)).
      * cbn [andb] in E. apply Nat.ltb_ge in E. exists true. specialize (Q true). lia.
      * exists false. specialize (Q false). lia.
Qed.
Definition put_step (buf : list branch) (group : bool) (pv : pvars) (index : nat) : pvars :=
  match nth_error (p_part pv) index with Some None => Classify vol buf index group pv | _ => pv end.
Lemma put_steps (buf : list branch) total group : forall l pv, pinv total pv ->
  let pv' := fold_left (put_step buf group) l pv in
  pinv total pv' /\ p_count pv' (negb group) = p_count pv (negb group) /\
  (forall i, (In i l \/ nth_error (p_part pv) i <> Some None) -> nth_error (p_part pv') i <> Some None).
Proof.
  induction l as [|a l IH]; intros pv P; cbn [fold_left].
  - split; [exact P|]. split; [reflexivity|]. intros i [[]|H]; exact H.
  - assert (Q : pinv total (put_step buf group pv a) /\ p_count (put_step buf group pv a) (negb group) = p_count pv (negb group) /\
      forall i, i = a \/ nth_error (p_part pv) i <> Some None -> nth_error (p_part (put_step buf group pv a)) i <> Some None).
    { unfold put_step. destruct (nth_error (p_part pv) a) as [[x|]|] eqn:E.
      - split; [exact P|]. split; [reflexivity|]. intros i [->|H]; congruence.
      - destruct (classify_inv _ buf a group pv P E) as [P' K]. split; [exact P'|]. split; [rewrite K; destruct group; reflexivity|].
        intros i H. cbn [Classify p_part]. rewrite upd_nth_get by (apply nth_error_Some; congruence).
        destruct (Nat.eqb_spec i a); [discriminate|]. destruct H; congruence.
      - split; [exact P|]. split; [reflexivity|]. intros i [->|H]; congruence. }
    destruct Q as (Q1 & Q2 & Q3). destruct (IH _ Q1) as (R1 & R2 & R3). split; [exact R1|]. split; [congruence|].
    intros i [[->|I]|H]; apply R3; auto.
Qed.
Lemma all_taken (l : list (option bool)) : (forall i, i < length l -> nth_error l i <> Some None) -> cnt false l + cnt true l = length l.
Proof.
  intros H. pose proof (cnt_total l) as T.
  destruct (Nat.eq_dec (cnt false l + cnt true l) (length l)); [assumption|].
  destruct (not_taken_ex l) as (i & I & N); [lia|]. exfalso. exact (H i I N).
Qed.
Lemma put_rest_ok (buf : list branch) minFill pv : 2 * minFill <= length buf -> bal (length buf) minFill pv ->
  (p_count pv false + p_count pv true = length buf \/ exists g, p_count pv g = length buf - minFill) ->
  let pv' := put_rest vol buf minFill pv in
  length (p_part pv') = length buf /\ cnt false (p_part pv') + cnt true (p_part pv') = length buf /\
  forall g, minFill <= cnt g (p_part pv').
Proof.
  intros W [P Q] H. unfold put_rest.
  destruct (Nat.ltb_spec (p_count pv false + p_count pv true) (length buf)) as [E|E].
  - destruct H as [H|H]; [lia|]. cbv zeta.
    set (group := length buf - minFill <=? p_count pv false).
    destruct (put_steps buf (length buf) group (seq 0 (length buf)) pv P) as ([L C] & R2 & R3).
    fold (put_step buf group). set (pv' := fold_left _ _ _) in *.
    assert (T : cnt false (p_part pv') + cnt true (p_part pv') = length (p_part pv')).
    { apply all_taken. intros i I. apply R3. left. apply in_seq. lia. }
    split; [exact L|]. split; [lia|].
    assert (S : p_count pv (negb group) = length buf - minFill).
    { subst group. destruct H as [g H]. pose proof (Q false). destruct (Nat.leb_spec (length buf - minFill) (p_count pv false)); cbn [negb]; [lia|].
      destruct g; [exact H|lia]. }
    rewrite !C in R2. rewrite S in R2. pose proof (Q group) as Qg.
    assert (G : p_count pv group + p_count pv (negb group) < length buf) by (destruct group; cbn [negb] in *; lia).
    intros g. destruct group, g; cbn [negb] in *; lia.
  - destruct P as [L C]. pose proof (cnt_total (p_part pv)) as T. pose proof (Q false) as Q0. pose proof (Q true) as Q1.
    pose proof (C false) as C0. pose proof (C true) as C1.
    split; [exact L|]. split; [lia|]. intros []; lia.
Qed.

(** The seeds: an exact or rounded subtraction is good when the first pair already beats the start. *)
Definition good_sub : Prop := forall a b c, dim a -> dim b -> dim c -> combine_rect (combine_rect a b) c = c ->
  Qltb (sub (- vol c) 1) (sub (sub (vol (combine_rect a b)) (vol a)) (vol b)) = true.
Lemma seed_steps (buf : list branch) n : forall l w s0 s1,
  s0 < s1 < n -> (forall a b, In (a, b) l -> a < b < n) ->
  let '(_, s0', s1') := fold_left (seed_step vol sub buf) l (w, s0, s1) in s0' < s1' < n.
Proof.
  induction l as [|[a b] l IH]; intros w s0 s1 S H; cbn [fold_left]; [exact S|].
  unfold seed_step at 2. destruct (Qltb _ _).
  - apply IH; [apply H; left; reflexivity|]. intros. apply H. right. assumption.
  - apply IH; [exact S|]. intros. apply H. right. assumption.
Qed.
Lemma pairs_lt n a b : In (a, b) (pairs n) -> a < b < n.
Proof.
  unfold pairs. intros H. apply in_flat_map in H. destruct H as (x & Hx & H). apply in_map_iff in H.
  destruct H as (y & E & Hy). injection E as -> ->. apply in_seq in Hx, Hy. lia.
Qed.
Lemma pairs_first n : 2 <= n -> exists l, pairs n = (0, 1) :: l.
Proof.
  intros H. destruct n as [|[|n]]; try lia. unfold pairs. cbn [Nat.sub seq flat_map].
  replace (S n - 0) with (S n) by lia. cbn [seq map app]. eexists. reflexivity.
Qed.
Lemma cover_absorb (l : list branch) r i j a b : cover_list l = Some r -> nth_error l i = Some a -> nth_error l j = Some b ->
  combine_rect (combine_rect (fst a) (fst b)) r = r.
Proof.
  assert (G : forall (l : list branch) r i a, cover_list l = Some r -> nth_error l i = Some a -> combine_rect (fst a) r = r).
  { clear. induction l as [|x l IH]; intros r i a C N; [discriminate|]. rewrite cover_cons in C.
    destruct (cover_list l) as [s|] eqn:E; cbn in C; injection C as <-; destruct i as [|i]; cbn in N.
    - injection N as ->. rewrite combine_assoc, combine_idem. reflexivity.
    - rewrite combine_assoc, (combine_comm (fst a)), <- combine_assoc. f_equal. eapply IH; eauto.
    - injection N as ->. apply combine_idem.
    - destruct l; [destruct i; discriminate|discriminate]. }
  intros C A B. rewrite <- combine_assoc, (G l r j b C B). exact (G l r i a C A).
Qed.
Lemma PickSeeds_ok (buf : list branch) r : good_sub -> Forall (fun b => dim (fst b)) buf -> 2 <= length buf -> cover_list buf = Some r ->
  let pv := PickSeeds vol sub buf (vol r) (InitParVars (length buf)) in
  pinv (length buf) pv /\ p_count pv false = 1 /\ p_count pv true = 1.
Proof.
  intros G FK L C. unfold PickSeeds. destruct (pairs_first (length buf) L) as (l & E).
  assert (A : exists s0 s1 w, fold_left (seed_step vol sub buf) (pairs (length buf)) (sub (- vol r) 1, 0, 0) = (w, s0, s1) /\ s0 < s1 < length buf).
  { rewrite E. cbn [fold_left]. unfold seed_step at 2.
    destruct (nth_error buf 0) as [a|] eqn:E0; [|apply nth_error_None in E0; lia].
    destruct (nth_error buf 1) as [b|] eqn:E1; [|apply nth_error_None in E1; lia].
    unfold rect_at at 1 2 3 4. rewrite E0, E1. rewrite (G (fst a) (fst b) r (proj1 (Forall_forall _ _) FK a (nth_error_In _ _ E0)) (proj1 (Forall_forall _ _) FK b (nth_error_In _ _ E1))
      (cover_length dim buf FK r C) (cover_absorb buf r 0 1 a b C E0 E1)).
    pose proof (seed_steps buf (length buf) l
      (sub (sub (vol (combine_rect (fst a) (fst b))) (vol (fst a))) (vol (fst b))) 0 1 ltac:(lia)) as S.
    unfold rect_at. rewrite E0, E1.
    destruct (fold_left _ l _) as [[w s0] s1]. exists s0, s1, w. split; [reflexivity|]. apply S.
    intros x y I. apply pairs_lt. rewrite E. right. exact I. }
  destruct A as (s0 & s1 & w & -> & S).
  assert (P0 : pinv (length buf) (InitParVars (length buf))).
  { split; [apply repeat_length|]. intros g. cbn [InitParVars p_part p_count]. generalize (length buf). intros n. unfold cnt. induction n; [reflexivity|exact IHn]. }
  assert (N : forall i, i < length buf -> nth_error (p_part (InitParVars (length buf))) i = Some None).
  { intros i I. cbn. apply nth_error_repeat. exact I. }
  destruct (classify_inv _ buf s0 false _ P0 (N s0 ltac:(lia))) as [P1 K1].
  assert (N1 : nth_error (p_part (Classify vol buf s0 false (InitParVars (length buf)))) s1 = Some None).
  { cbn [Classify p_part]. rewrite upd_nth_get by (destruct P0 as [L0 _]; cbn [InitParVars p_part] in *; lia).
    destruct (Nat.eqb_spec s1 s0); [lia|]. apply N. lia. }
  destruct (classify_inv _ buf s1 true _ P1 N1) as [P2 K2].
  split; [exact P2|]. rewrite !K2, !K1. split; reflexivity.
Qed.
Lemma ChoosePartition_ok (buf : list branch) r minFill : good_sub -> Forall (fun b => dim (fst b)) buf -> 1 <= minFill -> 2 * minFill <= length buf -> cover_list buf = Some r ->
  let part := p_part (ChoosePartition vol sub buf (vol r) minFill) in
  length part = length buf /\ cnt false part + cnt true part = length buf /\ forall g, minFill <= cnt g part.
Proof.
  intros G FK F L C. unfold ChoosePartition.
  destruct (PickSeeds_ok buf r G FK ltac:(lia) C) as (P & C0 & C1).
  assert (B : bal (length buf) minFill (PickSeeds vol sub buf (vol r) (InitParVars (length buf)))).
  { split; [exact P|]. intros []; [rewrite C1|rewrite C0]; lia. }
  destruct (choose_loop_ok buf minFill (length buf) _ 0 false B ltac:(lia)) as [B' H].
  apply put_rest_ok; [lia|exact B'|exact H].
Qed.

(** ** Splitting *)
Lemma LoadNodes_ok part : forall (buf A B : list branch),
  length part = length buf -> cnt false part + cnt true part = length part ->
  length A + cnt false part <= M -> length B + cnt true part <= M ->
  exists A' B', LoadNodes M part buf A B = Some (A', B') /\
    length A' = length A + cnt false part /\ length B' = length B + cnt true part /\
    Permutation (A' ++ B') (A ++ B ++ buf).
Proof.
  induction part as [|[[]|] part IH]; intros [|b buf] A B L T HA HB; cbn [length] in L; try lia.
  - exists A, B. rewrite app_nil_r. repeat split; unfold cnt; cbn; auto.
  - cbn [LoadNodes]. rewrite !cnt_cons in *. cbn [is_group eqb Nat.add length] in *.
    destruct (Nat.ltb_spec (length B) M); [|lia].
    destruct (IH buf A (B ++ [b])) as (A' & B' & E & LA & LB & P); try (rewrite ?app_length; cbn [length]; lia).
    exists A', B'. split; [exact E|]. split; [exact LA|]. rewrite app_length in LB. cbn in LB. split; [lia|].
    rewrite P. rewrite <- app_assoc. reflexivity.
  - cbn [LoadNodes]. rewrite !cnt_cons in *. cbn [is_group eqb Nat.add length] in *.
    destruct (Nat.ltb_spec (length A) M); [|lia].
    destruct (IH buf (A ++ [b]) B) as (A' & B' & E & LA & LB & P); try (rewrite ?app_length; cbn [length]; lia).
    exists A', B'. split; [exact E|]. rewrite app_length in LA. cbn in LA. split; [lia|]. split; [exact LB|].
    rewrite P. rewrite <- app_assoc. apply Permutation_app_head. cbn [app]. apply Permutation_middle.
  - pose proof (cnt_total part). rewrite !cnt_cons in T. cbn [is_group eqb Nat.add length] in T. lia.
Qed.

(** ** Shape *)
Notation shaped := (@shaped D dim M m).
(** What a node of height [h] may hold. *)
Definition fits (h : nat) (b : branch) : Prop :=
  dim (fst b) /\
  match h with
  | O => exists d, snd b = Data d
  | S h => shaped h (snd b) /\ m <= size (snd b) /\ NodeCover (snd b) = Some (fst b)
  end.
Lemma shaped_iff h level br : shaped h (Node level br) <-> level = h /\ length br <= M /\ (0 < h -> br <> []) /\ Forall (fits h) br.
Proof.
  destruct h; cbn [RTreeProofs.shaped]; split.
  - intros (A & B & C). repeat split; try assumption. lia.
  - intros (A & B & _ & C). repeat split; assumption.
  - intros (A & B & C & F). repeat split; try assumption. intros _. exact C.
  - intros (A & B & C & F). repeat split; try assumption. apply C. lia.
Qed.
Lemma shaped_node h n : shaped h n -> exists br, n = Node h br.
Proof. destruct n; [destruct h; intros []|]. intros S. apply shaped_iff in S. destruct S as (-> & _). eexists. reflexivity. Qed.
Lemma entries_node level (br : list branch) : entries (Node level br) = flat_map branch_entries br.
Proof. reflexivity. Qed.
Lemma branch_entries_node r (n : item) h : shaped h n -> branch_entries (r, n) = entries n.
Proof. intros S. destruct (shaped_node h n S) as (br & ->). reflexivity. Qed.
Lemma flat_map_perm {A B} (f : A -> list B) l1 l2 : Permutation l1 l2 -> Permutation (flat_map f l1) (flat_map f l2).
Proof.
  induction 1; cbn; auto.
  - apply Permutation_app_head. assumption.
  - rewrite !app_assoc. apply Permutation_app_tail, Permutation_app_comm.
  - etransitivity; eassumption.
Qed.

Lemma shaped_size_cover h n : shaped h n -> 1 <= size n -> exists r, NodeCover n = Some r.
Proof. intros S K. destruct (shaped_node h n S) as (br & ->). apply cover_nonempty. cbn in K. intros ->. cbn in K. lia. Qed.

Lemma shaped_cover_length h n r : shaped h n -> NodeCover n = Some r -> dim r.
Proof.
  intros S C. destruct (shaped_node h n S) as (br & ->). apply shaped_iff in S. destruct S as (_ & _ & _ & A). eapply cover_length; [|exact C].
  eapply Forall_impl; [|exact A]. intros x Hx. apply Hx.
Qed.

(** ** Search *)
(** The specification: hand over the identifiers one by one until the callback says stop. *)
Fixpoint visit (cb : list D -> D -> bool) (l : list D) (found : list D) : list D * bool :=
  match l with
  | [] => (found, true)
  | d :: l => if cb found d then visit cb l (found ++ [d]) else (found ++ [d], false)
  end.
Lemma visit_app cb l1 : forall l2 found, visit cb (l1 ++ l2) found =
  let '(f, go) := visit cb l1 found in if go then visit cb l2 f else (f, false).
Proof. induction l1 as [|d l1 IH]; intros l2 found; cbn [app visit]; [reflexivity|]. destruct (cb found d); [apply IH|reflexivity]. Qed.
Definition hits (q : Rect) (l : list (Rect * D)) : list D := map snd (filter (fun e => overlap q (fst e)) l).
Lemma hits_app q l1 l2 : hits q (l1 ++ l2) = hits q l1 ++ hits q l2.
Proof. unfold hits. rewrite filter_app, map_app. reflexivity. Qed.
Lemma entry_cover q h : forall n r e, shaped h n -> NodeCover n = Some r -> In e (entries n) -> overlap q (fst e) = true -> overlap q r = true.
Proof.
  induction h as [|h IH]; intros n r e S C I O; destruct (shaped_node _ n S) as (br & ->); apply shaped_iff in S; destruct S as (_ & _ & _ & A);
    rewrite entries_node in I; apply in_flat_map in I; destruct I as (b & B & I); rewrite Forall_forall in A; specialize (A b B); cbn [NodeCover] in C.
  - destruct A as (_ & d & Ed). unfold branch_entries in I. rewrite Ed in I. destruct I as [<-|[]]. cbn [fst] in O. eapply cover_overlap; eauto.
  - destruct A as (_ & S & _ & Cb). destruct b as [rb nb]. cbn [fst snd] in *. rewrite (branch_entries_node rb nb h S) in I.
    eapply cover_overlap; [exact C|exact B|]. cbn [fst]. exact (IH nb rb e S Cb I O).
Qed.
Lemma hits_none q h n r : shaped h n -> NodeCover n = Some r -> overlap q r = false -> hits q (entries n) = [].
Proof.
  intros S C O. unfold hits. destruct (filter _ _) as [|e l] eqn:E; [reflexivity|].
  assert (I : In e (filter (fun e => overlap q (fst e)) (entries n))) by (rewrite E; left; reflexivity).
  apply filter_In in I. destruct I as [I1 I2]. rewrite (entry_cover q h n r e S C I1 I2) in O. discriminate.
Qed.
Lemma search_rec_ok cb q h : forall n found, shaped h n -> search_rec cb q n found = Some (visit cb (hits q (entries n)) found).
Proof.
  induction h as [|h IH]; intros n found S; destruct (shaped_node _ n S) as (br & ->); apply shaped_iff in S; destruct S as (_ & _ & _ & A);
    cbn [search_rec]; first [clear -IH A | clear -A]; revert found; induction A as [|[r it] br B A IHA]; intros found; try reflexivity;
    rewrite entries_node in *; cbn [flat_map]; rewrite hits_app, visit_app.
  - destruct B as (_ & d & Ed). cbn [snd] in Ed. subst it. unfold branch_entries, hits at 1. cbn [snd fst filter]. destruct (overlap q r); cbn [Nat.ltb Nat.leb map visit snd].
    + destruct (cb found d); [apply IHA|reflexivity].
    + apply IHA.
  - destruct B as (_ & S & _ & C). cbn [fst snd] in S, C. rewrite (branch_entries_node r it h S).
    destruct (overlap q r) eqn:O.
    + cbn [Nat.ltb Nat.leb]. rewrite (IH it found S). destruct (visit cb (hits q (entries it)) found) as [f []]; [apply IHA|reflexivity].
    + rewrite (hits_none q h it r S C O). cbn [visit]. apply IHA.
Qed.
Lemma visit_all l : forall found, visit (fun _ _ => true) l found = (found ++ l, true).
Proof. induction l as [|d l IH]; intros found; cbn [visit]; [rewrite app_nil_r; reflexivity|]. rewrite IH, <- app_assoc. reflexivity. Qed.

(** ** Count *)
Lemma CountRec_ok h : forall n c, shaped h n -> CountRec n c = Some (c + length (entries n)).
Proof.
  induction h as [|h IH]; intros n c S; destruct (shaped_node _ n S) as (br & ->); apply shaped_iff in S; destruct S as (_ & _ & _ & A); cbn [CountRec Nat.ltb Nat.leb].
  - f_equal. f_equal. rewrite entries_node. clear -A. induction A as [|[r it] br (_ & d & E) A IHA]; [reflexivity|]. cbn [snd] in E. subst it. cbn. rewrite IHA. reflexivity.
  - clear -IH A. revert c. induction A as [|[r it] br B A IHA]; intros c.
    + cbn. f_equal. lia.
    + destruct B as (_ & S & _ & C). cbn [fst snd] in S. rewrite (IH it c S), IHA, !entries_node. cbn [flat_map].
      rewrite (branch_entries_node r it h S), app_length. f_equal. lia.
Qed.

(** ** Copying *)
Lemma CopyRec_ok h : forall n, shaped h n -> CopyRec n = Some n.
Proof.
  induction h as [|h IH]; intros n S; destruct (shaped_node _ n S) as (br & ->); apply shaped_iff in S; destruct S as (_ & _ & _ & A); cbn [CopyRec Nat.ltb Nat.leb];
    match goal with |- match ?x with _ => _ end = _ => assert (E : x = Some br); [|rewrite E; reflexivity] end; first [clear -IH A | clear -A].
  - induction A as [|[r it] br (_ & d & E) A IHA]; [reflexivity|]. cbn [snd] in E. subst it. rewrite IHA. reflexivity.
  - induction A as [|[r it] br B A IHA]; [reflexivity|]. destruct B as (_ & S & _ & C). cbn [fst snd] in S. rewrite (IH it S), IHA. reflexivity.
Qed.

(** ** Saving and loading *)
Lemma read_elems_map k l (rest : list (token D)) : length l = k -> read_elems k (map TElem l ++ rest) = Some (l, rest).
Proof. revert k. induction l as [|z l IH]; intros k <-; cbn; [destruct rest; reflexivity|]. rewrite IH by reflexivity. reflexivity. Qed.
Lemma read_rect_ok k r (rest : list (token D)) : length r = k -> read_rect k (save_rect r ++ rest) = Some (r, rest).
Proof.
  intros L. unfold read_rect, save_rect. rewrite <- app_assoc, <- (map_map fst TElem), <- (map_map snd TElem).
  rewrite read_elems_map by (rewrite map_length; exact L). rewrite read_elems_map by (rewrite map_length; exact L).
  f_equal. f_equal. clear. induction r as [|[x y] r IH]; cbn; congruence.
Qed.
Lemma SaveLoad_ok (k : nat) (Hk : forall r, dim r -> length r = k) h : forall n, shaped h n ->
  exists t, SaveRec n = Some t /\ h < length t /\ forall fuel rest, h < fuel -> LoadRec M fuel k (t ++ rest) = Some (n, rest).
Proof.
  induction h as [|h IH]; intros n S; destruct (shaped_node _ n S) as (br & ->); apply shaped_iff in S; destruct S as (_ & LM & NE & A);
    cbn [SaveRec Nat.ltb Nat.leb].
  - match goal with |- context [match ?f br with _ => _ end] => set (loop := f) end.
    assert (G : exists t, loop br = Some t /\ forall rest,
      read_many (length br) (fun s => match read_rect k s with Some (r, TData d :: s) => Some ((r, Data d), s) | _ => None end) (t ++ rest) = Some (br, rest)).
    { clear -A Hk. induction A as [|[r it] br (R1 & d & Ed) A IHA]; [exists []; split; reflexivity|].
      destruct IHA as (t & T & LT). cbn [fst snd] in Ed, R1. subst it.
      exists (save_rect r ++ [TData d] ++ t). split; [cbn; fold loop; rewrite T; reflexivity|].
      intros rest. cbn [length read_many]. rewrite <- !app_assoc, read_rect_ok by exact (Hk _ R1). cbn [app]. rewrite LT. reflexivity. }
    destruct G as (t & -> & LT). eexists. split; [reflexivity|]. split; [cbn [length]; lia|].
    intros [|fuel] rest F; [lia|]. cbn [app LoadRec Z.of_nat Z.ltb]. change (0 <? 0)%Z with false.
    destruct (Z.ltb_spec (Z.of_nat M) (Z.of_nat (length br))); [lia|]. rewrite Nat2Z.id.
    rewrite LT. reflexivity.
  - match goal with |- context [match ?f br with _ => _ end] => set (loop := f) end.
    assert (G : exists t, loop br = Some t /\ (br <> [] -> h < length t) /\ forall fuel rest, h < fuel ->
      read_many (length br) (fun s => match read_rect k s with Some (r, s) => match LoadRec M fuel k s with Some (c, s) => Some ((r, c), s) | None => None end | None => None end) (t ++ rest) = Some (br, rest)).
    { clear -A IH Hk. induction A as [|[r it] br B A IHA]; [exists []; repeat split; congruence|].
      destruct IHA as (t & T & _ & LT). destruct B as (R1 & S & _ & C). cbn [fst snd] in *.
      destruct (IH it S) as (ti & Ti & Li & LTi).
      exists (save_rect r ++ ti ++ t). split; [cbn; fold loop; rewrite T, Ti; reflexivity|]. split; [intros _; rewrite !app_length; lia|].
      intros fuel rest F. cbn [length read_many]. rewrite <- !app_assoc, read_rect_ok by exact (Hk _ R1). rewrite LTi, LT by exact F. reflexivity. }
    destruct G as (t & -> & Lt & LT). eexists. split; [reflexivity|]. specialize (NE ltac:(lia)). split; [cbn [length]; specialize (Lt NE); lia|].
    intros [|fuel] rest F; [lia|]. cbn [app LoadRec].
    destruct (Z.ltb_spec (Z.of_nat M) (Z.of_nat (length br))); [lia|]. rewrite !Nat2Z.id.
    destruct (Z.ltb_spec 0 (Z.of_nat (Datatypes.S h))); [|lia]. rewrite LT by lia. reflexivity.
Qed.
(** ** Insertion *)
Hypothesis Good : good_sub.
Hypothesis Hm : 1 <= m.
Hypothesis HM : 2 * m <= S M.

Lemma SplitNode_ok (l : list branch) b : Forall (fun b => dim (fst b)) (l ++ [b]) -> length l = M ->
  exists A B, SplitNode M m vol sub l b = Some (A, B) /\ m <= length A <= M /\ m <= length B <= M /\
    Permutation (A ++ B) (b :: l).
Proof.
  intros FK L. unfold SplitNode.
  assert (LB : length (l ++ [b]) = S M) by (rewrite app_length; cbn; lia).
  destruct (cover_nonempty (l ++ [b])) as [r C]; [destruct l; discriminate|]. rewrite C.
  destruct (ChoosePartition_ok (l ++ [b]) r m Good FK Hm ltac:(lia) C) as (P1 & P2 & P3).
  pose proof (P3 false). pose proof (P3 true).
  destruct (LoadNodes_ok (p_part (ChoosePartition vol sub (l ++ [b]) (vol r) m)) (l ++ [b]) [] []) as (A & B & E & LA & LB' & P);
    try (cbn [length]; lia).
  exists A, B. split; [exact E|]. cbn [length] in LA, LB'. split; [lia|]. split; [lia|].
  rewrite P. cbn [app]. symmetry. apply Permutation_cons_append.
Qed.

(** The outcome of adding branches [b] to a node of height [h] with branches [br]. *)
Definition added (h : nat) (new : list (Rect * D)) (c : option Rect) (n : item) (res : item * option item) : Prop :=
  match res with
  | (n', None) => shaped h n' /\ size n <= size n' /\ 1 <= size n' /\ NodeCover n' = cat2 c (NodeCover n) /\
      Permutation (entries n') (new ++ entries n)
  | (n', Some n2) => shaped h n' /\ shaped h n2 /\ m <= size n' /\ m <= size n2 /\
      cat2 (NodeCover n') (NodeCover n2) = cat2 c (NodeCover n) /\
      Permutation (entries n' ++ entries n2) (new ++ entries n)
  end.
Lemma AddBranch_ok h br b : shaped h (Node h br) -> fits h b ->
  exists res, AddBranch M m vol sub b h br = Some res /\ added h (branch_entries b) (Some (fst b)) (Node h br) res.
Proof.
  intros S F. apply shaped_iff in S. destruct S as (_ & L & N & A). unfold AddBranch.
  match goal with |- context [?x <? M] => destruct (Nat.ltb_spec x M) as [K|K] end.
  - eexists. split; [reflexivity|]. cbn [added size NodeCover]. rewrite app_length. cbn [length].
    split; [|split; [lia|split; [lia|split]]].
    + apply shaped_iff. rewrite app_length. cbn [length]. repeat split; [lia|destruct br; discriminate|].
      apply Forall_app. split; [exact A|]. constructor; [exact F|constructor].
    + rewrite cover_app, cat2_comm. reflexivity.
    + rewrite !entries_node, flat_map_app. cbn [flat_map]. rewrite app_nil_r. apply Permutation_app_comm.
  - assert (FK : Forall (fun b => dim (fst b)) (br ++ [b])).
    { apply Forall_app. split; [eapply Forall_impl; [|exact A]; intros x Hx; apply Hx|constructor; [apply F|constructor]]. }
    destruct (SplitNode_ok br b FK ltac:(lia)) as (X & Y & E & LX & LY & P). rewrite E. eexists. split; [reflexivity|].
    assert (FF : Forall (fits h) (X ++ Y)).
    { apply (Permutation_Forall (Permutation_sym P)). constructor; assumption. }
    apply Forall_app in FF. destruct FF as [FX FY].
    cbn [added size]. repeat split; try lia.
    + apply shaped_iff. repeat split; [lia| |exact FX]. intros _ ->. cbn in LX. lia.
    + apply shaped_iff. repeat split; [lia| |exact FY]. intros _ ->. cbn in LY. lia.
    + cbn [NodeCover]. rewrite <- cover_app, (cover_perm _ _ P). apply cover_cons.
    + rewrite !entries_node, <- flat_map_app. rewrite (flat_map_perm _ _ _ P). reflexivity.
Qed.

Lemma InsertRectRec_ok k b : fits k b -> forall fuel h n, shaped h n -> k <= h -> h < fuel ->
  exists res, InsertRectRec M m vol sub fuel b n k = Some res /\ added h (branch_entries b) (Some (fst b)) n res.
Proof.
  intros F. induction fuel as [|fuel IH]; intros h n S K L; [lia|].
  destruct (shaped_node h n S) as (br & ->). cbn [InsertRectRec].
  destruct (Nat.ltb_spec k h) as [Kh|Kh].
  - destruct h as [|h]; [lia|]. pose proof S as S0. apply shaped_iff in S. destruct S as (_ & LM & N & A). specialize (N ltac:(lia)).
    pose proof (PickBranch_lt (fst b) br N) as PL. set (i := PickBranch vol sub (fst b) br) in *.
    destruct (nth_error br i) as [[r c]|] eqn:E; [|apply nth_error_None in E; lia].
    destruct (nth_error_split br i E) as (l1 & l2 & -> & Li). rewrite <- Li. clear i PL E Li.
    apply Forall_app in A. destruct A as [A1 A2]. inversion A2 as [|? ? Ac A2']; subst. destruct Ac as (Kc & Sc & Mc & Cc). cbn [fst snd] in Kc, Sc, Mc, Cc.
    destruct (IH h c Sc ltac:(lia) ltac:(lia)) as ([c' [o|]] & -> & R).
    + destruct R as (S1 & S2 & M1 & M2 & RC & P).
      destruct (shaped_size_cover h c' S1 ltac:(lia)) as (r1 & C1). destruct (shaped_size_cover h o S2 ltac:(lia)) as (r2 & C2).
      pose proof (shaped_cover_length h c' r1 S1 C1) as K1. pose proof (shaped_cover_length h o r2 S2 C2) as K2.
      rewrite C1, C2, upd_nth_app.
      assert (S' : shaped (S h) (Node (S h) (l1 ++ (r1, c') :: l2))).
      { apply shaped_iff. rewrite app_length in *. cbn [length] in *. repeat split; [lia|destruct l1; discriminate|].
        apply Forall_app. split; [exact A1|]. constructor; [|exact A2']. split; [exact K1|]. split; [exact S1|]. split; [exact M1|exact C1]. }
      destruct (AddBranch_ok (S h) (l1 ++ (r1, c') :: l2) (r2, o) S') as (res & E & G).
      { split; [exact K2|]. split; [exact S2|]. split; [exact M2|exact C2]. }
      exists res. split; [exact E|].
      assert (PP : Permutation (branch_entries (r2, o) ++ entries (Node (S h) (l1 ++ (r1, c') :: l2)))
                   (branch_entries b ++ entries (Node (S h) (l1 ++ (r, c) :: l2)))).
      { rewrite (branch_entries_node r2 o h S2), !entries_node, !flat_map_app. cbn [flat_map].
        rewrite (branch_entries_node r1 c' h S1), (branch_entries_node r c h Sc).
        transitivity (flat_map branch_entries l1 ++ (entries c' ++ entries o) ++ flat_map branch_entries l2).
        - rewrite Permutation_app_comm, <- !app_assoc. apply Permutation_app_head, Permutation_app_head, Permutation_app_comm.
        - rewrite P, <- !app_assoc, !(app_assoc (flat_map branch_entries l1) (branch_entries b)),
            (Permutation_app_comm (flat_map branch_entries l1) (branch_entries b)), <- !app_assoc. reflexivity. }
      assert (CC : cat2 (Some r2) (cover_list (l1 ++ (r1, c') :: l2)) = cat2 (Some (fst b)) (cover_list (l1 ++ (r, c) :: l2))).
      { rewrite !cover_app, !cover_cons. cbn [fst]. rewrite C1, C2, Cc in RC.
        rewrite (cat2_shuffle (Some r2)), (cat2_shuffle (Some (fst b))), RC, (cat2_comm (Some r)). reflexivity. }
      destruct res as [n' [n2|]]; cbn [added] in G |- *.
      * destruct G as (G1 & G2 & G3 & G4 & G5 & G6). repeat split; try assumption.
        { rewrite G5. exact CC. } { rewrite G6. exact PP. }
      * destruct G as (G1 & G2 & G3 & G4 & G5). repeat split; try assumption.
        { cbn [size] in *. rewrite app_length in *. exact G2. } { rewrite G4. exact CC. } { rewrite G5. exact PP. }
    + destruct R as (S1 & Z1 & _ & C1 & P). rewrite Cc in C1. cbn [cat2] in C1. rewrite upd_nth_app. eexists. split; [reflexivity|].
      cbn [added size NodeCover]. rewrite !app_length. cbn [length]. split; [|split; [lia|split; [lia|split]]].
      * apply shaped_iff. rewrite app_length in *. cbn [length] in *. repeat split; [lia|destruct l1; discriminate|].
        apply Forall_app. split; [exact A1|]. constructor; [|exact A2']. split; [apply kept; [destruct k; apply F|exact Kc]|]. split; [exact S1|]. split; [cbn [snd]; lia|exact C1].
      * rewrite !cover_app, !cover_cons. cbn [fst]. change (Some (combine_rect (fst b) r)) with (cat2 (Some (fst b)) (Some r)).
        rewrite <- (cat2_assoc (Some (fst b))), (cat2_assoc (cover_list l1)), (cat2_comm (cover_list l1) (Some (fst b))), <- !cat2_assoc. reflexivity.
      * rewrite !entries_node, !flat_map_app. cbn [flat_map].
        rewrite (branch_entries_node _ c' h S1), (branch_entries_node r c h Sc), P, <- !app_assoc,
          !(app_assoc (flat_map branch_entries l1) (branch_entries b)),
          (Permutation_app_comm (flat_map branch_entries l1) (branch_entries b)), <- !app_assoc. reflexivity.
  - assert (h = k) by lia. subst h. rewrite Nat.eqb_refl. apply AddBranch_ok; assumption.
Qed.

Hypothesis HmM : m < M.
Lemma InsertRect_ok k b h root : fits k b -> shaped h root -> k <= h ->
  exists root' h', InsertRect M m vol sub b root k = Some root' /\ shaped h' root' /\ h <= h' /\ 1 <= size root' /\
    (h' = h /\ size root <= size root' \/ 2 <= size root') /\
    Permutation (entries root') (branch_entries b ++ entries root).
Proof.
  intros F S K. unfold InsertRect. destruct (shaped_node h root S) as (br & ->). cbn [level_of].
  destruct (InsertRectRec_ok k b F (Datatypes.S h) h (Node h br) S K ltac:(lia)) as ([n [o|]] & -> & R); cbn [added] in R.
  - destruct R as (S1 & S2 & M1 & M2 & _ & P).
    destruct (shaped_size_cover h n S1 ltac:(lia)) as (r1 & C1). destruct (shaped_size_cover h o S2 ltac:(lia)) as (r2 & C2).
    rewrite C1, C2. destruct (Nat.ltb_spec 1 M); [|lia].
    destruct (shaped_node h n S1) as (brn & En). rewrite En. cbn [level_of]. rewrite <- En. do 2 eexists. split; [reflexivity|].
    cbn [size length]. split; [|split; [|split; [lia|split; [right; lia|]]]].
    + apply shaped_iff. cbn [length]. split; [reflexivity|]. split; [lia|]. split; [discriminate|].
      constructor; [split; [exact (shaped_cover_length h n r1 S1 C1)|split; [exact S1|split; [exact M1|exact C1]]]|]. constructor; [|constructor].
      split; [exact (shaped_cover_length h o r2 S2 C2)|split; [exact S2|split; [exact M2|exact C2]]].
    + lia.
    + rewrite entries_node. cbn [flat_map]. rewrite (branch_entries_node r1 n h S1), (branch_entries_node r2 o h S2), app_nil_r. exact P.
  - destruct R as (S1 & Z1 & Z2 & _ & P). exists n, h. split; [reflexivity|]. split; [exact S1|]. split; [lia|]. split; [exact Z2|]. split; [left; auto|exact P].
Qed.

End Proofs.
