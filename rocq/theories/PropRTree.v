(** C52-C57, C67, C68: the R-tree. *)
From Coq Require Import QArith ZArith List Bool Arith Lia Permutation Lqa.
From Verif Require Import AabModel AabProofs RTreeModel RTreeProofs RTreeIterProofs RTreeOneProofs.
Import ListNotations.
Open Scope nat_scope.

(** ** Specification, independent of the model's helpers *)
(** Closed boxes meet when their intervals do in every dimension. *)
Definition meets (q r : Rect) : Prop :=
  forall i x y, nth_error q i = Some x -> nth_error r i = Some y -> (fst x <= snd y /\ fst y <= snd x)%Z.
(** [r] is the smallest box around the boxes [l]. *)
Definition tight (dim : nat) (r : Rect) (l : list Rect) : Prop :=
  length r = dim /\ forall i x, nth_error r i = Some x ->
    (forall b, In b l -> exists y, nth_error b i = Some y /\ (fst x <= fst y /\ snd y <= snd x)%Z) /\
    (exists b y, In b l /\ nth_error b i = Some y /\ fst y = fst x) /\
    (exists b y, In b l /\ nth_error b i = Some y /\ snd y = snd x).
Fixpoint well_shaped {D} (dim M m h : nat) (n : item D) : Prop :=
  match n, h with
  | Data _, _ => False
  | Node level br, O => level = O /\ length br <= M /\ Forall (fun b => exists d, snd b = Data d) br
  | Node level br, S h => level = S h /\ length br <= M /\
      Forall (fun b => well_shaped dim M m h (snd b) /\
        match snd b with Node _ l => m <= length l /\ tight dim (fst b) (map fst l) | Data _ => False end) br
  end.
(** Volumes: never negative, and growing with the box. *)
Definition within_box (a c : Rect) : Prop :=
  Forall2 (fun x y => (fst y <= fst x /\ snd x <= snd y)%Z) a c.
Definition volume_ok (vol : Rect -> Q) : Prop :=
  (forall r, 0 <= vol r)%Q /\ forall a c, within_box a c -> (vol a <= vol c)%Q.
(** The capacities the constructor accepts, with the minimum at most half of what a split handles
    (true of the default, TMINNODES = TMAXNODES / 2). *)
Definition capacities (M m : nat) : Prop := 1 <= m /\ m < M /\ 2 * m <= M + 1.

Lemma overlap_meets q : forall r, overlap q r = true <-> meets q r.
Proof.
  induction q as [|[a b] q IH]; intros [|[c d] r]; cbn [overlap]; split; intros H; try reflexivity;
    try (intros [|i] x y A B; cbn in A, B; discriminate).
  - destruct ((d <? a)%Z || (b <? c)%Z) eqn:E; [discriminate|]. apply orb_false_elim in E. destruct E as [E F]. apply Z.ltb_ge in E, F.
    intros [|i] x y A B; cbn in A, B; [injection A as <-; injection B as <-; cbn; lia|]. exact (proj1 (IH r) H i x y A B).
  - pose proof (H 0 _ _ eq_refl eq_refl) as [E F]. cbn in E, F.
    replace ((d <? a)%Z) with false by (symmetry; apply Z.ltb_ge; lia). replace ((b <? c)%Z) with false by (symmetry; apply Z.ltb_ge; lia).
    cbn. apply IH. intros i x y A B. exact (H (S i) x y A B).
Qed.
Lemma absorbed_within (dim : nat) a : forall c, length a = dim -> length c = dim -> combine_rect a c = c -> within_box a c.
Proof.
  revert dim. induction a as [|[x y] a IH]; intros dim [|[u v] c] A C E; cbn in *; subst dim; try discriminate; [constructor|].
  injection E as E1 E2 E3. constructor; [cbn; lia|]. apply (IH (length a)); [reflexivity|lia|exact E3].
Qed.
Lemma exact_good (dim : nat) vol : volume_ok vol -> good_sub dim vol Qminus.
Proof.
  intros [P Mo] a b c La Lb Lc E. destruct (Qltb_spec (- vol c - 1) (vol (combine_rect a b) - vol a - vol b)) as [H|H]; [reflexivity|exfalso].
  assert (A : (vol a <= vol (combine_rect a b))%Q).
  { apply Mo. apply (absorbed_within dim); [exact La|apply combine_length; assumption|]. rewrite combine_assoc, combine_idem. reflexivity. }
  assert (B : (vol b <= vol c)%Q).
  { apply Mo. apply (absorbed_within dim); [exact Lb|exact Lc|]. rewrite <- E at 1. rewrite combine_assoc, (combine_comm b), <- (combine_assoc a), combine_idem. exact E. }
  lra.
Qed.
Lemma combine_nth a : forall b i x, nth_error (combine_rect a b) i = Some x ->
  exists y z, nth_error a i = Some y /\ nth_error b i = Some z /\ x = (Z.min (fst y) (fst z), Z.max (snd y) (snd z)).
Proof.
  induction a as [|[p q] a IH]; intros [|[u v] b] i x E; cbn in E; try (destruct i; discriminate).
  destruct i as [|i]; cbn in E.
  - injection E as <-. exists (p, q), (u, v). auto.
  - exact (IH b i x E).
Qed.
Lemma cover_tight {D} (dim : nat) (l : list (branch D)) : Forall (fun b => length (fst b) = dim) l -> forall r, cover_list l = Some r -> tight dim r (map fst l).
Proof.
  induction 1 as [|b l H A IH]; intros r C; [discriminate|]. rewrite cover_cons in C. cbn [map].
  destruct (cover_list l) as [s|] eqn:E; cbn in C; injection C as <-.
  - destruct (IH s eq_refl) as [Ls T]. split; [apply combine_length; assumption|]. intros i x X.
    apply combine_nth in X. destruct X as (y & z & Y & Zz & ->). cbn [fst snd]. destruct (T i z Zz) as (T1 & (b1 & y1 & I1 & Y1 & F1) & (b2 & y2 & I2 & Y2 & F2)).
    split; [|split].
    + intros b' [<-|I']; [exists y; split; [exact Y|lia]|]. destruct (T1 b' I') as (y' & Y' & L'). exists y'. split; [exact Y'|lia].
    + destruct (Z.le_ge_cases (fst y) (fst z)); [exists (fst b), y; split; [left; reflexivity|split; [exact Y|lia]]|exists b1, y1; split; [right; exact I1|split; [exact Y1|lia]]].
    + destruct (Z.le_ge_cases (snd z) (snd y)); [exists (fst b), y; split; [left; reflexivity|split; [exact Y|lia]]|exists b2, y2; split; [right; exact I2|split; [exact Y2|lia]]].
  - destruct l; [|discriminate]. split; [exact H|]. intros i x X. split; [intros b' [<-|[]]; exists x; split; [exact X|lia]|].
    split; exists (fst b), x; split; try (left; reflexivity); split; auto.
Qed.
Lemma shaped_well {D} (dim : nat) M m h : forall n : item D, shaped dim M m h n -> well_shaped dim M m h n.
Proof.
  induction h as [|h IH]; intros n S; destruct (shaped_node _ _ _ _ n S) as (br & ->); apply shaped_iff in S; destruct S as (_ & LM & _ & A); cbn [well_shaped]; split; auto; split; auto.
  - eapply Forall_impl; [|exact A]. intros b (_ & B). exact B.
  - eapply Forall_impl; [|exact A]. intros [r c] (Kb & Sb & Mb & Cb). cbn [fst snd] in *. split; [apply IH; exact Sb|].
    destruct (shaped_node _ _ _ _ c Sb) as (l & ->). split; [exact Mb|]. apply cover_tight; [|exact Cb].
    apply shaped_iff in Sb. destruct Sb as (_ & _ & _ & Al). eapply Forall_impl; [|exact Al]. intros x Hx. apply Hx.
Qed.

(** ** Histories *)
Inductive op (D : Type) := Ins (r : Rect) (d : D) | Del (q : Rect) (id : D).
Arguments Ins {D}. Arguments Del {D}.
Section Run.
Context {D : Type}.
Variables M m : nat.
Variable vol : Rect -> Q.
Variable sub : Q -> Q -> Q.
Variable deqb : D -> D -> bool.
Fixpoint run (ops : list (op D)) (root : item D) : option (item D) :=
  match ops with
  | [] => Some root
  | o :: ops => match (match o with Ins r d => Insert M m vol sub r d root | Del q id => Remove M m vol sub deqb q id root end) with
                | Some root => run ops root
                | None => None
                end
  end.
(** What a history stores: an insertion adds its entry; a removal takes out one entry with the given
    value, or nothing if no entry with that value meets the given box.  The number counts the
    entries taken out. *)
Inductive stored : list (op D) -> list (Rect * D) -> nat -> list (Rect * D) -> Prop :=
  | st_nil L : stored [] L 0 L
  | st_ins r d ops L k L' : stored ops ((r, d) :: L) k L' -> stored (Ins r d :: ops) L k L'
  | st_del q id ops L1 e L2 k L' : deqb (snd e) id = true -> stored ops (L1 ++ L2) k L' -> stored (Del q id :: ops) (L1 ++ e :: L2) (S k) L'
  | st_not q id ops L k L' : (forall e, In e L -> meets q (fst e) -> deqb (snd e) id = true -> False) ->
      stored ops L k L' -> stored (Del q id :: ops) L k L'.
Fixpoint inserted (ops : list (op D)) : list (Rect * D) :=
  match ops with [] => [] | Ins r d :: ops => (r, d) :: inserted ops | Del _ _ :: ops => inserted ops end.
Definition op_dim (dim : nat) (o : op D) : Prop := match o with Ins r _ => length r = dim | Del _ _ => True end.
Definition is_ins (o : op D) : Prop := match o with Ins _ _ => True | Del _ _ => False end.
End Run.

Lemma run_inserts {D} (dim : nat) M m vol deqb (ops : list (op D)) : capacities M m -> volume_ok vol -> Forall is_ins ops -> Forall (op_dim dim) ops ->
  forall root h, shaped dim M m h root -> exists root' h', run M m vol Qminus deqb ops root = Some root' /\ shaped dim M m h' root' /\
    Permutation (entries root') (inserted ops ++ entries root).
Proof.
  intros (C1 & C2 & C3) V I K. pose proof (exact_good dim vol V) as G. induction ops as [|o ops IH]; intros root h S.
  - exists root, h. split; [reflexivity|]. split; [exact S|reflexivity].
  - apply Forall_cons_iff in I, K. destruct I as [Io I], K as [Ko K]. destruct o as [r d|q id]; [|destruct Io].
    cbn [run inserted]. unfold Insert.
    destruct (InsertRect_ok dim M m vol Qminus G C1 ltac:(lia) C2 0 (r, Data d) h root) as (r1 & h1 & -> & S1 & _ & _ & _ & P1); [split; [exact Ko|exists d; reflexivity]|exact S|lia|].
    destruct (IH I K r1 h1 S1) as (r2 & h2 & E2 & S2 & P2). exists r2, h2. split; [exact E2|]. split; [exact S2|].
    rewrite P2, P1. cbn [branch_entries snd fst app]. symmetry. apply Permutation_middle.
Qed.
Lemma run_history {D} (dim : nat) M m vol (deqb : D -> D -> bool) ops : capacities M m -> 2 <= m -> volume_ok vol -> Forall (op_dim dim) ops ->
  forall root L, tree dim M m root -> Permutation (entries root) L ->
  exists root' k L', run M m vol Qminus deqb ops root = Some root' /\ tree dim M m root' /\ stored deqb ops L k L' /\
    Permutation (entries root') L' /\ length L' + k = length (inserted ops) + length L.
Proof.
  intros (C1 & C2 & C3) C4 V K. pose proof (exact_good dim vol V) as G. induction ops as [|o ops IH]; intros root L T P.
  - exists root, 0, L. split; [reflexivity|]. split; [exact T|]. split; [constructor|]. split; [exact P|cbn; lia].
  - apply Forall_cons_iff in K. destruct K as [Ko K]. destruct o as [r d|q id]; cbn [run inserted].
    + destruct (Insert_ok dim M m vol Qminus G C4 ltac:(lia) r d root Ko T) as (r1 & -> & T1 & P1).
      destruct (IH K r1 ((r, d) :: L) T1) as (r2 & k & L' & E & T2 & St & P2 & N); [rewrite P1, P; reflexivity|].
      exists r2, k, L'. split; [exact E|]. split; [exact T2|]. split; [constructor; exact St|]. split; [exact P2|]. cbn [length] in *. lia.
    + destruct (Remove_ok dim M m vol Qminus deqb G C4 ltac:(lia) q id root T) as [(-> & Ab)|(r1 & e & -> & T1 & Q & P1)].
      * destruct (IH K root L T P) as (r2 & k & L' & E & T2 & St & P2 & N). exists r2, k, L'. split; [exact E|]. split; [exact T2|].
        split; [|split; [exact P2|exact N]]. apply st_not; [|exact St]. intros e I Me De. apply (Ab e); [|apply overlap_meets; exact Me|exact De].
        eapply Permutation_in; [symmetry; exact P|exact I].
      * assert (I : In e L) by (eapply Permutation_in; [exact P|eapply Permutation_in; [symmetry; exact P1|left; reflexivity]]).
        apply in_split in I. destruct I as (L1 & L2 & ->).
        destruct (IH K r1 (L1 ++ L2) T1) as (r2 & k & L' & E & T2 & St & P2 & N).
        { apply (Permutation_cons_inv (a := e)). rewrite <- P1, P. symmetry. apply Permutation_middle. }
        exists r2, (S k), L'. split; [exact E|]. split; [exact T2|]. split; [apply st_del; assumption|]. split; [exact P2|].
        rewrite !app_length in *. cbn [length]. lia.
Qed.
Lemma empty_shaped {D} (dim : nat) M m : shaped dim M m 0 (@empty D).
Proof. apply shaped_iff. cbn [length]. split; [reflexivity|]. split; [lia|]. split; [lia|constructor]. Qed.

Lemma empty_root {D} (dim : nat) M m : tree dim M m (@empty D).
Proof. exists 0. split; [apply empty_shaped|lia]. Qed.

(** ** Search *)
(** The answer of a search: the stored entries fall into those that meet the query, all of them
    reported with their multiplicity, and the others, none of them reported. *)
Definition answers {D} (q : Rect) (L : list (Rect * D)) (found : list D) : Prop :=
  exists hit miss, Permutation L (hit ++ miss) /\ Forall (fun e => meets q (fst e)) hit /\
    Forall (fun e => ~ meets q (fst e)) miss /\ Permutation found (map snd hit).
Lemma search_answers {D} (dim : nat) M m h q (root : item D) L : shaped dim M m h root -> Permutation (entries root) L ->
  exists found, Search (fun _ _ => true) q root = Some found /\ answers q L found.
Proof.
  intros S P. unfold Search. rewrite (search_rec_ok dim M m (fun _ _ => true) q h root [] S), visit_all. eexists. split; [reflexivity|].
  exists (filter (fun e => overlap q (fst e)) (entries root)), (filter (fun e => negb (overlap q (fst e))) (entries root)).
  split; [|split; [|split; [|reflexivity]]].
  - rewrite <- P. clear. induction (entries root) as [|e l IH]; [constructor|]. cbn [filter]. destruct (overlap q (fst e)); cbn [negb app].
    + apply perm_skip, IH.
    + rewrite IH at 1. apply Permutation_middle.
  - apply Forall_forall. intros e I. apply filter_In in I. apply overlap_meets, I.
  - apply Forall_forall. intros e I X. apply filter_In in I. destruct I as [_ I]. apply overlap_meets in X. rewrite X in I. discriminate.
Qed.

(** C52. *)
Theorem rtree_search_exact : forall D (dim : nat) M m vol (deqb : D -> D -> bool) ops q,
  capacities M m -> volume_ok vol -> Forall is_ins ops -> Forall (op_dim dim) ops ->
  exists root found, run M m vol Qminus deqb ops empty = Some root /\
    Search (fun _ _ => true) q root = Some found /\ answers q (inserted ops) found.
Proof.
  intros D dim M m vol deqb ops q C V I K.
  destruct (run_inserts dim M m vol deqb ops C V I K empty 0 (empty_shaped dim M m)) as (root & h & E & S & P).
  cbn in P. rewrite app_nil_r in P. destruct (search_answers dim M m h q root _ S P) as (found & F & A). exists root, found. auto.
Qed.
Print Assumptions rtree_search_exact.

(** C67: a callback that stops the search has seen a prefix of the full answer, ending with the
    first entry it refused. *)
Theorem rtree_search_stop : forall D (dim : nat) M m vol (deqb : D -> D -> bool) ops q,
  capacities M m -> volume_ok vol -> Forall is_ins ops -> Forall (op_dim dim) ops ->
  exists root all, run M m vol Qminus deqb ops empty = Some root /\
    Search (fun _ _ => true) q root = Some all /\ answers q (inserted ops) all /\
    forall cb, exists k, k <= length all /\ Search cb q root = Some (firstn k all) /\
      (forall i d, S i < k -> nth_error all i = Some d -> cb (firstn i all) d = true) /\
      (k < length all -> exists i d, k = S i /\ nth_error all i = Some d /\ cb (firstn i all) d = false).
Proof.
  intros D dim M m vol deqb ops q C V I K.
  destruct (run_inserts dim M m vol deqb ops C V I K empty 0 (empty_shaped dim M m)) as (root & h & E & S & P).
  cbn in P. rewrite app_nil_r in P. destruct (search_answers dim M m h q root _ S P) as (all & F & A). exists root, all.
  split; [exact E|]. split; [exact F|]. split; [exact A|].
  unfold Search in *. rewrite (search_rec_ok dim M m (fun _ _ => true) q h root [] S), visit_all in F. cbn [app] in F. injection F as F.
  intros cb. rewrite (search_rec_ok dim M m cb q h root [] S), F. clear -all.
  assert (G : forall l2 l1, all = l1 ++ l2 -> (forall i d, i < length l1 -> nth_error all i = Some d -> cb (firstn i all) d = true) ->
    exists k, k <= length all /\ Some (fst (visit cb l2 l1)) = Some (firstn k all) /\
      (forall i d, Datatypes.S i < k -> nth_error all i = Some d -> cb (firstn i all) d = true) /\
      (k < length all -> exists i d, k = Datatypes.S i /\ nth_error all i = Some d /\ cb (firstn i all) d = false)).
  { induction l2 as [|d l2 IH]; intros l1 E H.
    - rewrite app_nil_r in E. exists (length all). split; [lia|]. cbn [visit fst]. rewrite firstn_all. split; [congruence|]. split; [|lia].
      intros i d L N. apply H; [rewrite <- E; lia|exact N].
    - assert (N0 : nth_error all (length l1) = Some d) by (rewrite E, nth_error_app2, Nat.sub_diag by lia; reflexivity).
      assert (F0 : firstn (length l1) all = l1) by (rewrite E, firstn_app, Nat.sub_diag, firstn_all, app_nil_r; reflexivity).
      cbn [visit]. destruct (cb l1 d) eqn:Q.
      + apply IH; [rewrite <- app_assoc; exact E|]. intros i x L N. rewrite app_length in L. cbn in L.
        destruct (Nat.eq_dec i (length l1)) as [->|]; [|apply H; [lia|exact N]]. rewrite F0. congruence.
      + exists (Datatypes.S (length l1)). cbn [fst]. split; [rewrite E, app_length; cbn; lia|]. split; [|split].
        * f_equal. rewrite E, firstn_app, firstn_all2 by lia. replace (Datatypes.S (length l1) - length l1) with 1 by lia. reflexivity.
        * intros i x L N. apply H; [lia|exact N].
        * intros _. exists (length l1), d. rewrite F0. auto. }
  destruct (G all [] eq_refl) as (k & X); [cbn; lia|]. exists k. destruct (visit cb all []) as [f b]. exact X.
Qed.
Print Assumptions rtree_search_stop.

(** C53. *)
Theorem rtree_shape : forall D (dim : nat) M m vol (deqb : D -> D -> bool) ops,
  capacities M m -> volume_ok vol -> Forall is_ins ops -> Forall (op_dim dim) ops ->
  exists root h, run M m vol Qminus deqb ops empty = Some root /\ well_shaped dim M m h root.
Proof.
  intros D dim M m vol deqb ops C V I K.
  destruct (run_inserts dim M m vol deqb ops C V I K empty 0 (empty_shaped dim M m)) as (root & h & E & S & P).
  exists root, h. split; [exact E|]. apply shaped_well. exact S.
Qed.
Print Assumptions rtree_shape.

(** C54 for a minimal fill of two or more: histories with removals never go wrong, keep the shape,
    and every search answers for exactly the entries stored.  Missing: a minimal fill of one, for
    which it is false, see below. *)
Theorem rtree_removal_partial : forall D (dim : nat) M m vol (deqb : D -> D -> bool) ops,
  capacities M m -> 2 <= m -> volume_ok vol -> Forall (op_dim dim) ops ->
  exists root h k L, run M m vol Qminus deqb ops empty = Some root /\ well_shaped dim M m h root /\
    stored deqb ops [] k L /\
    forall q, exists found, Search (fun _ _ => true) q root = Some found /\ answers q L found.
Proof.
  intros D dim M m vol deqb ops C C2 V K.
  destruct (run_history dim M m vol deqb ops C C2 V K empty [] (empty_root dim M m) (Permutation_refl _)) as (root & k & L & E & (h & S & _) & St & P & N).
  exists root, h, k, L. split; [exact E|]. split; [apply shaped_well; exact S|]. split; [exact St|].
  intros q. exact (search_answers dim M m h q root L S P).
Qed.
Print Assumptions rtree_removal_partial.

(** One removal: a value stored with a box that meets the given one is taken out once; a value that
    is not stored changes nothing. *)
Theorem rtree_remove_one : forall D (dim : nat) M m vol (deqb : D -> D -> bool) ops q id root,
  capacities M m -> 2 <= m -> volume_ok vol -> Forall (op_dim dim) ops ->
  run M m vol Qminus deqb ops empty = Some root ->
  ((exists e, In e (entries root) /\ meets q (fst e) /\ deqb (snd e) id = true) ->
     exists root' e, Remove M m vol Qminus deqb q id root = Some root' /\ deqb (snd e) id = true /\ Permutation (entries root) (e :: entries root')) /\
  ((forall e, In e (entries root) -> deqb (snd e) id = false) -> Remove M m vol Qminus deqb q id root = Some root).
Proof.
  intros D dim M m vol deqb ops q id root C C2 V K R.
  destruct (run_history dim M m vol deqb ops C C2 V K empty [] (empty_root dim M m) (Permutation_refl _)) as (root' & k & L & E & T & _).
  rewrite E in R. injection R as ->. destruct C as (C1 & C3 & C4).
  destruct (Remove_ok dim M m vol Qminus deqb (exact_good dim vol V) C2 ltac:(lia) q id root T) as [(X & Ab)|(r1 & e & X & T1 & Q & P1)]; split.
  - intros (e & I & Me & De). exfalso. apply (Ab e I); [apply overlap_meets; exact Me|exact De].
  - intros _. exact X.
  - intros _. exists r1, e. auto.
  - intros H. exfalso. rewrite (H e) in Q; [discriminate|]. eapply Permutation_in; [symmetry; exact P1|left; reflexivity].
Qed.
Print Assumptions rtree_remove_one.

(** RTree.h:1171-1185 RectVolume, with the extents of boxes turned inside out cut off at 0.  CalcRectVolume
    uses it only without RTREE_USE_SPHERICAL_VOLUME (39, 1220-1230); the volume compiled in is in SphereModel.v. *)
Definition RectVolume (r : Rect) : Q := inject_Z (fold_left (fun v p => v * Z.max 0 (snd p - fst p))%Z r 1%Z).
Lemma prod_mono a c : within_box a c -> forall u v, (0 <= u <= v)%Z ->
  (0 <= fold_left (fun v p => v * Z.max 0 (snd p - fst p)) a u <= fold_left (fun v p => v * Z.max 0 (snd p - fst p)) c v)%Z.
Proof.
  induction 1 as [|x y a c H A IH]; intros u v L; cbn [fold_left]; [exact L|]. apply IH.
  assert (0 <= Z.max 0 (snd x - fst x) <= Z.max 0 (snd y - fst y))%Z by lia.
  split; [apply Z.mul_nonneg_nonneg; lia|apply Z.mul_le_mono_nonneg; lia].
Qed.
Lemma within_refl a : within_box a a.
Proof. induction a; constructor; [lia|assumption]. Qed.
Lemma RectVolume_ok : volume_ok RectVolume.
Proof.
  split.
  - intros r. unfold RectVolume. change 0%Q with (inject_Z 0). rewrite <- Zle_Qle. apply (prod_mono r r (within_refl r) 1 1). lia.
  - intros a c H. unfold RectVolume. rewrite <- Zle_Qle. apply (prod_mono a c H 1 1). lia.
Qed.
Definition strip (n : nat) : list (Rect * Z) := map (fun d => ([(Z.of_nat d, Z.of_nat d + 1); (0, 1)]%Z, Z.of_nat d)) (seq 0 n).
Definition ins_all (l : list (Rect * Z)) : list (op Z) := map (fun e => Ins (fst e) (snd e)) l.
Definition del_all (l : list (Rect * Z)) : list (op Z) := map (fun e => Del (fst e) (snd e)) l.

(** With capacities 2 and 1 (TMAXNODES 2, default minimum), inserting five boxes and removing them
    leaves an inner root without branches; the next insertion reads a branch that does not exist. *)
Theorem rtree_removal_refuted : exists M m ops root,
  m = M / 2 /\ capacities M m /\ Forall (op_dim 2) ops /\
  run M m RectVolume Qminus Z.eqb ops empty = Some root /\ root = Node 1 [] /\
  forall r d, Insert M m RectVolume Qminus r d root = None.
Proof.
  exists 2, 1, (ins_all (strip 5) ++ del_all (strip 5)), (Node 1 []). split; [reflexivity|]. split; [unfold capacities; lia|].
  split; [repeat constructor|]. split; [vm_compute; reflexivity|]. split; [reflexivity|]. intros r d. reflexivity.
Qed.
Print Assumptions rtree_removal_refuted.

(** ** Every minimal fill *)
(** Histories with a minimal fill of one go well until an insertion meets an inner root without
    branches. *)
Lemma run_one {D} (dim : nat) M vol (deqb : D -> D -> bool) ops : capacities M 1 -> volume_ok vol -> Forall (op_dim dim) ops ->
  forall root L, tree1 dim M root -> Permutation (entries root) L ->
  (exists root' k L', run M 1 vol Qminus deqb ops root = Some root' /\ tree1 dim M root' /\ stored deqb ops L k L' /\
    Permutation (entries root') L' /\ length L' + k = length (inserted ops) + length L) \/
  exists ops1 r d ops2 l, ops = ops1 ++ Ins r d :: ops2 /\ run M 1 vol Qminus deqb ops1 root = Some (Node (S l) []) /\
    run M 1 vol Qminus deqb ops root = None.
Proof.
  intros (C1 & C2 & C3) V K. pose proof (exact_good dim vol V) as G. induction ops as [|o ops IH]; intros root L T P.
  - left. exists root, 0, L. split; [reflexivity|]. split; [exact T|]. split; [constructor|]. split; [exact P|cbn; lia].
  - apply Forall_cons_iff in K. destruct K as [Ko K]. destruct o as [r d|q id].
    + destruct T as (h & [S|S]).
      * cbn [run inserted]. unfold Insert.
        destruct (InsertRect_ok dim M 1 vol Qminus G C1 ltac:(lia) C2 0 (r, Data d) h root) as (r1 & h1 & E1 & S1 & _ & _ & _ & P1); [split; [exact Ko|exists d; reflexivity]|exact S|lia|].
        destruct (IH K r1 ((r, d) :: L)) as [(r2 & k & L' & E & T2 & St & P2 & N)|(ops1 & r' & d' & ops2 & l & -> & R1 & R2)].
        -- exists h1. left. exact S1.
        -- rewrite P1. cbn [branch_entries snd fst app]. rewrite P. reflexivity.
        -- left. exists r2, k, L'. rewrite E1. split; [exact E|]. split; [exact T2|]. split; [constructor; exact St|]. split; [exact P2|]. cbn [length] in *. lia.
        -- right. exists (Ins r d :: ops1), r', d', ops2, l. split; [reflexivity|]. cbn [run]. unfold Insert. rewrite E1. auto.
      * right. exists [], r, d, ops, h. split; [reflexivity|]. unfold husk in S. split; [cbn [run]; congruence|]. cbn [run]. rewrite S, (Insert_husk M vol Qminus r d h). reflexivity.
    + destruct (Remove_one dim M vol Qminus deqb q id root T) as [(E1 & Ab)|(r1 & e & E1 & T1 & Q & P1)].
      * destruct (IH K root L T P) as [(r2 & k & L' & E & T2 & St & P2 & N)|(ops1 & r' & d' & ops2 & l & -> & R1 & R2)].
        -- left. exists r2, k, L'. cbn [run inserted]. rewrite E1. split; [exact E|]. split; [exact T2|].
           split; [|split; [exact P2|exact N]]. apply st_not; [|exact St]. intros e I Me De. apply (Ab e); [|apply overlap_meets; exact Me|exact De].
           eapply Permutation_in; [symmetry; exact P|exact I].
        -- right. exists (Del q id :: ops1), r', d', ops2, l. split; [reflexivity|]. cbn [run]. rewrite E1. auto.
      * assert (I : In e L) by (eapply Permutation_in; [exact P|eapply Permutation_in; [symmetry; exact P1|left; reflexivity]]).
        apply in_split in I. destruct I as (L1 & L2 & ->).
        destruct (IH K r1 (L1 ++ L2) T1) as [(r2 & k & L' & E & T2 & St & P2 & N)|(ops1 & r' & d' & ops2 & l & -> & R1 & R2)].
        -- apply (Permutation_cons_inv (a := e)). rewrite <- P1, P. symmetry. apply Permutation_middle.
        -- left. exists r2, (S k), L'. cbn [run inserted]. rewrite E1. split; [exact E|]. split; [exact T2|]. split; [apply st_del; assumption|]. split; [exact P2|].
           rewrite !app_length in *. cbn [length]. lia.
        -- right. exists (Del q id :: ops1), r', d', ops2, l. split; [reflexivity|]. cbn [run]. rewrite E1. auto.
Qed.
Definition sound_root {D} (dim M m : nat) (root : item D) : Prop := exists h, shaped dim M m h root \/ root = Node (S h) [].
Lemma run_any {D} (dim : nat) M m vol (deqb : D -> D -> bool) ops : capacities M m -> volume_ok vol -> Forall (op_dim dim) ops ->
  (exists root k L, run M m vol Qminus deqb ops empty = Some root /\ sound_root dim M m root /\ stored deqb ops [] k L /\
    Permutation (entries root) L /\ length L + k = length (inserted ops)) \/
  m = 1 /\ exists ops1 r d ops2 l, ops = ops1 ++ Ins r d :: ops2 /\ run M m vol Qminus deqb ops1 empty = Some (Node (S l) []) /\
    run M m vol Qminus deqb ops empty = None.
Proof.
  intros C V K. destruct (Nat.lt_ge_cases 1 m) as [C2|C2].
  - left. destruct (run_history dim M m vol deqb ops C C2 V K empty [] (empty_root dim M m) (Permutation_refl _)) as (root & k & L & E & (h & S & _) & St & P & N).
    exists root, k, L. split; [exact E|]. split; [exists h; left; exact S|]. split; [exact St|]. split; [exact P|]. cbn [length] in N. lia.
  - assert (m = 1) by (destruct C; lia). subst m.
    destruct (run_one dim M vol deqb ops C V K empty []) as [(root & k & L & E & T & St & P & N)|X].
    + exists 0. left. apply empty_shaped.
    + reflexivity.
    + left. exists root, k, L. split; [exact E|]. split; [exact T|]. split; [exact St|]. split; [exact P|]. cbn [length] in N. lia.
    + right. split; [reflexivity|exact X].
Qed.

(** C54 for every minimal fill: as long as the history is defined the searches answer for exactly
    the entries stored; the only way out is an insertion into an inner root that has lost all its
    branches, with a minimal fill of one. *)
Theorem rtree_removal_defined : forall D (dim : nat) M m vol (deqb : D -> D -> bool) ops,
  capacities M m -> volume_ok vol -> Forall (op_dim dim) ops ->
  (exists root k L, run M m vol Qminus deqb ops empty = Some root /\ stored deqb ops [] k L /\
    forall q, exists found, Search (fun _ _ => true) q root = Some found /\ answers q L found) \/
  m = 1 /\ exists ops1 r d ops2 l, ops = ops1 ++ Ins r d :: ops2 /\ run M m vol Qminus deqb ops1 empty = Some (Node (S l) []) /\
    run M m vol Qminus deqb ops empty = None.
Proof.
  intros D dim M m vol deqb ops C V K. destruct (run_any dim M m vol deqb ops C V K) as [(root & k & L & E & (h & [S|S]) & St & P & N)|X]; [left|left|right; exact X].
  - exists root, k, L. split; [exact E|]. split; [exact St|]. intros q. exact (search_answers dim M m h q root L S P).
  - exists root, k, L. split; [exact E|]. split; [exact St|]. intros q. subst root. exists []. split; [reflexivity|].
    cbn in P. apply Permutation_nil in P. subst L. exists [], []. repeat split; constructor.
Qed.
Print Assumptions rtree_removal_defined.

(** C57: whenever a history is defined, Count gives the insertions less the removals that took an
    entry out. *)
Theorem rtree_count : forall D (dim : nat) M m vol (deqb : D -> D -> bool) ops root,
  capacities M m -> volume_ok vol -> Forall (op_dim dim) ops ->
  run M m vol Qminus deqb ops empty = Some root ->
  exists k L, stored deqb ops [] k L /\ k <= length (inserted ops) /\ Count root = Some (length (inserted ops) - k).
Proof.
  intros D dim M m vol deqb ops root C V K R.
  destruct (run_any dim M m vol deqb ops C V K) as [(root' & k & L & E & (h & S) & St & P & N)|(_ & ops1 & r & d & ops2 & l & _ & _ & X)]; [|rewrite X in R; discriminate R].
  rewrite E in R. injection R as ->. exists k, L. split; [exact St|]. split; [lia|]. destruct S as [S| ->].
  - unfold Count. rewrite (CountRec_ok dim M m h root 0 S). f_equal. rewrite (Permutation_length P). lia.
  - cbn in P. apply Permutation_nil in P. subst L. cbn [length] in N. change (Count (Node (S h) [] : item D)) with (Some 0). f_equal. lia.
Qed.
Print Assumptions rtree_count.
(** For a minimal fill of two or more every history is defined. *)
Theorem rtree_count_total : forall D (dim : nat) M m vol (deqb : D -> D -> bool) ops,
  capacities M m -> 2 <= m -> volume_ok vol -> Forall (op_dim dim) ops ->
  exists root k L, run M m vol Qminus deqb ops empty = Some root /\ stored deqb ops [] k L /\
    k <= length (inserted ops) /\ Count root = Some (length (inserted ops) - k).
Proof.
  intros D dim M m vol deqb ops C C2 V K.
  destruct (run_history dim M m vol deqb ops C C2 V K empty [] (empty_root dim M m) (Permutation_refl _)) as (root & k & L & E & _).
  destruct (rtree_count D dim M m vol deqb ops root C V K E) as (k' & L' & X). exists root, k', L'. auto.
Qed.
Print Assumptions rtree_count_total.
(** C57 for insertions alone and every minimal fill. *)
Theorem rtree_count_inserts : forall D (dim : nat) M m vol (deqb : D -> D -> bool) ops,
  capacities M m -> volume_ok vol -> Forall is_ins ops -> Forall (op_dim dim) ops ->
  exists root, run M m vol Qminus deqb ops empty = Some root /\ Count root = Some (length ops).
Proof.
  intros D dim M m vol deqb ops C V I K.
  destruct (run_inserts dim M m vol deqb ops C V I K empty 0 (empty_shaped dim M m)) as (root & h & E & S & P).
  exists root. split; [exact E|]. unfold Count. rewrite (CountRec_ok dim M m h root 0 S), (Permutation_length P). cbn. rewrite app_nil_r. f_equal.
  clear -I. induction I as [|[r d|q id] ops X I IH]; cbn; [reflexivity|congruence|destruct X].
Qed.
Print Assumptions rtree_count_inserts.

(** C55: what is saved is loaded back, branch for branch, also when more follows in the stream; and
    copying gives the same tree. *)
Lemma run_sound {D} (dim : nat) M m vol (deqb : D -> D -> bool) ops root : capacities M m -> volume_ok vol -> Forall (op_dim dim) ops ->
  run M m vol Qminus deqb ops empty = Some root -> sound_root dim M m root.
Proof.
  intros C V K R. destruct (run_any dim M m vol deqb ops C V K) as [(root' & k & L & E & S & _)|(_ & ops1 & r & d & ops2 & l & _ & _ & X)]; congruence.
Qed.
Lemma sound_save_load {D} (dim : nat) M m (root : item D) : sound_root dim M m root ->
  exists t, SaveRec root = Some t /\ forall fuel rest, length t + length rest < fuel -> LoadRec M fuel dim (t ++ rest) = Some (root, rest).
Proof.
  intros (h & [S| ->]).
  - destruct (SaveLoad_ok dim M m dim (fun r H => H) h root S) as (t & T & Lt & LT). exists t. split; [exact T|]. intros fuel rest F. apply LT. lia.
  - eexists. split; [reflexivity|]. intros [|fuel] rest F; [lia|]. cbn [app LoadRec]. replace (Z.of_nat M <? Z.of_nat (length (@nil (branch D))))%Z with false by (symmetry; apply Z.ltb_ge; cbn; lia).
    rewrite !Nat2Z.id. reflexivity.
Qed.
Theorem rtree_save_load : forall D (dim : nat) M m vol (deqb : D -> D -> bool) ops root datasize elemsize,
  capacities M m -> volume_ok vol -> Forall (op_dim dim) ops ->
  run M m vol Qminus deqb ops empty = Some root ->
  exists file, Save M m datasize elemsize dim root = Some file /\
    forall rest, Load M m datasize elemsize dim (file ++ rest) = Some (root, true).
Proof.
  intros D dim M m vol deqb ops root ds es C V K R. destruct (sound_save_load dim M m root (run_sound dim M m vol deqb ops root C V K R)) as (t & T & LT). unfold Save. rewrite T. eexists. split; [reflexivity|].
  intros rest. cbn [header map app Load]. rewrite !Z.eqb_refl. cbn [andb]. rewrite LT by (rewrite app_length; lia). reflexivity.
Qed.
Print Assumptions rtree_save_load.
Theorem rtree_copy : forall D (dim : nat) M m vol (deqb : D -> D -> bool) ops root,
  capacities M m -> volume_ok vol -> Forall (op_dim dim) ops ->
  run M m vol Qminus deqb ops empty = Some root ->
  CopyRec root = Some root.
Proof. intros D dim M m vol deqb ops root C V K R. destruct (run_sound dim M m vol deqb ops root C V K R) as (h & [S| ->]); [exact (CopyRec_ok dim M m h root S)|reflexivity]. Qed.
Print Assumptions rtree_copy.
(** A file written for other parameters is refused and leaves an empty tree. *)
Theorem rtree_load_refused : forall D (dim : nat) M m vol (deqb : D -> D -> bool) ops root datasize elemsize dim' M' m' datasize' elemsize',
  capacities M m -> volume_ok vol -> Forall (op_dim dim) ops ->
  run M m vol Qminus deqb ops empty = Some root -> (dim, M, m, datasize, elemsize) <> (dim', M', m', datasize', elemsize') ->
  exists file, Save M m datasize elemsize dim root = Some file /\
    Load M' m' datasize' elemsize' dim' file = Some (empty, false).
Proof.
  intros D dim M m vol deqb ops root ds es dim' M' m' ds' es' C V K R N. destruct (sound_save_load dim M m root (run_sound dim M m vol deqb ops root C V K R)) as (t & T & _). unfold Save. rewrite T. eexists. split; [reflexivity|].
  cbn [header map app Load]. rewrite Z.eqb_refl. cbn [andb].
  destruct (Z.eqb_spec ds ds'); [|reflexivity]. destruct (Z.eqb_spec (Z.of_nat dim) (Z.of_nat dim')); [|reflexivity]. destruct (Z.eqb_spec es es'); [|reflexivity].
  destruct (Z.eqb_spec (Z.of_nat M) (Z.of_nat M')); [|reflexivity]. destruct (Z.eqb_spec (Z.of_nat m) (Z.of_nat m')); [|reflexivity].
  exfalso. apply N. repeat f_equal; lia.
Qed.
Print Assumptions rtree_load_refused.

Lemma iterator_shaped : forall D (dim : nat) M m h (root : item D),
  1 <= m -> shaped dim M m h root -> h < 32 ->
  exists s, GetFirst (S h) root [] = Some s /\
    forall fuel1 fuel, length (entries root) < fuel1 -> h + 1 < fuel -> iterate fuel1 fuel s = Some (map snd (entries root)).
Proof.
  intros D dim M m h root Hm S H32.
  destruct (first_ok dim M m Hm h H32 (Datatypes.S h) h root [] ltac:(lia) ltac:(lia) S I) as (s & E & K & A & P); [congruence|].
  cbn [pending] in P. rewrite app_nil_r in P. exists s. split; [exact E|]. intros fuel1 fuel L F. rewrite <- P.
  apply (iterate_ok dim M m Hm h fuel H32 F); [exact K|exact A|]. rewrite P, map_length. exact L.
Qed.
(** C56: with at most 32 levels, the iterator visits the insertions once each, in any order. *)
Theorem rtree_iterator : forall D (dim : nat) M m vol (deqb : D -> D -> bool) ops root,
  capacities M m -> volume_ok vol -> Forall (op_dim dim) ops -> Forall is_ins ops ->
  run M m vol Qminus deqb ops empty = Some root -> level_of root < 32 ->
  exists s all, GetFirst (S (level_of root)) root [] = Some s /\
    (forall fuel1 fuel, length ops < fuel1 -> level_of root + 1 < fuel -> iterate fuel1 fuel s = Some all) /\
    Permutation all (map snd (inserted ops)).
Proof.
  intros D dim M m vol deqb ops root C V K I R H32.
  destruct (run_inserts dim M m vol deqb ops C V I K empty 0 (empty_shaped dim M m)) as (root' & h & E & S & P). rewrite E in R. injection R as ->.
  cbn in P. rewrite app_nil_r in P.
  assert (Lv : level_of root = h) by (destruct (shaped_node _ _ _ _ root S) as (br & ->); reflexivity). rewrite Lv in *.
  destruct (iterator_shaped D dim M m h root ltac:(destruct C; lia) S H32) as (s & G & It).
  exists s, (map snd (entries root)). split; [exact G|]. split; [|apply Permutation_map; exact P].
  intros fuel1 fuel F1 F. apply It; [|exact F]. rewrite (Permutation_length P).
  assert (N : length (inserted ops) <= length ops) by (clear; induction ops as [|[]]; cbn; lia). lia.
Qed.
Print Assumptions rtree_iterator.
(** The stack is deep enough for every tree with fewer than 2^32 entries built by a history with a
    minimal fill of two or more. *)
Lemma entries_many {D} (dim : nat) M m : 2 <= m -> forall h (n : item D), shaped dim M m h n -> size n * 2 ^ h <= length (entries n).
Proof.
  intros Hm. induction h as [|h IH]; intros n S; destruct (shaped_node _ _ _ _ n S) as (br & ->); apply shaped_iff in S; destruct S as (_ & _ & _ & A); rewrite entries_node; cbn [size].
  - clear -A. induction A as [|[r it] br (_ & d & E) A IHA]; [cbn; lia|]. cbn [snd] in E. subst it. cbn in *. lia.
  - clear -IH A Hm. induction A as [|[r c] br B A IHA]; [cbn; lia|]. destruct B as (_ & S & Mc & _). cbn [fst snd] in *.
    cbn [flat_map length]. rewrite app_length, (branch_entries_node dim M m r c h S). specialize (IH c S). cbn [Nat.pow] in *.
    assert (2 * 2 ^ h <= size c * 2 ^ h) by (apply Nat.mul_le_mono_r; lia). lia.
Qed.
Theorem rtree_iterator_history : forall D (dim : nat) M m vol (deqb : D -> D -> bool) ops root,
  capacities M m -> 2 <= m -> volume_ok vol -> Forall (op_dim dim) ops ->
  run M m vol Qminus deqb ops empty = Some root -> (Z.of_nat (length (inserted ops)) < 2 ^ 32)%Z ->
  exists s all k L, GetFirst (S (level_of root)) root [] = Some s /\
    (forall fuel1 fuel, length (inserted ops) < fuel1 -> level_of root + 1 < fuel -> iterate fuel1 fuel s = Some all) /\
    stored deqb ops [] k L /\ Permutation all (map snd L).
Proof.
  intros D dim M m vol deqb ops root C C2 V K R B.
  destruct (run_history dim M m vol deqb ops C C2 V K empty [] (empty_root dim M m) (Permutation_refl _)) as (root' & k & L & E & (h & S & Zr) & St & P & N).
  rewrite E in R. injection R as ->. cbn [length] in N.
  assert (H32 : h < 32).
  { destruct (Nat.lt_ge_cases h 32) as [|G]; [assumption|exfalso]. pose proof (entries_many dim M m C2 h root S) as X. specialize (Zr ltac:(lia)).
    rewrite (Permutation_length P) in X.
    assert (Y : (2 ^ 32 <= 2 ^ Z.of_nat h)%Z) by (apply Z.pow_le_mono_r; lia).
    assert (W : (2 ^ Z.of_nat h)%Z = Z.of_nat (2 ^ h)) by (rewrite Nat2Z.inj_pow; reflexivity).
    assert (U : 1 * 2 ^ h <= size root * 2 ^ h) by (apply Nat.mul_le_mono_r; lia). lia. }
  destruct (iterator_shaped D dim M m h root ltac:(lia) S H32) as (s & G & It).
  assert (Lv : level_of root = h) by (destruct (shaped_node _ _ _ _ root S) as (br & ->); reflexivity). rewrite Lv.
  exists s, (map snd (entries root)), k, L. split; [exact G|]. split; [|split; [exact St|apply Permutation_map; exact P]].
  intros fuel1 fuel F1 F. apply It; [rewrite (Permutation_length P); lia|exact F].
Qed.
Print Assumptions rtree_iterator_history.

(** C68 is false: in single precision the seeds of a split may coincide.  Subtractions rounded to 24
    bits, capacities 3 and 1, four equal squares of side 8192: -area - 1 rounds to -area, no pair
    beats it, and an entry is left without a group. *)
Definition round24 (z : Z) : Z :=
  let e := (Z.log2 (Z.abs z) - 23)%Z in
  if (e <=? 0)%Z then z else
  let u := (2 ^ e)%Z in let q := (Z.abs z / u)%Z in let r := (Z.abs z mod u)%Z in
  let q := if (u <? 2 * r)%Z || ((2 * r =? u)%Z && Z.odd q) then (q + 1)%Z else q in
  (Z.sgn z * q * u)%Z.
Definition float_sub (x y : Q) : Q := inject_Z (round24 (Qnum (Qred (x - y)))).
Definition square : Rect := [(0, 8192); (0, 8192)]%Z.
Theorem rtree_float_split_refuted : exists M m ops,
  m = M / 2 /\ capacities M m /\ Forall (op_dim 2) ops /\ Forall is_ins ops /\
  run M m RectVolume float_sub Z.eqb ops empty = None.
Proof.
  exists 3, 1, (map (Ins square) [1; 2; 3; 4]%Z). split; [reflexivity|]. split; [unfold capacities; lia|].
  split; [repeat constructor|]. split; [repeat constructor|]. vm_compute. reflexivity.
Qed.
Print Assumptions rtree_float_split_refuted.

(** ** Examples *)
Example rtree_nonvacuous :
  capacities 8 4 /\ 2 <= 4 /\ volume_ok RectVolume /\ Forall (op_dim 2) (ins_all (strip 20)) /\ Forall is_ins (ins_all (strip 20)).
Proof. split; [unfold capacities; lia|]. split; [lia|]. split; [exact RectVolume_ok|]. split; repeat constructor. Qed.
(** A minimal fill of one: a history that is defined, and one that ends at an insertion. *)
Example rtree_one : exists root,
  capacities 3 1 /\ run 3 1 RectVolume Qminus Z.eqb (ins_all (strip 6) ++ del_all (firstn 4 (strip 6))) empty = Some root /\ Count root = Some 2.
Proof. eexists. split; [unfold capacities; lia|]. split; vm_compute; reflexivity. Qed.
Example rtree_run : exists root,
  run 8 4 RectVolume Qminus Z.eqb (ins_all (strip 20) ++ del_all (firstn 12 (strip 20))) empty = Some root /\
  Count root = Some 8 /\ exists found, Search (fun _ _ => true) [(13, 14); (0, 0)]%Z root = Some found /\ length found = 3 /\ In 12%Z found.
Proof. eexists. split; [vm_compute; reflexivity|]. split; [vm_compute; reflexivity|]. eexists. split; [vm_compute; reflexivity|]. split; [reflexivity|]. cbn. auto. Qed.
Example rtree_big : exists root,
  run 4 2 RectVolume Qminus Z.eqb (ins_all (strip 40)) empty = Some root /\ level_of root = 2 /\
  match GetFirst 10 root [] with Some s => iterate 50 10 s | None => None end = Some (map snd (entries root)).
Proof. eexists. split; [vm_compute; reflexivity|]. split; vm_compute; reflexivity. Qed.
