(** C191: copies of R-trees in memory. *)
From Coq Require Import List Bool Arith ZArith QArith Lia.
From Verif Require Import AabModel RTreeModel RTreeMemModel.
Import ListNotations.
Open Scope nat_scope.

(** ** Specification *)
Section Rep.
Context {D : Type}.
Local Notation item := (item D).
Local Notation branch := (branch D).
Implicit Types f g : nat -> option (cell D).
(** The branches [br] are stored as [cs], their subtrees at the addresses [L]. *)
Inductive reps (R : item -> nat -> list nat -> Prop) : list branch -> list (Rect * slot D) -> list nat -> Prop :=
  | reps_nil : reps R [] [] []
  | reps_cons r n c L br cs L' : R n c L -> reps R br cs L' -> reps R ((r, n) :: br) ((r, Child c) :: cs) (L ++ L').
(** The tree [n] of height [h] lies at [a], its nodes at the addresses [L]. *)
Fixpoint rep f (h : nat) (n : item) (a : nat) (L : list nat) : Prop :=
  match n with
  | Data _ => False
  | Node level br =>
      level = h /\
      match h with
      | O => L = [a] /\ exists es, br = map (fun e => (fst e, Data (snd e))) es /\ f a = Some (0, map (fun e => (fst e, Dat (snd e))) es)
      | S h => exists cs L', L = a :: L' /\ f a = Some (S h, cs) /\ reps (rep f h) br cs L'
      end
  end.
Definition disjoint (L1 L2 : list nat) : Prop := forall x, In x L1 -> In x L2 -> False.

Lemma rep_frame f g h : forall n a L, rep f h n a L -> (forall x, In x L -> g x = f x) -> rep g h n a L.
Proof.
  induction h as [|h IH]; intros [d|level br] a L R E; try exact R; destruct R as (-> & R); (split; [reflexivity|]).
  - destruct R as (-> & es & Eb & F). split; [reflexivity|]. exists es. split; [exact Eb|]. rewrite E by (left; reflexivity). exact F.
  - destruct R as (cs & L' & -> & F & B). exists cs, L'. split; [reflexivity|]. split; [rewrite E by (left; reflexivity); exact F|].
    assert (E' : forall x, In x L' -> g x = f x) by (intros x I; apply E; right; exact I). clear -B E' IH.
    induction B as [|r n c L1 br cs L2 R1 B IHB]; [constructor|]. constructor.
    + apply IH; [exact R1|]. intros x I. apply E'. apply in_or_app. left. exact I.
    + apply IHB. intros x I. apply E'. apply in_or_app. right. exact I.
Qed.
Lemma reps_frame f g h br cs L : reps (rep f h) br cs L -> (forall x, In x L -> g x = f x) -> reps (rep g h) br cs L.
Proof.
  induction 1 as [|r n c L1 br cs L2 R1 B IHB]; intros E; [constructor|]. constructor.
  - apply (rep_frame f); [exact R1|]. intros x I. apply E. apply in_or_app. left. exact I.
  - apply IHB. intros x I. apply E. apply in_or_app. right. exact I.
Qed.
Lemma rep_root f h n a L : rep f h n a L -> In a L /\ f a <> None.
Proof.
  destruct h, n as [d|level br]; intros R; try destruct R as [].
  - destruct H0 as (-> & es & _ & ->). split; [left; reflexivity|discriminate].
  - destruct H0 as (cs & L' & -> & -> & _). split; [left; reflexivity|discriminate].
Qed.
Lemma NoDup_app_inv {A} (a b : list A) : NoDup (a ++ b) -> NoDup a /\ NoDup b /\ (forall x, In x a -> In x b -> False).
Proof.
  induction a as [|x a IH]; cbn [app]; intros N; [split; [constructor|]; split; [exact N|intros ? []]|].
  apply NoDup_cons_iff in N. destruct N as [N1 N2]. destruct (IH N2) as (Na & Nb & X). split; [constructor; [intros I; apply N1; apply in_or_app; left; exact I|exact Na]|].
  split; [exact Nb|]. intros y [<-|I] J; [apply N1; apply in_or_app; right; exact J|exact (X y I J)].
Qed.

(** ** Destruction *)
(** What is left when the addresses [L] are freed. *)
Definition without f (L : list nat) : nat -> option (cell D) := fun x => if in_dec Nat.eq_dec x L then None else f x.
Lemma without_in f L x : In x L -> without f L x = None.
Proof. intros I. unfold without. destruct (in_dec Nat.eq_dec x L); [reflexivity|contradiction]. Qed.
Lemma without_out f L x : ~ In x L -> without f L x = f x.
Proof. intros I. unfold without. destruct (in_dec Nat.eq_dec x L); [contradiction|reflexivity]. Qed.
Lemma destroy_ok h : forall n a L (hp : heap D) fuel, rep (mem hp) h n a L -> NoDup L -> h < fuel ->
  exists hp', Destroy fuel a hp = Some hp' /\ next hp' = next hp /\ forall x, mem hp' x = without (mem hp) L x.
Proof.
  unfold Destroy. induction h as [|h IH]; intros [d|level br] a L hp [|fuel] R N F; try lia; try destruct R as (-> & R); try (exfalso; exact R).
  - destruct R as (-> & es & _ & E). cbn [RemoveAllRec]. rewrite E. cbn [Nat.ltb Nat.leb]. unfold FreeNode. rewrite E. eexists. split; [reflexivity|]. split; [reflexivity|].
    intros x. cbn [mem set]. destruct (Nat.eqb_spec x a) as [->|X]; [rewrite without_in by (left; reflexivity); reflexivity|rewrite without_out; [reflexivity|]]. intros [Y|[]]. congruence.
  - destruct R as (cs & L' & -> & E & B). cbn [RemoveAllRec]. rewrite E. cbn [Nat.ltb Nat.leb].
    apply NoDup_cons_iff in N. destruct N as [Na N'].
    match goal with |- context [match ?f cs hp with _ => _ end] => set (loop := f) end.
    assert (G : forall br cs L', reps (rep (mem hp) h) br cs L' -> NoDup L' -> forall k, (forall x, In x L' -> mem k x = mem hp x) ->
      exists k', loop cs k = Some k' /\ next k' = next k /\ forall x, mem k' x = without (mem k) L' x).
    { clear -IH F. induction 1 as [|r n c L1 br cs L2 R1 B IHB]; intros N k K.
      - exists k. split; [reflexivity|]. split; [reflexivity|]. intros x. rewrite without_out by (intros []). reflexivity.
      - destruct (NoDup_app_inv _ _ N) as (N1 & N2 & X).
        destruct (IH n c L1 k fuel) as (k1 & E1 & Nx1 & M1); [apply (rep_frame (mem hp)); [exact R1|intros x I; apply K; apply in_or_app; left; exact I]|exact N1|lia|].
        destruct (IHB N2 k1) as (k2 & E2 & Nx2 & M2).
        { intros x I. rewrite M1, without_out by (intros J; exact (X x J I)). apply K. apply in_or_app. right. exact I. }
        exists k2. split; [cbn; rewrite E1; exact E2|]. split; [congruence|]. intros x. rewrite M2. unfold without at 1.
        destruct (in_dec Nat.eq_dec x L2) as [I|I].
        + rewrite without_in by (apply in_or_app; right; exact I). reflexivity.
        + rewrite M1. unfold without. destruct (in_dec Nat.eq_dec x L1) as [J|J].
          * destruct (in_dec Nat.eq_dec x (L1 ++ L2)) as [|W]; [reflexivity|]. exfalso. apply W. apply in_or_app. left. exact J.
          * destruct (in_dec Nat.eq_dec x (L1 ++ L2)) as [W|]; [|reflexivity]. apply in_app_or in W. tauto. }
    destruct (G br cs L' B N' hp) as (k & -> & Nx & Mk); [reflexivity|].
    unfold FreeNode. rewrite Mk, without_out, E by exact Na. eexists. split; [reflexivity|]. split; [exact Nx|].
    intros x. cbn [mem set]. destruct (Nat.eqb_spec x a) as [->|Xa]; [rewrite without_in by (left; reflexivity); reflexivity|]. rewrite Mk. unfold without.
    destruct (in_dec Nat.eq_dec x L') as [I|I], (in_dec Nat.eq_dec x (a :: L')) as [J|J]; try reflexivity; [exfalso; apply J; right; exact I|destruct J; [congruence|contradiction]].
Qed.

(** ** Copying *)
Lemma copy_rec_ok h : forall n c L (hp : heap D) fuel a, rep (mem hp) h n c L -> (forall x, In x L -> x < next hp) -> mem hp a <> None -> ~ In a L -> a < next hp -> h < fuel ->
  exists hp' L', CopyRecH fuel a c hp = Some hp' /\ next hp <= next hp' /\ rep (mem hp') h n a (a :: L') /\ NoDup (a :: L') /\
    (forall x, In x L' -> next hp <= x < next hp') /\ forall x, x <> a -> ~ In x L' -> mem hp' x = mem hp x.
Proof.
  induction h as [|h IH]; intros [d|level br] c L hp [|fuel] a R Lt Ma Na Ha F; try lia; try destruct R as (-> & R); try (exfalso; exact R); cbn [CopyRecH]; destruct (mem hp a) as [ca|]; try (exfalso; apply Ma; reflexivity); clear Ma.
  - destruct R as (-> & es & Eb & E). rewrite E.
    match goal with |- context [match ?f (map _ es) [] hp with _ => _ end] => set (loop := f) end.
    assert (G : forall es done, loop (map (fun e => (fst e, Dat (snd e))) es) done hp = Some (done ++ map (fun e => (fst e, Dat (snd e))) es, hp)).
    { clear. induction es as [|[r d] es IH]; intros done; [rewrite app_nil_r; reflexivity|]. cbn. etransitivity; [apply IH|]. rewrite <- app_assoc. reflexivity. }
    rewrite G. cbn [app]. exists (set hp a (Some (0, map (fun e => (fst e, Dat (snd e))) es))), []. split; [reflexivity|]. split; [reflexivity|].
    split; [split; [reflexivity|]; split; [reflexivity|]; exists es; split; [exact Eb|cbn [mem set]; rewrite Nat.eqb_refl; reflexivity]|].
    split; [constructor; [intros []|constructor]|]. split; [intros x []|]. intros x X _. cbn [mem set]. destruct (Nat.eqb_spec x a); [contradiction|reflexivity].
  - destruct R as (cs & L0 & -> & E & B). rewrite E.
    match goal with |- context [match ?f cs [] hp with _ => _ end] => set (loop := f) end.
    assert (G : forall br cs L0, reps (rep (mem hp) h) br cs L0 -> forall done k, (forall x, In x L0 -> mem k x = mem hp x) -> (forall x, In x L0 -> x < next k) ->
      exists cs' k' L', loop cs done k = Some (done ++ cs', k') /\ reps (rep (mem k') h) br cs' L' /\ NoDup L' /\ (forall x, In x L' -> next k <= x < next k') /\ next k <= next k' /\
        forall x, ~ In x L' -> mem k' x = mem k x).
    { clear -IH F. induction 1 as [|r n c L1 br cs L2 R1 B IHB]; intros done k K Kl.
      - exists [], k, []. split; [cbn; rewrite app_nil_r; reflexivity|]. split; [constructor|]. split; [constructor|]. split; [intros x []|]. split; [lia|reflexivity].
      - set (k0 := {| mem := fun x => if x =? next k then Some (0, []) else mem k x; next := S (next k) |}).
        assert (K0 : forall x, x < next k -> mem k0 x = mem k x) by (intros x Hx; cbn; destruct (Nat.eqb_spec x (next k)); [lia|reflexivity]).
        destruct (IH n c L1 k0 fuel (next k)) as (k1 & L1' & E1 & Nx1 & Rp1 & Nd1 & In1 & Fr1).
        { apply (rep_frame (mem hp)); [exact R1|]. intros x I. rewrite K0 by (apply Kl; apply in_or_app; left; exact I). apply K. apply in_or_app. left. exact I. }
        { intros x I. cbn. specialize (Kl x). specialize (Kl ltac:(apply in_or_app; left; exact I)). lia. }
        { cbn. rewrite Nat.eqb_refl. discriminate. }
        { intros I. specialize (Kl (next k) ltac:(apply in_or_app; left; exact I)). lia. } { cbn. lia. } { lia. }
        cbn [next] in In1, Nx1. change (next k0) with (S (next k)) in *.
        destruct (IHB (done ++ [(r, Child (next k))]) k1) as (cs' & k2 & L2' & E2 & Rp2 & Nd2 & In2 & Nx2 & Fr2).
        { intros x I. assert (x < next k) by (apply Kl; apply in_or_app; right; exact I). rewrite Fr1; [rewrite K0 by assumption; apply K; apply in_or_app; right; exact I|lia|]. intros J. specialize (In1 x J). lia. }
        { intros x I. assert (x < next k) by (apply Kl; apply in_or_app; right; exact I). lia. }
        exists ((r, Child (next k)) :: cs'), k2, ((next k :: L1') ++ L2'). 
        split; [cbn [loop AllocNode]; fold loop; fold k0; rewrite E1; etransitivity; [exact E2|]; rewrite <- app_assoc; reflexivity|].
        split; [constructor; [apply (rep_frame (mem k1)); [exact Rp1|]; intros x I; apply Fr2; intros J; specialize (In2 x J); destruct I as [<-|I]; [lia|specialize (In1 x I); lia]|exact Rp2]|].
        split.
        { clear -Nd1 Nd2 In1 In2 Nx1. assert (X : forall x, In x (next k :: L1') -> ~ In x L2') by (intros x I J; specialize (In2 x J); destruct I as [<-|I]; [lia|specialize (In1 x I); lia]).
          revert Nd1 X. generalize (next k :: L1'). intros l Nl X. induction l as [|y l IHl]; [exact Nd2|]. cbn [app]. apply NoDup_cons_iff in Nl. destruct Nl as [N1 N2]. constructor.
          - intros I. apply in_app_or in I. destruct I as [I|I]; [exact (N1 I)|exact (X y (or_introl eq_refl) I)].
          - apply IHl; [exact N2|]. intros x I. apply X. right. exact I. }
        split; [intros x I; apply in_app_or in I; destruct I as [[<-|I]|I]; [lia|specialize (In1 x I); lia|specialize (In2 x I); lia]|]. split; [lia|].
        intros x X. rewrite Fr2 by (intros J; apply X; apply in_or_app; right; exact J). rewrite Fr1; [|intros ->; apply X; left; reflexivity|intros J; apply X; right; apply in_or_app; left; exact J].
        cbn. destruct (Nat.eqb_spec x (next k)) as [->|]; [exfalso; apply X; left; reflexivity|reflexivity]. }
    destruct (G br cs L0 B [] hp) as (cs' & k & L' & EL & Rp & Nd & In' & Nx & Fr); [reflexivity|intros x I; apply Lt; right; exact I|]. rewrite EL. cbn [app].
    assert (NaL : ~ In a L') by (intros I; specialize (In' a I); lia).
    eexists _, L'. split; [reflexivity|]. split; [exact Nx|]. split.
    { split; [reflexivity|]. exists cs', L'. split; [reflexivity|]. split; [cbn [mem set]; rewrite Nat.eqb_refl; reflexivity|].
      apply (reps_frame (mem k)); [exact Rp|]. intros x I. cbn [mem set]. destruct (Nat.eqb_spec x a) as [->|]; [contradiction|reflexivity]. }
    split; [constructor; assumption|]. split; [exact In'|]. intros x X Y. cbn [mem set]. destruct (Nat.eqb_spec x a); [contradiction|]. apply Fr. exact Y.
Qed.
End Rep.

(** ** C191 *)
(** A tree made by the copy constructor holds the same, in memory of its own; either one can be
    destroyed while the other stays whole, and destroying both frees exactly their memory. *)
Theorem rtree_copy_independent : forall D h (n : item D) a L (hp : heap D) fuel,
  rep (mem hp) h n a L -> NoDup L -> (forall x, In x L -> x < next hp) -> h < fuel ->
  exists hp1 a1 L1, CopyTree fuel a hp = Some (hp1, a1) /\ rep (mem hp1) h n a L /\ rep (mem hp1) h n a1 L1 /\ disjoint L L1 /\
    (exists hp2, Destroy fuel a1 hp1 = Some hp2 /\ (forall x, ~ In x L1 -> mem hp2 x = mem hp x) /\ rep (mem hp2) h n a L) /\
    exists hp2, Destroy fuel a hp1 = Some hp2 /\ rep (mem hp2) h n a1 L1 /\
      exists hp3, Destroy fuel a1 hp2 = Some hp3 /\ (forall x, In x (L ++ L1) -> mem hp3 x = None) /\ forall x, ~ In x (L ++ L1) -> mem hp3 x = mem hp x.
Proof.
  intros D h n a L hp fuel R N Lt F. unfold CopyTree. cbn [AllocNode]. set (k0 := {| mem := fun x => if x =? next hp then Some (0, []) else mem hp x; next := S (next hp) |}).
  assert (K0 : forall x, x <> next hp -> mem k0 x = mem hp x) by (intros x Hx; cbn; destruct (Nat.eqb_spec x (next hp)); [contradiction|reflexivity]).
  assert (R0 : rep (mem k0) h n a L) by (apply (rep_frame (mem hp)); [exact R|]; intros x I; apply K0; specialize (Lt x I); lia).
  destruct (copy_rec_ok h n a L k0 fuel (next hp)) as (k1 & L' & E & Nx & Rp & Nd & In' & Fr); [exact R0|intros x I; cbn; specialize (Lt x I); lia|cbn; rewrite Nat.eqb_refl; discriminate|intros I; specialize (Lt _ I); lia|cbn; lia|exact F|].
  rewrite E. cbn [next k0] in In', Nx. set (L1 := next hp :: L') in *.
  assert (Dj : disjoint L L1) by (intros x I [<-|J]; [specialize (Lt _ I); lia|specialize (Lt x I); specialize (In' x J); cbn in In'; lia]).
  assert (Fr' : forall x, ~ In x L1 -> mem k1 x = mem hp x).
  { intros x X. rewrite Fr; [apply K0; intros ->; apply X; left; reflexivity|intros ->; apply X; left; reflexivity|intros J; apply X; right; exact J]. }
  assert (R1 : rep (mem k1) h n a L) by (apply (rep_frame (mem hp)); [exact R|]; intros x I; apply Fr'; intros J; exact (Dj x I J)).
  exists k1, (next hp), L1. split; [reflexivity|]. split; [exact R1|]. split; [exact Rp|]. split; [exact Dj|]. split.
  - destruct (destroy_ok h n (next hp) L1 k1 fuel Rp Nd F) as (k2 & E2 & _ & M2). exists k2. split; [exact E2|]. split; [intros x X; rewrite M2, without_out by exact X; apply Fr'; exact X|].
    apply (rep_frame (mem k1)); [exact R1|]. intros x I. rewrite M2. apply without_out. intros J. exact (Dj x I J).
  - destruct (destroy_ok h n a L k1 fuel R1 N F) as (k2 & E2 & _ & M2). exists k2. split; [exact E2|].
    assert (Rp2 : rep (mem k2) h n (next hp) L1) by (apply (rep_frame (mem k1)); [exact Rp|]; intros x J; rewrite M2; apply without_out; intros I; exact (Dj x I J)).
    split; [exact Rp2|]. destruct (destroy_ok h n (next hp) L1 k2 fuel Rp2 Nd F) as (k3 & E3 & _ & M3). exists k3. split; [exact E3|]. split.
    + intros x I. rewrite M3. apply in_app_or in I. unfold without. destruct (in_dec Nat.eq_dec x L1) as [|J]; [reflexivity|]. destruct I as [I|I]; [|contradiction]. rewrite M2. apply without_in. exact I.
    + intros x X. assert (~ In x L /\ ~ In x L1) as [X1 X2] by (split; intros I; apply X; apply in_or_app; tauto). rewrite M3, without_out, M2, without_out by assumption. apply Fr'. exact X2.
Qed.
Print Assumptions rtree_copy_independent.
(** C191 is false of assignment, for every two trees: afterwards the destructors of both free the same
    nodes, and the nodes the target had are never freed. *)
Theorem rtree_assign_refuted : forall D h1 h2 (n1 n2 : item D) a1 a2 L1 L2 (hp : heap D) fuel,
  rep (mem hp) h1 n1 a1 L1 -> rep (mem hp) h2 n2 a2 L2 -> NoDup L2 -> disjoint L1 L2 -> h2 < fuel ->
  let '(target, hp) := Assign a1 a2 hp in
  exists hp', Destroy fuel target hp = Some hp' /\ Destroy fuel a2 hp' = None /\ rep (mem hp') h1 n1 a1 L1.
Proof.
  intros D h1 h2 n1 n2 a1 a2 L1 L2 hp fuel R1 R2 N Dj F. cbn [Assign]. destruct (destroy_ok h2 n2 a2 L2 hp fuel R2 N F) as (k & E & _ & Mk).
  exists k. split; [exact E|]. split.
  - destruct fuel as [|fuel]; [lia|]. unfold Destroy. cbn [RemoveAllRec]. rewrite Mk, without_in by (exact (proj1 (rep_root _ _ _ _ _ R2))). reflexivity.
  - apply (rep_frame (mem hp)); [exact R1|]. intros x I. rewrite Mk. apply without_out. intros J. exact (Dj x I J).
Qed.
Print Assumptions rtree_assign_refuted.

(** ** Examples *)
(** Two trees in one heap: one with two leaves below its root, and an empty one. *)
Definition two_trees : heap Z :=
  {| mem := fun x => match x with
       | 0 => Some (1, [([(0, 1)]%Z, Child 1); ([(5, 9)]%Z, Child 2)])
       | 1 => Some (0, [([(0, 1)]%Z, Dat 7%Z)])
       | 2 => Some (0, [([(5, 6)]%Z, Dat 8%Z); ([(7, 9)]%Z, Dat 9%Z)])
       | 3 => Some (0, [])
       | _ => None end;
     next := 4 |}.
Definition first_tree : item Z := Node 1 [([(0, 1)]%Z, Node 0 [([(0, 1)]%Z, Data 7%Z)]); ([(5, 9)]%Z, Node 0 [([(5, 6)]%Z, Data 8%Z); ([(7, 9)]%Z, Data 9%Z)])].
Example two_trees_rep : rep (mem two_trees) 1 first_tree 0 [0; 1; 2] /\ rep (mem two_trees) 0 (Node 0 []) 3 [3] /\ NoDup [0; 1; 2] /\ disjoint [3] [0; 1; 2] /\ forall x, In x [0; 1; 2] -> x < next two_trees.
Proof.
  split; [|split; [|split; [|split]]].
  - split; [reflexivity|]. do 2 eexists. split; [reflexivity|]. split; [reflexivity|]. apply (reps_cons _ _ _ 1 [1] _ _ [2]).
    + split; [reflexivity|]. split; [reflexivity|]. exists [([(0, 1)]%Z, 7%Z)]. split; reflexivity.
    + apply (reps_cons _ _ _ 2 [2] _ _ []); [|constructor]. split; [reflexivity|]. split; [reflexivity|]. exists [([(5, 6)]%Z, 8%Z); ([(7, 9)]%Z, 9%Z)]. split; reflexivity.
  - split; [reflexivity|]. split; [reflexivity|]. exists []. split; reflexivity.
  - repeat constructor; cbn; lia.
  - intros x [<-|[]] I. cbn in I. lia.
  - cbn. intros x I. lia.
Qed.
Example two_trees_copy : match CopyTree 5 0 two_trees with
  | Some (hp, a) => a = 4 /\ mem hp 5 = Some (0, [([(0, 1)]%Z, Dat 7%Z)]) /\ match Destroy 5 0 hp with Some hp => mem hp 1 = None /\ mem hp 6 <> None | None => False end
  | None => False end.
Proof. cbn. repeat split. discriminate. Qed.
