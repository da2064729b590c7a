(** C205: the rectangles at an R-tree iterator are those of the data. *)
From Coq Require Import QArith ZArith List Bool Arith Lia Permutation.
From Verif Require Import AabModel RTreeModel RTreeProofs BoundsModel PropRTree.
Import ListNotations.
Open Scope nat_scope.

(** ** The invariant of RTreeIterProofs, with the rectangles *)
Section Iterator.
Context {D : Type}.
Variable dim : rpred.
Variables M m : nat.
Notation item := (item D). Notation branch := (Rect * item)%type.
Notation shaped := (@shaped D dim M m). Notation fits := (@fits D dim M m).
Hypothesis Hm : 1 <= m.

Definition data (l : list branch) : list (Rect * D) := flat_map branch_entries l.
Lemma data_cons b l : data (b :: l) = branch_entries b ++ data l.
Proof. reflexivity. Qed.
(** The elements of the stack from the top, at levels from [low] to [H], strictly increasing. *)
Fixpoint stack_ok (H low : nat) (s : @stack D) : Prop :=
  match s with
  | [] => True
  | (br, level, index) :: s => low <= level <= H /\ index < length br /\ Forall (fits level) br /\ stack_ok H (S level) s
  end.
Fixpoint pending (s : @stack D) : list (Rect * D) :=
  match s with [] => [] | (br, _, index) :: s => data (skipn index br) ++ pending s end.
Definition at_leaf (s : @stack D) : Prop := match s with [] => True | (_, level, _) :: _ => level = 0 end.
Lemma stack_length H s : forall low, stack_ok H low s -> length s <= S H - low.
Proof.
  induction s as [|[[br level] index] s IH]; intros low K; cbn [length stack_ok] in *; [lia|].
  destruct K as (A & _ & _ & K). specialize (IH _ K). lia.
Qed.
Lemma stack_low H s : forall low low', low' <= low -> stack_ok H low s -> stack_ok H low' s.
Proof. destruct s as [|[[br level] index] s]; intros low low' L K; [exact I|]. cbn [stack_ok] in *. intuition lia. Qed.
Lemma push_ok H level br index s : H < 32 -> level <= H -> stack_ok H (S level) s ->
  push (Node level br) index s = Some ((br, level, index) :: s).
Proof. intros L K S. cbn [push]. apply stack_length in S. destruct (Nat.ltb_spec (length s) 32); [reflexivity|lia]. Qed.
Lemma skipn_at {A} (l : list A) i x : nth_error l i = Some x -> skipn i l = x :: skipn (S i) l.
Proof. revert i. induction l as [|y l IH]; intros [|i] E; cbn in *; try discriminate; [congruence|]. apply IH. exact E. Qed.
Lemma skipn_none {A} (l : list A) i : length l <= i -> skipn i l = [].
Proof. apply skipn_all2. Qed.

Lemma descend H : H < 32 -> forall fuel br level index s, 1 <= level -> level <= fuel -> stack_ok H 0 ((br, level, index) :: s) ->
  exists s', FindNextData fuel ((br, level, index) :: s) = Some s' /\ stack_ok H 0 s' /\ at_leaf s' /\ pending s' = pending ((br, level, index) :: s).
Proof.
  intros L32. induction fuel as [|fuel IH]; intros br level index s L F K; [lia|]. cbn [FindNextData].
  destruct level as [|lv]; [lia|]. change (S lv =? 0) with false. cbn [stack_ok] in K. destruct K as (Lv & Li & A & K).
  destruct (nth_error br index) as [[r c]|] eqn:E; [|apply nth_error_None in E; lia].
  assert (Fc : fits (S lv) (r, c)) by (rewrite Forall_forall in A; apply A; eapply nth_error_In; exact E).
  destruct Fc as (_ & Sc & Mc & Cc). cbn [fst snd] in Sc, Mc, Cc. destruct (shaped_node dim M m lv c Sc) as (cbr & ->). cbn [size] in Mc.
  pose proof Sc as Sc'. apply shaped_iff in Sc'. destruct Sc' as (_ & _ & _ & Ac).
  assert (G : exists s1, (if index + 1 <? length br then push (Node (S lv) br) (index + 1) s else Some s) = Some s1 /\
    stack_ok H (S lv) s1 /\ pending s1 = data (skipn (S index) br) ++ pending s).
  { destruct (Nat.ltb_spec (index + 1) (length br)).
    - rewrite (push_ok H) by (assumption || lia). eexists. split; [reflexivity|]. split; [cbn [stack_ok]; repeat split; try lia; assumption|].
      cbn [pending]. replace (index + 1) with (S index) by lia. reflexivity.
    - exists s. split; [reflexivity|]. split; [eapply stack_low; [|exact K]; lia|]. rewrite skipn_none by lia. reflexivity. }
  destruct G as (s1 & -> & K1 & P1). rewrite (push_ok H) by (assumption || lia).
  assert (K2 : stack_ok H 0 ((cbr, lv, 0) :: s1)) by (cbn [stack_ok]; repeat split; try lia; assumption).
  assert (P2 : pending ((cbr, lv, 0) :: s1) = pending ((br, S lv, index) :: s)).
  { cbn [pending skipn]. rewrite P1, (skipn_at br index _ E), data_cons, <- app_assoc. reflexivity. }
  destruct (Nat.eqb_spec lv 0) as [->|N].
  - eexists. split; [reflexivity|]. split; [exact K2|]. split; [reflexivity|exact P2].
  - destruct (IH cbr lv 0 s1 ltac:(lia) ltac:(lia) K2) as (s' & E' & K' & A' & P'). exists s'. split; [exact E'|]. split; [exact K'|]. split; [exact A'|]. congruence.
Qed.
Lemma next_ok H fuel s : H < 32 -> H + 1 < fuel -> stack_ok H 0 s -> at_leaf s ->
  exists s', FindNextData fuel s = Some s' /\ stack_ok H 0 s' /\ at_leaf s' /\ pending s' = tl (pending s) /\
    (s = [] \/ exists r d, current s = Some d /\ GetBounds s = Some r /\ pending s = (r, d) :: pending s').
Proof.
  intros L32 F K A. destruct fuel as [|fuel]; [lia|]. destruct s as [|[[br level] index] s].
  - exists []. repeat (split; [reflexivity || exact I|]). left. reflexivity.
  - cbn [at_leaf] in A. subst level. cbn [stack_ok] in K. destruct K as (Lv & Li & Fr & K). cbn [FindNextData]. change (0 =? 0) with true.
    destruct (nth_error br index) as [[r it]|] eqn:E; [|apply nth_error_None in E; lia].
    assert (Fc : fits 0 (r, it)) by (rewrite Forall_forall in Fr; apply Fr; eapply nth_error_In; exact E).
    destruct Fc as (_ & d & Ed). cbn [snd] in Ed. subst it.
    assert (P : pending ((br, 0, index) :: s) = (r, d) :: data (skipn (S index) br) ++ pending s).
    { cbn [pending]. rewrite (skipn_at br index _ E), data_cons. reflexivity. }
    assert (Cu : current ((br, 0, index) :: s) = Some d) by (cbn [current]; rewrite E; reflexivity).
    assert (Bo : GetBounds ((br, 0, index) :: s) = Some r) by (cbn [GetBounds]; rewrite E; reflexivity).
    destruct (Nat.ltb_spec (index + 1) (length br)).
    + rewrite (push_ok H) by (assumption || lia). eexists. split; [reflexivity|].
      assert (P2 : pending ((br, 0, index + 1) :: s) = data (skipn (S index) br) ++ pending s) by (cbn [pending]; replace (index + 1) with (S index) by lia; reflexivity).
      split; [cbn [stack_ok]; repeat split; try lia; assumption|]. split; [reflexivity|]. split; [rewrite P, P2; reflexivity|].
      right. exists r, d. split; [exact Cu|]. split; [exact Bo|]. rewrite P, P2. reflexivity.
    + rewrite skipn_none in P by lia. cbn [data flat_map app] in P.
      assert (G : exists s', FindNextData fuel s = Some s' /\ stack_ok H 0 s' /\ at_leaf s' /\ pending s' = pending s).
      { destruct s as [|[[br' level'] index'] s].
        - exists []. destruct fuel; [lia|]. cbn. auto.
        - pose proof K as K0. cbn [stack_ok] in K0. apply descend; [exact L32|lia|lia|]. eapply stack_low; [|exact K]. lia. }
      destruct G as (s' & E' & K' & A' & P'). exists s'. split; [exact E'|]. split; [exact K'|]. split; [exact A'|].
      split; [rewrite P, P'; reflexivity|]. right. exists r, d. split; [exact Cu|]. split; [exact Bo|]. rewrite P, P'. reflexivity.
Qed.
Lemma first_ok H : H < 32 -> forall fuel h n s, h <= H -> h < fuel -> shaped h n -> stack_ok H (S h) s -> (s <> [] -> 1 <= size n) ->
  exists s', GetFirst fuel n s = Some s' /\ stack_ok H 0 s' /\ at_leaf s' /\ pending s' = entries n ++ pending s.
Proof.
  intros L32. induction fuel as [|fuel IH]; intros h n s L F Sn K Z; [lia|].
  destruct (shaped_node dim M m h n Sn) as (br & ->). apply shaped_iff in Sn. destruct Sn as (_ & LM & NE & A). cbn [GetFirst]. rewrite entries_node. fold (data br).
  destruct h as [|h]; [change (0 <? 0) with false|change (0 <? S h) with true]; cbn iota.
  - destruct br as [|b br].
    + exists s. split; [reflexivity|]. destruct s as [|x s]; [cbn; auto|]. exfalso. specialize (Z ltac:(discriminate)). cbn in Z. lia.
    + rewrite (push_ok H) by (assumption || lia). eexists. split; [reflexivity|]. split; [cbn [stack_ok length]; repeat split; try lia; assumption|]. split; reflexivity.
  - specialize (NE ltac:(lia)). destruct br as [|[r c] br]; [congruence|].
    pose proof (Forall_inv A) as (Kc & Sc & Mc & Cc). cbn [fst snd] in Sc, Mc, Cc.
    assert (G : exists s1, (if 1 <? length ((r, c) :: br) then push (Node (S h) ((r, c) :: br)) 1 s else Some s) = Some s1 /\
      stack_ok H (S h) s1 /\ pending s1 = data br ++ pending s).
    { destruct (Nat.ltb_spec 1 (length ((r, c) :: br))) as [X|X].
      - rewrite (push_ok H) by (assumption || lia). eexists. split; [reflexivity|]. split; [cbn [stack_ok]; repeat split; try lia; assumption|reflexivity].
      - exists s. split; [reflexivity|]. split; [eapply stack_low; [|exact K]; lia|]. cbn in X. destruct br; [reflexivity|cbn in X; lia]. }
    destruct G as (s1 & -> & K1 & P1).
    destruct (IH h c s1 ltac:(lia) ltac:(lia) Sc K1 ltac:(lia)) as (s' & E' & K' & A' & P').
    exists s'. split; [exact E'|]. split; [exact K'|]. split; [exact A'|].
    rewrite P', P1, data_cons, <- app_assoc. rewrite (branch_entries_node dim M m r c h Sc). reflexivity.
Qed.
Lemma iterate_bounds_ok H fuel : H < 32 -> H + 1 < fuel -> forall fuel1 s, stack_ok H 0 s -> at_leaf s -> length (pending s) < fuel1 ->
  iterate_bounds fuel1 fuel s = Some (pending s).
Proof.
  intros L32 F. induction fuel1 as [|fuel1 IH]; intros s K A L; [lia|]. cbn [iterate_bounds].
  destruct (next_ok H fuel s L32 F K A) as (s' & E & K' & A' & _ & [->|(r & d & C & Bo & P)]); [reflexivity|].
  destruct s as [|x s]; [reflexivity|]. rewrite C, Bo, E, P. rewrite P in L. cbn [length] in L. rewrite IH by (assumption || lia). reflexivity.
Qed.
End Iterator.

Lemma bounds_shaped {D} (dim : nat) M m h (root : item D) : 1 <= m -> shaped dim M m h root -> h < 32 ->
  exists s, GetFirst (S h) root [] = Some s /\
    forall fuel1 fuel, length (entries root) < fuel1 -> h + 1 < fuel -> iterate_bounds fuel1 fuel s = Some (entries root).
Proof.
  intros Hm S H32.
  destruct (first_ok dim M m Hm h H32 (Datatypes.S h) h root [] ltac:(lia) ltac:(lia) S I) as (s & E & K & A & P); [congruence|].
  cbn [pending] in P. rewrite app_nil_r in P. exists s. split; [exact E|]. intros fuel1 fuel L F. rewrite <- P.
  apply (iterate_bounds_ok dim M m Hm h fuel H32 F); [exact K|exact A|]. rewrite P. exact L.
Qed.
(** C205: after any history of insertions and removals the loop over an iterator reads every entry left
    once, with the rectangle it was inserted with. *)
Theorem rtree_bounds_history : forall D (dim : nat) M m vol (deqb : D -> D -> bool) ops root,
  capacities M m -> 2 <= m -> volume_ok vol -> Forall (op_dim dim) ops ->
  run M m vol Qminus deqb ops empty = Some root -> (Z.of_nat (length (inserted ops)) < 2 ^ 32)%Z ->
  exists s all k L, GetFirst (S (level_of root)) root [] = Some s /\
    (forall fuel1 fuel, length (inserted ops) < fuel1 -> level_of root + 1 < fuel -> iterate_bounds fuel1 fuel s = Some all) /\
    stored deqb ops [] k L /\ Permutation all L.
Proof.
  intros D dim M m vol deqb ops root C C2 V K R B.
  destruct (run_history dim M m vol deqb ops C C2 V K empty [] (empty_root dim M m) (Permutation_refl _)) as (root' & k & L & E & (h & S & Zr) & St & P & N).
  rewrite E in R. injection R as ->. cbn [length] in N.
  assert (H32 : h < 32).
  { destruct (Nat.lt_ge_cases h 32) as [|G]; [assumption|exfalso]. pose proof (entries_many dim M m C2 h root S) as X. specialize (Zr ltac:(lia)).
    rewrite (Permutation_length P) in X.
    assert (Y : (2 ^ 32 <= 2 ^ Z.of_nat h)%Z) by (apply Z.pow_le_mono_r; lia).
    assert (W : (2 ^ Z.of_nat h)%Z = Z.of_nat (2 ^ h)) by (rewrite Nat2Z.inj_pow; reflexivity).
    assert (U : 1 * 2 ^ h <= size root * 2 ^ h) by (apply Nat.mul_le_mono_r; lia). lia. }
  destruct (bounds_shaped dim M m h root ltac:(lia) S H32) as (s & G & It).
  assert (Lv : level_of root = h) by (destruct (shaped_node _ _ _ _ root S) as (br & ->); reflexivity). rewrite Lv.
  exists s, (entries root), k, L. split; [exact G|]. split; [|split; [exact St|exact P]].
  intros fuel1 fuel F1 F. apply It; [rewrite (Permutation_length P); lia|exact F].
Qed.
Print Assumptions rtree_bounds_history.
(** Insertions alone, for every minimal fill and up to 32 levels. *)
Theorem rtree_bounds : forall D (dim : nat) M m vol (deqb : D -> D -> bool) ops root,
  capacities M m -> volume_ok vol -> Forall (op_dim dim) ops -> Forall is_ins ops ->
  run M m vol Qminus deqb ops empty = Some root -> level_of root < 32 ->
  exists s all, GetFirst (S (level_of root)) root [] = Some s /\
    (forall fuel1 fuel, length ops < fuel1 -> level_of root + 1 < fuel -> iterate_bounds fuel1 fuel s = Some all) /\
    Permutation all (inserted ops).
Proof.
  intros D dim M m vol deqb ops root C V K I R H32.
  destruct (run_inserts dim M m vol deqb ops C V I K empty 0 (empty_shaped dim M m)) as (root' & h & E & S & P). rewrite E in R. injection R as ->.
  cbn in P. rewrite app_nil_r in P.
  assert (Lv : level_of root = h) by (destruct (shaped_node _ _ _ _ root S) as (br & ->); reflexivity). rewrite Lv in *.
  destruct (bounds_shaped dim M m h root ltac:(destruct C; lia) S H32) as (s & G & It).
  exists s, (entries root). split; [exact G|]. split; [|exact P].
  intros fuel1 fuel F1 F. apply It; [|exact F]. rewrite (Permutation_length P).
  assert (N : length (inserted ops) <= length ops) by (clear; induction ops as [|[]]; cbn; lia). lia.
Qed.
Print Assumptions rtree_bounds.
(** C56 is false for a minimal fill of one: the root may lose all its branches and stay an inner node;
    GetFirst then follows a branch that is not there. *)
Theorem rtree_iterator_refuted : exists M m ops root,
  m = M / 2 /\ capacities M m /\ Forall (op_dim 2) ops /\
  run M m RectVolume Qminus Z.eqb ops empty = Some root /\ Count root = Some 0 /\
  forall fuel, GetFirst fuel root [] = None.
Proof.
  exists 2, 1, (ins_all (strip 5) ++ del_all (strip 5)). eexists.
  split; [reflexivity|]. split; [unfold capacities; lia|]. split; [repeat constructor|].
  split; [vm_compute; reflexivity|]. split; [vm_compute; reflexivity|]. intros [|fuel]; reflexivity.
Qed.
Print Assumptions rtree_iterator_refuted.

(** ** Examples *)
Example rtree_bounds_nonvacuous : exists root,
  run 4 2 RectVolume Qminus Z.eqb (ins_all (strip 20) ++ del_all (firstn 5 (strip 20))) empty = Some root /\
  capacities 4 2 /\ volume_ok RectVolume /\ Forall (op_dim 2) (ins_all (strip 20) ++ del_all (firstn 5 (strip 20))) /\
  match GetFirst 10 root [] with
  | Some s => match iterate_bounds 50 10 s with Some l => length l = 15 /\ In ([(7, 8); (0, 1)]%Z, 7%Z) l | None => False end
  | None => False
  end.
Proof.
  eexists. split; [vm_compute; reflexivity|]. split; [unfold capacities; lia|]. split; [exact RectVolume_ok|]. split; [repeat constructor|].
  vm_compute. split; [reflexivity|]. tauto.
Qed.
