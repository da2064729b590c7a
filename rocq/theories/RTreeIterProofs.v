(** Proofs about the R-tree iterator and about removal. *)
From Coq Require Import QArith ZArith List Bool Arith Lia Permutation.
From Verif Require Import AabModel AabProofs RTreeModel RTreeProofs.
Import ListNotations.
Open Scope nat_scope.

Section Iterator.
Context {D : Type}.
Variable dim : rpred.
Variables M m : nat.
Notation item := (item D). Notation branch := (Rect * item)%type.
Notation shaped := (@shaped D dim M m). Notation fits := (@fits D dim M m).
Hypothesis Hm : 1 <= m.

Definition data (l : list branch) : list D := map snd (flat_map branch_entries l).
Lemma data_cons b l : data (b :: l) = map snd (branch_entries b) ++ data l.
Proof. unfold data. cbn [flat_map]. apply map_app. Qed.
(** The elements of the stack from the top, at levels from [low] to [H], strictly increasing. *)
Fixpoint stack_ok (H low : nat) (s : @stack D) : Prop :=
  match s with
  | [] => True
  | (br, level, index) :: s => low <= level <= H /\ index < length br /\ Forall (fits level) br /\ stack_ok H (S level) s
  end.
Fixpoint pending (s : @stack D) : list D :=
  match s with [] => [] | (br, _, index) :: s => data (skipn index br) ++ pending s end.
Definition at_leaf (s : @stack D) : Prop := match s with [] => True | (_, level, _) :: _ => level = 0 end.
Lemma stack_length H s : forall low, stack_ok H low s -> length s <= S H - low.
Proof.
  induction s as [|[[br level] index] s IH]; intros low K; cbn [length stack_ok] in *; [lia|].
  destruct K as (A & _ & _ & K). specialize (IH _ K). lia.
Qed.
Lemma stack_low H s : forall low low', low' <= low -> stack_ok H low s -> stack_ok H low' s.
Proof. destruct s as [|[[br level] index] s]; intros low low' L K; [exact I|]. cbn [stack_ok] in *. intuition lia. Qed.
Lemma push_ok H level br index s : H < 32 -> level <= H -> stack_ok H (S level) s ->
  push (Node level br) index s = Some ((br, level, index) :: s).
Proof. intros L K S. cbn [push]. apply stack_length in S. destruct (Nat.ltb_spec (length s) 32); [reflexivity|lia]. Qed.
Lemma skipn_at {A} (l : list A) i x : nth_error l i = Some x -> skipn i l = x :: skipn (S i) l.
Proof. revert i. induction l as [|y l IH]; intros [|i] E; cbn in *; try discriminate; [congruence|]. apply IH. exact E. Qed.
Lemma skipn_none {A} (l : list A) i : length l <= i -> skipn i l = [].
Proof. apply skipn_all2. Qed.

Lemma descend H : H < 32 -> forall fuel br level index s, 1 <= level -> level <= fuel -> stack_ok H 0 ((br, level, index) :: s) ->
  exists s', FindNextData fuel ((br, level, index) :: s) = Some s' /\ stack_ok H 0 s' /\ at_leaf s' /\ pending s' = pending ((br, level, index) :: s).
Proof.
  intros L32. induction fuel as [|fuel IH]; intros br level index s L F K; [lia|]. cbn [FindNextData].
  destruct level as [|lv]; [lia|]. change (S lv =? 0) with false. cbn [stack_ok] in K. destruct K as (Lv & Li & A & K).
  destruct (nth_error br index) as [[r c]|] eqn:E; [|apply nth_error_None in E; lia].
  assert (Fc : fits (S lv) (r, c)) by (rewrite Forall_forall in A; apply A; eapply nth_error_In; exact E).
  destruct Fc as (_ & Sc & Mc & Cc). cbn [fst snd] in Sc, Mc, Cc. destruct (shaped_node dim M m lv c Sc) as (cbr & ->). cbn [size] in Mc.
  pose proof Sc as Sc'. apply shaped_iff in Sc'. destruct Sc' as (_ & _ & _ & Ac).
  assert (G : exists s1, (if index + 1 <? length br then push (Node (S lv) br) (index + 1) s else Some s) = Some s1 /\
    stack_ok H (S lv) s1 /\ pending s1 = data (skipn (S index) br) ++ pending s).
  { destruct (Nat.ltb_spec (index + 1) (length br)).
    - rewrite (push_ok H) by (assumption || lia). eexists. split; [reflexivity|]. split; [cbn [stack_ok]; repeat split; try lia; assumption|].
      cbn [pending]. replace (index + 1) with (S index) by lia. reflexivity.
    - exists s. split; [reflexivity|]. split; [eapply stack_low; [|exact K]; lia|]. rewrite skipn_none by lia. reflexivity. }
  destruct G as (s1 & -> & K1 & P1). rewrite (push_ok H) by (assumption || lia).
  assert (K2 : stack_ok H 0 ((cbr, lv, 0) :: s1)) by (cbn [stack_ok]; repeat split; try lia; assumption).
  assert (P2 : pending ((cbr, lv, 0) :: s1) = pending ((br, S lv, index) :: s)).
  { cbn [pending skipn]. rewrite P1, (skipn_at br index _ E), data_cons, <- app_assoc. reflexivity. }
  destruct (Nat.eqb_spec lv 0) as [->|N].
  - eexists. split; [reflexivity|]. split; [exact K2|]. split; [reflexivity|exact P2].
  - destruct (IH cbr lv 0 s1 ltac:(lia) ltac:(lia) K2) as (s' & E' & K' & A' & P'). exists s'. split; [exact E'|]. split; [exact K'|]. split; [exact A'|]. congruence.
Qed.
Lemma next_ok H fuel s : H < 32 -> H + 1 < fuel -> stack_ok H 0 s -> at_leaf s ->
  exists s', FindNextData fuel s = Some s' /\ stack_ok H 0 s' /\ at_leaf s' /\ pending s' = tl (pending s) /\
    (s = [] \/ exists d, current s = Some d /\ pending s = d :: pending s').
Proof.
  intros L32 F K A. destruct fuel as [|fuel]; [lia|]. destruct s as [|[[br level] index] s].
  - exists []. repeat (split; [reflexivity || exact I|]). left. reflexivity.
  - cbn [at_leaf] in A. subst level. cbn [stack_ok] in K. destruct K as (Lv & Li & Fr & K). cbn [FindNextData]. change (0 =? 0) with true.
    destruct (nth_error br index) as [[r it]|] eqn:E; [|apply nth_error_None in E; lia].
    assert (Fc : fits 0 (r, it)) by (rewrite Forall_forall in Fr; apply Fr; eapply nth_error_In; exact E).
    destruct Fc as (_ & d & Ed). cbn [snd] in Ed. subst it.
    assert (P : pending ((br, 0, index) :: s) = d :: data (skipn (S index) br) ++ pending s).
    { cbn [pending]. rewrite (skipn_at br index _ E), data_cons. reflexivity. }
    assert (Cu : current ((br, 0, index) :: s) = Some d) by (cbn [current]; rewrite E; reflexivity).
    destruct (Nat.ltb_spec (index + 1) (length br)).
    + rewrite (push_ok H) by (assumption || lia). eexists. split; [reflexivity|].
      assert (P2 : pending ((br, 0, index + 1) :: s) = data (skipn (S index) br) ++ pending s) by (cbn [pending]; replace (index + 1) with (S index) by lia; reflexivity).
      split; [cbn [stack_ok]; repeat split; try lia; assumption|]. split; [reflexivity|]. split; [rewrite P, P2; reflexivity|].
      right. exists d. split; [exact Cu|]. rewrite P, P2. reflexivity.
    + rewrite skipn_none in P by lia. cbn [data flat_map map app] in P.
      assert (G : exists s', FindNextData fuel s = Some s' /\ stack_ok H 0 s' /\ at_leaf s' /\ pending s' = pending s).
      { destruct s as [|[[br' level'] index'] s].
        - exists []. destruct fuel; [lia|]. cbn. auto.
        - pose proof K as K0. cbn [stack_ok] in K0. apply descend; [exact L32|lia|lia|]. eapply stack_low; [|exact K]. lia. }
      destruct G as (s' & E' & K' & A' & P'). exists s'. split; [exact E'|]. split; [exact K'|]. split; [exact A'|].
      split; [rewrite P, P'; reflexivity|]. right. exists d. split; [exact Cu|]. rewrite P, P'. reflexivity.
Qed.
Lemma first_ok H : H < 32 -> forall fuel h n s, h <= H -> h < fuel -> shaped h n -> stack_ok H (S h) s -> (s <> [] -> 1 <= size n) ->
  exists s', GetFirst fuel n s = Some s' /\ stack_ok H 0 s' /\ at_leaf s' /\ pending s' = map snd (entries n) ++ pending s.
Proof.
  intros L32. induction fuel as [|fuel IH]; intros h n s L F Sn K Z; [lia|].
  destruct (shaped_node dim M m h n Sn) as (br & ->). apply shaped_iff in Sn. destruct Sn as (_ & LM & NE & A). cbn [GetFirst]. rewrite entries_node. fold (data br).
  destruct h as [|h]; [change (0 <? 0) with false|change (0 <? S h) with true]; cbn iota.
  - destruct br as [|b br].
    + exists s. split; [reflexivity|]. destruct s as [|x s]; [cbn; auto|]. exfalso. specialize (Z ltac:(discriminate)). cbn in Z. lia.
    + rewrite (push_ok H) by (assumption || lia). eexists. split; [reflexivity|]. split; [cbn [stack_ok length]; repeat split; try lia; assumption|]. split; reflexivity.
  - specialize (NE ltac:(lia)). destruct br as [|[r c] br]; [congruence|].
    pose proof (Forall_inv A) as (Kc & Sc & Mc & Cc). cbn [fst snd] in Sc, Mc, Cc.
    assert (G : exists s1, (if 1 <? length ((r, c) :: br) then push (Node (S h) ((r, c) :: br)) 1 s else Some s) = Some s1 /\
      stack_ok H (S h) s1 /\ pending s1 = data br ++ pending s).
    { destruct (Nat.ltb_spec 1 (length ((r, c) :: br))) as [X|X].
      - rewrite (push_ok H) by (assumption || lia). eexists. split; [reflexivity|]. split; [cbn [stack_ok]; repeat split; try lia; assumption|reflexivity].
      - exists s. split; [reflexivity|]. split; [eapply stack_low; [|exact K]; lia|]. cbn in X. destruct br; [reflexivity|cbn in X; lia]. }
    destruct G as (s1 & -> & K1 & P1).
    destruct (IH h c s1 ltac:(lia) ltac:(lia) Sc K1 ltac:(lia)) as (s' & E' & K' & A' & P').
    exists s'. split; [exact E'|]. split; [exact K'|]. split; [exact A'|].
    rewrite P', P1, data_cons, <- app_assoc. rewrite (branch_entries_node dim M m r c h Sc). reflexivity.
Qed.
Lemma iterate_ok H fuel : H < 32 -> H + 1 < fuel -> forall fuel1 s, stack_ok H 0 s -> at_leaf s -> length (pending s) < fuel1 ->
  iterate fuel1 fuel s = Some (pending s).
Proof.
  intros L32 F. induction fuel1 as [|fuel1 IH]; intros s K A L; [lia|]. cbn [iterate].
  destruct (next_ok H fuel s L32 F K A) as (s' & E & K' & A' & _ & [->|(d & C & P)]); [reflexivity|].
  destruct s as [|x s]; [reflexivity|]. rewrite C, E, P. rewrite P in L. cbn [length] in L. rewrite IH by (assumption || lia). reflexivity.
Qed.
End Iterator.

Section Remove.
Context {D : Type}.
Variable dim : rpred.
Variables M m : nat.
Variable vol : Rect -> Q.
Variable sub : Q -> Q -> Q.
Variable deqb : D -> D -> bool.
Notation item := (item D). Notation branch := (Rect * item)%type.
Notation shaped := (@shaped D dim M m). Notation fits := (@fits D dim M m).

Lemma disconnect_app (l1 : list branch) x l2 : Permutation (DisconnectBranch (l1 ++ x :: l2) (length l1)) (l1 ++ l2).
Proof.
  unfold DisconnectBranch. destruct l2 as [|y l2] using rev_ind.
  - rewrite rev_unit, upd_nth_app, removelast_last, app_nil_r. reflexivity.
  - rewrite app_comm_cons, app_assoc, rev_unit. rewrite <- app_assoc, <- app_comm_cons, upd_nth_app.
    rewrite app_comm_cons, app_assoc, removelast_last, app_assoc, <- (Permutation_cons_append (l1 ++ l2) y), <- Permutation_middle. reflexivity.
Qed.

(** The result of a removal below a node. *)
Definition removed (id : D) (h : nat) (n n' : item) (gone : list item) : Prop :=
  shaped h n' /\ size n <= S (size n') /\ Forall (fun g => exists hg, hg < h /\ shaped hg g) gone /\
  exists e, deqb (snd e) id = true /\ Permutation (entries n) (e :: entries n' ++ flat_map entries gone).
Definition absent (q : Rect) (id : D) (l : list (Rect * D)) : Prop :=
  forall e, In e l -> overlap q (fst e) = true -> deqb (snd e) id = true -> False.

Lemma RemoveRectRec_ok q id : 2 <= m -> forall h n, shaped h n -> (0 < h -> 2 <= size n) ->
  (RemoveRectRec m deqb q id n = Some None /\ absent q id (entries n)) \/
  exists n' gone, RemoveRectRec m deqb q id n = Some (Some (n', gone)) /\ removed id h n n' gone.
Proof.
  intros Hm. induction h as [|h IH]; intros n Sn Zn; destruct (shaped_node dim M m _ n Sn) as (br & ->); apply shaped_iff in Sn; destruct Sn as (_ & LM & NE & A); cbn [RemoveRectRec].
  - change (0 <? 0) with false. cbn iota.
    match goal with |- context [?f br 0] => set (loop := f) end.
    assert (G : forall l l1, br = l1 ++ l -> absent q id (flat_map branch_entries l1) ->
      (loop l (length l1) = Some None /\ absent q id (flat_map branch_entries br)) \/
      exists n' gone, loop l (length l1) = Some (Some (n', gone)) /\ removed id 0 (Node 0 br) n' gone).
    { induction l as [|[r it] l IHl]; intros l1 E Ab.
      - left. split; [reflexivity|]. rewrite E, app_nil_r. exact Ab.
      - assert (B : fits 0 (r, it)) by (rewrite Forall_forall in A; apply A; rewrite E; apply in_elt). destruct B as (_ & d & Ed). cbn [snd] in Ed. subst it.
        cbn [loop]. unfold loop. fold loop. destruct (deqb d id) eqn:Q.
        + right. do 2 eexists. split; [reflexivity|]. pose proof (disconnect_app l1 (r, Data d) l) as P. rewrite <- E in P.
          pose proof (Permutation_length P) as PL. rewrite app_length in PL. rewrite E, app_length in LM. cbn [length] in LM.
          split; [|split; [|split; [constructor|]]].
          * apply shaped_iff. split; [reflexivity|]. split; [lia|]. split; [lia|]. apply (Permutation_Forall (Permutation_sym P)).
            rewrite E in A. apply Forall_app in A. destruct A as [A1 A2]. apply Forall_app. split; [exact A1|]. inversion A2; assumption.
          * cbn [size]. rewrite PL, E, app_length. cbn [length]. lia.
          * exists (r, d). split; [exact Q|]. cbn [flat_map]. rewrite app_nil_r, !entries_node, (flat_map_perm _ _ _ P), E, !flat_map_app. cbn [flat_map].
            change (branch_entries (r, Data d)) with [(r, d)]. cbn [app]. symmetry. apply Permutation_middle.
        + destruct (IHl (l1 ++ [(r, Data d)])) as [X|X].
          * rewrite <- app_assoc. exact E.
          * rewrite flat_map_app. intros e I O X. apply in_app_or in I. destruct I as [I|[<-|[]]]; [exact (Ab e I O X)|]. cbn in X. congruence.
          * left. rewrite app_length, Nat.add_comm in X. exact X.
          * right. rewrite app_length, Nat.add_comm in X. exact X. }
    rewrite entries_node. apply (G br [] eq_refl). intros e [].
  - change (0 <? S h) with true. cbn iota.
    match goal with |- context [?f br 0] => set (loop := f) end.
    specialize (Zn ltac:(lia)). cbn [size] in Zn.
    assert (G : forall l l1, br = l1 ++ l -> absent q id (flat_map branch_entries l1) ->
      (loop l (length l1) = Some None /\ absent q id (flat_map branch_entries br)) \/
      exists n' gone, loop l (length l1) = Some (Some (n', gone)) /\ removed id (S h) (Node (S h) br) n' gone).
    { induction l as [|[r c] l IHl]; intros l1 E Ab.
      - left. split; [reflexivity|]. rewrite E, app_nil_r. exact Ab.
      - assert (B : fits (S h) (r, c)) by (rewrite Forall_forall in A; apply A; rewrite E; apply in_elt). destruct B as (Kc & Sc & Mc & Cc). cbn [fst snd] in Sc, Mc, Cc.
        assert (Next : absent q id (entries c) -> 
          (loop l (S (length l1)) = Some None /\ absent q id (flat_map branch_entries br)) \/
          exists n' gone, loop l (S (length l1)) = Some (Some (n', gone)) /\ removed id (S h) (Node (S h) br) n' gone).
        { intros Abc. destruct (IHl (l1 ++ [(r, c)])) as [X|X].
          - rewrite <- app_assoc. exact E.
          - rewrite flat_map_app. intros e I O X. apply in_app_or in I. destruct I as [I|I]; [exact (Ab e I O X)|].
            cbn [flat_map] in I. rewrite app_nil_r, (branch_entries_node dim M m r c h Sc) in I. exact (Abc e I O X).
          - left. rewrite app_length, Nat.add_comm in X. exact X.
          - right. rewrite app_length, Nat.add_comm in X. exact X. }
        unfold loop. fold loop. destruct (overlap q r) eqn:O.
        + destruct (IH c Sc ltac:(lia)) as [(-> & Abc)|(c' & gone & -> & Sc' & Zc & Gc & e & Qe & Pc)]; [exact (Next Abc)|].
          destruct (shaped_node dim M m h c' Sc') as (cbr & ->). right. cbn [size] in Zc.
          rewrite E in A, LM, Zn. rewrite app_length in LM, Zn. cbn [length] in LM, Zn. apply Forall_app in A. destruct A as [A1 A2]. apply Forall_inv_tail in A2.
          destruct (Nat.leb_spec m (length cbr)) as [K|K].
          * destruct (cover_nonempty cbr) as (cv & Ccv); [intros ->; cbn in K; lia|]. rewrite Ccv. do 2 eexists. split; [reflexivity|].
            rewrite E, upd_nth_app. split; [|split; [|split]].
            -- apply shaped_iff. rewrite app_length. cbn [length]. split; [reflexivity|]. split; [lia|]. split; [intros _; destruct l1; discriminate|].
               apply Forall_app. split; [exact A1|]. constructor; [|exact A2]. split; [exact (shaped_cover_length dim M m h (Node h cbr) cv Sc' Ccv)|]. split; [exact Sc'|]. split; [exact K|exact Ccv].
            -- cbn [size]. rewrite !app_length. cbn [length]. lia.
            -- eapply Forall_impl; [|exact Gc]. intros g (hg & L & Sg). exists hg. split; [lia|exact Sg].
            -- exists e. split; [exact Qe|]. rewrite !entries_node, !flat_map_app. cbn [flat_map]. rewrite (branch_entries_node dim M m r c h Sc), (branch_entries_node dim M m cv (Node h cbr) h Sc'), Pc.
               cbn [app]. rewrite <- Permutation_middle. apply perm_skip. rewrite <- !app_assoc. apply Permutation_app_head, Permutation_app_head, Permutation_app_comm.
          * do 2 eexists. split; [reflexivity|]. pose proof (disconnect_app l1 (r, c) l) as P. rewrite <- E in P.
            pose proof (Permutation_length P) as PL. rewrite app_length in PL. split; [|split; [|split]].
            -- apply shaped_iff. split; [reflexivity|]. split; [lia|]. split; [intros _ X; rewrite X in PL; cbn in PL; lia|].
               apply (Permutation_Forall (Permutation_sym P)). apply Forall_app. split; assumption.
            -- cbn [size]. rewrite PL, E, app_length. cbn [length]. lia.
            -- constructor; [exists h; split; [lia|exact Sc']|]. eapply Forall_impl; [|exact Gc]. intros g (hg & L & Sg). exists hg. split; [lia|exact Sg].
            -- exists e. split; [exact Qe|]. rewrite !entries_node, (flat_map_perm _ _ _ P), E, !flat_map_app. cbn [flat_map]. rewrite (branch_entries_node dim M m r c h Sc), Pc.
               cbn [app]. rewrite <- Permutation_middle. apply perm_skip. rewrite <- !app_assoc. apply Permutation_app_head.
               rewrite (app_assoc (entries (Node h cbr))). apply Permutation_app_comm.
        + apply Next. intros e I Oe _. rewrite (entry_cover dim M m q h c r e Sc Cc I Oe) in O. discriminate. }
    rewrite entries_node. apply (G br [] eq_refl). intros e [].
Qed.

Hypothesis Good : good_sub dim vol sub.
Hypothesis Hm : 2 <= m.
Hypothesis HM : 2 * m <= S M.

Lemma insert_all_ok k l : Forall (fits k) l -> forall h root, shaped h root -> k <= h ->
  exists root' h', insert_all M m vol sub l k root = Some root' /\ shaped h' root' /\ h <= h' /\
    (h' = h /\ size root <= size root' \/ 2 <= size root') /\
    Permutation (entries root') (flat_map branch_entries l ++ entries root).
Proof.
  induction 1 as [|b l F A IH]; intros h root Sr K; cbn [insert_all].
  - exists root, h. split; [reflexivity|]. split; [exact Sr|]. split; [lia|]. split; [left; lia|reflexivity].
  - destruct (InsertRect_ok dim M m vol sub Good ltac:(lia) HM ltac:(lia) k b h root F Sr K) as (r1 & h1 & -> & S1 & L1 & _ & Z1 & P1).
    destruct (IH h1 r1 S1 ltac:(lia)) as (r2 & h2 & -> & S2 & L2 & Z2 & P2).
    exists r2, h2. split; [reflexivity|]. split; [exact S2|]. split; [lia|]. split; [lia|].
    rewrite P2, P1. cbn [flat_map]. rewrite !app_assoc. apply Permutation_app_tail, Permutation_app_comm.
Qed.
Lemma reinsert_ok l : forall h root, Forall (fun g => exists hg, hg < h /\ shaped hg g) l -> shaped h root ->
  exists root' h', reinsert M m vol sub l root = Some root' /\ shaped h' root' /\ h <= h' /\
    (h' = h /\ size root <= size root' \/ 2 <= size root') /\
    Permutation (entries root') (flat_map entries l ++ entries root).
Proof.
  induction l as [|g l IH]; intros h root A Sr.
  - exists root, h. split; [reflexivity|]. split; [exact Sr|]. split; [lia|]. split; [left; lia|reflexivity].
  - pose proof (Forall_inv A) as (hg & Lg & Sg). apply Forall_inv_tail in A. destruct (shaped_node dim M m hg g Sg) as (br & ->). cbn [reinsert].
    apply shaped_iff in Sg. destruct Sg as (_ & _ & _ & Fg).
    destruct (insert_all_ok hg br Fg h root Sr ltac:(lia)) as (r1 & h1 & -> & S1 & L1 & Z1 & P1).
    destruct (IH h1 r1) as (r2 & h2 & -> & S2 & L2 & Z2 & P2); [eapply Forall_impl; [|exact A]; intros g (h' & L & X); exists h'; split; [lia|exact X]|exact S1|].
    exists r2, h2. split; [reflexivity|]. split; [exact S2|]. split; [lia|]. split; [lia|].
    rewrite P2, P1. cbn [flat_map]. rewrite entries_node, !app_assoc. apply Permutation_app_tail, Permutation_app_comm.
Qed.

(** The invariant of whole trees: an inner root has two branches or more. *)
Definition tree (n : item) : Prop := exists h, shaped h n /\ (0 < h -> 2 <= size n).
Lemma Remove_ok q id root : tree root ->
  (Remove M m vol sub deqb q id root = Some root /\ absent q id (entries root)) \/
  exists root' e, Remove M m vol sub deqb q id root = Some root' /\ tree root' /\ deqb (snd e) id = true /\ Permutation (entries root) (e :: entries root').
Proof.
  intros (h & Sr & Zr). unfold Remove.
  destruct (RemoveRectRec_ok q id Hm h root Sr Zr) as [(-> & Ab)|(n' & gone & -> & Sn & Zn & Gn & e & Qe & P)]; [left; auto|right].
  destruct (reinsert_ok gone h n' Gn Sn) as (r2 & h2 & -> & S2 & L2 & Z2 & P2).
  assert (PP : Permutation (entries root) (e :: entries r2)) by (rewrite P, P2; apply perm_skip, Permutation_app_comm).
  destruct (shaped_node dim M m h2 r2 S2) as (br & ->). pose proof S2 as S2'. apply shaped_iff in S2'. destruct S2' as (_ & LM & NE & A).
  assert (Big : 2 <= length br \/ length br <= 1) by lia.
  destruct h2 as [|h2].
  - exists (Node 0 br), e. split; [reflexivity|]. split; [exists 0; split; [exact S2|lia]|]. split; assumption.
  - specialize (NE ltac:(lia)). destruct br as [|[r c] [|b br]]; [congruence| |].
    + pose proof (Forall_inv A) as (Kc & Sc & Mc & Cc). cbn [fst snd] in Sc, Mc, Cc.
      exists c, e. split; [reflexivity|]. split; [exists h2; split; [exact Sc|lia]|]. split; [exact Qe|].
      rewrite PP, entries_node. cbn [flat_map]. rewrite app_nil_r, (branch_entries_node dim M m r c h2 Sc). reflexivity.
    + exists (Node (S h2) ((r, c) :: b :: br)), e. split; [reflexivity|]. split; [exists (S h2); split; [exact S2|cbn [size length]; lia]|]. split; assumption.
Qed.
Lemma Insert_ok r d root : dim r -> tree root -> exists root', Insert M m vol sub r d root = Some root' /\ tree root' /\ Permutation (entries root') ((r, d) :: entries root).
Proof.
  intros Kr (h & Sr & Zr). unfold Insert.
  destruct (InsertRect_ok dim M m vol sub Good ltac:(lia) HM ltac:(lia) 0 (r, Data d) h root) as (r1 & h1 & E & S1 & L1 & Z0 & Z1 & P1);
    [split; [exact Kr|exists d; reflexivity]|exact Sr|lia|].
  exists r1. split; [exact E|]. split; [|exact P1]. exists h1. split; [exact S1|]. intros H. destruct Z1 as [(-> & Z1)|Z1]; [specialize (Zr H)|]; lia.
Qed.
End Remove.
