(** Proofs about removals from R-trees with a minimal fill of one. *)
From Coq Require Import QArith ZArith List Bool Arith Lia Permutation.
From Verif Require Import RTreeModel RTreeProofs RTreeIterProofs.
Import ListNotations.
Open Scope nat_scope.

Section One.
Context {D : Type}.
Variable dim : rpred.
Variable M : nat.
Variable vol : Rect -> Q.
Variable sub : Q -> Q -> Q.
Variable deqb : D -> D -> bool.
Notation item := (item D). Notation branch := (Rect * item)%type.
Notation shaped := (@shaped D dim M 1). Notation fits := (@fits D dim M 1).

(** A tree, or an inner root that has lost all its branches. *)
Definition husk (h : nat) (n : item) : Prop := n = Node h [].
Definition removed1 (id : D) (h : nat) (n n' : item) (gone : list item) : Prop :=
  (shaped h n' \/ husk h n') /\ Forall (fun g => exists hg, husk hg g) gone /\
  exists e, deqb (snd e) id = true /\ Permutation (entries n) (e :: entries n').

Lemma RemoveRectRec_one q id : forall h n, shaped h n ->
  (RemoveRectRec 1 deqb q id n = Some None /\ absent deqb q id (entries n)) \/
  exists n' gone, RemoveRectRec 1 deqb q id n = Some (Some (n', gone)) /\ removed1 id h n n' gone.
Proof.
  induction h as [|h IH]; intros n Sn; destruct (shaped_node dim M 1 _ n Sn) as (br & ->); apply shaped_iff in Sn; destruct Sn as (_ & LM & NE & A); cbn [RemoveRectRec].
  - change (0 <? 0) with false. cbn iota.
    match goal with |- context [?f br 0] => set (loop := f) end.
    assert (G : forall l l1, br = l1 ++ l -> absent deqb q id (flat_map branch_entries l1) ->
      (loop l (length l1) = Some None /\ absent deqb q id (flat_map branch_entries br)) \/
      exists n' gone, loop l (length l1) = Some (Some (n', gone)) /\ removed1 id 0 (Node 0 br) n' gone).
    { induction l as [|[r it] l IHl]; intros l1 E Ab.
      - left. split; [reflexivity|]. rewrite E, app_nil_r. exact Ab.
      - assert (B : fits 0 (r, it)) by (rewrite Forall_forall in A; apply A; rewrite E; apply in_elt). destruct B as (_ & d & Ed). cbn [snd] in Ed. subst it.
        cbn [loop]. unfold loop. fold loop. destruct (deqb d id) eqn:Q.
        + right. do 2 eexists. split; [reflexivity|]. pose proof (disconnect_app l1 (r, Data d) l) as P. rewrite <- E in P.
          pose proof (Permutation_length P) as PL. rewrite app_length in PL. rewrite E, app_length in LM. cbn [length] in LM.
          split; [|split; [constructor|]].
          * left. apply shaped_iff. split; [reflexivity|]. split; [lia|]. split; [lia|]. apply (Permutation_Forall (Permutation_sym P)).
            rewrite E in A. apply Forall_app in A. destruct A as [A1 A2]. apply Forall_app. split; [exact A1|]. inversion A2; assumption.
          * exists (r, d). split; [exact Q|]. rewrite !entries_node, (flat_map_perm _ _ _ P), E, !flat_map_app. cbn [flat_map].
            change (branch_entries (r, Data d)) with [(r, d)]. cbn [app]. symmetry. apply Permutation_middle.
        + destruct (IHl (l1 ++ [(r, Data d)])) as [X|X].
          * rewrite <- app_assoc. exact E.
          * rewrite flat_map_app. intros e I O X. apply in_app_or in I. destruct I as [I|[<-|[]]]; [exact (Ab e I O X)|]. cbn in X. congruence.
          * left. rewrite app_length, Nat.add_comm in X. exact X.
          * right. rewrite app_length, Nat.add_comm in X. exact X. }
    rewrite entries_node. apply (G br [] eq_refl). intros e [].
  - change (0 <? S h) with true. cbn iota.
    match goal with |- context [?f br 0] => set (loop := f) end.
    assert (G : forall l l1, br = l1 ++ l -> absent deqb q id (flat_map branch_entries l1) ->
      (loop l (length l1) = Some None /\ absent deqb q id (flat_map branch_entries br)) \/
      exists n' gone, loop l (length l1) = Some (Some (n', gone)) /\ removed1 id (S h) (Node (S h) br) n' gone).
    { induction l as [|[r c] l IHl]; intros l1 E Ab.
      - left. split; [reflexivity|]. rewrite E, app_nil_r. exact Ab.
      - assert (B : fits (S h) (r, c)) by (rewrite Forall_forall in A; apply A; rewrite E; apply in_elt). destruct B as (Kc & Sc & Mc & Cc). cbn [fst snd] in Sc, Mc, Cc.
        assert (Next : absent deqb q id (entries c) -> 
          (loop l (S (length l1)) = Some None /\ absent deqb q id (flat_map branch_entries br)) \/
          exists n' gone, loop l (S (length l1)) = Some (Some (n', gone)) /\ removed1 id (S h) (Node (S h) br) n' gone).
        { intros Abc. destruct (IHl (l1 ++ [(r, c)])) as [X|X].
          - rewrite <- app_assoc. exact E.
          - rewrite flat_map_app. intros e I O X. apply in_app_or in I. destruct I as [I|I]; [exact (Ab e I O X)|].
            cbn [flat_map] in I. rewrite app_nil_r, (branch_entries_node dim M 1 r c h Sc) in I. exact (Abc e I O X).
          - left. rewrite app_length, Nat.add_comm in X. exact X.
          - right. rewrite app_length, Nat.add_comm in X. exact X. }
        unfold loop. fold loop. destruct (overlap q r) eqn:O.
        + destruct (IH c Sc) as [(-> & Abc)|(c' & gone & -> & Sc' & Gc & e & Qe & Pc)]; [exact (Next Abc)|].
          assert (Nc : exists cbr, c' = Node h cbr) by (destruct Sc' as [Sc'|Sc']; [exact (shaped_node dim M 1 h c' Sc')|exists []; exact Sc']).
          destruct Nc as (cbr & ->). right.
          rewrite E in A, LM. rewrite app_length in LM. cbn [length] in LM. apply Forall_app in A. destruct A as [A1 A2]. apply Forall_inv_tail in A2.
          destruct (Nat.leb_spec 1 (length cbr)) as [K|K].
          * destruct Sc' as [Sc'|Sc']; [|unfold husk in Sc'; injection Sc' as ->; cbn in K; lia].
            destruct (cover_nonempty cbr) as (cv & Ccv); [intros ->; cbn in K; lia|]. rewrite Ccv. do 2 eexists. split; [reflexivity|].
            rewrite E, upd_nth_app. split; [|split].
            -- left. apply shaped_iff. rewrite app_length. cbn [length]. split; [reflexivity|]. split; [lia|]. split; [intros _; destruct l1; discriminate|].
               apply Forall_app. split; [exact A1|]. constructor; [|exact A2]. split; [exact (shaped_cover_length dim M 1 h (Node h cbr) cv Sc' Ccv)|]. split; [exact Sc'|]. split; [exact K|exact Ccv].
            -- exact Gc.
            -- exists e. split; [exact Qe|]. rewrite !entries_node, !flat_map_app. cbn [flat_map]. rewrite (branch_entries_node dim M 1 r c h Sc), (branch_entries_node dim M 1 cv (Node h cbr) h Sc'), Pc.
               cbn [app]. rewrite <- Permutation_middle. apply perm_skip. reflexivity.
          * destruct cbr; [|cbn in K; lia]. do 2 eexists. split; [reflexivity|]. pose proof (disconnect_app l1 (r, c) l) as P. rewrite <- E in P.
            pose proof (Permutation_length P) as PL. rewrite app_length in PL. split; [|split].
            -- destruct (DisconnectBranch br (length l1)) as [|b db] eqn:Db; [right; reflexivity|left]. rewrite <- Db in *.
               apply shaped_iff. split; [reflexivity|]. split; [lia|]. split; [intros _; rewrite Db; discriminate|].
               apply (Permutation_Forall (Permutation_sym P)). apply Forall_app. split; assumption.
            -- constructor; [exists h; reflexivity|exact Gc].
            -- exists e. split; [exact Qe|]. rewrite !entries_node, (flat_map_perm _ _ _ P), E, !flat_map_app. cbn [flat_map]. rewrite (branch_entries_node dim M 1 r c h Sc), Pc.
               change (entries (Node h [])) with (@nil (Rect * D)). cbn [app]. symmetry. apply Permutation_middle.
        + apply Next. intros e I Oe _. rewrite (entry_cover dim M 1 q h c r e Sc Cc I Oe) in O. discriminate. }
    rewrite entries_node. apply (G br [] eq_refl). intros e [].
Qed.

Lemma reinsert_husks l root : Forall (fun g => exists hg, husk hg g) l -> reinsert M 1 vol sub l root = Some root.
Proof. induction 1 as [|g l (hg & ->) A IH]; [reflexivity|]. cbn [reinsert insert_all]. exact IH. Qed.

(** The invariant of whole trees. *)
Definition tree1 (n : item) : Prop := exists h, shaped h n \/ husk (S h) n.
Lemma Remove_one q id root : tree1 root ->
  (Remove M 1 vol sub deqb q id root = Some root /\ absent deqb q id (entries root)) \/
  exists root' e, Remove M 1 vol sub deqb q id root = Some root' /\ tree1 root' /\ deqb (snd e) id = true /\ Permutation (entries root) (e :: entries root').
Proof.
  intros (h & [Sr|Sr]); [|left; rewrite Sr; split; [reflexivity|intros e []]]. unfold Remove.
  destruct (RemoveRectRec_one q id h root Sr) as [(-> & Ab)|(n' & gone & -> & Sn & Gn & e & Qe & P)]; [left; auto|right].
  rewrite reinsert_husks by exact Gn. destruct Sn as [Sn|Sn].
  - destruct (shaped_node dim M 1 h n' Sn) as (br & ->). destruct h as [|h].
    + exists (Node 0 br), e. split; [reflexivity|]. split; [exists 0; left; exact Sn|]. split; assumption.
    + pose proof Sn as Sn'. apply shaped_iff in Sn'. destruct Sn' as (_ & LM & NE & A).
      specialize (NE ltac:(lia)). destruct br as [|[r c] [|b br]]; [congruence| |].
      * pose proof (Forall_inv A) as (Kc & Sc & Mc & Cc). cbn [fst snd] in Sc, Mc, Cc.
        exists c, e. split; [reflexivity|]. split; [exists h; left; exact Sc|]. split; [exact Qe|].
        rewrite P, entries_node. cbn [flat_map]. rewrite app_nil_r, (branch_entries_node dim M 1 r c h Sc). reflexivity.
      * exists (Node (S h) ((r, c) :: b :: br)), e. split; [reflexivity|]. split; [exists (S h); left; exact Sn|]. split; assumption.
  - rewrite Sn in *. exists (Node h []), e. split; [destruct h; reflexivity|]. split; [|split; assumption].
    destruct h as [|h]; [|exists h; right; reflexivity]. exists 0. left. apply shaped_iff. cbn [length]. repeat split; [lia|lia|constructor].
Qed.
Lemma Insert_husk r (d : D) h : Insert M 1 vol sub r d (Node (S h) []) = None.
Proof. reflexivity. Qed.
End One.
