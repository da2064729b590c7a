(** C213, C214: the memory of search trees and of joins. *)
From Coq Require Import QArith List Arith ZArith Lia Bool Permutation.
From Verif Require Import Arr AabModel OctreeModel TileMemModel PropTileMem JoinMemModel.
Import ListNotations.
Close Scope Z_scope.
Open Scope nat_scope.

(** * Specification: [clean] is from C211.  The blocks still live after some events, [None] when one was not allowed. *)
Definition left_over (strict : bool) (evs : list event) : option (list (form * nat)) :=
  fold_left (fun l e => do l <- l; allowed strict l e) evs (Some []).
(** The number of nodes of a tree. *)
Fixpoint nodes (t : onode) : nat :=
  match t with Leaf _ _ _ _ => 1 | Inner _ _ _ kids => S (fold_right (fun k n => nodes k + n) 0 kids) end.
(** The tree without the blocks. *)
Fixpoint erase (t : mnode) : onode :=
  match t with MLeaf _ b s c objs => Leaf b s c objs | MInner _ b s c kids => Inner b s c (map erase kids) end.

(** * The tree with blocks is the tree of OctreeModel *)
Lemma erase_box t : node_box (erase t) = m_box t.
Proof. destruct t; reflexivity. Qed.
Definition follows (add : onode -> wobj -> option onode) (madd : mnode -> wobj -> heap -> option (mnode * heap)) : Prop :=
  forall t o h, add (erase t) o = option_map (fun p => erase (fst p)) (madd t o h).
Lemma erase_kids add madd : follows add madd -> forall kids o h,
  add_kids add (map erase kids) o = option_map (fun p => (map erase (fst (fst p)), snd (fst p))) (m_add_kids madd kids o h).
Proof.
  intros F. induction kids as [|k r IH]; intros o h; [reflexivity|]. cbn [map add_kids m_add_kids]. unfold intersects. rewrite erase_box.
  destruct (intersect (m_box k) (o_box o)).
  - rewrite (F k o (happen (Use (m_blk k)) h)). destruct (madd k o _) as [[k' h1]|]; [|reflexivity]. cbn [option_map bind fst snd].
    rewrite (IH o h1). destruct (m_add_kids madd r o h1) as [[[r' n] h2]|]; reflexivity.
  - rewrite (IH o (happen (Use (m_blk k)) h)). destruct (m_add_kids madd r o _) as [[[r' n] h2]|]; reflexivity.
Qed.
Lemma erase_all add madd : follows add madd -> forall objs kids h,
  add_all add (map erase kids) objs = option_map (fun p => (map erase (fst (fst p)), snd (fst p))) (m_add_all madd kids objs h).
Proof.
  intros F. induction objs as [|o r IH]; intros kids h; [reflexivity|]. cbn [add_all m_add_all]. rewrite (erase_kids _ _ F kids o h).
  destruct (m_add_kids madd kids o h) as [[[k1 n1] h1]|]; [|reflexivity]. cbn [option_map bind fst snd].
  rewrite (IH k1 h1). destruct (m_add_all madd k1 r h1) as [[[k2 n2] h2]|]; reflexivity.
Qed.
Lemma erase_new_kids bs : forall h, map erase (fst (new_kids bs h)) = map new_node bs.
Proof.
  induction bs as [|b r IH]; intro h; [reflexivity|]. cbn [new_kids]. unfold new. specialize (IH (Heap (New Single (fresh h) :: trace h) (S (fresh h)))).
  destruct (new_kids r _) as [ks h']. cbn [fst map] in *. rewrite IH. reflexivity.
Qed.
Lemma erase_add f ts : follows (addObject f ts) (m_add f ts).
Proof.
  induction f as [|f IH]; intros t o h; [reflexivity|]. destruct t as [k b sz can objs|k b sz can kids]; cbn [erase addObject m_add m_blk].
  - destruct (_ =? _)%Z; [reflexivity|]. destruct (_ && _)%bool.
    + pose proof (erase_new_kids (octants b) (happen (Use k) h)) as E. destruct (new_kids (octants b) _) as [ks h1]. cbn [fst] in E. rewrite <- E.
      rewrite (erase_all _ _ IH _ ks h1). destruct (m_add_all _ ks _ h1) as [[[ks' n] h2]|]; [|reflexivity]. cbn [option_map bind fst snd].
      destruct (_ <=? _)%Z; reflexivity.
    + destruct (_ <? _)%Z; reflexivity.
  - destruct (_ =? _)%Z; [reflexivity|]. rewrite (erase_kids _ _ IH kids o (happen (Use k) h)).
    destruct (m_add_kids _ kids o _) as [[[ks n] h1]|]; reflexivity.
Qed.
Lemma erase_adds f ts objs : forall t h, insert_all f ts (erase t) objs = option_map (fun p => erase (fst p)) (m_adds f ts t objs h).
Proof.
  induction objs as [|o r IH]; intros t h; [reflexivity|]. cbn [insert_all m_adds]. rewrite (erase_add f ts t o h).
  destruct (m_add f ts t o h) as [[t1 h1]|]; [|reflexivity]. cbn [option_map bind fst]. apply IH.
Qed.

(** * Blocks *)
Fixpoint tblocks (t : mnode) : list (form * nat) :=
  match t with MLeaf k _ _ _ _ => [(Single, k)] | MInner k _ _ _ kids => (Single, k) :: flat_map tblocks kids end.
Fixpoint mnode_induction (P : mnode -> Prop) (L : forall k b s c objs, P (MLeaf k b s c objs))
  (I : forall k b s c kids, Forall P kids -> P (MInner k b s c kids)) (t : mnode) : P t :=
  match t with
  | MLeaf k b s c objs => L k b s c objs
  | MInner k b s c kids => I k b s c kids ((fix go (l : list mnode) : Forall P l :=
      match l with [] => Forall_nil P | x :: r => Forall_cons x (mnode_induction P L I x) (go r) end) kids)
  end.
Lemma tblocks_nodes t : length (tblocks t) = nodes (erase t).
Proof.
  induction t as [|k b s c kids IH] using mnode_induction; [reflexivity|]. cbn [tblocks erase nodes length]. f_equal.
  induction kids as [|x r IHr]; [reflexivity|]. cbn [flat_map map fold_right]. rewrite app_length, (Forall_inv IH), IHr; [reflexivity|exact (Forall_inv_tail IH)].
Qed.
Lemma blk_in t : In (m_blk t) (map snd (tblocks t)).
Proof. destruct t; left; reflexivity. Qed.

Section Memory.
Variable strict : bool.
Notation holds := (holds strict).
Lemma holds_tree_delete t : forall h R, holds h (tblocks t ++ R) -> holds (delete_tree t h) R.
Proof.
  induction t as [k b s c objs|k b s c kids IH] using mnode_induction; intros h R H; cbn [delete_tree tblocks] in *.
  - eapply holds_delete; [exact H|auto].
  - apply (holds_delete strict Single); [|auto]. revert h R H. induction kids as [|x r IHr]; intros h R H; [exact H|].
    cbn [fold_left flat_map] in *. apply IHr; [exact (Forall_inv_tail IH)|]. apply (Forall_inv IH). eapply holds_perm; [exact H|]. perm.
Qed.
Lemma holds_trees_delete kids : forall h R, holds h (flat_map tblocks kids ++ R) -> holds (fold_left (fun h c => delete_tree c h) kids h) R.
Proof.
  induction kids as [|x r IH]; intros h R H; [exact H|]. cbn [fold_left flat_map] in *. apply IH, holds_tree_delete. rewrite app_assoc. exact H.
Qed.
Lemma holds_tree_use t : forall h R, holds h (tblocks t ++ R) -> holds (use_tree t h) (tblocks t ++ R).
Proof.
  induction t as [k b s c objs|k b s c kids IH] using mnode_induction; intros h R H; cbn [use_tree].
  - apply holds_use; [exact H|]. left. reflexivity.
  - assert (H1 : holds (happen (Use k) h) (tblocks (MInner k b s c kids) ++ R)) by (apply holds_use; [exact H|left; reflexivity]).
    clear H. cbn [tblocks] in *. set (h1 := happen (Use k) h) in *. clearbody h1.
    enough (G : forall kids, Forall (fun t => forall h R, holds h (tblocks t ++ R) -> holds (use_tree t h) (tblocks t ++ R)) kids -> forall h R,
      holds h (flat_map tblocks kids ++ R) -> holds (fold_left (fun h c => use_tree c h) kids h) (flat_map tblocks kids ++ R)).
    { eapply holds_perm; [apply (G kids IH h1 ((Single, k) :: R)); eapply holds_perm; [exact H1|]|]; perm. }
    clear. induction kids as [|x r IHr]; intros F h R H; [exact H|]. cbn [fold_left flat_map] in *.
    eapply holds_perm; [apply (IHr (Forall_inv_tail F) _ (tblocks x ++ R))|perm].
    eapply holds_perm; [apply (Forall_inv F h (flat_map tblocks r ++ R)); eapply holds_perm; [exact H|]|]; perm.
Qed.
Definition keeps (madd : mnode -> wobj -> heap -> option (mnode * heap)) : Prop :=
  forall t o h t' h' R, madd t o h = Some (t', h') -> holds h (tblocks t ++ R) -> holds h' (tblocks t' ++ R).
Lemma holds_add_kids madd : keeps madd -> forall kids o h kids' n h' R, m_add_kids madd kids o h = Some (kids', n, h') ->
  holds h (flat_map tblocks kids ++ R) -> holds h' (flat_map tblocks kids' ++ R).
Proof.
  intros K. induction kids as [|k r IH]; intros o h kids' n h' R E H; cbn [m_add_kids] in E; [injection E as <- _ <-; exact H|].
  assert (H1 : holds (happen (Use (m_blk k)) h) (flat_map tblocks (k :: r) ++ R)).
  { apply holds_use; [exact H|]. cbn [flat_map]. rewrite !map_app, !in_app_iff. left. left. apply blk_in. }
  cbn [flat_map] in H1. set (h1 := happen (Use (m_blk k)) h) in *. clearbody h1. destruct (intersect (m_box k) (o_box o)).
  - destruct (madd k o h1) as [[k' h2]|] eqn:E1; cbn [bind] in E; [|discriminate E].
    destruct (m_add_kids madd r o h2) as [[[r' m] h3]|] eqn:E2; cbn [bind] in E; [|discriminate E]. injection E as <- _ <-. cbn [flat_map].
    eapply holds_perm; [apply (IH o h2 r' m h3 (tblocks k' ++ R) E2)|perm].
    eapply holds_perm; [apply (K _ _ _ _ _ (flat_map tblocks r ++ R) E1); eapply holds_perm; [exact H1|]|]; perm.
  - destruct (m_add_kids madd r o h1) as [[[r' m] h3]|] eqn:E2; cbn [bind] in E; [|discriminate E]. injection E as <- _ <-. cbn [flat_map].
    eapply holds_perm; [apply (IH o h1 r' m h3 (tblocks k ++ R) E2); eapply holds_perm; [exact H1|]|]; perm.
Qed.
Lemma holds_add_all madd : keeps madd -> forall objs kids h kids' n h' R, m_add_all madd kids objs h = Some (kids', n, h') ->
  holds h (flat_map tblocks kids ++ R) -> holds h' (flat_map tblocks kids' ++ R).
Proof.
  intros K. induction objs as [|o r IH]; intros kids h kids' n h' R E H; cbn [m_add_all] in E; [injection E as <- _ <-; exact H|].
  destruct (m_add_kids madd kids o h) as [[[k1 n1] h1]|] eqn:E1; cbn [bind] in E; [|discriminate E].
  destruct (m_add_all madd k1 r h1) as [[[k2 n2] h2]|] eqn:E2; cbn [bind] in E; [|discriminate E]. injection E as <- _ <-.
  eapply IH; [exact E2|]. eapply holds_add_kids; eassumption.
Qed.
Lemma holds_new_kids bs : forall h R, holds h R -> holds (snd (new_kids bs h)) (flat_map tblocks (fst (new_kids bs h)) ++ R).
Proof.
  induction bs as [|b r IH]; intros h R H; [exact H|]. cbn [new_kids]. pose proof (holds_new strict Single h R H) as N.
  destruct (new Single h) as [k h1]. cbn [fst snd] in N. specialize (IH h1 _ N). destruct (new_kids r h1) as [ks h2]. cbn [fst snd flat_map tblocks app] in *.
  eapply holds_perm; [exact IH|]. perm.
Qed.
Lemma holds_add f ts : keeps (m_add f ts).
Proof.
  induction f as [|f IH]; intros t o h t' h' R E H; [discriminate E|].
  assert (H1 : holds (happen (Use (m_blk t)) h) (tblocks t ++ R)).
  { apply holds_use; [exact H|]. rewrite map_app, in_app_iff. left. apply blk_in. }
  destruct t as [k b sz can objs|k b sz can kids]; cbn [m_add m_blk tblocks] in *; set (h1 := happen (Use k) h) in *; clearbody h1.
  - destruct (_ =? _)%Z; [injection E as <- <-; exact H1|]. destruct (_ && _)%bool.
    + pose proof (holds_new_kids (octants b) h1 _ H1) as N. destruct (new_kids (octants b) h1) as [ks h2]. cbn [fst snd] in N.
      destruct (m_add_all _ ks _ h2) as [[[ks' n] h3]|] eqn:E1; cbn [bind] in E; [|discriminate E].
      pose proof (holds_add_all _ IH _ _ _ _ _ _ _ E1 N) as N1. destruct (_ <=? _)%Z; injection E as <- <-; cbn [tblocks].
      * apply holds_trees_delete, N1.
      * eapply holds_perm; [exact N1|]. perm.
    + destruct (_ <? _)%Z; injection E as <- <-; exact H1.
  - destruct (_ =? _)%Z; [injection E as <- <-; exact H1|].
    destruct (m_add_kids _ kids o h1) as [[[ks n] h2]|] eqn:E1; cbn [bind] in E; [|discriminate E]. injection E as <- <-. cbn [tblocks].
    eapply holds_perm; [apply (holds_add_kids _ IH _ _ _ _ _ _ ((Single, k) :: R) E1); eapply holds_perm; [exact H1|]|]; perm.
Qed.
Lemma holds_adds f ts objs : forall t h t' h' R, m_adds f ts t objs h = Some (t', h') -> holds h (tblocks t ++ R) -> holds h' (tblocks t' ++ R).
Proof.
  induction objs as [|o r IH]; intros t h t' h' R E H; cbn [m_adds] in E; [injection E as <- <-; exact H|].
  destruct (m_add f ts t o h) as [[t1 h1]|] eqn:E1; cbn [bind] in E; [|discriminate E]. eapply IH; [exact E|]. eapply holds_add; eassumption.
Qed.
Lemma holds_build f ts b objs h t' h' R : m_build f ts b objs h = Some (t', h') -> holds h R -> holds h' (tblocks t' ++ R).
Proof.
  intros E H. unfold m_build in E. pose proof (holds_new strict Single h R H) as N. destruct (new Single h) as [k h1]. cbn [fst snd] in N.
  eapply holds_adds; [exact E|]. exact N.
Qed.
Lemma holds_intersect_round h R : holds h R -> holds (intersect_round h) R.
Proof.
  intro H. unfold intersect_round. pose proof (holds_new strict Array h R H) as H1. destruct (new Array h) as [d h1]. cbn [fst snd] in H1.
  assert (H2 : holds (happen (Use d) h1) ((Array, d) :: R)) by (apply holds_use; [exact H1|left; reflexivity]).
  pose proof (holds_new strict Array _ _ H2) as H3. destruct (new Array (happen (Use d) h1)) as [o h3]. cbn [fst snd] in H3.
  pose proof (holds_new strict Array _ _ H3) as H4. destruct (new Array h3) as [s h4]. cbn [fst snd] in H4.
  apply (holds_delete strict Array); [|auto]. apply (holds_delete strict Array); [|auto]. apply (holds_delete strict Array); [|auto].
  eapply holds_perm; [|apply perm_trans with ((Array, s) :: (Array, o) :: (Array, d) :: R); [apply Permutation_refl|perm]].
  repeat (apply holds_use; [|cbn [map snd In]; auto]). exact H4.
Qed.
Lemma iter_holds n (f : heap -> heap) R : (forall h, holds h R -> holds (f h) R) -> forall h, holds h R -> holds (Nat.iter n f h) R.
Proof. intros F. induction n as [|n IH]; intros h H; [exact H|]. cbn [Nat.iter nat_rect]. apply F, IH, H. Qed.
End Memory.

Lemma holds_segdist h R : holds false h R -> holds false (segdist_mem h) R.
Proof.
  intro H. unfold segdist_mem. pose proof (holds_new false Array _ _ H) as H1. destruct (new Array h) as [a h1]. cbn [fst snd] in H1.
  pose proof (holds_new false Array _ _ H1) as H2. destruct (new Array h1) as [b h2]. cbn [fst snd] in H2.
  pose proof (holds_new false Array _ _ H2) as H3. destruct (new Array h2) as [aa h3]. cbn [fst snd] in H3.
  pose proof (holds_new false Array _ _ H3) as H4. destruct (new Array h3) as [bb h4]. cbn [fst snd] in H4.
  do 4 (apply (holds_delete false Array); [|intro X; discriminate X]).
  eapply holds_perm; [|apply perm_trans with ((Array, bb) :: (Array, aa) :: (Array, b) :: (Array, a) :: R); [apply Permutation_refl|perm]].
  repeat (apply holds_use; [|cbn [map snd In]; auto 6]). exact H4.
Qed.
Lemma holds_distance_round r h R : holds false h R -> holds false (distance_round r h) R.
Proof.
  intro H. unfold distance_round. destruct (r_filled r); [|exact H].
  pose proof (holds_new false Array _ _ H) as H1. destruct (new Array h) as [d h1]. cbn [fst snd] in H1.
  apply (holds_delete false Array); [|intro X; discriminate X]. apply holds_use; [|left; reflexivity].
  destruct (r_aabb r); [exact H1|].
  pose proof (holds_new false Array _ _ H1) as H2. destruct (new Array h1) as [a h2]. cbn [fst snd] in H2.
  pose proof (holds_new false Array _ _ H2) as H3. destruct (new Array h2) as [o h3]. cbn [fst snd] in H3.
  do 2 (apply (holds_delete false Array); [|intro X; discriminate X]).
  eapply holds_perm; [|apply perm_trans with ((Array, o) :: (Array, a) :: (Array, d) :: R); [apply Permutation_refl|perm]].
  apply holds_use; [|cbn [map snd In]; auto]. apply iter_holds; [intros; apply holds_segdist; assumption|].
  repeat (apply holds_use; [|cbn [map snd In]; auto]). exact H3.
Qed.

Lemma holds_left s h L : holds s h L -> exists live, left_over s (rev (trace h)) = Some live /\ Permutation live L.
Proof.
  intros (l & E & P & _). exists l. split; [|exact P]. unfold left_over.
  rewrite <- (fold_left_rev_right (fun e l => do l <- l; allowed s l e)), rev_involutive. exact E.
Qed.
Lemma holds_clean s h : holds s h [] -> clean s (rev (trace h)).
Proof.
  intro H. destruct (holds_left s h [] H) as (l & E & P). apply Permutation_sym, Permutation_nil in P. subst l. exact E.
Qed.

(** C214.  Whatever objects are put into an octree and however often its nodes are divided and joined again: the tree is the one
    of OctreeModel, no node is used or deleted when it does not exist, the blocks in use are one for each node of the tree,
    and deleting the tree gives back every node exactly once, with delete. *)
Theorem octree_memory : forall fuel ts b objs,
  insert_all fuel ts (new_node b) objs = option_map (fun p => erase (fst p)) (m_build fuel ts b objs (Heap [] 0)) /\
  forall t h, m_build fuel ts b objs (Heap [] 0) = Some (t, h) ->
    (exists live, left_over true (rev (trace h)) = Some live /\ length live = nodes (erase t)) /\ clean true (rev (trace (delete_tree t h))).
Proof.
  intros fuel ts b objs. split.
  - unfold m_build. cbn [new]. exact (erase_adds fuel ts objs (MLeaf 0 b 0%Z true []) _).
  - intros t h E. pose proof (holds_build true fuel ts b objs _ t h [] E (holds_start true)) as H. split.
    + destruct (holds_left _ _ _ H) as (l & X & P). exists l. split; [exact X|]. rewrite (Permutation_length P), app_nil_r. apply tblocks_nodes.
    + apply holds_clean, holds_tree_delete, H.
Qed.
Print Assumptions octree_memory.

(** C213 for intersection joins: whatever the objects and the rounds, all memory is given back once and in the right way. *)
Theorem join_memory_intersect : forall fuel b objs rounds h, join_mem Intersecting fuel b objs rounds = Some h -> clean true (rev (trace h)).
Proof.
  intros fuel b objs rounds h E. unfold join_mem in E. destruct (m_build fuel 400 b objs (Heap [] 0)) as [[t h1]|] eqn:B; cbn [bind] in E; [|discriminate E].
  injection E as <-. pose proof (holds_build true fuel 400 b objs _ t h1 [] B (holds_start true)) as H. apply holds_clean.
  assert (H2 : holds true (after_filter Intersecting t (use_tree t h1)) []) by (apply holds_tree_delete, holds_tree_use, H).
  cbn [after_filter do_round] in *. revert H2. generalize (delete_tree t (use_tree t h1)). induction rounds as [|r rounds IH]; intros h2 H2; [exact H2|].
  cbn [fold_left do_round]. apply IH, holds_intersect_round, H2.
Qed.
Print Assumptions join_memory_intersect.

(** Full claim of C213: [clean true] for all three joins.  For nearest-neighbour and within joins: no memory is used or deleted
    when it does not exist or deleted twice, and all buffers of the rounds are given back, though with the wrong delete; but the
    nodes of the search tree, all of them, are left over. *)
Theorem join_memory_partial : forall q fuel b objs rounds h, join_mem q fuel b objs rounds = Some h -> q <> Intersecting ->
  exists t live, insert_all fuel 400 (new_node b) objs = Some t /\ left_over false (rev (trace h)) = Some live /\
    length live = nodes t /\ Forall (fun x => fst x = Single) live.
Proof.
  intros q fuel b objs rounds h E Q. unfold join_mem in E. destruct (m_build fuel 400 b objs (Heap [] 0)) as [[t h1]|] eqn:B; cbn [bind] in E; [|discriminate E].
  injection E as <-. destruct (octree_memory fuel 400 b objs) as (I & _). rewrite B in I. cbn [option_map fst] in I.
  pose proof (holds_build false fuel 400 b objs _ t h1 [] B (holds_start false)) as H. apply holds_tree_use in H. rewrite app_nil_r in H.
  replace (after_filter q t (use_tree t h1)) with (use_tree t h1) by (destruct q; [destruct (Q eq_refl)| |]; reflexivity).
  set (h2 := use_tree t h1) in *. clearbody h2.
  assert (G : holds false (fold_left (fun h r => do_round q r h) rounds h2) (tblocks t)).
  { revert h2 H. induction rounds as [|r rounds IH]; intros h2 H; [exact H|]. cbn [fold_left]. apply IH.
    destruct q; [destruct (Q eq_refl)| |]; apply holds_distance_round, H. }
  destruct (holds_left _ _ _ G) as (live & X & P). exists (erase t), live. split; [exact I|]. split; [exact X|]. split.
  - rewrite (Permutation_length P). apply tblocks_nodes.
  - eapply Permutation_Forall; [apply Permutation_sym, P|]. clear. induction t as [k b s c objs|k b s c kids IH] using mnode_induction; cbn [tblocks].
    + constructor; [reflexivity|constructor].
    + constructor; [reflexivity|]. induction kids as [|x r IHr]; [constructor|]. cbn [flat_map]. apply Forall_app. split; [exact (Forall_inv IH)|apply IHr, (Forall_inv_tail IH)].
Qed.
Print Assumptions join_memory_partial.
(** So no nearest-neighbour or within join gives back its memory, not even if delete and delete[] are taken as one. *)
Theorem join_memory_leak : forall q fuel b objs rounds h, join_mem q fuel b objs rounds = Some h -> q <> Intersecting ->
  ~ clean false (rev (trace h)).
Proof.
  intros q fuel b objs rounds h E Q C. destruct (join_memory_partial _ _ _ _ _ _ E Q) as (t & live & _ & X & L & _).
  unfold clean in C. unfold left_over in X. rewrite C in X. injection X as <-. destruct t; discriminate L.
Qed.
Print Assumptions join_memory_leak.
(** A wrong delete: one pair of segments on the processor. *)
Theorem join_delete_refuted : exists q fuel b objs rounds h, join_mem q fuel b objs rounds = Some h /\ left_over true (rev (trace h)) = None.
Proof.
  exists Within, 1, (Aab (fun _ => 0%Q) (fun _ => 8%Q)), [], [Round true false 1]. eexists. split; vm_compute; reflexivity.
Qed.
Print Assumptions join_delete_refuted.

(** Three objects of weight 300 in different corners: the root is divided, and two of its descendants. *)
Definition corner_box (l h : Q) : aab := Aab (fun _ => l) (fun _ => h).
Definition three : list wobj := [Wobj 1 1%Z (corner_box 0 1) 300%Z; Wobj 2 2%Z (corner_box 7 8) 300%Z; Wobj 3 3%Z (corner_box (13 # 2) 7) 300%Z].
Example three_built : exists t h, m_build 9 400 (corner_box 0 8) three (Heap [] 0) = Some (t, h) /\ nodes (erase t) = 25.
Proof. do 2 eexists. split; vm_compute; reflexivity. Qed.
Example three_joined : (exists h, join_mem Intersecting 9 (corner_box 0 8) three [Round true false 3; Round true false 2] = Some h /\ 40 < length (trace h)) /\
  exists h, join_mem Nearest 9 (corner_box 0 8) three [Round true false 3; Round false false 2; Round true true 0] = Some h /\ 60 < length (trace h).
Proof. split; eexists; (split; [vm_compute; reflexivity|]); vm_compute; lia. Qed.
(** C213 is false. *)
Theorem join_memory_refuted : exists q fuel b objs rounds h, join_mem q fuel b objs rounds = Some h /\ ~ clean true (rev (trace h)) /\ ~ clean false (rev (trace h)).
Proof.
  exists Nearest, 9, (corner_box 0 8), three, [Round true false 1]. eexists. split; [vm_compute; reflexivity|]. split; intro C; vm_compute in C; discriminate C.
Qed.
Print Assumptions join_memory_refuted.
(** Two objects across the middle: the division does not help, the eight children are deleted again. *)
Definition across : list wobj :=
  [Wobj 1 1%Z (Aab (fun a => match a with AX => 3%Q | _ => 0%Q end) (fun a => match a with AX => 5%Q | _ => 1%Q end)) 300%Z;
   Wobj 2 2%Z (Aab (fun a => match a with AX => 3%Q | _ => 7%Q end) (fun a => match a with AX => 5%Q | _ => 8%Q end)) 300%Z].
Example across_built : exists t h, m_build 9 400 (corner_box 0 8) across (Heap [] 0) = Some (t, h) /\ nodes (erase t) = 1 /\ fresh h = 9 /\
  length (filter (fun e => match e with Delete Single _ => true | _ => false end) (trace h)) = 8.
Proof. do 2 eexists. split; [vm_compute; reflexivity|]. vm_compute. auto. Qed.
