(** C178 and C179: trees kept with the meshes (option --aabb). *)
From Coq Require Import QArith List Bool Arith Lia.
From Verif Require Import AabModel OctreeModel JoinModel PropJoin TreeDistModel PropTreeDist TreeCacheModel TreeCacheProofs.
Import ListNotations.

(** C178.  With rising levels, the questions to the trees are those of a join that keeps nothing
    ([all_asks]): in the round of a level each object with several candidates asks, for each candidate
    and each vertex it has at this level, the tree of the edges the candidate has at this level; and the
    candidates develop as without the trees.  [nn] chooses between the two joins. *)
Theorem tree_levels_right : forall nn md nv rs cs out, rising 0 rs -> have_pairs cs ->
  snd (join_rounds nn md nv rs (fresh, (cs, out))) = all_asks nn md nv rs (cs, out) /\
  snd (fst (join_rounds nn md nv rs (fresh, (cs, out)))) =
    fold_left (fun q r => if nn then nn_round_tree (t_highest r) (t_filled r) (t_dist r) q
                          else within_round_tree md (t_highest r) (t_filled r) (t_dist r) q) rs (cs, out).
Proof.
  intros nn md nv rs cs out R H. apply (join_rounds_spec nn md nv rs fresh (cs, out) 0 R); [|exact H|intros k _; reflexivity].
  intros k. cbn. split; [lia|constructor].
Qed.
Print Assumptions tree_levels_right.

(** C178 for levels in any order: a tree is always of the level its mesh is decoded to. *)
Theorem tree_always_current : forall nn md nv rs cs out lod a,
  In (lod, a) (snd (join_rounds nn md nv rs (fresh, (cs, out)))) -> a_tree a = Some (a_level2 a).
Proof.
  intros nn md nv rs cs out lod a I.
  pose proof (join_rounds_current nn md nv rs fresh (cs, out) (fun k _ => eq_refl)) as F. rewrite Forall_forall in F. exact (F _ I).
Qed.
Print Assumptions tree_always_current.

(** Two objects that share candidates, and one with a single candidate; levels 20 and 100. *)
Definition tree_cs : list centry := [(w1a, [cand_of w2b; cand_of w2a]); (w1b, [cand_of w2a]); (w2b, [cand_of w2c; cand_of w2b])].
Definition tree_rs : list tround := [TRound 20 false (fun _ => true) (fun _ _ => 20%Q); TRound 100 true (fun _ => true) Dw].
Example tree_levels_nonvacuous : rising 0 tree_rs /\ have_pairs tree_cs /\
  map (fun x => (fst x, a_first (snd x), a_second (snd x), a_tree (snd x)))
    (snd (join_rounds true 0 (fun _ l => if Nat.leb 100 l then 2 else 1)%nat tree_rs (fresh, (tree_cs, []))))
  = [(20, key w1a, key w2b, Some 20); (20, key w1a, key w2a, Some 20); (20, key w2b, key w2c, Some 20); (20, key w2b, key w2b, Some 20);
     (100, key w1a, key w2b, Some 100); (100, key w1a, key w2b, Some 100); (100, key w1a, key w2a, Some 100); (100, key w1a, key w2a, Some 100);
     (100, key w2b, key w2c, Some 100); (100, key w2b, key w2c, Some 100); (100, key w2b, key w2b, Some 100); (100, key w2b, key w2b, Some 100)]%nat.
Proof.
  split; [cbn; lia|]. split; [|vm_compute; reflexivity].
  intros e c I Ic. destruct I as [<-|[<-|[<-|[]]]]; cbn in Ic; repeat (destruct Ic as [<-|Ic]; [intros H; discriminate H|]); destruct Ic.
Qed.

(** C179, nearest-neighbour join: after every level no mesh has a tree. *)
Theorem nn_trees_released : forall md nv rs cs out k, m_tree (fst (fst (join_rounds true md nv rs (fresh, (cs, out)))) k) = None.
Proof.
  intros md nv rs cs out k.
  assert (K : forall rs (ms : meshes) q, (forall k, m_tree (ms k) = None) -> m_tree (fst (fst (join_rounds true md nv rs (ms, q))) k) = None).
  { clear. intros rs. induction rs as [|r rs IH]; intros ms q N; [exact (N k)|]. cbn [join_rounds].
    pose proof (nn_round_clean md nv r ms q N) as C. destruct (join_round true md nv r (ms, q)) as [[ms' q'] l]. cbn [fst] in C.
    specialize (IH ms' q' C). destruct (join_rounds true md nv rs (ms', q')) as [s2 l2]. exact IH. }
  apply K. reflexivity.
Qed.
Print Assumptions nn_trees_released.
Example nn_trees_released_nonvacuous :
  m_tree (build_trees true tree_cs (decode_all true 20 tree_cs fresh) (key w2a)) = Some 20%nat /\
  m_level (fst (fst (join_rounds true 0 (fun _ _ => 1%nat) tree_rs (fresh, (tree_cs, [])))) (key w2a)) = 100%nat.
Proof. split; vm_compute; reflexivity. Qed.

(** C179 is false for the within join: the tree built for an only candidate stays, with the edges of a
    lower level than its mesh is at. *)
Theorem within_trees_released_refuted : exists md nv rs cs k l,
  rising 0 rs /\ have_pairs cs /\
  m_tree (fst (fst (join_rounds false md nv rs (fresh, (cs, [])))) k) = Some l /\
  (l < m_level (fst (fst (join_rounds false md nv rs (fresh, (cs, [])))) k))%nat.
Proof.
  exists 0, (fun _ _ => 1%nat), tree_rs, [(w1b, [cand_of w2a])], (key w2a), 20%nat.
  split; [cbn; lia|]. split.
  { intros e c [<-|[]] [<-|[]] H. discriminate H. }
  split; vm_compute; [reflexivity|]. lia.
Qed.
Print Assumptions within_trees_released_refuted.
