(** C218: the memory of the partitioner. *)
From Coq Require Import List Arith ZArith Lia Bool Permutation.
From Verif Require Import Arr TileMemModel PropTileMem PropJoinMem CompressMemModel PropCompressMem SpModel PartMemModel.
Import ListNotations.
Close Scope Z_scope.
Open Scope nat_scope.

(** * Specification: [clean] (C211) and [left_over] (C213).  What is left: a text for each line that is not empty, and a
    polyhedron for each tile. *)
Definition lost_lines (cached : bool) (lines : list bool) : nat := if cached then 0 else count_occ bool_dec lines true.

(** * Proof *)
Fixpoint pblocks (t : pnode) : list (form * nat) := match t with PNode b kids => (Single, b) :: flat_map pblocks kids end.
Fixpoint pnode_induction (P : pnode -> Prop) (I : forall b kids, Forall P kids -> P (PNode b kids)) (t : pnode) : P t :=
  match t with
  | PNode b kids => I b kids ((fix go (l : list pnode) : Forall P l :=
      match l with [] => Forall_nil P | x :: r => Forall_cons x (pnode_induction P I x) (go r) end) kids)
  end.
Fixpoint sp_induction {B} (P : spnode B -> Prop) (I : forall b s kids o, Forall P kids -> P (SP b s kids o)) (t : spnode B) : P t :=
  match t with
  | SP b s kids o => I b s kids o ((fix go (l : list (spnode B)) : Forall P l :=
      match l with [] => Forall_nil P | x :: r => Forall_cons x (sp_induction P I x) (go r) end) kids)
  end.
Lemma pblk_in t : In (p_blk t) (map snd (pblocks t)).
Proof. destruct t. left. reflexivity. Qed.
Lemma holds_node_delete {sc} t : forall h R, holds sc h (pblocks t ++ R) -> holds sc (delete_node t h) R.
Proof.
  induction t as [b kids IH] using pnode_induction. intros h R H. cbn [delete_node pblocks] in *. apply drop.
  assert (H1 : holds sc h (flat_map pblocks kids ++ (Single, b) :: R)) by (eapply holds_perm; [exact H|]; perm). clear H. revert H1.
  generalize ((Single, b) :: R). intros R'. revert h. induction kids as [|x r IHr]; intros h H; [exact H|].
  cbn [fold_left flat_map] in *. apply IHr; [exact (Forall_inv_tail IH)|]. apply (Forall_inv IH). rewrite app_assoc. exact H.
Qed.
Lemma holds_node_read {sc} t : forall h R, holds sc h (pblocks t ++ R) -> holds sc (read_node t h) (pblocks t ++ R).
Proof.
  induction t as [b kids IH] using pnode_induction. intros h R H. cbn [read_node].
  assert (H1 : holds sc (happen (Use b) h) (flat_map pblocks kids ++ (Single, b) :: R)).
  { eapply holds_perm; [apply holds_use; [exact H|left; reflexivity]|]. cbn [pblocks]. perm. }
  eapply (holds_perm sc _ (flat_map pblocks kids ++ (Single, b) :: R)); [|cbn [pblocks]; perm].
  clear H. revert H1. generalize ((Single, b) :: R) (happen (Use b) h). clear h R b. induction kids as [|x r IHr]; intros R h H; [exact H|].
  cbn [fold_left flat_map] in *. eapply holds_perm; [apply (IHr (Forall_inv_tail IH) (pblocks x ++ R))|perm].
  eapply holds_perm; [apply (Forall_inv IH h (flat_map pblocks r ++ R)); eapply holds_perm; [exact H|]|]; perm.
Qed.
Lemma holds_node_build {sc B} (t : spnode B) : forall h R, holds sc h R -> holds sc (snd (build t h)) (pblocks (fst (build t h)) ++ R).
Proof.
  induction t as [bx sz kids o IH] using sp_induction. intros h R H. cbn [build]. nw H b h1 H1.
  set (go := fix go (l : list (spnode B)) (h : heap) : list pnode * heap := match l with [] => _ | _ => _ end).
  assert (G : forall l, Forall (fun t => forall h R, holds sc h R -> holds sc (snd (build t h)) (pblocks (fst (build t h)) ++ R)) l ->
    forall h R, holds sc h ((Single, b) :: R) -> holds sc (snd (go l h)) (flat_map pblocks (fst (go l h)) ++ (Single, b) :: R)).
  { clear. induction l as [|t l IHl]; intros F h R H; [exact H|]. cbn [go]. fold go.
    pose proof (Forall_inv F h _ H) as H1. cbn beta in H1. destruct (build t h) as [k h1]. cbn [fst snd] in H1.
    assert (H2 : holds sc (happen (Use (p_blk k)) (happen (Use b) h1)) ((Single, b) :: pblocks k ++ R)).
    { eapply holds_perm; [apply holds_use; [apply holds_use; [exact H1|]|]|].
      - rewrite map_app, in_app_iff. right. left. reflexivity.
      - rewrite map_app, in_app_iff. left. apply pblk_in.
      - perm. }
    pose proof (IHl (Forall_inv_tail F) _ _ H2) as H3. destruct (go l _) as [ks h2]. cbn [fst snd flat_map] in *. eapply holds_perm; [exact H3|]. perm. }
  pose proof (G kids IH h1 R H1) as H2. destruct (go kids h1) as [ks h2]. cbn [fst snd pblocks] in *. eapply holds_perm; [exact H2|]. perm.
Qed.
Lemma holds_box {sc} l h R : holds sc h R -> exists L, holds sc (snd (line_voxel l h)) (single (fst (line_voxel l h)) ++ L ++ R) /\ length L = if l then 1 else 0.
Proof.
  intro H. unfold line_voxel. destruct l; [|exists []; split; [exact H|reflexivity]]. nw H text h1 H1.
  assert (H2 : holds sc (happen (Use text) h1) ((Array, text) :: R)) by (apply holds_use; [exact H1|left; reflexivity]).
  set (h2 := happen (Use text) h1) in *. clearbody h2. nw H2 msh h3 H3. nw H3 data h4 H4.
  assert (H5 : holds sc (happen (Use text) (happen (Use data) h4)) ((Array, data) :: (Single, msh) :: (Array, text) :: R)).
  { apply holds_use; [apply holds_use; [exact H4|]|]; cbn [map snd In]; auto. }
  set (h5 := happen (Use text) _) in *. clearbody h5. nw H5 v h6 H6. exists [(Array, text)]. split; [|reflexivity]. cbn [fst snd single map app].
  apply drop, drop. eapply (holds_perm sc _ ((Single, v) :: (Array, data) :: (Single, msh) :: (Array, text) :: R)); [|perm].
  apply holds_use; [apply holds_use; [exact H6|]|]; cbn [map snd In]; auto.
Qed.
Lemma holds_boxes {sc} lines : forall h R, holds sc h R -> exists L, holds sc (snd (get_voxels lines h)) (single (fst (get_voxels lines h)) ++ L ++ R) /\
  length L = count_occ bool_dec lines true.
Proof.
  induction lines as [|l lines IH]; intros h R H; cbn [get_voxels]; [exists []; split; [exact H|reflexivity]|].
  destruct (holds_box l h R H) as (L1 & H1 & N1). destruct (line_voxel l h) as [v h1]. cbn [fst snd] in H1.
  destruct (IH h1 _ H1) as (L2 & H2 & N2). destruct (get_voxels lines h1) as [vs h2]. cbn [fst snd] in *. exists (L1 ++ L2). split.
  - unfold single in *. rewrite map_app. eapply holds_perm; [exact H2|]. perm.
  - rewrite app_length, N1, N2. cbn [count_occ]. destruct l; cbn [bool_dec]; [destruct (bool_dec true true); [reflexivity|congruence]|destruct (bool_dec false true); [congruence|reflexivity]].
Qed.
Lemma holds_drop_single {sc} vs : forall h R, holds sc h (single vs ++ R) -> holds sc (fold_left (fun h v => happen (Delete Single v) h) vs h) R.
Proof. induction vs as [|v vs IH]; intros h R H; [exact H|]. cbn [fold_left]. apply IH, drop. exact H. Qed.
Lemma holds_tiles {sc} n : forall h R, holds sc h R -> exists L, holds sc (Nat.iter n write_tile h) (L ++ R) /\ length L = n.
Proof.
  induction n as [|n IH]; intros h R H; [exists []; split; [exact H|reflexivity]|]. destruct (IH h R H) as (L & H1 & N).
  cbn [Nat.iter nat_rect]. unfold write_tile at 1. set (h1 := Nat.iter n write_tile h) in *. change (nat_rect _ h (fun _ => write_tile) n) with h1. clearbody h1.
  nw H1 p h2 H2. exists ((Single, p) :: L). split; [|cbn [length]; lia]. apply holds_use; [exact H2|left; reflexivity].
Qed.

(** Full claim of C218: [clean true (partitioner cached lines t)].  Proved whatever the lines and whatever tree is built or loaded:
    every block is used and deleted only while it exists, never twice and with the right form of delete (the boxes, the meshes and
    all nodes of the tree); what is left is a block for each line that is not empty and one for each tile. *)
Theorem partitioner_memory_partial : forall B cached lines (t : spnode B), exists live,
  left_over true (partitioner cached lines t) = Some live /\ length live = lost_lines cached lines + length (genTiles t).
Proof.
  intros B cached lines t. unfold partitioner, lost_lines. pose proof (holds_start true) as H0. set (h0 := Heap [] 0) in *. clearbody h0.
  set (start := if cached then _ else _).
  assert (H1 : exists L, holds true (snd start) (pblocks (fst start) ++ L) /\ length L = if cached then 0 else count_occ bool_dec lines true).
  { subst start. destruct cached; [exists []; split; [apply holds_node_build, H0|reflexivity]|].
    destruct (holds_boxes lines h0 _ H0) as (L & H1 & N). destruct (get_voxels lines h0) as [vs h1]. cbn [fst snd] in H1. rewrite app_nil_r in H1.
    assert (H2 : holds true (fold_left (fun h v => happen (Use v) h) vs h1) (single vs ++ L)).
    { apply holds_uses; [exact H1|]. intros v V. unfold single. rewrite map_app, map_map, in_app_iff. left. cbn [snd]. rewrite map_id. exact V. }
    set (h2 := fold_left _ vs h1) in *. clearbody h2. pose proof (holds_node_build t h2 _ H2) as H3. destruct (build t h2) as [sp h3]. cbn [fst snd] in *.
    exists L. split; [|exact N]. apply holds_node_read, holds_drop_single. eapply holds_perm; [exact H3|]. perm. }
  clearbody start. destruct start as [sp h1]. cbn [fst snd] in H1. destruct H1 as (L & H1 & N).
  destruct (holds_tiles (length (genTiles t)) _ _ (holds_node_read sp h1 _ H1)) as (L2 & H2 & N2).
  assert (H3 : holds true (delete_node sp (Nat.iter (length (genTiles t)) write_tile (read_node sp h1))) (L ++ L2)).
  { apply holds_node_delete. eapply holds_perm; [exact H2|]. perm. }
  destruct (holds_left _ _ _ H3) as (live & E & P). exists live. split; [exact E|]. rewrite (Permutation_length P), app_length. lia.
Qed.
Print Assumptions partitioner_memory_partial.
(** Building the tree and deleting it gives everything back. *)
Theorem sort_partition_memory : forall B (t : spnode B), let (sp, h) := build t (Heap [] 0) in clean true (rev (trace (delete_node sp (read_node sp h)))).
Proof.
  intros B t. pose proof (holds_node_build t _ _ (holds_start true)) as H. destruct (build t (Heap [] 0)) as [sp h]. cbn [fst snd] in H.
  apply holds_clean, holds_node_delete, holds_node_read, H.
Qed.
Print Assumptions sort_partition_memory.
(** Nine objects in five tiles. *)
Definition nine : list (sobj nat) := map (fun i => Sobj i 1%Z) (seq 0 9).
Definition nine_tree : spnode nat := build_parts 0 Nat.max (fun _ l => l) 2 1 3 nine.
Example nine_tiles : length (genTiles nine_tree) = 5 /\ lost_lines false (repeat true 9 ++ [false]) = 9 /\ 100 < length (partitioner false (repeat true 9 ++ [false]) nine_tree).
Proof. vm_compute. repeat split; lia. Qed.
(** C218 is false, with and without the file of the partition. *)
Theorem partitioner_memory_refuted : exists lines (t : spnode nat), ~ clean false (partitioner false lines t) /\ ~ clean false (partitioner true lines t).
Proof. exists (repeat true 9), nine_tree. split; intro C; vm_compute in C; discriminate C. Qed.
Print Assumptions partitioner_memory_refuted.
