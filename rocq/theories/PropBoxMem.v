(** C221: the memory of the program that writes the boxes of an object. *)
From Coq Require Import List Arith ZArith Lia Bool Permutation.
From Verif Require Import Arr TileMemModel PropTileMem PropJoinMem CompressMemModel PropCompressMem BoxMemModel.
Import ListNotations.
Close Scope Z_scope.
Open Scope nat_scope.

(** * Specification: [clean] (C211) and [left_over] (C213).  The voxels ever made for an object, and those with a box to write
    ([lost_voxels] of C215 are those without). *)
Definition made_voxels (l : line) : nat := if l_small l then 1 else Nat.max 1 (l_points l).
Definition written_voxels (l : line) : nat := made_voxels l - lost_voxels l.

(** * Proof *)
Lemma filter_short (f : nat -> bool) l : length (filter f l) <= length l.
Proof. induction l as [|x l IH]; cbn [filter length]; [lia|]. destruct (f x); cbn [length]; lia. Qed.
Lemma lost_le l : lost_voxels l <= made_voxels l.
Proof.
  unfold lost_voxels, made_voxels. destruct (l_small l); cbn [orb]; [lia|]. destruct (l_points l <=? 1); [lia|].
  pose proof (filter_short (l_empty l) (seq 0 (l_points l))) as F. rewrite seq_length in F. lia.
Qed.
Lemma blocks_length n : forall h, length (fst (new_blocks n h)) = n.
Proof.
  induction n as [|n IH]; intro h; [reflexivity|]. cbn [new_blocks]. destruct (new Single h) as [b h1]. specialize (IH h1).
  destruct (new_blocks n h1). cbn [fst length] in *. lia.
Qed.
Lemma made l h s vs h' : make_voxels l h = (s, vs, h') -> length vs + lost_voxels l = made_voxels l.
Proof.
  unfold make_voxels, lost_voxels, made_voxels. destruct (l_small l); cbn [orb].
  - destruct (new Single h) as [v h1]. intro E. assert (V : vs = [v]) by congruence. subst vs. reflexivity.
  - destruct (new Single h) as [sk h1]. set (h2 := if l_sampled l then _ else _). clearbody h2.
    pose proof (blocks_length (l_points l) h2) as BL. destruct (new_blocks (l_points l) h2) as [ws h3]. cbn [fst] in BL.
    rewrite <- BL. destruct ws as [|v [|w ws]].
    + destruct (new Single h3) as [v h4]. intro E. assert (V : vs = [v]) by congruence. subst vs. reflexivity.
    + intro E. assert (V : vs = [v]) by congruence. subst vs. reflexivity.
    + set (all := v :: w :: ws). destruct (keep_split (l_empty l) all 0) as (lv & P & L). apply Permutation_length in P. rewrite app_length in P.
      intro E. assert (V : vs = keep_full (l_empty l) 0 all) by congruence. subst vs. rewrite <- L.
      replace (length all <=? 1) with false by reflexivity. rewrite P. cbn [all length] in P. lia.
Qed.
Lemma holds_write {sc} h R : holds sc h R -> exists p, holds sc (write_box h) ((Single, p) :: R).
Proof. intro H. unfold write_box. nw H p h1 H1. exists p. apply holds_use; [exact H1|left; reflexivity]. Qed.
Lemma holds_writes {sc} vs : forall h R, holds sc h R -> (forall v, In v vs -> In v (map snd R)) ->
  exists ps, length ps = length vs /\ holds sc (write_boxes vs h) (single ps ++ R).
Proof.
  induction vs as [|v vs IH]; intros h R H I; [exists []; split; [reflexivity|exact H]|]. cbn [write_boxes fold_left].
  assert (U : In v (map snd R)) by (apply I; left; reflexivity).
  destruct (holds_write (sc := sc) (happen (Use v) (happen (Use v) h)) R) as (p & H1).
  { apply holds_use; [apply holds_use; [exact H|exact U]|exact U]. }
  destruct (IH _ _ H1) as (ps & N & H2).
  { intros x X. right. apply I. right. exact X. }
  exists (ps ++ [p]). split; [rewrite app_length; cbn [length]; lia|]. unfold single in *. rewrite map_app, <- app_assoc. exact H2.
Qed.

(** Full claim of C221: [clean true (get_boxes l)].  Proved for every object: nothing is used or deleted outside its life or in the
    wrong way, and what is left over is the text, the mesh and its codes, the common cube, every voxel and a cube for each box. *)
Theorem get_boxes_memory_partial : forall sc l, exists live,
  left_over sc (get_boxes l) = Some live /\ length live = 4 + made_voxels l + written_voxels l.
Proof.
  intros sc l. unfold get_boxes. pose proof (holds_start sc) as H. nw H text h1 H1.
  assert (H2 : holds sc (happen (Use text) h1) [(Array, text)]) by (apply holds_use; [exact H1|left; reflexivity]).
  set (h2 := happen (Use text) h1) in *. clearbody h2. nw H2 msh h3 H3. nw H3 data h4 H4.
  match goal with |- context [Nat.iter (l_rounds l) (encode_round data) ?x] => assert (H5 : holds sc x [(Array, data); (Single, msh); (Array, text)]); [|set (h5 := x) in *; clearbody h5] end.
  { apply holds_use; [apply holds_use; [exact H4|]|]; cbn [map snd In]; auto. }
  assert (H6 : holds sc (Nat.iter (l_rounds l) (encode_round data) h5) [(Array, data); (Single, msh); (Array, text)]).
  { apply holds_iter; [|exact H5]. intros h6 H6. apply holds_encode; [exact H6|left; reflexivity]. }
  set (h6 := Nat.iter _ _ h5) in *. clearbody h6. nw H6 hm h7 H7. nw H7 codes h8 H8.
  match goal with |- context [make_voxels l ?x] => assert (H9 : holds sc x [(Array, codes); (Single, hm); (Array, data); (Single, msh); (Array, text)]); [|set (h9 := x) in *; clearbody h9] end.
  { apply holds_use; [|left; reflexivity]. apply holds_read; [|left; reflexivity]. apply holds_use; [apply holds_use; [exact H8|]|]; cbn [map snd In]; auto. }
  destruct (holds_voxels l h9 _ H9) as (s & vs & h10 & lv & E & H10 & LL). pose proof (made _ _ _ _ _ E) as M. rewrite E.
  destruct (holds_writes vs _ _ H10) as (ps & PN & H11).
  { intros v V. rewrite map_app, in_app_iff. left. unfold single. rewrite map_map. cbn [snd]. rewrite map_id, in_app_iff. right. exact V. }
  destruct (holds_write _ _ H11) as (p & H12).
  set (h12 := write_box _) in *. clearbody h12.
  assert (H13 : holds sc (delete_himesh hm codes s h12) ((Single, p) :: single ps ++ single vs ++ single lv ++ [(Array, data); (Single, msh); (Array, text)])).
  { unfold delete_himesh. apply drop, drop. destruct s as [s|]; [apply drop|]; (eapply holds_perm; [exact H12|]); unfold single; cbn [opt app map]; perm. }
  destruct (holds_left _ _ _ H13) as (live & EL & P). exists live. split; [exact EL|]. rewrite (Permutation_length P).
  unfold single. cbn [length]. rewrite !app_length, !map_length. cbn [length]. unfold written_voxels. lia.
Qed.
Print Assumptions get_boxes_memory_partial.
(** So no run gives everything back; C221 is false. *)
Theorem get_boxes_memory_refuted : exists l, ~ clean true (get_boxes l) /\ ~ clean false (get_boxes l).
Proof. exists (Line 2 3 false 4 true Nat.odd). split; intro C; vm_compute in C; discriminate C. Qed.
Print Assumptions get_boxes_memory_refuted.
(** Four voxels, two of them without vertices. *)
Example four_voxels : let l := Line 2 3 false 4 true Nat.odd in
  made_voxels l = 4 /\ written_voxels l = 2 /\ option_map (@length _) (left_over true (get_boxes l)) = Some 10.
Proof. vm_compute. auto. Qed.
