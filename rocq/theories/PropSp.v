(** C49, C50, C72-C75: the sort partition (/repo/src/index/stree.cpp, index.h:61-89). *)
From Coq Require Import ZArith List Bool QArith Lia Permutation Sorted.
From Verif Require Import Arr AabModel AabProofs TileModel TileProofs SpModel SpProofs.
Import ListNotations.
Open Scope Z_scope.

Lemma part_x_pos cbrt n : 1 <= part_x cbrt n. Proof. unfold part_x. lia. Qed.
Lemma part_z_pos cbrt n : 1 <= part_z cbrt n. Proof. unfold part_z. lia. Qed.

(** C49.  Whatever order std::sort gives and whatever pow yields: the objects of the leaves are the
    objects given, each as often as it was given; on the way from the root to a leaf every box contains
    the leaf's objects; inner nodes hold none. *)
Theorem sort_partition_covers : forall (srt : axis -> list (sobj (option aab)) -> list (sobj (option aab))) cbrt voxels num_tiles,
  (forall a l, Permutation (srt a l) l) ->
  let root := build_sort_partition None upd_opt srt cbrt voxels num_tiles in
  Permutation (flat_map n_objs (leaf_nodes root)) voxels /\
  forall p d, path root p -> In (last p d) (leaf_nodes root) /\
    forall o c, In o (n_objs (last p d)) -> s_box o = Some c -> Forall (fun n => exists b, n_box n = Some b /\ within c b) p.
Proof.
  intros srt cbrt voxels n H root. pose proof (part_x_pos cbrt n). pose proof (part_z_pos cbrt n). split; [apply under_b; auto; lia|].
  intros p d P. assert (M : made None upd_opt root) by (apply made_build; auto). split; [eapply path_leaves; eauto|].
  intros o c Ho E. pose proof (path_covers root p P M (last p d) o d eq_refl Ho) as F. eapply Forall_impl; [|exact F]. intros m Hm. cbn in Hm. rewrite E in Hm. exact Hm.
Qed.
Print Assumptions sort_partition_covers.

(** The tiles are no larger than their objects need: a box around all objects of a node is around the node's. *)
Theorem sort_partition_tight : forall (srt : axis -> list (sobj (option aab)) -> list (sobj (option aab))) cbrt voxels num_tiles,
  (forall a l, Permutation (srt a l) l) ->
  let root := build_sort_partition None upd_opt srt cbrt voxels num_tiles in
  forall p n b, path root p -> In n p -> n_box n = Some b ->
  forall d, (forall o c, In o (flat_map n_objs (leaf_nodes n)) -> s_box o = Some c -> within c d) -> within b d.
Proof.
  intros srt cbrt voxels k H root p n b P I E d Hd. assert (M : made None upd_opt root) by (apply made_build; auto).
  assert (Mn : made None upd_opt n).
  { clear -P I M. induction P as [m L|m q p Iq P IH]; [destruct I as [<-|[]]; auto|]. destruct I as [<-|I]; [auto|]. apply IH; auto. eapply made_kids; eauto. }
  assert (X : holds (Some d) (n_box n)).
  { apply made_tight; auto. intros o Ho. destruct (s_box o) as [c|] eqn:Eo; [|exact Logic.I]. cbn. exists d. split; [reflexivity|]. eapply Hd; eauto. }
  rewrite E in X. destruct X as [d' [Ed W]]. inversion Ed; subst. exact W.
Qed.
Print Assumptions sort_partition_tight.

(** C72: with a cube root rounded down, at most the requested number of tiles, none of them without objects and
    none with more objects than the three cuts allow. *)
Theorem sort_partition_tiles : forall {B} (b0 : B) upd (srt : axis -> list (sobj B) -> list (sobj B)) cbrt voxels num_tiles,
  (forall a l, Permutation (srt a l) l) -> 1 <= num_tiles -> cbrt num_tiles * cbrt num_tiles * cbrt num_tiles <= num_tiles -> voxels <> [] ->
  let root := build_sort_partition b0 upd srt cbrt voxels num_tiles in
  1 <= Z.of_nat (length (genTiles root)) <= num_tiles /\
  forall leaf, In leaf (leaf_nodes root) -> n_objs leaf <> [] /\
    (length (n_objs leaf) <= step_of (Z.to_nat (part_z cbrt num_tiles)) (step_of (Z.to_nat (part_x cbrt num_tiles)) (step_of (Z.to_nat (part_x cbrt num_tiles)) (length voxels))))%nat.
Proof.
  intros B b0 upd srt cbrt voxels n H N C V root. pose proof (part_x_pos cbrt n) as PX. pose proof (part_z_pos cbrt n) as PZ. split; [split|].
  - unfold genTiles. rewrite map_length. destruct (leaf_nodes root) as [|a r] eqn:E; [|cbn; lia].
    exfalso. pose proof (under_b b0 upd srt H (Z.to_nat (part_x cbrt n)) (Z.to_nat (part_x cbrt n)) (Z.to_nat (part_z cbrt n)) voxels ltac:(lia) ltac:(lia) ltac:(lia)) as U. unfold under in U. fold (build_sort_partition b0 upd srt cbrt voxels n) in U. fold root in U. rewrite E in U. apply Permutation_nil in U. auto.
  - unfold genTiles. rewrite map_length. pose proof (leaves_b b0 upd srt (Z.to_nat (part_x cbrt n)) (Z.to_nat (part_x cbrt n)) (Z.to_nat (part_z cbrt n)) voxels ltac:(lia) ltac:(lia) ltac:(lia)) as L.
    fold (build_sort_partition b0 upd srt cbrt voxels n) in L. fold root in L. apply Nat2Z.inj_le in L. rewrite !Nat2Z.inj_mul, !Z2Nat.id in L by lia. etransitivity; [exact L|].
    set (px := part_x cbrt n) in *. assert (X : px * px <= n).
    { unfold px, part_x in *. destruct (Z.max_spec (cbrt n) 1) as [[? ->]|[? ->]]; [lia|]. assert (cbrt n * cbrt n * 1 <= cbrt n * cbrt n * cbrt n) by (apply Z.mul_le_mono_nonneg_l; lia). lia. }
    unfold part_z. fold px. rewrite (Z.quot_div_nonneg n px) by lia. assert (D : 0 <= n / px) by (apply Z.div_pos; lia). rewrite Z.quot_div_nonneg by lia.
    rewrite Z.mul_assoc. destruct (Z.max_spec (n / px / px) 1) as [[? ->]|[? ->]]; [lia|]. assert (0 < px * px) by (apply Z.mul_pos_pos; lia). rewrite Z.div_div by lia. apply Z.mul_div_le. lia.
  - intros leaf Hl. destruct (leaves_load b0 upd srt H (Z.to_nat (part_x cbrt n)) (Z.to_nat (part_x cbrt n)) (Z.to_nat (part_z cbrt n)) voxels ltac:(lia) ltac:(lia) ltac:(lia) leaf Hl) as [L E]. split; auto.
Qed.
Print Assumptions sort_partition_tiles.

(** C73: the cuts follow the sort keys: objects of an earlier child start no later than those of a later one,
    along x below the root, along y one level down, along z below that. *)
Theorem sort_partition_ordered : forall {B} (b0 : B) upd (key : axis -> sobj B -> Q) (srt : axis -> list (sobj B) -> list (sobj B)) cbrt voxels num_tiles,
  (forall a l, Permutation (srt a l) l) -> (forall a l, StronglySorted (fun o q => key a o <= key a q)%Q (srt a l)) ->
  let before a n := forall i j ci cj o q, (i < j)%nat -> nth_error (n_kids n) i = Some ci -> nth_error (n_kids n) j = Some cj ->
    In o (flat_map n_objs (leaf_nodes ci)) -> In q (flat_map n_objs (leaf_nodes cj)) -> (key a o <= key a q)%Q in
  let root := build_sort_partition b0 upd srt cbrt voxels num_tiles in
  before AX root /\ forall cx, In cx (n_kids root) -> before AY cx /\ forall cy, In cy (n_kids cx) -> before AZ cy.
Proof.
  intros B b0 upd key srt cbrt voxels n HP HS before root. pose proof (part_x_pos cbrt n). pose proof (part_z_pos cbrt n).
  assert (Gen : forall a part (f : list (sobj B) -> spnode B) l, (0 < part)%nat -> (forall c, Permutation (under (f c)) c) -> before a (inner b0 upd (map f (slices part (srt a l))))).
  { intros a part f l Pp Hf i j ci cj o q Lij Ei Ej Io Iq. rewrite inner_kids, nth_error_map in Ei, Ej.
    destruct (nth_error (slices part (srt a l)) i) as [si|] eqn:Si; [|discriminate]. destruct (nth_error (slices part (srt a l)) j) as [sj|] eqn:Sj; [|discriminate].
    inversion Ei; inversion Ej; subst. eapply (sorted_slices (fun o q => key a o <= key a q)%Q (slices part (srt a l))); eauto.
    - rewrite slices_concat by auto. apply HS.
    - eapply Permutation_in; [apply Hf|exact Io].
    - eapply Permutation_in; [apply Hf|exact Iq]. }
  split; [|].
  - apply Gen; [lia|]. intros c. apply under_x; auto; lia.
  - intros cx Ix. unfold root, build_sort_partition in Ix. rewrite b_inner, inner_kids in Ix. apply in_map_iff in Ix. destruct Ix as [c [<- _]]. split.
    + apply Gen; [lia|]. intros d. apply under_y; auto; lia.
    + intros cy Iy. rewrite x_inner, inner_kids in Iy. apply in_map_iff in Iy. destruct Iy as [d [<- _]]. apply Gen; [lia|]. intros e. rewrite under_leaf. reflexivity.
Qed.
Print Assumptions sort_partition_ordered.

Lemma total_perm {A} (f : A -> Z) l l' : Permutation l l' -> fold_right Z.add 0 (map f l) = fold_right Z.add 0 (map f l').
Proof. induction 1; cbn; lia. Qed.
(** C74: the weight of a node.  It should be the sum of the weights of its objects; as every node starts with 1 it
    is that sum plus the number of nodes of its subtree (modulo 2^32). *)
Theorem sort_partition_weight_partial : forall {B} (b0 : B) upd (srt : axis -> list (sobj B) -> list (sobj B)) cbrt voxels num_tiles,
  (forall a l, Permutation (srt a l) l) ->
  let root := build_sort_partition b0 upd srt cbrt voxels num_tiles in
  n_size root = (fold_right Z.add 0 (map s_size voxels) + node_count root) mod 2 ^ 32.
Proof.
  intros B b0 upd srt cbrt voxels n H root. pose proof (part_x_pos cbrt n). pose proof (part_z_pos cbrt n).
  rewrite (made_size b0 upd root) by (apply made_build; auto). unfold uint. change (2 ^ 32) with 4294967296. f_equal. f_equal.
  assert (P : Permutation (under root) voxels) by (apply under_b; auto; lia). unfold total. apply total_perm. exact P.
Qed.
Print Assumptions sort_partition_weight_partial.

(** A sort for the examples: insertion by a key. *)
Fixpoint ins {A} (key : A -> Z) (x : A) (l : list A) : list A := match l with [] => [x] | y :: r => if key x <=? key y then x :: l else y :: ins key x r end.
Definition isort {A} (key : A -> Z) (l : list A) : list A := fold_right (ins key) [] l.
Lemma ins_perm {A} (key : A -> Z) x l : Permutation (ins key x l) (x :: l).
Proof. induction l as [|y r IH]; cbn; [reflexivity|]. destruct (key x <=? key y); [reflexivity|]. rewrite IH. apply perm_swap. Qed.
Lemma isort_perm {A} (key : A -> Z) l : Permutation (isort key l) l.
Proof. induction l as [|x r IH]; cbn; [reflexivity|]. rewrite ins_perm, IH. reflexivity. Qed.
Lemma ins_sorted {A} (key : A -> Z) x l : StronglySorted (fun a b => key a <= key b) l -> StronglySorted (fun a b => key a <= key b) (ins key x l).
Proof.
  induction l as [|y r IH]; intros S; cbn; [repeat constructor|]. inversion S as [|? ? S1 S2]; subst. destruct (Z.leb_spec (key x) (key y)).
  - constructor; [auto|]. constructor; [auto|]. eapply Forall_impl; [|exact S2]. intros a Ha; cbn in Ha; lia.
  - constructor; [auto|]. eapply Permutation_Forall; [symmetry; apply ins_perm|]. constructor; [lia|auto].
Qed.
Lemma isort_sorted {A} (key : A -> Z) l : StronglySorted (fun a b => key a <= key b) (isort key l).
Proof. induction l; cbn; [constructor|]. apply ins_sorted. auto. Qed.

Definition fkey (a : axis) (o : sobj fbox) : Z := let '(x, y, z) := f_min (s_box o) in fval (match a with AX => x | AY => y | AZ => z end).
Definition fsort (a : axis) : list (sobj fbox) -> list (sobj fbox) := isort (fkey a).
Definition cbrt (n : Z) : Z := if n <? 8 then 1 else if n <? 27 then 2 else 3.
(** Unit cubes along the x axis; 1065353216 + i * 2^20 is a float of at least 1, growing with i. *)
Definition cube (i : Z) : sobj fbox := let f := 1065353216 + i * 1048576 in Sobj (FBox (f, f, f) (f + 524288, f + 524288, f + 524288)) 12.
Definition cubes (n : nat) : list (sobj fbox) := map (fun i => cube (Z.of_nat i)) (seq 0 n).

Theorem sort_partition_weight_refuted : exists (srt : axis -> list (sobj fbox) -> list (sobj fbox)) cbrt voxels num_tiles,
  (forall a l, Permutation (srt a l) l) /\
  n_size (build_sort_partition fbox0 upd_f srt cbrt voxels num_tiles) <> fold_right Z.add 0 (map s_size voxels) /\ fold_right Z.add 0 (map s_size voxels) < 2 ^ 32.
Proof.
  exists fsort, cbrt, (cubes 3), 8. split; [intros; apply isort_perm|]. vm_compute. split; [discriminate|reflexivity].
Qed.
Print Assumptions sort_partition_weight_refuted.

(** The hypotheses are met: 20 objects in 8 tiles; also with the boxes of exact rationals. *)
Example sort_partition_runs : length (genTiles (build_sort_partition fbox0 upd_f fsort cbrt (cubes 20) 8)) = 8%nat /\ (forall a l, Permutation (fsort a l) l) /\ cubes 20 <> [] /\ cbrt 8 * cbrt 8 * cbrt 8 <= 8.
Proof. split; [vm_compute; reflexivity|]. split; [intros; apply isort_perm|]. split; [discriminate|vm_compute; discriminate]. Qed.
Example sort_partition_sorts : forall a l, StronglySorted (fun o q => inject_Z (fkey a o) <= inject_Z (fkey a q))%Q (fsort a l).
Proof.
  intros a l. assert (S := isort_sorted (fkey a) l). unfold fsort. induction S; constructor; auto. eapply Forall_impl; [|exact H]. intros b Hb. cbn in *. rewrite <- Zle_Qle. exact Hb.
Qed.
Definition qobj (i : Z) : sobj (option aab) := Sobj (Some (Aab (v3 (inject_Z i) 0 0) (v3 (inject_Z i + 1) 1 1))) 12.
Definition qsort (a : axis) : list (sobj (option aab)) -> list (sobj (option aab)) := isort (fun o => match s_box o with None => 0 | Some b => Qnum (bmin b a) end).
Example sort_partition_path : exists p o, path (build_sort_partition None upd_opt qsort cbrt (map qobj [5; 3; 9; 1; 7]) 8) p /\ length p = 4%nat /\ In o (n_objs (last p (new_node None))).
Proof.
  set (root := build_sort_partition None upd_opt qsort cbrt (map qobj [5; 3; 9; 1; 7]) 8).
  set (k (n : spnode (option aab)) := nth 0 (n_kids n) (new_node None)).
  exists [root; k root; k (k root); k (k (k root))]. exists (qobj 1). split; [|split; [reflexivity|vm_compute; auto]].
  apply path_down with (k := k root); [left; reflexivity|]. apply path_down with (k := k (k root)); [left; reflexivity|]. apply path_down with (k := k (k (k root))); [left; reflexivity|]. apply path_leaf. vm_compute. reflexivity.
Qed.

(** C50.  A tree with three full levels is saved, and loading the file into a new root gives the same tree: same
    children in order, same boxes, same weights at every node ([erase] drops the record of objects, which
    the program does not have). *)
Theorem partition_roundtrip : forall {B} (b0 : B) upd (enc : B -> list Z) (dec : list Z -> B) px py pz ls,
  (0 < px)%nat -> (0 < py)%nat -> (0 < pz)%nat -> Z.of_nat px < 2 ^ 31 -> Z.of_nat py < 2 ^ 31 -> Z.of_nat pz < 2 ^ 31 ->
  rect enc dec px py pz ls ->
  exists bytes, persist_tree enc (tree3 b0 upd ls) = Some (Some bytes) /\ length bytes = (24 + 28 * length (concat (concat ls)))%nat /\
    load_tree b0 upd dec (new_node b0) bytes = Some (tree3 b0 upd (erase3 ls)).
Proof.
  intros B b0 upd enc dec px py pz ls Px Py Pz Bx By Bz R. change (2 ^ 31) with 2147483648 in *. eexists. split; [eapply persist_full; eauto|]. split.
  - rewrite !app_length, !le_length. assert (F : Forall (leaf_ok enc dec) (concat (concat ls))).
    { destruct R as [_ F]. apply Forall_forall. intros n Hn. apply in_concat in Hn. destruct Hn as [lz [Hz Hn]]. apply in_concat in Hz. destruct Hz as [ly [Hy Hz]].
      rewrite Forall_forall in F. destruct (F ly Hy) as [_ Fy]. rewrite Forall_forall in Fy. destruct (Fy lz Hz) as [_ Fz]. rewrite Forall_forall in Fz. auto. }
    induction F as [|n r [_ [L _]] _ IH]; cbn [flat_map length]; [reflexivity|]. rewrite app_length. unfold leaf_bytes at 1. rewrite app_length, le_length, L. cbn [length] in IH. lia.
  - rewrite <- (app_nil_r (flat_map (leaf_bytes enc) (concat (concat ls)))). apply (load_full b0 upd enc dec px py pz); auto; unfold word; change (2 ^ 64) with 18446744073709551616; lia.
Qed.
Print Assumptions partition_roundtrip.
(** For the boxes of the program every box of 32-bit patterns is fit for the file. *)
Theorem partition_float_boxes : forall x y z u v w s objs, Forall (fun p => 0 <= p < 2 ^ 32) [x; y; z; u; v; w; s] ->
  leaf_ok enc_f dec_f (SP (FBox (x, y, z) (u, v, w)) s [] objs).
Proof.
  intros x y z u v w s objs F. change (2 ^ 32) with 4294967296 in F. split; [reflexivity|]. split; [apply enc_f_len|]. cbn [n_box n_size].
  split; [apply dec_enc_f|]; repeat match goal with H : Forall _ (_ :: _) |- _ => inversion H; subst; clear H end; [repeat (constructor; [assumption|]); constructor|assumption].
Qed.
Print Assumptions partition_float_boxes.
Definition tile (i : Z) : spnode fbox := SP (FBox (i, i, i) (i + 1, i + 1, i + 1)) (12 + i) [] [cube i].
Example partition_roundtrip_applies : rect enc_f dec_f 2 2 1 [[[tile 1]; [tile 2]]; [[tile 3]; [tile 4]]].
Proof.
  assert (H : forall i, 0 <= i <= 4 -> leaf_ok enc_f dec_f (tile i)). { intros i Hi. apply partition_float_boxes. change (2 ^ 32) with 4294967296. repeat (constructor; [lia|]). constructor. }
  split; [reflexivity|]. repeat (apply Forall_cons || apply Forall_nil || (split; [reflexivity|])); apply H; lia.
Qed.

(** C75.  The partitions the program itself builds do not survive: with 14 objects and 12 tiles the file lacks tiles
    (the number of leaves is taken from the first slice), and an object is in no tile that is loaded; with 3
    objects and 8 tiles saving reads beyond the end of a vector. *)
Definition fwithin (a b : fbox) : bool :=
  let '(FBox (x, y, z) (u, v, w)) := a in let '(FBox (x', y', z') (u', v', w')) := b in
  (fval x' <=? fval x) && (fval y' <=? fval y) && (fval z' <=? fval z) && (fval u <=? fval u') && (fval v <=? fval v') && (fval w <=? fval w').
Theorem partition_saved_refuted : exists (srt : axis -> list (sobj fbox) -> list (sobj fbox)) cbrt voxels num_tiles,
  (forall a l, Permutation (srt a l) l) /\
  let root := build_sort_partition fbox0 upd_f srt cbrt voxels num_tiles in
  exists bytes root', persist_tree enc_f root = Some (Some bytes) /\ load_tree fbox0 upd_f dec_f (new_node fbox0) bytes = Some root' /\
    (length (genTiles root') < length (genTiles root))%nat /\ exists o, In o voxels /\ forall b, In b (genTiles root') -> fwithin (s_box o) b = false.
Proof.
  exists fsort, cbrt, (cubes 14), 12. split; [intros; apply isort_perm|].
  set (root := build_sort_partition fbox0 upd_f fsort cbrt (cubes 14) 12). cbv zeta.
  set (bytes := match persist_tree enc_f root with Some (Some b) => b | _ => [] end).
  set (root' := match load_tree fbox0 upd_f dec_f (new_node fbox0) bytes with Some r => r | None => new_node fbox0 end).
  exists bytes, root'. split; [vm_compute; reflexivity|]. split; [vm_compute; reflexivity|]. split; [vm_compute; lia|].
  assert (N : exists k, (k <? 14)%nat && forallb (fun b => negb (fwithin (s_box (cube (Z.of_nat k))) b)) (genTiles root') = true) by (exists 6%nat; vm_compute; reflexivity).
  clearbody bytes root'. clear root. destruct N as [k N]. apply andb_true_iff in N. destruct N as [K N]. apply Nat.ltb_lt in K. rewrite forallb_forall in N. exists (cube (Z.of_nat k)). split.
  - unfold cubes. apply in_map_iff. exists k. split; [reflexivity|]. apply in_seq. lia.
  - intros b Hb. apply negb_true_iff, N, Hb.
Qed.
Print Assumptions partition_saved_refuted.
Theorem partition_save_bounds_refuted : exists (srt : axis -> list (sobj fbox) -> list (sobj fbox)) cbrt voxels num_tiles,
  (forall a l, Permutation (srt a l) l) /\ persist_tree enc_f (build_sort_partition fbox0 upd_f srt cbrt voxels num_tiles) = None.
Proof. exists fsort, cbrt, (cubes 3), 8. split; [intros; apply isort_perm|vm_compute; reflexivity]. Qed.
Print Assumptions partition_save_bounds_refuted.

(** C49 for the boxes of aab.h as stored: updating a box with another gives the least box, in the
    order of the float values, that covers both; the default box covers nothing and adds nothing. *)
Definition fcovers (a b : fbox) : Prop :=
  let '(FBox (x, y, z) (u, v, w)) := a in let '(FBox (x', y', z') (u', v', w')) := b in
  (fval x <= fval x' /\ fval y <= fval y' /\ fval z <= fval z') /\ (fval u' <= fval u /\ fval v' <= fval v /\ fval w' <= fval w).
Lemma lower_val p q : fval (lower p q) = Z.min (fval p) (fval q).
Proof. unfold lower. destruct (Z.ltb_spec (fval q) (fval p)); lia. Qed.
Lemma higher_val p q : fval (higher p q) = Z.max (fval p) (fval q).
Proof. unfold higher. destruct (Z.ltb_spec (fval p) (fval q)); lia. Qed.
Theorem stored_box_update_least : forall a b,
  fcovers (upd_f a b) a /\ fcovers (upd_f a b) b /\ (forall c, fcovers c a -> fcovers c b -> fcovers c (upd_f a b)).
Proof.
  intros [[[x y] z] [[u v] w]] [[[x' y'] z'] [[u' v'] w']]. unfold fcovers, upd_f. rewrite !lower_val, !higher_val.
  split; [lia|]. split; [lia|]. intros [[[x2 y2] z2] [[u2 v2] w2]]. lia.
Qed.
Print Assumptions stored_box_update_least.
(** Every finite or infinite float lies between the two infinities. *)
Definition not_nan (p : Z) : Prop := 0 <= p < 2 ^ 32 /\ -2139095040 <= fval p <= 2139095040.
Theorem stored_box_default_empty : forall x y z u v w, Forall not_nan [x; y; z; u; v; w] ->
  fcovers (FBox (x, y, z) (u, v, w)) fbox0 /\ upd_f fbox0 (FBox (x, y, z) (u, v, w)) = upd_f (FBox (x, y, z) (u, v, w)) (FBox (x, y, z) (u, v, w)).
Proof.
  intros x y z u v w F. repeat match goal with H : Forall _ (_ :: _) |- _ => inversion H; clear H; subst end.
  assert (T : fval 2139095040 = 2139095040 /\ fval 4286578688 = -2139095040) by (split; reflexivity). destruct T as [T1 T2].
  unfold fcovers, fbox0. split.
  - rewrite T1, T2. unfold not_nan in *. lia.
  - unfold upd_f.
    assert (L : forall p, not_nan p -> lower 2139095040 p = lower p p).
    { intros p [R N]. unfold lower. rewrite T1. rewrite Z.ltb_irrefl. destruct (Z.ltb_spec (fval p) 2139095040); [reflexivity|].
      unfold fval in *. change (2 ^ 32) with 4294967296 in R. destruct (Z.ltb_spec p 2147483648); lia. }
    assert (U : forall p, not_nan p -> higher 4286578688 p = higher p p).
    { intros p [R N]. unfold higher. rewrite T2. rewrite Z.ltb_irrefl. destruct (Z.ltb_spec (-2139095040) (fval p)); [reflexivity|].
      unfold fval in *. change (2 ^ 32) with 4294967296 in R. destruct (Z.ltb_spec p 2147483648); lia. }
    rewrite !L, !U by assumption. reflexivity.
Qed.
Print Assumptions stored_box_default_empty.
Example stored_box_nonvacuous : Forall not_nan [1065353216; 0; 2147483648; 1073741824; 3212836864; 2139095040] /\
  upd_f (FBox (1065353216, 0, 0) (1065353216, 0, 0)) (FBox (0, 3212836864, 0) (0, 0, 1073741824)) = FBox (0, 3212836864, 0) (1065353216, 0, 1073741824).
Proof. split; [|reflexivity]. repeat constructor; cbv; discriminate || reflexivity. Qed.
