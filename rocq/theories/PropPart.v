(** C153: the partitioner and the file tmp.part. *)
From Coq Require Import List ZArith Bool Arith Lia Permutation.
From Verif Require Import Arr AabModel SpModel SpProofs.
From Verif Require ProgModel PropSp.
Import ListNotations.
Open Scope Z_scope.

Section Tiles.
  Context {B : Type}.
  Variables (b0 : B) (upd : B -> B -> B) (enc : B -> list Z) (dec : list Z -> B).
  Lemma leaves_inn ks : ks <> [] -> leaf_nodes (inner b0 upd ks) = flat_map (@leaf_nodes B) ks.
  Proof. intro N. rewrite leaf_nodes_inner by (rewrite inner_kids; exact N). rewrite inner_kids. reflexivity. Qed.
  Lemma leaves_flat (lz : list (spnode B)) : Forall (fun n => n_kids n = []) lz -> flat_map (@leaf_nodes B) lz = lz.
  Proof. induction 1 as [|n r K _ IH]; cbn [flat_map]; [reflexivity|]. rewrite leaf_nodes_leaf, IH by exact K. reflexivity. Qed.
  Lemma tiles_tree3 ls : ls <> [] -> Forall (fun ly => ly <> [] /\ Forall (fun lz => lz <> [] /\ Forall (fun n : spnode B => n_kids n = []) lz) ly) ls ->
    genTiles (tree3 b0 upd ls) = map n_box (concat (concat ls)).
  Proof.
    intros N F. unfold genTiles. f_equal. unfold tree3. rewrite leaves_inn by (destruct ls; [congruence|discriminate]). rewrite flat_map_map.
    clear N. induction F as [|ly r [Ny Fy] _ IH]; cbn [flat_map concat]; [reflexivity|]. rewrite IH, concat_app. f_equal. clear IH.
    rewrite leaves_inn by (destruct ly; [congruence|discriminate]). rewrite flat_map_map. clear Ny. induction Fy as [|lz q [Nz Fz] _ IH]; cbn [flat_map concat]; [reflexivity|]. rewrite IH. f_equal.
    rewrite leaves_inn by exact Nz. apply leaves_flat. exact Fz.
  Qed.
End Tiles.

(** C153, what holds.  Where the tree built has three full levels the first run writes tmp.part, and every
    later run for the same folder gives the same tiles in the same order and leaves the file alone. *)
Theorem partitioner_repeats_partial : forall {B} (b0 : B) upd (enc : B -> list Z) (dec : list Z -> B) srt cbrt voxels num_tiles px py pz ls,
  (0 < px)%nat -> (0 < py)%nat -> (0 < pz)%nat -> Z.of_nat px < 2 ^ 31 -> Z.of_nat py < 2 ^ 31 -> Z.of_nat pz < 2 ^ 31 ->
  build_sort_partition b0 upd srt cbrt voxels num_tiles = tree3 b0 upd ls -> rect enc dec px py pz ls ->
  exists tiles file, ProgModel.partitioner B b0 upd enc dec srt cbrt None voxels num_tiles = Some (tiles, Some file) /\
    length tiles = (px * (py * pz))%nat /\
    ProgModel.partitioner B b0 upd enc dec srt cbrt (Some file) voxels num_tiles = Some (tiles, Some file).
Proof.
  intros B b0 upd enc dec srt cbrt voxels num_tiles px py pz ls Px Py Pz Bx By Bz E R.
  destruct (PropSp.partition_roundtrip b0 upd enc dec px py pz ls Px Py Pz Bx By Bz R) as (bytes & E1 & _ & E2).
  assert (N : forall A (l : list A) k, length l = k -> (0 < k)%nat -> l <> []) by (intros A [|x l] k H K; cbn in H; [lia|discriminate]).
  assert (F : Forall (fun ly => ly <> [] /\ Forall (fun lz => lz <> [] /\ Forall (fun n : spnode B => n_kids n = []) lz) ly) ls).
  { destruct R as [_ R]. eapply Forall_impl; [|exact R]. intros ly [Ly Fy]. split; [eapply N; eauto|]. eapply Forall_impl; [|exact Fy]. intros lz [Lz Fz]. split; [eapply N; eauto|].
    eapply Forall_impl; [|exact Fz]. intros n [K _]. exact K. }
  exists (map n_box (concat (concat ls))), bytes. unfold ProgModel.partitioner. cbv zeta. rewrite E, E1, E2. cbn [bind]. split; [|split].
  - rewrite tiles_tree3; [reflexivity|eapply N; [apply R|exact Px]|exact F].
  - rewrite map_length. destruct R as [<- R]. clear -R. induction R as [|ly r [Ly Fy] _ IH]; cbn [concat length]; [reflexivity|]. rewrite concat_app, app_length, IH. cbn [Nat.mul]. f_equal.
    rewrite <- Ly. clear -Fy. induction Fy as [|lz q [Lz _] _ IH]; cbn [concat length]; [reflexivity|]. rewrite app_length, IH, Lz. reflexivity.
  - f_equal. f_equal. rewrite tiles_tree3.
    + clear. unfold erase3. rewrite <- !concat_map, map_map. reflexivity.
    + destruct R as [L _]. apply N with px; [unfold erase3; rewrite map_length; exact L|exact Px].
    + unfold erase3. apply Forall_map. eapply Forall_impl; [|exact F]. intros ly [Ny Fy]. split; [destruct ly; [congruence|discriminate]|]. apply Forall_map. eapply Forall_impl; [|exact Fy].
      intros lz [Nz Fz]. split; [destruct lz; [congruence|discriminate]|]. apply Forall_map. exact Fz.
Qed.
Print Assumptions partitioner_repeats_partial.

(** C153 is false: the file is looked for under one name in the working directory, whatever folder is
    asked for.  A second folder with one object gets the tiles of the first, and its object is in none of
    them. *)
Theorem partitioner_stale_refuted : exists (srt : axis -> list (sobj fbox) -> list (sobj fbox)) cbrt first second num_tiles tiles tiles' file,
  (forall a l, Permutation (srt a l) l) /\
  ProgModel.partitioner fbox fbox0 upd_f enc_f dec_f srt cbrt None first num_tiles = Some (tiles, Some file) /\
  ProgModel.partitioner fbox fbox0 upd_f enc_f dec_f srt cbrt (Some file) second num_tiles = Some (tiles', Some file) /\
  second <> [] /\ forall o b, In o second -> In b tiles' -> PropSp.fwithin (s_box o) b = false.
Proof.
  set (root := build_sort_partition fbox0 upd_f PropSp.fsort PropSp.cbrt (PropSp.cubes 8) 8).
  set (file := match persist_tree enc_f root with Some (Some b) => b | _ => [] end).
  exists PropSp.fsort, PropSp.cbrt, (PropSp.cubes 8), [PropSp.cube 40], 8, (genTiles root), (genTiles root), file.
  split; [intros; apply PropSp.isort_perm|]. split; [vm_compute; reflexivity|]. split; [vm_compute; reflexivity|]. split; [discriminate|].
  assert (K : forallb (fun b => negb (PropSp.fwithin (s_box (PropSp.cube 40)) b)) (genTiles root) = true) by (vm_compute; reflexivity).
  rewrite forallb_forall in K. intros o b [<-|[]] Hb. apply negb_true_iff, K, Hb.
Qed.
Print Assumptions partitioner_stale_refuted.
Example partitioner_repeats_applies : exists ls, build_sort_partition fbox0 upd_f PropSp.fsort PropSp.cbrt (PropSp.cubes 8) 8 = tree3 fbox0 upd_f ls /\ rect enc_f dec_f 2 2 2 ls.
Proof.
  exists (map (fun x => map (@n_kids fbox) (n_kids x)) (n_kids (build_sort_partition fbox0 upd_f PropSp.fsort PropSp.cbrt (PropSp.cubes 8) 8))). split; [vm_compute; reflexivity|].
  set (ls := map _ _). vm_compute in ls. subst ls. assert (L : forall a b (s : Z) objs, 0 <= a < 4294967296 -> 0 <= b < 4294967296 -> 0 <= s < 4294967296 -> leaf_ok enc_f dec_f (SP (FBox (a, a, a) (b, b, b)) s [] objs))
    by (intros; apply PropSp.partition_float_boxes; change (2 ^ 32) with 4294967296; repeat (constructor; [lia|]); constructor).
  split; [reflexivity|]. repeat (apply Forall_cons || apply Forall_nil || (split; [reflexivity|])); apply L; lia.
Qed.
