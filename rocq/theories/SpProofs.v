(** Proofs about the sort partition. *)
From Coq Require Import ZArith List Bool QArith Lia Lqa Permutation Sorted.
From Verif Require Import Arr AabModel AabProofs TileModel TileProofs SpModel.
Import ListNotations.
Open Scope Z_scope.

(** ** Cutting a list *)
Lemma cut_concat {A} step : (0 < step)%nat -> forall fuel (l : list A), (length l <= fuel)%nat -> concat (cut fuel step l) = l.
Proof.
  intros P. induction fuel as [|f IH]; intros [|x l] H; cbn [cut concat]; auto; cbn in H; [lia|].
  rewrite IH; [apply firstn_skipn|]. rewrite skipn_length. cbn [length]. lia.
Qed.
Lemma cut_count {A} step : forall fuel k (l : list A), (length l <= k * step)%nat -> (length (cut fuel step l) <= k)%nat.
Proof.
  induction fuel as [|f IH]; intros k [|x l] H; cbn [cut length]; try lia. destruct k as [|k]; [cbn in H; lia|]. apply le_n_S, IH. rewrite skipn_length. cbn [length Nat.mul] in *. lia.
Qed.
Lemma cut_short {A} step : forall fuel (l c : list A), In c (cut fuel step l) -> (length c <= step)%nat.
Proof. induction fuel as [|f IH]; intros [|x l] c H; cbn [cut] in H; try (now destruct H). destruct H as [<-|H]; [apply firstn_le_length|eauto]. Qed.
Lemma cut_nonempty {A} step : (0 < step)%nat -> forall fuel (l c : list A), In c (cut fuel step l) -> c <> [].
Proof. intros S. induction fuel as [|f IH]; intros [|x l] c H; cbn [cut] in H; try (now destruct H). destruct H as [<-|H]; [destruct step; [lia|discriminate]|eauto]. Qed.
Lemma cut_some {A} step (l : list A) : l <> [] -> cut (length l) step l <> [].
Proof. destruct l; [congruence|]. intros _. discriminate. Qed.

Lemma step_pos part len : (0 < part)%nat -> (0 < len)%nat -> (0 < step_of part len)%nat.
Proof. intros. unfold step_of. apply Nat.div_str_pos. lia. Qed.
Lemma step_enough part len : (0 < part)%nat -> (len <= part * step_of part len)%nat.
Proof. intros. unfold step_of. pose proof (Nat.div_mod (len + part - 1) part ltac:(lia)). pose proof (Nat.mod_upper_bound (len + part - 1) part ltac:(lia)). lia. Qed.
Lemma step_mono part a b : (0 < part)%nat -> (a <= b)%nat -> (step_of part a <= step_of part b)%nat.
Proof. intros. unfold step_of. apply Nat.div_le_mono; lia. Qed.

Lemma slices_concat {A} part (l : list A) : (0 < part)%nat -> concat (slices part l) = l.
Proof. intros P. unfold slices. destruct l as [|x l]; [reflexivity|]. apply cut_concat; [apply step_pos; cbn; lia|lia]. Qed.
Lemma slices_count {A} part (l : list A) : (0 < part)%nat -> (length (slices part l) <= part)%nat.
Proof. intros P. apply cut_count. apply step_enough; auto. Qed.
Lemma slices_nonempty {A} part (l c : list A) : (0 < part)%nat -> In c (slices part l) -> c <> [].
Proof. intros P. destruct l as [|x l]; [intros []|]. apply cut_nonempty. apply step_pos; cbn; lia. Qed.
Lemma slices_some {A} part (l : list A) : l <> [] -> slices part l <> [].
Proof. apply cut_some. Qed.
Lemma slices_short {A} part (l c : list A) : In c (slices part l) -> (length c <= step_of part (length l))%nat.
Proof. apply cut_short. Qed.

(** ** Nodes *)
Section Node.
Context {B : Type} (b0 : B) (upd : B -> B -> B).
Notation new_node := (new_node b0). Notation add_child := (add_child upd). Notation add_object := (add_object upd). Notation leaf_node := (leaf_node b0 upd).
Definition inner (ks : list (spnode B)) : spnode B := fold_left add_child ks new_node.

Fixpoint node_count (n : spnode B) : Z := match n with SP _ _ k _ => 1 + fold_right Z.add 0 (map node_count k) end.
Definition total {A} (f : A -> Z) (l : list A) : Z := fold_right Z.add 0 (map f l).
Definition under (n : spnode B) : list (sobj B) := flat_map n_objs (leaf_nodes n).

Lemma total_app {A} (f : A -> Z) a b : total f (a ++ b) = total f a + total f b.
Proof. unfold total. induction a; cbn; lia. Qed.
Lemma uint_add a b : uint (uint a + b) = uint (a + b).
Proof. unfold uint. apply Zplus_mod_idemp_l. Qed.
Lemma uint_add_r a b : uint (a + uint b) = uint (a + b).
Proof. unfold uint. apply Zplus_mod_idemp_r. Qed.
Lemma uint_idem a : uint (uint a) = uint a.
Proof. unfold uint. apply Zmod_mod. Qed.

Lemma fold_child ks : forall n, fold_left add_child ks n = SP (fold_left upd (map n_box ks) (n_box n)) (fold_left (fun s k => uint (s + n_size k)) ks (n_size n)) (n_kids n ++ ks) (n_objs n).
Proof.
  induction ks as [|k r IH]; intros n; cbn [fold_left map]; [destruct n; cbn; rewrite app_nil_r; reflexivity|].
  rewrite IH. destruct n. cbn. rewrite <- app_assoc. reflexivity.
Qed.
Lemma fold_object l : forall n, fold_left add_object l n = SP (fold_left upd (map s_box l) (n_box n)) (fold_left (fun s o => uint (s + s_size o)) l (n_size n)) (n_kids n) (n_objs n ++ l).
Proof.
  induction l as [|k r IH]; intros n; cbn [fold_left map]; [destruct n; cbn; rewrite app_nil_r; reflexivity|].
  rewrite IH. destruct n. cbn. rewrite <- app_assoc. reflexivity.
Qed.
Lemma inner_kids ks : n_kids (inner ks) = ks.
Proof. unfold inner. rewrite fold_child. reflexivity. Qed.
Lemma inner_objs ks : n_objs (inner ks) = [].
Proof. unfold inner. rewrite fold_child. reflexivity. Qed.
Lemma inner_box ks : n_box (inner ks) = fold_left upd (map n_box ks) b0.
Proof. unfold inner. rewrite fold_child. reflexivity. Qed.
Lemma leaf_kids l : n_kids (leaf_node l) = [].
Proof. unfold SpModel.leaf_node. rewrite fold_object. reflexivity. Qed.
Lemma leaf_objs l : n_objs (leaf_node l) = l.
Proof. unfold SpModel.leaf_node. rewrite fold_object. reflexivity. Qed.
Lemma leaf_box l : n_box (leaf_node l) = fold_left upd (map s_box l) b0.
Proof. unfold SpModel.leaf_node. rewrite fold_object. reflexivity. Qed.
Lemma leaf_nodes_leaf (n : spnode B) : n_kids n = [] -> leaf_nodes n = [n].
Proof. destruct n as [b s k o]. cbn. intros ->. reflexivity. Qed.
Lemma leaf_nodes_inner (n : spnode B) : n_kids n <> [] -> leaf_nodes n = flat_map leaf_nodes (n_kids n).
Proof. destruct n as [b s [|k r] o]; cbn; [congruence|reflexivity]. Qed.
Lemma under_leaf l : under (leaf_node l) = l.
Proof. unfold under. rewrite leaf_nodes_leaf by apply leaf_kids. cbn. rewrite leaf_objs, app_nil_r. reflexivity. Qed.
Lemma under_inner ks : under (inner ks) = flat_map under ks.
Proof.
  unfold under. destruct ks as [|k r]; [reflexivity|]. rewrite leaf_nodes_inner by (rewrite inner_kids; discriminate). rewrite inner_kids.
  induction (k :: r) as [|a q IH]; cbn; [reflexivity|]. rewrite flat_map_app, IH. reflexivity.
Qed.

Lemma sizes_fold {A} (f : A -> Z) l : forall s, s = uint s -> fold_left (fun s k => uint (s + f k)) l s = uint (s + total f l).
Proof.
  induction l as [|k r IH]; intros s H; cbn [fold_left]; unfold total; cbn [map fold_right].
  - rewrite Z.add_0_r. exact H.
  - rewrite IH by (symmetry; apply uint_idem). rewrite uint_add. f_equal. unfold total. lia.
Qed.

(** Every node the program makes is a leaf with objects or an inner node with children. *)
Inductive made : spnode B -> Prop :=
| made_leaf l : made (leaf_node l)
| made_inner ks : (forall k, In k ks -> made k) -> made (inner ks).

Lemma count_inner ks : node_count (inner ks) = 1 + total node_count ks.
Proof. unfold inner. rewrite fold_child. reflexivity. Qed.
Lemma made_size n : made n -> n_size n = uint (total s_size (under n) + node_count n).
Proof.
  induction 1 as [l|ks H IH].
  - rewrite under_leaf. unfold SpModel.leaf_node. rewrite fold_object. cbn [n_size node_count SpModel.new_node n_kids map fold_right]. rewrite sizes_fold by reflexivity. f_equal. lia.
  - rewrite under_inner, count_inner. unfold inner. rewrite fold_child. cbn [n_size SpModel.new_node]. rewrite sizes_fold by reflexivity.
    assert (E : uint (total n_size ks) = uint (total s_size (flat_map under ks) + total node_count ks)).
    { clear H. induction ks as [|k r IHr]; [reflexivity|]. cbn [flat_map]. rewrite total_app. unfold total at 1 3. cbn [map fold_right]. fold (total (@n_size B) r) (total node_count r).
      rewrite (IH k (or_introl eq_refl)), uint_add. rewrite <- uint_add_r, IHr by (intros; apply IH; right; auto). rewrite uint_add_r. f_equal. unfold total. cbn [map fold_right]. lia. }
    rewrite <- uint_add_r, E, uint_add_r. f_equal. lia.
Qed.

(** ** The partition *)
Context (srt : axis -> list (sobj B) -> list (sobj B)).
Hypothesis srt_perm : forall a l, Permutation (srt a l) l.
Notation y_node := (y_node b0 upd srt). Notation x_node := (x_node b0 upd srt). Notation build_parts := (build_parts b0 upd srt).

Lemma srt_nil a l : l <> [] -> srt a l <> [].
Proof. intros H E. apply H. pose proof (srt_perm a l) as P. rewrite E in P. apply Permutation_nil in P. exact P. Qed.
Lemma srt_len a l : length (srt a l) = length l.
Proof. apply Permutation_length, srt_perm. Qed.
Lemma y_inner pz l : y_node pz l = inner (map leaf_node (slices pz (srt AZ l))). Proof. reflexivity. Qed.
Lemma x_inner py pz l : x_node py pz l = inner (map (y_node pz) (slices py (srt AY l))). Proof. reflexivity. Qed.
Lemma b_inner px py pz l : build_parts px py pz l = inner (map (x_node py pz) (slices px (srt AX l))). Proof. reflexivity. Qed.

Lemma made_build px py pz l : made (build_parts px py pz l).
Proof.
  rewrite b_inner. apply made_inner. intros k Hk. apply in_map_iff in Hk. destruct Hk as [c [<- _]]. rewrite x_inner. apply made_inner.
  intros k Hk. apply in_map_iff in Hk. destruct Hk as [d [<- _]]. rewrite y_inner. apply made_inner. intros k Hk. apply in_map_iff in Hk. destruct Hk as [e [<- _]]. apply made_leaf.
Qed.
Lemma flat_perm {A C} (f g : A -> list C) l : (forall x, In x l -> Permutation (f x) (g x)) -> Permutation (flat_map f l) (flat_map g l).
Proof. induction l; cbn; intros H; [constructor|]. apply Permutation_app; auto. Qed.
Lemma flat_map_map {A C D} (f : C -> list D) (g : A -> C) l : flat_map f (map g l) = flat_map (fun x => f (g x)) l.
Proof. induction l; cbn; congruence. Qed.
Lemma flat_map_id {A} (l : list (list A)) : flat_map (fun x => x) l = concat l.
Proof. induction l; cbn; congruence. Qed.
Lemma under_y pz l : (0 < pz)%nat -> Permutation (under (y_node pz l)) l.
Proof.
  intros P. rewrite y_inner, under_inner, flat_map_map. erewrite flat_map_ext; [|intro; apply under_leaf]. rewrite flat_map_id, slices_concat by auto. apply srt_perm.
Qed.
Lemma under_x py pz l : (0 < py)%nat -> (0 < pz)%nat -> Permutation (under (x_node py pz l)) l.
Proof.
  intros P Q. rewrite x_inner, under_inner, flat_map_map. etransitivity; [apply flat_perm; intros; apply under_y; auto|]. rewrite flat_map_id, slices_concat by auto. apply srt_perm.
Qed.
Lemma under_b px py pz l : (0 < px)%nat -> (0 < py)%nat -> (0 < pz)%nat -> Permutation (under (build_parts px py pz l)) l.
Proof.
  intros O P Q. rewrite b_inner, under_inner, flat_map_map. etransitivity; [apply flat_perm; intros; apply under_x; auto|]. rewrite flat_map_id, slices_concat by auto. apply srt_perm.
Qed.

(** Numbers of leaves and of objects in them *)
Lemma flat_len {A C} (f : A -> list C) k l : (forall x, In x l -> (length (f x) <= k)%nat) -> (length (flat_map f l) <= length l * k)%nat.
Proof. induction l; cbn; intros H; [lia|]. rewrite app_length. specialize (H a (or_introl eq_refl)) as Ha. specialize (IHl ltac:(auto)). lia. Qed.
Lemma leaves_inner ks k m : (0 < m * k)%nat -> (length ks <= m)%nat -> (forall n, In n ks -> (length (leaf_nodes n) <= k)%nat) -> (length (leaf_nodes (inner ks)) <= m * k)%nat.
Proof.
  intros P L H. destruct ks as [|a r]; [cbn; lia|]. rewrite leaf_nodes_inner by (rewrite inner_kids; discriminate). rewrite inner_kids.
  etransitivity; [apply flat_len; exact H|]. apply Nat.mul_le_mono_r. exact L.
Qed.
Lemma leaves_y pz l : (0 < pz)%nat -> (length (leaf_nodes (y_node pz l)) <= pz)%nat.
Proof.
  intros P. rewrite y_inner, <- (Nat.mul_1_r pz). apply leaves_inner; [lia|rewrite map_length; rewrite Nat.mul_1_r; apply slices_count; auto|].
  intros n Hn. apply in_map_iff in Hn. destruct Hn as [c [<- _]]. rewrite leaf_nodes_leaf by apply leaf_kids. cbn. lia.
Qed.
Lemma leaves_b px py pz l : (0 < px)%nat -> (0 < py)%nat -> (0 < pz)%nat -> (length (leaf_nodes (build_parts px py pz l)) <= px * (py * pz))%nat.
Proof.
  intros O P Q. assert (M : (0 < py * pz)%nat) by lia. rewrite b_inner. apply leaves_inner; [lia|rewrite map_length; apply slices_count; auto|].
  intros n Hn. apply in_map_iff in Hn. destruct Hn as [c [<- _]]. rewrite x_inner. apply leaves_inner; [lia|rewrite map_length; apply slices_count; auto|].
  intros n Hn. apply in_map_iff in Hn. destruct Hn as [d [<- _]]. apply leaves_y; auto.
Qed.
Lemma leaves_load px py pz l : (0 < px)%nat -> (0 < py)%nat -> (0 < pz)%nat ->
  forall n, In n (leaf_nodes (build_parts px py pz l)) -> (length (n_objs n) <= step_of pz (step_of py (step_of px (length l))))%nat /\ (l <> [] -> n_objs n <> []).
Proof.
  intros O P Q n Hn. destruct l as [|o l].
  { assert (E : srt AX [] = []) by (apply Permutation_nil; symmetry; apply srt_perm). rewrite b_inner, E in Hn. cbn in Hn. destruct Hn as [<-|[]]. cbn. split; [lia|congruence]. }
  set (v := o :: l) in *. assert (NV : v <> []) by discriminate.
  rewrite b_inner, leaf_nodes_inner, inner_kids in Hn by (rewrite inner_kids; intros E; apply map_eq_nil in E; revert E; apply slices_some, srt_nil; auto).
  rewrite flat_map_map in Hn. apply in_flat_map in Hn. destruct Hn as [c [Hc Hn]]. pose proof (slices_nonempty _ _ _ O Hc) as Nc. pose proof (slices_short _ _ _ Hc) as Lc. rewrite srt_len in Lc.
  rewrite x_inner, leaf_nodes_inner, inner_kids in Hn by (rewrite inner_kids; intros E; apply map_eq_nil in E; revert E; apply slices_some, srt_nil; auto).
  rewrite flat_map_map in Hn. apply in_flat_map in Hn. destruct Hn as [d [Hd Hn]]. pose proof (slices_nonempty _ _ _ P Hd) as Nd. pose proof (slices_short _ _ _ Hd) as Ld. rewrite srt_len in Ld.
  rewrite y_inner, leaf_nodes_inner, inner_kids in Hn by (rewrite inner_kids; intros E; apply map_eq_nil in E; revert E; apply slices_some, srt_nil; auto).
  rewrite flat_map_map in Hn. apply in_flat_map in Hn. destruct Hn as [e [He Hn]]. pose proof (slices_nonempty _ _ _ Q He) as Ne. pose proof (slices_short _ _ _ He) as Le. rewrite srt_len in Le.
  rewrite leaf_nodes_leaf in Hn by apply leaf_kids. destruct Hn as [<-|[]]. rewrite leaf_objs. split; [|auto].
  etransitivity; [exact Le|]. apply step_mono; [auto|]. etransitivity; [exact Ld|]. apply step_mono; auto.
Qed.

(** Order of the cuts *)
Lemma sorted_slices {A} (R : A -> A -> Prop) (ls : list (list A)) : StronglySorted R (concat ls) ->
  forall i j a b ci cj, (i < j)%nat -> nth_error ls i = Some ci -> nth_error ls j = Some cj -> In a ci -> In b cj -> R a b.
Proof.
  induction ls as [|c r IH]; intros S i j a b ci cj L Ei Ej Ia Ib; [destruct i; discriminate|]. cbn in S.
  destruct i as [|i].
  - cbn in Ei. inversion Ei; subst c. destruct j as [|j]; [lia|]. cbn in Ej. assert (Ic : In b (concat r)) by (apply in_concat; exists cj; split; [eapply nth_error_In; eauto|auto]).
    clear -S Ia Ic. induction ci as [|x ci IH]; [destruct Ia|]. cbn in S. inversion S as [|? ? S1 S2]; subst. destruct Ia as [<-|Ia]; [|auto]. rewrite Forall_forall in S2. apply S2, in_or_app. auto.
  - destruct j as [|j]; [lia|]. cbn in Ei, Ej. assert (S' : StronglySorted R (concat r)) by (clear -S; induction c as [|x c IHc]; [exact S|]; cbn in S; inversion S; subst; auto).
    apply (IH S' i j a b ci cj); auto. lia.
Qed.
End Node.

(** ** Covering *)
Definition holds (nb ob : option aab) : Prop := match ob with None => True | Some c => exists b, nb = Some b /\ within c b end.
Lemma within_refl b : within b b.
Proof. intro a. split; apply Qle_refl. Qed.
Lemma within_trans a b c : within a b -> within b c -> within a c.
Proof. intros H K x. destruct (H x), (K x). split; lra. Qed.
Lemma holds_refl b : holds b b.
Proof. destruct b; cbn; [|exact I]. eexists; split; eauto. apply within_refl. Qed.
Lemma holds_trans a b c : holds a b -> holds b c -> holds a c.
Proof. destruct c as [c|]; cbn; [|auto]. intros H [b' [-> W]]. destruct H as [a' [-> W']]. eexists. split; eauto. eapply within_trans; eauto. Qed.
Lemma update_within b c : within b (update_box b c) /\ within c (update_box b c) /\ forall d, within b d -> within c d -> within (update_box b c) d.
Proof.
  assert (M : forall x y, (upd_min x y <= x /\ upd_min x y <= y /\ forall z, z <= x -> z <= y -> z <= upd_min x y)%Q).
  { intros x y. unfold upd_min. destruct (Qltb_spec y x); repeat split; intros; lra. }
  assert (X : forall x y, (x <= upd_max x y /\ y <= upd_max x y /\ forall z, x <= z -> y <= z -> upd_max x y <= z)%Q).
  { intros x y. unfold upd_max. destruct (Qltb_spec x y); repeat split; intros; lra. }
  split; [|split].
  - intro a. cbn. destruct (M (bmin b a) (bmin c a)) as [? [? _]], (X (bmax b a) (bmax c a)) as [? [? _]]. split; auto.
  - intro a. cbn. destruct (M (bmin b a) (bmin c a)) as [? [? _]], (X (bmax b a) (bmax c a)) as [? [? _]]. split; auto.
  - intros d H K a. cbn. destruct (M (bmin b a) (bmin c a)) as [_ [_ M3]], (X (bmax b a) (bmax c a)) as [_ [_ X3]], (H a), (K a). split; auto.
Qed.
Lemma upd_holds a b : holds (upd_opt a b) a /\ holds (upd_opt a b) b /\ forall d, holds d a -> holds d b -> holds d (upd_opt a b).
Proof.
  destruct b as [b|]; [|cbn; split; [apply holds_refl|auto]]. destruct a as [a|]; cbn.
  - destruct (update_within a b) as [H1 [H2 H3]]. split; [eexists; split; eauto|]. split; [eexists; split; eauto|].
    intros d [d1 [-> W1]] [d2 [E W2]]. inversion E; subst d2. eexists. split; eauto.
  - split; [auto|]. split; [eexists; split; eauto; apply within_refl|auto].
Qed.
Lemma fold_holds l : forall s, holds (fold_left upd_opt l s) s /\ (forall b, In b l -> holds (fold_left upd_opt l s) b) /\ forall d, holds d s -> (forall b, In b l -> holds d b) -> holds d (fold_left upd_opt l s).
Proof.
  induction l as [|b r IH]; intros s; cbn [fold_left].
  - split; [apply holds_refl|]. split; [intros b []|auto].
  - destruct (IH (upd_opt s b)) as [H1 [H2 H3]]. destruct (upd_holds s b) as [U1 [U2 U3]]. split; [eapply holds_trans; eauto|]. split.
    + intros c [<-|Hc]; [eapply holds_trans; eauto|auto].
    + intros d Hd Hb. apply H3; [apply U3; auto; apply Hb; left; auto|intros c Hc; apply Hb; right; auto].
Qed.

Notation made_o := (@made (option aab) None upd_opt).
(** From a node down to a leaf. *)
Inductive path {B} : spnode B -> list (spnode B) -> Prop :=
| path_leaf n : n_kids n = [] -> path n [n]
| path_down n k p : In k (n_kids n) -> path k p -> path n (n :: p).

Lemma made_kids n : made_o n -> forall k, In k (n_kids n) -> made_o k /\ holds (n_box n) (n_box k) /\ n_objs n = [].
Proof.
  intros [l|ks H] k Hk; [rewrite leaf_kids in Hk; destruct Hk|]. rewrite inner_kids in Hk. split; [auto|]. rewrite inner_box, inner_objs. split; [|auto].
  apply fold_holds. apply in_map; auto.
Qed.
Lemma path_covers n p : path n p -> made_o n -> forall leaf o d, last p d = leaf -> In o (n_objs leaf) -> Forall (fun m => holds (n_box m) (s_box o)) p.
Proof.
  induction 1 as [n E|n k p I P IH]; intros M leaf o d L Ho.
  - cbn in L. subst leaf. constructor; [|constructor]. destruct M as [l|ks H]; [|rewrite inner_objs in Ho; destruct Ho]. rewrite leaf_objs in Ho. rewrite leaf_box. apply fold_holds. apply in_map; auto.
  - destruct (made_kids n M k I) as [Mk [Hk _]].
    assert (Np : exists q, p = k :: q) by (inversion P; subst; eauto). destruct Np as [q ->].
    assert (F := IH Mk leaf o d ltac:(exact L) Ho). constructor; [|exact F]. inversion F; subst. eapply holds_trans; eauto.
Qed.
Lemma path_leaves n : made_o n -> forall p d, path n p -> In (last p d) (leaf_nodes n).
Proof.
  intros _ p d P. induction P as [n E|n k p I P IH].
  - rewrite leaf_nodes_leaf by auto. left. reflexivity.
  - rewrite leaf_nodes_inner by (intros E; rewrite E in I; destruct I). apply in_flat_map. exists k. split; [auto|].
    assert (exists q, p = k :: q) as [q ->] by (inversion P; subst; eauto). exact IH.
Qed.
Lemma made_tight n : made_o n -> forall d, (forall o, In o (under n) -> holds d (s_box o)) -> holds d (n_box n).
Proof.
  induction 1 as [l|ks H IH]; intros d Hd.
  - rewrite under_leaf in Hd. rewrite leaf_box. apply fold_holds; [exact I|]. intros b Hb. apply in_map_iff in Hb. destruct Hb as [o [<- Ho]]. auto.
  - rewrite under_inner in Hd. rewrite inner_box. apply fold_holds; [exact I|]. intros b Hb. apply in_map_iff in Hb. destruct Hb as [k [<- Hk]]. apply IH; auto. intros o Ho. apply Hd, in_flat_map. eauto.
Qed.

(** ** Files *)
Section Files.
Context {B : Type} (b0 : B) (upd : B -> B -> B) (enc : B -> list Z) (dec : list Z -> B).
Notation inn := (inner b0 upd).
Definition leaf_ok (n : spnode B) : Prop := n_kids n = [] /\ length (enc (n_box n)) = 24%nat /\ dec (enc (n_box n)) = n_box n /\ 0 <= n_size n < 4294967296.
Definition erase (n : spnode B) : spnode B := SP (n_box n) (n_size n) (n_kids n) [].
Definition tree3 (ls : list (list (list (spnode B)))) : spnode B := inn (map (fun ly => inn (map (fun lz => inn lz) ly)) ls).

Lemma all_some_ok {A} (l : list A) : all_some (map Some l) = Some l.
Proof. induction l; cbn; [reflexivity|]. rewrite IHl. reflexivity. Qed.
Lemma map_seq_nth {A C} (g : A -> C) (l : list A) : forall k (f : nat -> C), (forall i a, nth_error l i = Some a -> f (k + i)%nat = g a) -> map f (seq k (length l)) = map g l.
Proof.
  induction l as [|a r IH]; intros k f H; cbn; [reflexivity|]. f_equal; [rewrite <- (Nat.add_0_r k); apply H; reflexivity|]. apply IH. intros i b E. rewrite <- (H (S i) b E). f_equal. lia.
Qed.
Lemma flat_map_seq_nth {A C} (g : A -> list C) (l : list A) : forall k (f : nat -> list C), (forall i a, nth_error l i = Some a -> f (k + i)%nat = g a) -> flat_map f (seq k (length l)) = flat_map g l.
Proof. intros k f H. rewrite !flat_map_concat_map. f_equal. apply map_seq_nth. exact H. Qed.
Lemma map_flat_map {A C D} (f : C -> D) (g : A -> list C) l : map f (flat_map g l) = flat_map (fun x => map f (g x)) l.
Proof. induction l; cbn; [reflexivity|]. rewrite map_app, IHl. reflexivity. Qed.

Lemma flat_map_ext_in {A C} (f g : A -> list C) l : (forall x, In x l -> f x = g x) -> flat_map f l = flat_map g l.
Proof. induction l; cbn; intros H; [reflexivity|]. rewrite H, IHl by auto. reflexivity. Qed.

Definition rect (px py pz : nat) (ls : list (list (list (spnode B)))) : Prop :=
  length ls = px /\ Forall (fun ly => length ly = py /\ Forall (fun lz => length lz = pz /\ Forall leaf_ok lz) ly) ls.

Lemma leaves_at px py pz ls : rect px py pz ls -> map (fun '(x, y, z) => leaf_at (tree3 ls) x y z) (triples px py pz) = map Some (concat (concat ls)).
Proof.
  intros [L F]. unfold triples. rewrite map_flat_map. subst px. rewrite (flat_map_seq_nth (fun ly => map Some (concat ly)) ls).
  - clear F. induction ls as [|ly r IH]; cbn; [reflexivity|]. rewrite concat_app, map_app, IH. reflexivity.
  - intros i ly E. cbn [Nat.add]. rewrite map_flat_map. rewrite Forall_forall in F. destruct (F ly (nth_error_In _ _ E)) as [Ly Fy]. subst py.
    rewrite (flat_map_seq_nth (fun lz => map Some lz) ly).
    + clear. induction ly as [|lz r IH]; cbn; [reflexivity|]. rewrite map_app, IH. reflexivity.
    + intros j lz Ej. cbn [Nat.add]. rewrite map_map. rewrite Forall_forall in Fy. destruct (Fy lz (nth_error_In _ _ Ej)) as [Lz Fz]. subst pz.
      apply (map_seq_nth Some lz). intros k leaf Ek. cbn [Nat.add]. unfold leaf_at, tree3. rewrite inner_kids, nth_error_map, E. cbn [option_map bind]. rewrite inner_kids, nth_error_map, Ej. cbn [option_map bind]. rewrite inner_kids. exact Ek.
Qed.

Lemma persist_full px py pz ls : rect px py pz ls -> (0 < px)%nat -> (0 < py)%nat -> (0 < pz)%nat ->
  persist_tree enc (tree3 ls) = Some (Some (le 8 (Z.of_nat px) ++ le 8 (Z.of_nat py) ++ le 8 (Z.of_nat pz) ++ flat_map (leaf_bytes enc) (concat (concat ls)))).
Proof.
  intros R P Q O. pose proof (leaves_at px py pz ls R) as LA. destruct R as [L F]. destruct ls as [|ly lr]; [cbn in L; lia|]. inversion F as [|? ? [Ly Fy] _]; subst.
  destruct ly as [|lz lyr]; [cbn in Q; lia|]. inversion Fy as [|? ? [Lz Fz] _]; subst. destruct lz as [|n lzr]; [cbn in O; lia|].
  set (T := tree3 (((n :: lzr) :: lyr) :: lr)) in *.
  assert (K1 : n_kids T = map (fun ly => inn (map (fun lz => inn lz) ly)) (((n :: lzr) :: lyr) :: lr)) by apply inner_kids.
  unfold persist_tree. rewrite K1. cbn [map]. assert (K2 : n_kids (inn (inn (n :: lzr) :: map (fun lz => inn lz) lyr)) = inn (n :: lzr) :: map (fun lz => inn lz) lyr) by apply inner_kids.
  rewrite K2. assert (K3 : n_kids (inn (n :: lzr)) = n :: lzr) by apply inner_kids. rewrite K3.
  cbn [length] in LA |- *. rewrite !map_length. rewrite LA, all_some_ok. cbn [bind]. reflexivity.
Qed.

Lemma take_full n a s : length a = n -> take_bytes n (a ++ s) = Some (a, s).
Proof.
  intros <-. unfold take_bytes. rewrite app_length. destruct (Nat.leb_spec (length a) (length a + length s)); [|lia]. rewrite firstn_app, firstn_all, Nat.sub_diag. cbn.
  rewrite app_nil_r, skipn_app, skipn_all, Nat.sub_diag. reflexivity.
Qed.
Lemma load_leaf_full n s : leaf_ok n -> load_leaf dec (leaf_bytes enc n ++ s) = Some (erase n, s).
Proof.
  intros [K [L [D S]]]. unfold load_leaf, leaf_bytes. rewrite <- app_assoc, take_full by exact L. cbn [bind]. rewrite take_full by apply le_length. cbn [bind].
  rewrite D, le_val_le by exact S. unfold erase. rewrite K. reflexivity.
Qed.
Lemma load_kids_full {A} (rd : list Z -> option (spnode B * list Z)) (by_ : A -> list Z) (nd : A -> spnode B) l :
  (forall a s, In a l -> rd (by_ a ++ s) = Some (nd a, s)) -> forall cur s, load_kids upd rd (length l) cur (flat_map by_ l ++ s) = Some (fold_left (add_child upd) (map nd l) cur, s).
Proof.
  induction l as [|a r IH]; intros H cur s; cbn [length load_kids flat_map map fold_left]; [reflexivity|].
  rewrite <- app_assoc, H by (left; auto). cbn [bind]. apply IH. intros; apply H; right; auto.
Qed.
Definition erase3 (ls : list (list (list (spnode B)))) := map (map (map erase)) ls.
Lemma load_full px py pz ls s : rect px py pz ls -> Z.of_nat px < word -> Z.of_nat py < word -> Z.of_nat pz < word ->
  load_tree b0 upd dec (new_node b0) (le 8 (Z.of_nat px) ++ le 8 (Z.of_nat py) ++ le 8 (Z.of_nat pz) ++ flat_map (leaf_bytes enc) (concat (concat ls)) ++ s) = Some (tree3 (erase3 ls)).
Proof.
  intros [L F] P Q O. unfold load_tree. rewrite !take_full by apply le_length. cbn [bind]. rewrite take_full by apply le_length. cbn [bind]. rewrite take_full by apply le_length. cbn [bind].
  rewrite !le8 by (unfold sized; lia). rewrite !Nat2Z.id.
  assert (E : forall {C} (f : C -> list Z) (l : list (list C)), flat_map f (concat l) = flat_map (flat_map f) l).
  { intros C f l. induction l; cbn; [reflexivity|]. rewrite flat_map_app, IHl. reflexivity. }
  rewrite E. rewrite E. rewrite <- L.
  rewrite (load_kids_full _ (flat_map (flat_map (leaf_bytes enc))) (fun ly => inn (map (fun lz => inn (map erase lz)) ly))).
  - cbn [bind]. f_equal. unfold tree3, erase3, inner. rewrite map_map. f_equal. apply map_ext. intros ly. f_equal. rewrite map_map. reflexivity.
  - intros ly s' Iy. rewrite Forall_forall in F. destruct (F ly Iy) as [Ly Fy]. subst py.
    rewrite (load_kids_full _ (flat_map (leaf_bytes enc)) (fun lz => inn (map erase lz))); [reflexivity|].
    intros lz s'' Iz. rewrite Forall_forall in Fy. destruct (Fy lz Iz) as [Lz Fz]. subst pz.
    rewrite (load_kids_full _ (leaf_bytes enc) erase); [reflexivity|]. intros n s3 In_. apply load_leaf_full. rewrite Forall_forall in Fz. auto.
Qed.
End Files.

Lemma enc_f_len b : length (enc_f b) = 24%nat.
Proof. destruct b as [[[x y] z] [[u v] w]]. unfold enc_f. rewrite !app_length, !le_length. reflexivity. Qed.
Definition pattern (p : Z) : Prop := 0 <= p < 4294967296.
Lemma le4 z : pattern z -> le_val (le 4 z) = z.
Proof. intros H. apply le_val_le. exact H. Qed.
Lemma dec_enc_f b : (let '(FBox (x, y, z) (u, v, w)) := b in Forall pattern [x; y; z; u; v; w]) -> dec_f (enc_f b) = b.
Proof.
  destruct b as [[[x y] z] [[u v] w]]. intros H. inversion H as [|? ? X H1]; subst. inversion H1 as [|? ? Y H2]; subst. inversion H2 as [|? ? Z_ H3]; subst. inversion H3 as [|? ? U H4]; subst. inversion H4 as [|? ? V H5]; subst. inversion H5 as [|? ? W _]; subst.
  assert (S : forall a s, skipn 4 (le 4 a ++ s) = s) by reflexivity. assert (T : forall a s, firstn 4 (le 4 a ++ s) = le 4 a) by reflexivity. assert (T' : forall a, firstn 4 (le 4 a) = le 4 a) by reflexivity.
  unfold dec_f, enc_f.
  change (firstn 4 (skipn 0 (le 4 x ++ le 4 y ++ le 4 z ++ le 4 u ++ le 4 v ++ le 4 w))) with (le 4 x). change (firstn 4 (skipn 4 (le 4 x ++ le 4 y ++ le 4 z ++ le 4 u ++ le 4 v ++ le 4 w))) with (le 4 y).
  change (firstn 4 (skipn 8 (le 4 x ++ le 4 y ++ le 4 z ++ le 4 u ++ le 4 v ++ le 4 w))) with (le 4 z). change (firstn 4 (skipn 12 (le 4 x ++ le 4 y ++ le 4 z ++ le 4 u ++ le 4 v ++ le 4 w))) with (le 4 u).
  change (firstn 4 (skipn 16 (le 4 x ++ le 4 y ++ le 4 z ++ le 4 u ++ le 4 v ++ le 4 w))) with (le 4 v). change (firstn 4 (skipn 20 (le 4 x ++ le 4 y ++ le 4 z ++ le 4 u ++ le 4 v ++ le 4 w))) with (le 4 w).
  rewrite !le4 by assumption. reflexivity.
Qed.
