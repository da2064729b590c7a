(** C190: R-trees lose no node.  C191: copies of R-trees. *)
From Coq Require Import List Bool Arith ZArith QArith Lia Permutation.
From Verif Require Import AabModel RTreeModel RTreeProofs RTreeIterProofs PropRTree RTreeMemModel.
Import ListNotations.
Open Scope nat_scope.

(** ** Specification *)
(** The number of nodes of a tree. *)
Fixpoint nodes {D} (n : item D) : nat :=
  match n with Data _ => 0 | Node _ br => S (list_sum (map (fun b => nodes (snd b)) br)) end.

Definition brn {D} (l : list (branch D)) : nat := list_sum (map (fun b => nodes (snd b)) l).
Lemma nodes_node {D} level (br : list (branch D)) : nodes (Node level br) = S (brn br). Proof. reflexivity. Qed.
Lemma brn_app {D} (a b : list (branch D)) : brn (a ++ b) = brn a + brn b.
Proof. unfold brn. rewrite map_app. apply list_sum_app. Qed.
Lemma brn_cons {D} (x : branch D) l : brn (x :: l) = nodes (snd x) + brn l. Proof. reflexivity. Qed.
Lemma brn_perm {D} (a b : list (branch D)) : Permutation a b -> brn a = brn b.
Proof. induction 1; rewrite ?brn_cons; lia. Qed.
(** A tree whose nodes know their height. *)
Fixpoint lev {D} (h : nat) (n : item D) : Prop :=
  match n with
  | Data _ => False
  | Node level br => level = h /\ match h with O => Forall (fun b => exists d, snd b = Data d) br | S h => Forall (fun b => lev h (snd b)) br end
  end.
Definition hangs {D} (h : nat) (b : branch D) : Prop := match h with O => exists d, snd b = Data d | S h => lev h (snd b) end.
Lemma lev_iff {D} h level (br : list (branch D)) : lev h (Node level br) <-> level = h /\ Forall (hangs h) br.
Proof. destruct h; reflexivity. Qed.
Lemma lev_node {D} h (n : item D) : lev h n -> exists br, n = Node h br.
Proof. destruct n as [d|l br]; [destruct h; intros []|]. intros H. apply lev_iff in H. destruct H as (-> & _). eexists. reflexivity. Qed.
Lemma upd_split {A} (l : list A) i x y : nth_error l i = Some x -> exists l1 l2, l = l1 ++ x :: l2 /\ length l1 = i /\ upd_nth i y l = l1 ++ y :: l2.
Proof.
  revert i. induction l as [|a l IH]; intros [|i] E; try discriminate E; cbn in E.
  - injection E as ->. exists [], l. repeat split.
  - destruct (IH i E) as (l1 & l2 & -> & L & U). exists (a :: l1), l2. cbn. rewrite U. repeat split. congruence.
Qed.

Section Ops.
Context {D : Type}.
Variables M m : nat.
Variable vol : Rect -> Q.
Variable sub : Q -> Q -> Q.
Variable deqb : D -> D -> bool.
Local Notation item := (item D).
Local Notation branch := (branch D).

(** The counters do not change what is computed. *)
Lemma AddBranchM_erase b level (l : list branch) :
  AddBranch M m vol sub b level l = option_map fst (AddBranchM M m vol sub b level l).
Proof. unfold AddBranch, AddBranchM. destruct (length l <? M)%nat; [reflexivity|]. destruct (SplitNode M m vol sub l b) as [[A B]|]; reflexivity. Qed.
Lemma InsertRectRecM_erase fuel : forall b (n : item) a,
  InsertRectRec M m vol sub fuel b n a = option_map fst (InsertRectRecM M m vol sub fuel b n a).
Proof.
  induction fuel as [|fuel IH]; intros b n a; [reflexivity|]. destruct n as [d|level br]; [reflexivity|]. cbn [InsertRectRec InsertRectRecM].
  destruct (a <? level); [|destruct (level =? a); [apply AddBranchM_erase|reflexivity]].
  cbv zeta. destruct (nth_error br _) as [[r child]|]; [|reflexivity]. rewrite IH. destruct (InsertRectRecM M m vol sub fuel b child a) as [[[c [o|]] k]|]; cbn [option_map fst]; [|reflexivity|reflexivity].
  destruct (NodeCover c); [|reflexivity]. destruct (NodeCover o); [|reflexivity]. rewrite AddBranchM_erase. destruct (AddBranchM _ _ _ _ _ _ _) as [[[? ?] ?]|]; reflexivity.
Qed.
Lemma InsertRectM_erase b (root : item) a : InsertRect M m vol sub b root a = option_map fst (InsertRectM M m vol sub b root a).
Proof.
  unfold InsertRect, InsertRectM. rewrite InsertRectRecM_erase. destruct (InsertRectRecM _ _ _ _ _ _ _ _) as [[[c [o|]] k]|]; cbn [option_map fst]; [|reflexivity|reflexivity].
  destruct (NodeCover c); [|reflexivity]. destruct (NodeCover o); [|reflexivity]. destruct (1 <? M); reflexivity.
Qed.
Lemma insert_allM_erase l a : forall root : item, insert_all M m vol sub l a root = option_map fst (insert_allM M m vol sub l a root).
Proof.
  induction l as [|b l IH]; intros root; [reflexivity|]. cbn [insert_all insert_allM]. rewrite InsertRectM_erase. destruct (InsertRectM _ _ _ _ _ _ _) as [[r k]|]; cbn [option_map fst]; [|reflexivity].
  rewrite IH. destruct (insert_allM _ _ _ _ _ _ _) as [[? ?]|]; reflexivity.
Qed.
Lemma reinsertM_erase l : forall root : item, reinsert M m vol sub l root = option_map (fun x => fst (fst (fst x))) (reinsertM M m vol sub l root).
Proof.
  induction l as [|[d|level br] l IH]; intros root; [reflexivity|reflexivity|]. cbn [reinsert reinsertM]. rewrite insert_allM_erase. destruct (insert_allM _ _ _ _ _ _ _) as [[r k]|]; cbn [option_map fst]; [|reflexivity].
  rewrite IH. destruct (reinsertM _ _ _ _ _ _) as [[[[? ?] ?] ?]|]; reflexivity.
Qed.
Lemma InsertM_erase r d (root : item) : Insert M m vol sub r d root = option_map fst (InsertM M m vol sub r d root).
Proof. unfold Insert, InsertM. rewrite InsertRectM_erase. destruct (InsertRectM _ _ _ _ _ _ _) as [[? ?]|]; reflexivity. Qed.
Lemma RemoveM_erase q id (root : item) : Remove M m vol sub deqb q id root = option_map fst (RemoveM M m vol sub deqb q id root).
Proof.
  unfold Remove, RemoveM. destruct (RemoveRectRec m deqb q id root) as [[[r gone]|]|]; [|reflexivity|reflexivity]. rewrite reinsertM_erase.
  destruct (reinsertM _ _ _ _ _ _) as [[[[n a] f] lf]|]; cbn [option_map fst]; [|reflexivity].
  destruct n as [d|[|level] [|[r1 c] [|x l]]]; reflexivity.
Qed.

(** *** Splitting *)
Lemma LoadNodes_perm part : forall (buf A B A' B' : list branch), LoadNodes M part buf A B = Some (A', B') -> Permutation (A' ++ B') (A ++ B ++ buf).
Proof.
  induction part as [|[[]|] part IH]; intros [|b buf] A B A' B' E; cbn [LoadNodes] in E; try discriminate E.
  - injection E as <- <-. rewrite app_nil_r. reflexivity.
  - destruct (length B <? M); [|discriminate E]. apply IH in E. rewrite E, <- app_assoc. reflexivity.
  - destruct (length A <? M); [|discriminate E]. apply IH in E. rewrite E, <- app_assoc. apply Permutation_app_head. cbn [app]. apply Permutation_middle.
Qed.
Lemma SplitNode_perm (l A B : list branch) b : SplitNode M m vol sub l b = Some (A, B) -> Permutation (A ++ B) (b :: l).
Proof.
  unfold SplitNode. destruct (cover_list _); [|discriminate]. intros E. apply LoadNodes_perm in E. rewrite E. cbn [app]. symmetry. apply Permutation_cons_append.
Qed.
Definition onodes (o : option item) : nat := match o with Some n => nodes n | None => 0 end.
Definition olev (h : nat) (o : option item) : Prop := match o with Some n => lev h n | None => True end.
Lemma AddBranchM_nodes h b (l : list branch) n o k : AddBranchM M m vol sub b h l = Some (n, o, k) -> Forall (hangs h) l -> hangs h b ->
  lev h n /\ olev h o /\ nodes n + onodes o = S (brn l) + nodes (snd b) + k.
Proof.
  unfold AddBranchM. destruct (length l <? M) eqn:L.
  - intros E Hl Hb. injection E as <- <- <-. split; [|split; [exact I|]].
    + apply lev_iff. split; [reflexivity|]. apply Forall_app. split; [exact Hl|]. constructor; [exact Hb|constructor].
    + rewrite nodes_node, brn_app, brn_cons. cbn. lia.
  - destruct (SplitNode M m vol sub l b) as [[A B]|] eqn:S; [|discriminate]. intros E Hl Hb. injection E as <- <- <-.
    apply SplitNode_perm in S. assert (F : Forall (hangs h) (A ++ B)) by (eapply Permutation_Forall; [symmetry; exact S|constructor; assumption]).
    apply Forall_app in F. destruct F as [FA FB]. split; [apply lev_iff; split; [reflexivity|exact FA]|]. split; [apply lev_iff; split; [reflexivity|exact FB]|].
    cbn [onodes]. rewrite !nodes_node. apply brn_perm in S. rewrite brn_app, brn_cons in S. lia.
Qed.
Lemma hangs_S h r (c : item) : lev h c -> hangs (S h) (r, c). Proof. intros H. exact H. Qed.
Lemma InsertRectRecM_nodes fuel : forall h b (n : item) a n' o k, InsertRectRecM M m vol sub fuel b n a = Some (n', o, k) ->
  lev h n -> a <= h -> hangs a b -> lev h n' /\ olev h o /\ nodes n' + onodes o = nodes n + nodes (snd b) + k.
Proof.
  induction fuel as [|fuel IH]; intros h b n a n' o k E Ln A Hb; [discriminate E|]. destruct (lev_node h n Ln) as (br & ->). pose proof Ln as Fb. apply lev_iff in Fb. destruct Fb as (_ & Fb).
  cbn [InsertRectRecM] in E. destruct (Nat.ltb_spec a h) as [Lt|Ge].
  - cbv zeta in E. destruct (nth_error br (PickBranch vol sub (fst b) br)) as [[r child]|] eqn:N; [|discriminate E]. remember (PickBranch vol sub (fst b) br) as i.
    destruct h as [|h]; [lia|]. assert (Lc : lev h child) by (exact (proj1 (Forall_forall _ _) Fb _ (nth_error_In _ _ N))).
    destruct (InsertRectRecM M m vol sub fuel b child a) as [[[c oc] kc]|] eqn:R; [|discriminate E].
    destruct (IH h b child a c oc kc R Lc ltac:(lia) Hb) as (Lc' & Lo & Nc).
    destruct oc as [other|].
    + destruct (NodeCover c) as [r1|]; [|discriminate E]. destruct (NodeCover other) as [r2|]; [|discriminate E].
      destruct (AddBranchM M m vol sub (r2, other) (S h) (upd_nth i (r1, c) br)) as [[[n1 o1] k1]|] eqn:AB; [|discriminate E]. injection E as <- <- <-.
      destruct (upd_split br i (r, child) (r1, c) N) as (l1 & l2 & -> & _ & U). rewrite U in AB.
      apply Forall_app in Fb. destruct Fb as [F1 F2]. pose proof (Forall_inv_tail F2) as F3.
      destruct (AddBranchM_nodes (S h) (r2, other) _ _ _ _ AB) as (X & Y & Z).
      { apply Forall_app. split; [exact F1|]. constructor; [exact Lc'|exact F3]. } { exact Lo. }
      split; [exact X|]. split; [exact Y|]. rewrite Z, nodes_node, !brn_app, !brn_cons. cbn [snd onodes] in *. lia.
    + injection E as <- <- <-. destruct (upd_split br i (r, child) (combine_rect (fst b) r, c) N) as (l1 & l2 & -> & _ & U). rewrite U.
      apply Forall_app in Fb. destruct Fb as [F1 F2]. pose proof (Forall_inv_tail F2) as F3.
      split; [apply lev_iff; split; [reflexivity|]; apply Forall_app; split; [exact F1|constructor; [exact Lc'|exact F3]]|]. split; [exact I|].
      rewrite !nodes_node, !brn_app, !brn_cons. cbn [snd onodes] in *. lia.
  - assert (a = h) by lia. subst a. rewrite Nat.eqb_refl in E. exact (AddBranchM_nodes h b br n' o k E Fb Hb).
Qed.
Lemma InsertRectM_nodes h b (root root' : item) a k : InsertRectM M m vol sub b root a = Some (root', k) -> lev h root -> a <= h -> hangs a b ->
  (exists h', h <= h' /\ lev h' root') /\ nodes root' = nodes root + nodes (snd b) + k.
Proof.
  intros E L A Hb. unfold InsertRectM in E. destruct (InsertRectRecM M m vol sub (S (level_of root)) b root a) as [[[r o] kr]|] eqn:R; [|discriminate E].
  destruct (InsertRectRecM_nodes _ h _ _ _ _ _ _ R L A Hb) as (X & Y & Z). destruct o as [other|].
  - destruct (NodeCover r) as [r1|]; [|discriminate E]. destruct (NodeCover other) as [r2|]; [|discriminate E]. destruct (1 <? M); [|discriminate E]. injection E as <- <-.
    destruct (lev_node h r X) as (br & ->). cbn [level_of]. split.
    + exists (S h). split; [lia|]. apply lev_iff. split; [reflexivity|]. constructor; [exact X|]. constructor; [exact Y|constructor].
    + rewrite (nodes_node (S h)), !brn_cons. cbn [snd onodes] in *. unfold brn. cbn [map list_sum fold_right]. lia.
  - injection E as <- <-. cbn [onodes] in Z. split; [exists h; split; [lia|exact X]|lia].
Qed.
Lemma insert_allM_nodes l a : forall h (root root' : item) k, insert_allM M m vol sub l a root = Some (root', k) -> lev h root -> a <= h -> Forall (hangs a) l ->
  (exists h', h <= h' /\ lev h' root') /\ nodes root' = nodes root + brn l + k.
Proof.
  induction l as [|b l IH]; intros h root root' k E L A F; cbn [insert_allM] in E.
  - injection E as <- <-. split; [exists h; split; [lia|exact L]|]. unfold brn. cbn. lia.
  - destruct (InsertRectM M m vol sub b root a) as [[r1 k1]|] eqn:E1; [|discriminate E]. destruct (insert_allM M m vol sub l a r1) as [[r2 k2]|] eqn:E2; [|discriminate E]. injection E as <- <-.
    destruct (InsertRectM_nodes h b root r1 a k1 E1 L A (Forall_inv F)) as ((h1 & H1 & L1) & N1).
    destruct (IH h1 r1 r2 k2 E2 L1 ltac:(lia) (Forall_inv_tail F)) as ((h2 & H2 & L2) & N2).
    split; [exists h2; split; [lia|exact L2]|]. rewrite brn_cons. lia.
Qed.
Definition below (h : nat) (g : item) : Prop := exists k, k <= h /\ lev k g.
Definition sumn (l : list item) : nat := list_sum (map nodes l).
Lemma reinsertM_nodes l : forall h (root root' : item) a f lf, reinsertM M m vol sub l root = Some (root', a, f, lf) -> lev h root -> Forall (below h) l ->
  (exists h', lev h' root') /\ nodes root' + f = nodes root + sumn l + a /\ lf = length l.
Proof.
  induction l as [|g l IH]; intros h root root' a f lf E L F; cbn [reinsertM] in E.
  - injection E as <- <- <- <-. split; [exists h; exact L|]. unfold sumn. cbn. lia.
  - destruct (Forall_inv F) as (hg & Hg & Lg). destruct (lev_node hg g Lg) as (br & ->). apply lev_iff in Lg. destruct Lg as (_ & Fg).
    destruct (insert_allM M m vol sub br hg root) as [[r1 k1]|] eqn:E1; [|discriminate E]. destruct (reinsertM M m vol sub l r1) as [[[[r2 a2] f2] lf2]|] eqn:E2; [|discriminate E]. injection E as <- <- <- <-.
    destruct (insert_allM_nodes br hg h root r1 k1 E1 L Hg Fg) as ((h1 & H1 & L1) & N1).
    destruct (IH h1 r1 r2 a2 f2 lf2 E2 L1) as (X & Y & Z).
    { eapply Forall_impl; [|exact (Forall_inv_tail F)]. intros g (kg & Kg & Lg). exists kg. split; [lia|exact Lg]. }
    split; [exact X|]. unfold sumn in *. cbn [map list_sum fold_right length]. fold (list_sum (map nodes l)). rewrite nodes_node. lia.
Qed.
Lemma Disconnect_perm (l : list branch) i x : nth_error l i = Some x -> Permutation (x :: DisconnectBranch l i) l.
Proof.
  intros N. unfold DisconnectBranch. destruct (rev l) as [|b t] eqn:R; [apply (f_equal (@rev _)) in R; rewrite rev_involutive in R; subst l; destruct i; discriminate N|].
  assert (L : l = rev t ++ [b]) by (rewrite <- (rev_involutive l), R; reflexivity). subst l. clear R.
  destruct (upd_split (rev t ++ [b]) i x b N) as (l1 & l2 & E & _ & ->). destruct l2 as [|y l2] using rev_ind.
  - apply app_inj_tail in E. destruct E as [E ->]. rewrite removelast_last, E. apply Permutation_cons_append.
  - clear IHl2. change (l1 ++ x :: l2 ++ [y]) with (l1 ++ (x :: l2) ++ [y]) in E. rewrite app_assoc in E. apply app_inj_tail in E. destruct E as [E <-].
    change (l1 ++ b :: l2 ++ [b]) with (l1 ++ (b :: l2) ++ [b]). rewrite app_assoc, removelast_last, E.
    rewrite <- app_assoc. cbn [app]. transitivity (l1 ++ x :: b :: l2).
    + apply Permutation_middle.
    + apply Permutation_app_head. constructor. apply Permutation_cons_append.
Qed.
Lemma RemoveRectRec_nodes q id : forall h (n n' : item) gone, RemoveRectRec m deqb q id n = Some (Some (n', gone)) -> lev h n ->
  lev h n' /\ Forall (below h) gone /\ nodes n' + sumn gone = nodes n.
Proof.
  induction h as [|h IH]; intros n n' gone E Ln; destruct (lev_node _ n Ln) as (br & ->); apply lev_iff in Ln; destruct Ln as (_ & Fb); cbn [RemoveRectRec] in E.
  - match type of E with ?f br 0 = _ => set (loop := f) in E end.
    assert (G : forall l l0, l0 ++ l = br -> loop l (length l0) = Some (Some (n', gone)) -> exists i x, nth_error br i = Some x /\ n' = Node 0 (DisconnectBranch br i) /\ gone = []).
    { induction l as [|[r it] l IHl]; intros l0 B X; [discriminate X|]. cbn in X.
      assert (N : nth_error br (length l0) = Some (r, it)) by (rewrite <- B, nth_error_app2, Nat.sub_diag by lia; reflexivity).
      destruct it as [d|]; [|discriminate X]. destruct (deqb d id).
      - injection X as <- <-. exists (length l0), (r, Data d). auto.
      - apply (IHl (l0 ++ [(r, Data d)])); [rewrite <- app_assoc; exact B|]. rewrite app_length. cbn [length]. rewrite Nat.add_1_r. exact X. }
    destruct (G br [] eq_refl E) as (i & x & N & -> & ->). pose proof (Disconnect_perm br i x N) as P.
    assert (F : Forall (hangs 0) (x :: DisconnectBranch br i)) by (eapply Permutation_Forall; [symmetry; exact P|exact Fb]).
    split; [apply lev_iff; split; [reflexivity|exact (Forall_inv_tail F)]|]. split; [constructor|].
    apply brn_perm in P. rewrite brn_cons in P. destruct (Forall_inv F) as (d & Ed). rewrite Ed in P. unfold sumn. rewrite !nodes_node. cbn in *. lia.
  - match type of E with ?f br 0 = _ => set (loop := f) in E end.
    assert (G : forall l l0, l0 ++ l = br -> loop l (length l0) = Some (Some (n', gone)) ->
      exists i r c c' gc, nth_error br i = Some (r, c) /\ RemoveRectRec m deqb q id c = Some (Some (c', gc)) /\
        ((exists r', n' = Node (S h) (upd_nth i (r', c') br) /\ gone = gc) \/ (n' = Node (S h) (DisconnectBranch br i) /\ gone = c' :: gc))).
    { induction l as [|[r it] l IHl]; intros l0 B X; [discriminate X|]. cbn in X.
      assert (N : nth_error br (length l0) = Some (r, it)) by (rewrite <- B, nth_error_app2, Nat.sub_diag by lia; reflexivity).
      assert (Next : loop l (S (length l0)) = Some (Some (n', gone)) -> exists i r c c' gc, nth_error br i = Some (r, c) /\ RemoveRectRec m deqb q id c = Some (Some (c', gc)) /\
        ((exists r', n' = Node (S h) (upd_nth i (r', c') br) /\ gone = gc) \/ (n' = Node (S h) (DisconnectBranch br i) /\ gone = c' :: gc))).
      { intros Y. apply (IHl (l0 ++ [(r, it)])); [rewrite <- app_assoc; exact B|]. rewrite app_length. cbn [length]. rewrite Nat.add_1_r. exact Y. }
      destruct (overlap q r); [|exact (Next X)]. destruct (RemoveRectRec m deqb q id it) as [[[[d|cl cbr] gc]|]|] eqn:R; [discriminate X| |exact (Next X)|discriminate X].
      destruct (m <=? length cbr).
      - destruct (cover_list cbr) as [c|]; [|discriminate X]. injection X as <- <-. exists (length l0), r, it, (Node cl cbr), gc. split; [exact N|]. split; [exact R|]. left. exists c. split; reflexivity.
      - injection X as <- <-. exists (length l0), r, it, (Node cl cbr), gc. split; [exact N|]. split; [exact R|]. right. split; reflexivity. }
    destruct (G br [] eq_refl E) as (i & r & c & c' & gc & N & R & W).
    assert (Lc : lev h c) by (exact (proj1 (Forall_forall _ _) Fb _ (nth_error_In _ _ N))).
    destruct (IH c c' gc R Lc) as (Lc' & Fg & Nc).
    assert (Fg' : Forall (below (S h)) gc) by (eapply Forall_impl; [|exact Fg]; intros g (k & K & Lk); exists k; split; [lia|exact Lk]).
    destruct W as [(r' & -> & ->)|(-> & ->)].
    + destruct (upd_split br i (r, c) (r', c') N) as (l1 & l2 & -> & _ & ->). apply Forall_app in Fb. destruct Fb as [F1 F2].
      split; [apply lev_iff; split; [reflexivity|]; apply Forall_app; split; [exact F1|constructor; [exact Lc'|exact (Forall_inv_tail F2)]]|]. split; [exact Fg'|].
      rewrite !nodes_node, !brn_app, !brn_cons. cbn [snd]. lia.
    + pose proof (Disconnect_perm br i (r, c) N) as P. assert (F : Forall (hangs (S h)) ((r, c) :: DisconnectBranch br i)) by (eapply Permutation_Forall; [symmetry; exact P|exact Fb]).
      split; [apply lev_iff; split; [reflexivity|exact (Forall_inv_tail F)]|].
      split; [constructor; [exists h; split; [lia|exact Lc']|exact Fg']|].
      apply brn_perm in P. rewrite brn_cons in P. rewrite !nodes_node. unfold sumn in *. cbn [map list_sum fold_right snd] in *. fold (list_sum (map nodes gc)). lia.
Qed.

(** *** Operations *)
Lemma InsertM_nodes r d (root root' : item) c h : InsertM M m vol sub r d root = Some (root', c) -> lev h root ->
  (exists h', lev h' root') /\ nodes root' + n_free c = nodes root + n_alloc c /\ l_alloc c = l_free c.
Proof.
  unfold InsertM. destruct (InsertRectM M m vol sub (r, Data d) root 0) as [[r1 k]|] eqn:E; [|discriminate]. intros X L. injection X as <- <-.
  destruct (InsertRectM_nodes h (r, Data d) root r1 0 k E L ltac:(lia)) as ((h' & _ & L') & N); [exists d; reflexivity|]. split; [exists h'; exact L'|]. cbn in *. lia.
Qed.
Lemma RemoveM_nodes q id (root root' : item) c h : RemoveM M m vol sub deqb q id root = Some (root', c) -> lev h root ->
  (exists h', lev h' root') /\ nodes root' + n_free c = nodes root + n_alloc c /\ l_alloc c = l_free c.
Proof.
  unfold RemoveM. intros X L. destruct (RemoveRectRec m deqb q id root) as [[[r gone]|]|] eqn:E; [| |discriminate X].
  - destruct (RemoveRectRec_nodes q id h root r gone E L) as (L1 & F & N). destruct (reinsertM M m vol sub gone r) as [[[[n a] f] lf]|] eqn:R; [|discriminate X].
    destruct (reinsertM_nodes gone h r n a f lf R L1 F) as ((h2 & L2) & N2 & Lf).
    assert (K : (root' = n /\ c = {| n_alloc := a; n_free := f; l_alloc := length gone; l_free := lf |}) \/
      exists level r1, n = Node (S level) [(r1, root')] /\ c = {| n_alloc := a; n_free := S f; l_alloc := length gone; l_free := lf |}).
    { destruct n as [d|[|level] [|[r1 ch] [|x l]]]; injection X as <- <-; try (left; split; reflexivity). right. exists level, r1. split; reflexivity. }
    clear X. destruct K as [(-> & ->)|(level & r1 & -> & ->)]; cbn [n_alloc n_free l_alloc l_free].
    + split; [exists h2; exact L2|]. split; [lia|exact (eq_sym Lf)].
    + destruct h2 as [|h2]; [apply lev_iff in L2; destruct L2 as [X _]; discriminate X|]. apply lev_iff in L2. destruct L2 as (_ & F2). split; [exists h2; exact (Forall_inv F2)|].
      rewrite nodes_node, brn_cons in N2. cbn [snd] in N2. unfold brn in N2. cbn in N2. split; [lia|exact (eq_sym Lf)].
  - injection X as <- <-. split; [exists h; exact L|]. cbn. lia.
Qed.
End Ops.

(** ** C190 *)
(** A history with its counters; the constructor has made one node (RTree.h:475). *)
Fixpoint runM {D} M m vol sub (deqb : D -> D -> bool) (ops : list (op D)) (root : item D) (a f la lf : nat) : option (item D * (nat * nat * nat * nat)) :=
  match ops with
  | [] => Some (root, (a, f, la, lf))
  | o :: ops =>
      match (match o with Ins r d => InsertM M m vol sub r d root | Del q id => RemoveM M m vol sub deqb q id root end) with
      | Some (root, c) => runM M m vol sub deqb ops root (a + n_alloc c) (f + n_free c) (la + l_alloc c) (lf + l_free c)
      | None => None
      end
  end.
Lemma runM_erase {D} M m vol sub (deqb : D -> D -> bool) ops : forall root a f la lf,
  run M m vol sub deqb ops root = option_map fst (runM M m vol sub deqb ops root a f la lf).
Proof.
  induction ops as [|o ops IH]; intros root a f la lf; [reflexivity|]. cbn [run runM].
  destruct o as [r d|q id]; [rewrite InsertM_erase|rewrite RemoveM_erase]; [destruct (InsertM _ _ _ _ _ _ _) as [[r1 c]|]|destruct (RemoveM _ _ _ _ _ _ _ _) as [[r1 c]|]]; cbn [option_map fst]; try reflexivity; apply IH.
Qed.
Lemma runM_nodes {D} M m vol sub (deqb : D -> D -> bool) ops : forall h root a f la lf root' a' f' la' lf',
  runM M m vol sub deqb ops root a f la lf = Some (root', (a', f', la', lf')) -> lev h root -> nodes root + f = a -> la = lf ->
  (exists h', lev h' root') /\ nodes root' + f' = a' /\ la' = lf'.
Proof.
  induction ops as [|o ops IH]; intros h root a f la lf root' a' f' la' lf' E L N X.
  - injection E as <- <- <- <- <-. split; [exists h; exact L|]. split; assumption.
  - cbn [runM] in E. destruct o as [r d|q id].
    + destruct (InsertM M m vol sub r d root) as [[r1 c]|] eqn:E1; [|discriminate E]. destruct (InsertM_nodes M m vol sub r d root r1 c h E1 L) as ((h1 & L1) & N1 & X1). eapply IH; [exact E|exact L1|lia|lia].
    + destruct (RemoveM M m vol sub deqb q id root) as [[r1 c]|] eqn:E1; [|discriminate E]. destruct (RemoveM_nodes M m vol sub deqb q id root r1 c h E1 L) as ((h1 & L1) & N1 & X1). eapply IH; [exact E|exact L1|lia|lia].
Qed.
(** Clearing frees as many nodes as the tree has. *)
Lemma RemoveAllRecM_nodes {D} h : forall n : item D, lev h n -> RemoveAllRecM n = nodes n.
Proof.
  induction h as [|h IH]; intros n L; destruct (lev_node _ n L) as (br & ->); apply lev_iff in L; destruct L as (_ & F); cbn [RemoveAllRecM Nat.ltb Nat.leb]; rewrite nodes_node; f_equal.
  - induction F as [|[r it] br (d & E) F IHF]; [reflexivity|]. rewrite brn_cons, <- IHF, E. reflexivity.
  - induction F as [|[r it] br Hb F IHF]; [reflexivity|]. rewrite brn_cons, <- IHF. cbn [snd]. rewrite (IH it Hb). reflexivity.
Qed.
(** After any history that ends, the nodes allocated and not yet freed are as many as the tree has;
    clearing the tree frees all of them; no list node is left over.  The counters leave the results
    of the operations as they are. *)
Theorem rtree_no_leak : forall D M m vol sub (deqb : D -> D -> bool) ops root,
  run M m vol sub deqb ops empty = Some root ->
  exists a f l, runM M m vol sub deqb ops empty 1 0 0 0 = Some (root, (a, f, l, l)) /\
    a = f + nodes root /\ a = f + RemoveAllRecM root.
Proof.
  intros D M m vol sub deqb ops root R. rewrite (runM_erase M m vol sub deqb ops empty 1 0 0 0) in R.
  destruct (runM M m vol sub deqb ops empty 1 0 0 0) as [[r [[[a f] la] lf]]|] eqn:E; [|discriminate R]. injection R as ->.
  destruct (runM_nodes M m vol sub deqb ops 0 empty 1 0 0 0 root a f la lf E) as ((h & L) & N & X); [split; [reflexivity|constructor]|reflexivity|reflexivity|].
  exists a, f, la. subst lf. split; [reflexivity|]. rewrite (RemoveAllRecM_nodes h root L). lia.
Qed.
Print Assumptions rtree_no_leak.
(** With a minimal fill of two or more every history ends, so nothing is ever lost. *)
Theorem rtree_no_leak_total : forall D (dim : nat) M m vol (deqb : D -> D -> bool) ops,
  capacities M m -> 2 <= m -> volume_ok vol -> Forall (op_dim dim) ops ->
  exists root a f l, runM M m vol Qminus deqb ops empty 1 0 0 0 = Some (root, (a, f, l, l)) /\ a = f + nodes root.
Proof.
  intros D dim M m vol deqb ops C C2 V K. destruct (rtree_count_total D dim M m vol deqb ops C C2 V K) as (root & k & L & E & _).
  destruct (rtree_no_leak D M m vol Qminus deqb ops root E) as (a & f & l & X & Y & _). exists root, a, f, l. auto.
Qed.
Print Assumptions rtree_no_leak_total.
Example rtree_no_leak_run : exists root a f l,
  runM 4 2 RectVolume Qminus Z.eqb (ins_all (strip 40) ++ del_all (firstn 30 (strip 40))) empty 1 0 0 0 = Some (root, (a, f, l, l)) /\
  nodes root = 4 /\ a = 19 /\ f = 15 /\ l = 14.
Proof. do 4 eexists. split; [vm_compute; reflexivity|]. vm_compute. repeat split. Qed.
