(** What an object's voxels hold when segments and triangles are asked for. *)
From Coq Require Import List Arith ZArith Bool Lia.
From Verif Require Import FillKindModel.
Import ListNotations.
Close Scope Z_scope.
Open Scope nat_scope.

(** A segment is two points, a triangle a point and two sides, each of three coordinates. *)
Definition floats_of (k : kind) : nat := match k with Segments => 2 * 3 | Triangles => 3 * 3 end.
(** A mesh whose data have the right sizes, each nearest to one of [n] voxels. *)
Definition sound_source (n : nat) (s : source) : Prop :=
  forall k l d, In d (data_of s k l) -> length d = floats_of k /\ near s d < n.
(** The data of kind [k] at level [l] that belong to voxel [i], one after the other. *)
Definition share (s : source) (k : kind) (l i : nat) : floats := concat (filter (fun d => near s d =? i) (data_of s k l)).
(** The level reached by a list of calls: the largest asked for. *)
Definition reached (cs : list call) : nat := fold_right (fun c m => match c with Advance l => Nat.max l m | _ => m end) 0 cs.
(** [first_asked cs l k]: since the last reset the first call to fill made at level [l] asked for kind [k]. *)
Definition first_asked (cs : list call) (l : nat) (k : kind) : Prop :=
  exists a b, cs = a ++ Fill k :: b /\ reached a = l /\ ~ In Reset b /\
    forall a1 k' a2, a = a1 ++ Fill k' :: a2 -> reached a1 = l -> In Reset a2.
(** Since the last reset no call to fill was made at level [l]. *)
Definition not_asked (cs : list call) (l : nat) : Prop :=
  forall a k b, cs = a ++ Fill k :: b -> reached a = l -> In Reset b.

Lemma find_put_same l c v : find_level l (put_level l c v) = Some c.
Proof.
  induction v as [|[x d] v IH]; cbn [put_level find_level].
  - now rewrite Nat.eqb_refl.
  - destruct (x =? l) eqn:E; cbn [find_level]; rewrite E; auto.
Qed.
Lemma find_put_other l x c v : x <> l -> find_level l (put_level x c v) = find_level l v.
Proof.
  intro N. induction v as [|[y d] v IH]; cbn [put_level find_level].
  - now rewrite (proj2 (Nat.eqb_neq x l)).
  - destruct (y =? x) eqn:E; cbn [find_level].
    + apply Nat.eqb_eq in E. subst y. now rewrite (proj2 (Nat.eqb_neq x l)).
    + now rewrite IH.
Qed.

(** What a voxel has at a level in terms of the kind it was filled with. *)
Definition holds (s : source) (i l : nat) (ok : option kind) (v : voxel) : Prop :=
  match ok with
  | None => find_level l v = None
  | Some k => exists c, find_level l v = Some c /\ c_size c = length (filter (fun d => near s d =? i) (data_of s k l)) /\
      match c_data c with Some a => a = share s k l i | None => c_size c = 0 end
  end.
Definition table : Type := nat -> option kind.
Definition empty_table : table := fun _ => None.
Definition inv (s : source) (n : nat) (o : object) (t : table) : Prop :=
  length (o_voxels o) = n /\ forall i v, nth_error (o_voxels o) i = Some v -> forall l, holds s i l (t l) v.
Definition table_step (c : call) (p : nat * table) : nat * table :=
  let (l, t) := p in
  match c with
  | Advance x => (Nat.max l x, t)
  | Reset => (l, fun _ => None)
  | Fill k => (l, fun y => if y =? l then match t l with Some k' => Some k' | None => Some k end else t y)
  end.

Lemma length_fill_from s l ds i vs : length (fill_from s l ds i vs) = length vs.
Proof. revert i. induction vs; intro i; cbn [fill_from length]; auto. Qed.
Lemma nth_fill_from s l ds vs : forall i j w, nth_error (fill_from s l ds i vs) j = Some w ->
  exists v, nth_error vs j = Some v /\ w = put_level l (cell_of s (i + j) ds) v.
Proof.
  induction vs as [|v vs IH]; intros i [|j] w H; cbn [fill_from nth_error] in H; try discriminate H.
  - injection H as <-. exists v. rewrite Nat.add_0_r. auto.
  - destruct (IH (S i) j w H) as (u & A & B). exists u. rewrite <- Nat.add_succ_comm. auto.
Qed.
Lemma filter_all (n : nat) (f : floats -> nat) ds : (forall d, In d ds -> f d < 1) -> filter (fun d => f d =? 0) ds = ds.
Proof.
  induction ds as [|d ds IH]; intro H; cbn [filter]; auto.
  assert (f d < 1) by (apply H; left; auto). assert (E : f d = 0) by lia. rewrite E. cbn [Nat.eqb]. f_equal. apply IH.
  intros; apply H; right; auto.
Qed.

Lemma step_inv s n c o t l : 0 < n -> sound_source n s -> inv s n o t -> o_level o = l ->
  exists o', step s c o = Some o' /\ inv s n o' (snd (table_step c (l, t))) /\ o_level o' = fst (table_step c (l, t)).
Proof.
  intros P W (L & I) E. subst l. destruct c as [x|k|]; cbn [step table_step fst snd].
  - eexists. split; [reflexivity|]. split; [split; auto|reflexivity].
  - unfold fill. destruct (o_voxels o) as [|v r] eqn:V; [cbn [length] in L; lia|].
    assert (H0 := I 0 v eq_refl (o_level o)).
    destruct (find_level (o_level o) v) as [c|] eqn:F.
    + exists o. split; [reflexivity|]. split; [|reflexivity]. split; [now rewrite V|].
      intros i w N y. rewrite V in N. specialize (I i w N y).
      destruct (y =? o_level o) eqn:Y; auto. apply Nat.eqb_eq in Y. subst y.
      destruct (t (o_level o)); auto. cbn [holds] in H0. rewrite F in H0. discriminate H0.
    + assert (T : t (o_level o) = None).
      { destruct (t (o_level o)); auto. destruct H0 as (c & A & _). rewrite F in A. discriminate A. }
      destruct r as [|u r].
      * eexists. split; [reflexivity|]. split; [|reflexivity]. cbn [length] in L. split; [auto|].
        cbn [o_voxels]. intros [|i] w N y; cbn [nth_error] in N; [|destruct i; discriminate N]. injection N as <-.
        destruct (y =? o_level o) eqn:Y.
        -- apply Nat.eqb_eq in Y. subst y. rewrite T. eexists. split; [apply find_put_same|]. cbn [c_size c_data].
           unfold share. rewrite (filter_all n).
           ++ auto.
           ++ intros d D. subst n. apply (W _ _ _ D).
        -- apply Nat.eqb_neq in Y. specialize (I 0 v eq_refl y). unfold holds in *. destruct (t y); rewrite find_put_other; auto.
      * eexists. split; [reflexivity|]. split; [|reflexivity]. split; [cbn [o_voxels]; now rewrite length_fill_from|].
        cbn [o_voxels]. intros i w N y. apply nth_fill_from in N. destruct N as (v' & N & ->). cbn [Nat.add].
        destruct (y =? o_level o) eqn:Y.
        -- apply Nat.eqb_eq in Y. subst y. rewrite T. eexists. split; [apply find_put_same|].
           unfold cell_of, share. cbn [c_size c_data]. split; auto.
           destruct (0 <? length _) eqn:Z; auto. apply Nat.ltb_ge in Z. lia.
        -- apply Nat.eqb_neq in Y. specialize (I i v' N y). unfold holds in *. destruct (t y); rewrite find_put_other; auto.
  - eexists. split; [reflexivity|]. split; [|reflexivity]. split; [cbn [reset o_voxels]; now rewrite map_length|].
    cbn [reset o_voxels]. intros i w N y. rewrite nth_error_map in N. destruct (nth_error (o_voxels o) i); [|discriminate N].
    injection N as <-. reflexivity.
Qed.

Definition tabulate (cs : list call) (p : nat * table) : nat * table := fold_left (fun p c => table_step c p) cs p.
Lemma run_inv s n cs : forall o t l, 0 < n -> sound_source n s -> inv s n o t -> o_level o = l ->
  exists o', run s cs o = Some o' /\ inv s n o' (snd (tabulate cs (l, t))) /\ o_level o' = fst (tabulate cs (l, t)).
Proof.
  induction cs as [|c cs IH]; intros o t l P W I E; cbn [run tabulate fold_left].
  - exists o. auto.
  - destruct (step_inv s n c o t l P W I E) as (o1 & S1 & I1 & E1). rewrite S1.
    destruct (table_step c (l, t)) as [l1 t1]. exact (IH o1 t1 l1 P W I1 E1).
Qed.
Lemma opened_inv s n : inv s n (opened n) empty_table.
Proof.
  split; [apply repeat_length|]. intros i v N l. cbn [opened o_voxels] in N. apply nth_error_In, repeat_spec in N. subst v. reflexivity.
Qed.

Lemma reached_app a b : reached (a ++ b) = Nat.max (reached a) (reached b).
Proof.
  unfold reached. induction a as [|c a IH]; cbn [app fold_right]; auto. rewrite IH. destruct c; auto. lia.
Qed.
Lemma snoc_split {A} (cs a b : list A) (c x : A) : cs ++ [c] = a ++ x :: b ->
  (b = [] /\ cs = a /\ c = x) \/ exists b', b = b' ++ [c] /\ cs = a ++ x :: b'.
Proof.
  destruct b as [|y b] using rev_ind; intro H.
  - apply app_inj_tail in H. destruct H. auto.
  - right. exists b. rewrite app_comm_cons, app_assoc in H. apply app_inj_tail in H. destruct H as (-> & ->). auto.
Qed.

(** The table agrees with the calls made. *)
Lemma tabulate_spec cs : fst (tabulate cs (0, empty_table)) = reached cs /\
  forall l, match snd (tabulate cs (0, empty_table)) l with Some k => first_asked cs l k | None => not_asked cs l end.
Proof.
  induction cs as [|c cs (IL & IT)] using rev_ind.
  - split; [reflexivity|]. intros l a k b H. destruct a; discriminate H.
  - unfold tabulate in *. rewrite fold_left_app. cbn [fold_left].
    destruct (fold_left _ cs _) as [m t]. cbn [fst snd] in *. subst m. rewrite reached_app.
    destruct c as [x|k|]; cbn [table_step fst snd].
    + split; [unfold reached at 3; cbn [fold_right]; lia|]. intro l. specialize (IT l). destruct (t l) as [k|].
      * destruct IT as (a & b & -> & R & N & F). exists a, (b ++ [Advance x]). rewrite <- app_assoc. repeat split; auto.
        intro Q. apply in_app_iff in Q. destruct Q as [Q|[Q|[]]]; [auto|discriminate Q].
      * intros a k b H R. apply snoc_split in H. destruct H as [(_ & _ & Q)|(b' & -> & H)]; [discriminate Q|].
        apply in_app_iff. left. exact (IT a k b' H R).
    + split; [unfold reached at 3; cbn [fold_right]; lia|]. intro l. assert (I := IT l).
      destruct (l =? reached cs) eqn:E.
      * apply Nat.eqb_eq in E. rewrite <- E. destruct (t l) as [k'|].
        -- destruct I as (a & b & -> & R & N & F). exists a, (b ++ [Fill k]). rewrite <- app_assoc. repeat split; auto.
           intro Q. apply in_app_iff in Q. destruct Q as [Q|[Q|[]]]; [auto|discriminate Q].
        -- exists cs, []. repeat split; auto.
      * apply Nat.eqb_neq in E. destruct (t l) as [k'|].
        -- destruct I as (a & b & -> & R & N & F). exists a, (b ++ [Fill k]). rewrite <- app_assoc. repeat split; auto.
           intro Q. apply in_app_iff in Q. destruct Q as [Q|[Q|[]]]; [auto|discriminate Q].
        -- intros a k' b H R. apply snoc_split in H. destruct H as [(_ & H & _)|(b' & -> & H)]; [congruence|].
           apply in_app_iff. left. exact (I a k' b' H R).
    + split; [unfold reached at 3; cbn [fold_right]; lia|]. intros l a k b H R.
      apply snoc_split in H. destruct H as [(_ & _ & Q)|(b' & -> & _)]; [discriminate Q|]. apply in_app_iff. right. left. reflexivity.
Qed.

Lemma first_asked_not cs l k : first_asked cs l k -> ~ not_asked cs l.
Proof. intros (a & b & H & R & N & _) Q. exact (N (Q a k b H R)). Qed.
Lemma app_fill_cases (a : list call) : forall b c d x y, a ++ x :: b = c ++ y :: d ->
  (exists e, c = a ++ x :: e /\ b = e ++ y :: d) \/ (a = c /\ x = y /\ b = d) \/ (exists e, a = c ++ y :: e /\ d = e ++ x :: b).
Proof.
  induction a as [|h a IH]; intros b [|h' c] d x y H; cbn [app] in H.
  - injection H as -> ->. auto.
  - injection H as -> ->. left. exists c. auto.
  - injection H as -> <-. right. right. exists a. auto.
  - injection H as -> H. destruct (IH b c d x y H) as [(e & -> & ->)|[(-> & -> & ->)|(e & -> & ->)]].
    + left. exists e. auto.
    + right. left. auto.
    + right. right. exists e. auto.
Qed.
Lemma first_asked_one cs l k k' : first_asked cs l k -> first_asked cs l k' -> k = k'.
Proof.
  intros (a & b & H & R & N & F) (a' & b' & H' & R' & N' & F'). rewrite H in H'.
  apply app_fill_cases in H'. destruct H' as [(e & A & B)|[(_ & B & _)|(e & A & B)]].
  - assert (Q := F' a k e A R). exfalso. apply N. rewrite B. apply in_app_iff. auto.
  - congruence.
  - assert (Q := F a' k' e A R'). exfalso. apply N'. rewrite B. apply in_app_iff. auto.
Qed.

Lemma concat_width k (ds : list floats) : (forall d, In d ds -> length d = width k) -> length (concat ds) = length ds * width k.
Proof.
  induction ds as [|d ds IH]; intro H; cbn [concat length]; auto. rewrite app_length, IH, (H d); [reflexivity|left; auto|].
  intros; apply H; right; auto.
Qed.
Lemma copy_same s n i l k v : sound_source n s -> holds s i l (Some k) v -> copy_out k l v = Some (share s k l i).
Proof.
  intros W (c & F & Z & D). unfold copy_out. rewrite F.
  assert (LS : length (share s k l i) = c_size c * width k).
  { rewrite Z. apply concat_width. intros d Q. apply filter_In in Q. transitivity (floats_of k); [apply (W k l d), Q|destruct k; reflexivity]. }
  destruct (c_data c) as [a|].
  - subst a. rewrite LS, Nat.leb_refl, <- LS, firstn_all. reflexivity.
  - rewrite D in *. cbn [Nat.eqb]. cbn [Nat.mul] in LS. apply length_zero_iff_nil in LS. now rewrite LS.
Qed.

(** After any calls on an object with at least one voxel no assertion has failed, the object is decoded to the largest
    level asked for, and at every level the voxels hold the data of the kind asked for first at that level since the last
    reset: copied out as that kind each voxel gives exactly its own data.  At a level at which nothing was asked for since
    the last reset the voxels hold nothing. *)
Theorem fill_first_kind : forall s n cs, 0 < n -> sound_source n s ->
  exists o, run s cs (opened n) = Some o /\ length (o_voxels o) = n /\ o_level o = reached cs /\
    (forall l k i v, first_asked cs l k -> nth_error (o_voxels o) i = Some v -> copy_out k l v = Some (share s k l i)) /\
    (forall l k i v, not_asked cs l -> nth_error (o_voxels o) i = Some v -> copy_out k l v = Some []).
Proof.
  intros s n cs P W. destruct (run_inv s n cs (opened n) empty_table 0 P W (opened_inv s n) eq_refl) as (o & R & (L & I) & E).
  destruct (tabulate_spec cs) as (TL & TT). exists o. repeat split; auto; [exact (eq_trans E TL)| |].
  - intros l k i v F N. specialize (I i v N l). specialize (TT l). destruct (snd (tabulate cs (0, empty_table)) l) as [k'|].
    + rewrite (first_asked_one _ _ _ _ F TT). eapply copy_same; eauto.
    + destruct (first_asked_not _ _ _ F TT).
  - intros l k i v F N. specialize (I i v N l). specialize (TT l). destruct (snd (tabulate cs (0, empty_table)) l) as [k'|].
    + destruct (first_asked_not _ _ _ TT F).
    + unfold copy_out. cbn [holds] in I. now rewrite I.
Qed.
Print Assumptions fill_first_kind.

(** Full claim: after any calls that end with a call to fill for kind [k], each voxel gives its data of kind [k] at the
    level reached.  Proved when every call to fill since the object was opened asked for that kind; false otherwise, see
    [fill_kind_refuted]. *)
Theorem fill_kind_partial : forall s n cs k, 0 < n -> sound_source n s -> (forall k', In (Fill k') cs -> k' = k) ->
  exists o, run s (cs ++ [Fill k]) (opened n) = Some o /\
    forall i, i < n -> exists v, nth_error (o_voxels o) i = Some v /\ copy_out k (reached cs) v = Some (share s k (reached cs) i).
Proof.
  intros s n cs k P W Q. destruct (fill_first_kind s n (cs ++ [Fill k]) P W) as (o & R & L & _ & F & F0).
  exists o. split; auto. intros i In. destruct (nth_error (o_voxels o) i) as [v|] eqn:N.
  - exists v. split; auto. destruct (tabulate_spec (cs ++ [Fill k])) as (_ & T). specialize (T (reached cs)).
    destruct (snd (tabulate (cs ++ [Fill k]) (0, empty_table)) (reached cs)) as [k'|].
    + assert (k' = k).
      { destruct T as (a & b & H & _). assert (X : List.In (Fill k') (cs ++ [Fill k])) by (rewrite H; apply in_app_iff; right; left; auto).
        apply in_app_iff in X. destruct X as [X|[X|[]]]; [auto|congruence]. }
      subst k'. eapply F; eauto.
    + exfalso. exact (T cs k [] eq_refl eq_refl).
  - apply nth_error_None in N. lia.
Qed.
Print Assumptions fill_kind_partial.

(** A tetrahedron at every level: six edges, four faces, all data nearest to voxel [0] or [1] by their first coordinate. *)
Definition tetra : source := Source
  (fun k _ => match k with
    | Segments => [[0;0;0;9;0;0]; [0;0;0;0;9;0]; [0;0;0;0;0;9]; [9;0;0;0;9;0]; [9;0;0;0;0;9]; [0;9;0;0;0;9]]%Z
    | Triangles => [[0;0;0;9;0;0;0;9;0]; [0;0;0;9;0;0;0;0;9]; [0;0;0;0;9;0;0;0;9]; [9;0;0;-9;9;0;-9;0;9]]%Z end)
  (fun d => if (4 <? hd 0 d)%Z then 1 else 0).
Lemma tetra_sound : sound_source 2 tetra.
Proof.
  intros k l d H. destruct k; cbn [tetra data_of In] in H; repeat (destruct H as [<-|H]; [vm_compute; split; [reflexivity|auto]|]); destruct H.
Qed.
Example tetra_ask : first_asked [Fill Segments; Advance 20; Reset; Fill Triangles; Advance 20; Fill Segments] 20 Triangles.
Proof.
  exists [Fill Segments; Advance 20; Reset], [Advance 20; Fill Segments]. repeat split.
  - intros [H|[H|[]]]; discriminate H.
  - intros a1 k' a2 H R. destruct a1 as [|c [|c1 [|c2 [|c3 a1]]]]; cbn [app] in H; try discriminate H.
    discriminate R.
Qed.
Example tetra_run : exists o v0 v1, run tetra [Fill Segments; Advance 20; Reset; Fill Triangles; Advance 20; Fill Segments] (opened 2) = Some o /\
  o_voxels o = [v0; v1] /\ copy_out Triangles 20 v1 = Some [9;0;0;-9;9;0;-9;0;9]%Z /\ copy_out Triangles 20 v0 = Some (share tetra Triangles 20 0) /\
  copy_out Segments 0 v0 = Some [] /\ length (share tetra Triangles 20 0) = 27.
Proof. do 3 eexists. vm_compute. repeat split. Qed.

Example tetra_one_kind : forall k', In (Fill k') [Fill Segments; Advance 20; Fill Segments; Reset; Advance 10] -> k' = Segments.
Proof. intros k' H. cbn [In] in H. repeat (destruct H as [H|H]; [congruence|]). destruct H. Qed.

(** Asking for the triangles of an object whose segments were asked for at the same level leaves the segments where they
    are; who reads triangles then reads past the end of the arrays of both voxels. *)
Theorem fill_kind_refuted : exists s n cs k o, 0 < n /\ sound_source n s /\ run s (cs ++ [Fill k]) (opened n) = Some o /\
  forall i v, nth_error (o_voxels o) i = Some v -> copy_out k (reached cs) v = None.
Proof.
  exists tetra, 2, [Advance 20; Fill Segments], Triangles. eexists. split; [lia|]. split; [exact tetra_sound|]. split; [vm_compute; reflexivity|].
  intros [|[|i]] v H; cbn [o_voxels nth_error] in H; [injection H as <-; vm_compute; reflexivity|injection H as <-; vm_compute; reflexivity|destruct i; discriminate H].
Qed.
Print Assumptions fill_kind_refuted.
