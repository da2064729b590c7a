(** C211: the memory of a tile is given back, once and in the right way. *)
From Coq Require Import List Arith ZArith Lia Bool Permutation.
From Verif Require Import Arr TileMemModel.
Import ListNotations.
Close Scope Z_scope.
Open Scope nat_scope.

(** * What C++ asks for.  [live] are the blocks in use.  A block is used or deleted only while it is live; with [strict] an
    array must be deleted with delete[], a single object with delete. *)
Definition form_eqb (a b : form) : bool := match a, b with Single, Single | Array, Array => true | _, _ => false end.
Definition is_live (b : nat) (live : list (form * nat)) : bool := existsb (fun x => snd x =? b) live.
Definition allowed (strict : bool) (live : list (form * nat)) (e : event) : option (list (form * nat)) :=
  match e with
  | New f b => if is_live b live then None else Some ((f, b) :: live)
  | Delete f b => if existsb (fun x => (snd x =? b) && (negb strict || form_eqb (fst x) f)) live
                  then Some (filter (fun x => negb (snd x =? b)) live) else None
  | Use b => if is_live b live then Some live else None
  end.
(** All events are allowed, and at the end nothing is live. *)
Definition clean (strict : bool) (evs : list event) : Prop :=
  fold_left (fun l e => do l <- l; allowed strict l e) evs (Some []) = Some [].

(** * Proof *)
Lemma dec : forall x y : form * nat, {x = y} + {x <> y}.
Proof. repeat decide equality. Qed.
Definition one (a x : form * nat) : nat := if dec a x then 1 else 0.
Lemma count_cons a (l : list (form * nat)) x : count_occ dec (a :: l) x = one a x + count_occ dec l x.
Proof. cbn [count_occ]. unfold one. destruct (dec a x); reflexivity. Qed.
Ltac perm := apply (Permutation_count_occ dec); intro; repeat (rewrite count_occ_app || rewrite count_cons || rewrite count_occ_nil); lia.

Section Owned.
Variable strict : bool.
Definition live_of (t : list event) : option (list (form * nat)) := fold_right (fun e l => do l <- l; allowed strict l e) (Some []) t.
Definition holds (h : heap) (L : list (form * nat)) : Prop :=
  exists live, live_of (trace h) = Some live /\ Permutation live L /\ NoDup (map snd L) /\ Forall (fun x => snd x < fresh h) L.
Lemma holds_perm h L L' : holds h L -> Permutation L L' -> holds h L'.
Proof.
  intros (l & E & P & N & F) Q. exists l. split; [exact E|]. split; [eapply Permutation_trans; eassumption|]. split.
  - eapply Permutation_NoDup; [apply Permutation_map, Q|exact N].
  - eapply Permutation_Forall; eassumption.
Qed.
Lemma live_in b live L : Permutation live L -> is_live b live = true <-> In b (map snd L).
Proof.
  intros P. unfold is_live. rewrite existsb_exists. split.
  - intros (x & I & E). apply Nat.eqb_eq in E. subst b. apply in_map. eapply Permutation_in; eassumption.
  - intros I. apply in_map_iff in I. destruct I as (x & <- & I). exists x. split; [|apply Nat.eqb_refl]. eapply Permutation_in; [apply Permutation_sym, P|exact I].
Qed.
Lemma holds_new f h L : holds h L -> holds (snd (new f h)) ((f, fst (new f h)) :: L).
Proof.
  intros (l & E & P & N & F). unfold new. cbn [fst snd]. exists ((f, fresh h) :: l). cbn [trace fresh]. split; [|split; [|split]].
  - cbn [live_of fold_right]. fold (live_of (trace h)). rewrite E. cbn [bind allowed].
    destruct (is_live (fresh h) l) eqn:X; [|reflexivity]. apply (live_in _ _ _ P) in X. apply in_map_iff in X. destruct X as (x & Y & X).
    pose proof (proj1 (Forall_forall _ _) F x X) as Z. cbn beta in Z. lia.
  - constructor. exact P.
  - cbn [map snd]. constructor; [|exact N]. intro X. apply in_map_iff in X. destruct X as (x & Y & X).
    pose proof (proj1 (Forall_forall _ _) F x X) as Z. cbn beta in Z. lia.
  - constructor; [cbn; lia|]. revert F. apply Forall_impl. intros; lia.
Qed.
Lemma holds_use b h L : holds h L -> In b (map snd L) -> holds (happen (Use b) h) L.
Proof.
  intros (l & E & P & N & F) I. exists l. split; [|split; [|split]]; try assumption.
  cbn [happen trace live_of fold_right]. fold (live_of (trace h)). rewrite E. cbn [bind allowed]. rewrite (proj2 (live_in b l L P) I). reflexivity.
Qed.
Lemma filter_others b (L : list (form * nat)) : ~ In b (map snd L) -> filter (fun x => negb (snd x =? b)) L = L.
Proof.
  induction L as [|x L IH]; intros N; [reflexivity|]. cbn [filter map] in *. destruct (Nat.eqb_spec (snd x) b) as [E|E]; [exfalso; apply N; left; exact E|].
  cbn [negb]. rewrite IH; [reflexivity|]. intro X. apply N. right. exact X.
Qed.
Lemma filter_perm {A} (f : A -> bool) l l' : Permutation l l' -> Permutation (filter f l) (filter f l').
Proof.
  induction 1 as [|x l l' _ IH|x y l|l l' l'' _ A1 _ A2]; cbn [filter]; [constructor|destruct (f x); [constructor|]; exact IH| |eapply Permutation_trans; eassumption].
  destruct (f x), (f y); try reflexivity. apply perm_swap.
Qed.
Lemma holds_delete f f' b h L : holds h ((f, b) :: L) -> (strict = true -> f' = f) -> holds (happen (Delete f' b) h) L.
Proof.
  intros (l & E & P & N & F) S. cbn [map snd] in N. inversion N as [|? ? N1 N2]; subst. exists (filter (fun x => negb (snd x =? b)) l).
  split; [|split; [|split; [exact N2|exact (Forall_inv_tail F)]]].
  - cbn [happen trace live_of fold_right]. fold (live_of (trace h)). rewrite E. cbn [bind allowed].
    replace (existsb _ l) with true; [reflexivity|]. symmetry. apply existsb_exists. exists (f, b). split; [eapply Permutation_in; [apply Permutation_sym, P|left; reflexivity]|].
    cbn [snd fst]. rewrite Nat.eqb_refl. cbn [andb]. destruct strict; [|reflexivity]. rewrite (S eq_refl). destruct f; reflexivity.
  - eapply Permutation_trans; [apply filter_perm, P|]. cbn [filter snd]. rewrite Nat.eqb_refl. cbn [negb]. rewrite filter_others by exact N1. reflexivity.
Qed.

(** What an object owns. *)
Definition dblocks (l : list (Z * option nat)) : list (form * nat) := flat_map (fun d => match snd d with Some b => [(Array, b)] | None => [] end) l.
Definition vblocks (v : voxel) : list (form * nat) := (Single, v_block v) :: dblocks (v_data v).
Lemma vblocks_is v : vblocks v = (Single, v_block v) :: dblocks (v_data v).
Proof. reflexivity. Qed.
Lemma vblocks_with b k d l : vblocks (Voxel b ((k, d) :: l)) = (Single, b) :: match d with Some b => [(Array, b)] | None => [] end ++ dblocks l.
Proof. reflexivity. Qed.
Definition mblocks (m : mesh) : list (form * nat) := [(Single, m_block m); (Array, m_data m)] ++ match m_tree m with Some t => [(Single, t)] | None => [] end.
Definition wblocks (w : wrapper) : list (form * nat) := [(Single, w_block w)] ++ flat_map vblocks (w_voxels w) ++ match w_mesh w with Some m => mblocks m | None => [] end.
Definition keys (v : voxel) : list Z := map fst (v_data v).
Definition same_keys (vs : list voxel) : Prop := exists ks, Forall (fun v => keys v = ks) vs.

Lemma holds_reset v h F : holds h (vblocks v ++ F) -> holds (snd (reset_voxel v h)) ((Single, v_block v) :: F).
Proof.
  unfold vblocks, reset_voxel. cbn [snd app]. revert h. induction (v_data v) as [|[k [b|]] l IH]; intros h H; cbn [dblocks flat_map fold_left snd app] in *.
  - exact H.
  - apply IH. eapply holds_delete; [|reflexivity]. eapply holds_perm; [exact H|]. apply perm_swap.
  - apply IH. exact H.
Qed.
Lemma holds_delete_voxel v h F : holds h (vblocks v ++ F) -> holds (delete_voxel v h) F.
Proof. intros H. unfold delete_voxel. eapply holds_delete; [|reflexivity]. apply holds_reset. exact H. Qed.
Lemma holds_delete_voxels vs : forall h F, holds h (flat_map vblocks vs ++ F) -> holds (fold_left (fun h v => delete_voxel v h) vs h) F.
Proof.
  induction vs as [|v vs IH]; intros h F H; [exact H|]. cbn [flat_map fold_left] in *. rewrite <- app_assoc in H. apply IH, holds_delete_voxel, H.
Qed.
Lemma holds_clear m h F : holds h (mblocks m ++ F) -> holds (snd (clear_tree m h)) (mblocks (fst (clear_tree m h)) ++ F).
Proof.
  unfold clear_tree. destruct m as [b d [t|] k]; cbn [m_tree m_block m_data m_lod fst snd]; [|auto]. unfold mblocks. cbn [m_tree m_block m_data app].
  intros H. eapply holds_delete; [|reflexivity]. eapply holds_perm; [exact H|]. perm.
Qed.
Lemma holds_delete_mesh m h F : holds h (mblocks m ++ F) -> holds (delete_mesh m h) F.
Proof.
  intros H. unfold delete_mesh. pose proof (holds_clear m h F H) as C. assert (T : m_tree (fst (clear_tree m h)) = None) by (unfold clear_tree; destruct m as [? ? [?|] ?]; reflexivity).
  destruct (clear_tree m h) as [m' h']. cbn [fst snd] in *. unfold mblocks in C. rewrite T in C. cbn [app] in C.
  eapply holds_delete; [|reflexivity]. eapply holds_delete; [|reflexivity]. eapply holds_perm; [exact C|]. apply perm_swap.
Qed.
Lemma holds_delete_wrapper w h F : holds h (wblocks w ++ F) -> holds (delete_wrapper w h) F.
Proof.
  intros H. unfold delete_wrapper, wblocks in *. rewrite <- !app_assoc in H.
  assert (H1 : holds (fold_left (fun h v => delete_voxel v h) (w_voxels w) h) (match w_mesh w with Some m => mblocks m | None => [] end ++ (Single, w_block w) :: F)).
  { apply holds_delete_voxels. eapply holds_perm; [exact H|]. perm. }
  set (h1 := fold_left _ _ _) in *. clearbody h1. eapply holds_delete; [|reflexivity]. destruct (w_mesh w) as [m|]; [apply holds_delete_mesh, H1|exact H1].
Qed.
Lemma holds_delete_tile ws : forall h F, holds h (flat_map wblocks ws ++ F) -> holds (delete_tile ws h) F.
Proof.
  unfold delete_tile. induction ws as [|w ws IH]; intros h F H; [exact H|]. cbn [flat_map fold_left] in *. rewrite <- app_assoc in H. apply IH, holds_delete_wrapper, H.
Qed.
Lemma holds_new_voxels n : forall h F, holds h F -> holds (snd (new_voxels n h)) (flat_map vblocks (fst (new_voxels n h)) ++ F) /\
  Forall (fun v => keys v = []) (fst (new_voxels n h)) /\ length (fst (new_voxels n h)) = n.
Proof.
  induction n as [|n IH]; intros h F H; [split; [exact H|split; [constructor|reflexivity]]|]. cbn [new_voxels].
  pose proof (holds_new Single h F H) as H1. destruct (new Single h) as [b h1]. cbn [fst snd] in H1.
  destruct (IH h1 _ H1) as (H2 & K & L). destruct (new_voxels n h1) as [vs h2]. cbn [fst snd] in *. split; [|split; [constructor; [reflexivity|exact K]|cbn [length]; lia]].
  eapply holds_perm; [exact H2|]. cbn [flat_map]. change (vblocks (Voxel b [])) with [(Single, b)]. perm.
Qed.
Definition fine (w : wrapper) : Prop := same_keys (w_voxels w).
Lemma holds_open sizes : forall h F, holds h F -> let (ws, h') := open_objects sizes h in
  holds h' (flat_map wblocks ws ++ F) /\ Forall fine ws /\ map (fun w => length (w_voxels w)) ws = sizes.
Proof.
  induction sizes as [|n r IH]; intros h F H; cbn [open_objects]; [split; [exact H|split; [constructor|reflexivity]]|].
  pose proof (holds_new Single h F H) as H1. destruct (new Single h) as [b h1]. cbn [fst snd] in H1.
  destruct (holds_new_voxels n h1 _ H1) as (H2 & K & L). destruct (new_voxels n h1) as [vs h2]. cbn [fst snd] in *.
  pose proof (IH h2 _ H2) as H3. destruct (open_objects r h2) as [ws h3]. destruct H3 as (H3 & G & M).
  split; [|split; [constructor; [exists []; exact K|exact G]|cbn [map w_voxels]; rewrite L, M; reflexivity]].
  eapply holds_perm; [exact H3|]. cbn [flat_map]. unfold wblocks. cbn [w_block w_voxels w_mesh]. perm.
Qed.
Lemma set_data_new lod d l : ~ In lod (map fst l) -> set_data lod d l = (lod, d) :: l.
Proof.
  intros N. unfold set_data. f_equal. induction l as [|[k x] l IH]; [reflexivity|]. cbn [filter map fst] in *.
  destruct (Z.eqb_spec k lod) as [E|E]; [exfalso; apply N; left; exact E|]. cbn [negb]. rewrite IH; [reflexivity|]. intro X. apply N. right. exact X.
Qed.
Lemma holds_give lod counts vs : forall i h F, Forall (fun v => ~ In lod (keys v)) vs -> holds h (flat_map vblocks vs ++ F) ->
  let (vs', h') := give_arrays lod counts i vs h in
  holds h' (flat_map vblocks vs' ++ F) /\ map keys vs' = map (fun v => lod :: keys v) vs /\ length vs' = length vs.
Proof.
  induction vs as [|v vs IH]; intros i h F N H; cbn [give_arrays]; [split; [exact H|split; reflexivity]|].
  assert (X : forall h0 d, holds h0 (match d with Some b => [(Array, b)] | None => [] end ++ flat_map vblocks (v :: vs) ++ F) ->
    let (r, h') := give_arrays lod counts (S i) vs h0 in
    holds h' (flat_map vblocks (Voxel (v_block v) (set_data lod d (v_data v)) :: r) ++ F) /\
    map keys (Voxel (v_block v) (set_data lod d (v_data v)) :: r) = map (fun v => lod :: keys v) (v :: vs) /\ length (Voxel (v_block v) (set_data lod d (v_data v)) :: r) = length (v :: vs)).
  { intros h0 d H0. rewrite (set_data_new lod d (v_data v)) by exact (Forall_inv N).
    pose proof (IH (S i) h0 (vblocks (Voxel (v_block v) ((lod, d) :: v_data v)) ++ F) (Forall_inv_tail N)) as G.
    destruct (give_arrays lod counts (S i) vs h0) as [r h1]. destruct G as (G1 & G2 & G3).
    { eapply holds_perm; [exact H0|]. cbn [flat_map]. rewrite vblocks_with, (vblocks_is v). perm. }
    split; [|split; [cbn [map]; rewrite G2; reflexivity|cbn [length]; lia]]. eapply holds_perm; [exact G1|]. cbn [flat_map]. perm. }
  destruct (0 <? counts i).
  - pose proof (holds_new Array h _ H) as H1. destruct (new Array h) as [b h1]. cbn [fst snd] in H1.
    specialize (X h1 (Some b) H1). destruct (give_arrays lod counts (S i) vs h1) as [r h2]. exact X.
  - specialize (X h None H). destruct (give_arrays lod counts (S i) vs h) as [r h2]. exact X.
Qed.
Lemma holds_copied lod vs : forall h L, (forall v, In v vs -> incl (vblocks v) L) -> holds h L -> holds (copied lod vs h) L.
Proof.
  unfold copied. induction vs as [|v vs IH]; intros h L I H; [exact H|]. cbn [fold_left]. apply IH; [intros u U; apply I; right; exact U|].
  destruct (v_data v) as [|[k [b|]] l] eqn:E; try exact H. apply holds_use; [exact H|].
  change b with (snd (Array, b)). apply in_map, (I v (or_introl eq_refl)). unfold vblocks. rewrite E. right. left. reflexivity.
Qed.
Lemma holds_fill w counts h F : fine w -> (strict = true -> length (w_voxels w) <= 1) -> holds h (wblocks w ++ F) ->
  let (w', h') := fill w counts h in holds h' (wblocks w' ++ F) /\ fine w' /\ length (w_voxels w') = length (w_voxels w).
Proof.
  intros G S H. unfold fill. destruct (w_mesh w) as [m|] eqn:M; [|auto]. destruct (w_voxels w) as [|v0 r] eqn:V; [rewrite V; auto|].
  destruct (existsb (fun d => Z.eqb (fst d) (m_lod m)) (v_data v0)) eqn:X; [rewrite V; auto|].
  assert (N0 : ~ In (m_lod m) (keys v0)).
  { intro I. unfold keys in I. apply in_map_iff in I. destruct I as (d & E & I). assert (Y : existsb (fun d => Z.eqb (fst d) (m_lod m)) (v_data v0) = true); [|rewrite Y in X; discriminate X].
    apply existsb_exists. exists d. split; [exact I|]. rewrite E. apply Z.eqb_refl. }
  pose proof (holds_new Array h _ H) as H1. destruct (new Array h) as [bu h1]. cbn [fst snd] in H1.
  assert (H2 : holds (happen (Use bu) h1) ((Array, bu) :: wblocks w ++ F)) by (apply holds_use; [exact H1|left; reflexivity]).
  set (h2 := happen (Use bu) h1) in *. clearbody h2. destruct r as [|v1 r].
  - pose proof (holds_new Array h2 _ H2) as H3. destruct (new Array h2) as [d h3]. cbn [fst snd] in H3.
    split; [|split; [|reflexivity]].
    + eapply holds_delete; [|reflexivity]. apply holds_use; [|left; reflexivity]. apply holds_use.
      2:{ right. rewrite map_app. apply in_or_app. left. unfold wblocks. cbn [w_block w_voxels w_mesh]. rewrite !map_app. apply in_or_app. right. apply in_or_app. left.
          cbn [flat_map]. rewrite app_nil_r. unfold vblocks. cbn [v_block v_data map snd]. right. left. reflexivity. }
      eapply holds_perm; [exact H3|]. unfold wblocks. cbn [w_block w_voxels w_mesh]. rewrite V, M. cbn [flat_map].
      rewrite (set_data_new _ _ _ N0), vblocks_with, (vblocks_is v0). perm.
    + exists (m_lod m :: keys v0). constructor; [|constructor]. unfold keys at 1. cbn [v_data]. rewrite (set_data_new _ _ _ N0). reflexivity.
  - assert (SF : strict = false) by (destruct strict; [specialize (S eq_refl); cbn [length] in S; lia|reflexivity]).
    pose proof (holds_new Array h2 _ H2) as H3. destruct (new Array h2) as [gr h3]. cbn [fst snd] in H3.
    pose proof (holds_new Array h3 _ H3) as H4. destruct (new Array h3) as [gc h4]. cbn [fst snd] in H4.
    destruct G as [ks K]. rewrite V in K.
    assert (NK : Forall (fun v => ~ In (m_lod m) (keys v)) (v0 :: v1 :: r)).
    { revert K. intro K. pose proof (Forall_inv K) as K0. cbn beta in K0. revert K. apply Forall_impl. intros v E. cbn beta. rewrite E, <- K0. exact N0. }
    set (rest := [(Single, w_block w)] ++ mblocks m ++ [(Array, gc); (Array, gr); (Array, bu)] ++ F).
    assert (H5 : holds h4 (flat_map vblocks (v0 :: v1 :: r) ++ rest)).
    { eapply holds_perm; [exact H4|]. unfold rest, wblocks. rewrite V, M. perm. }
    pose proof (holds_give (m_lod m) counts (v0 :: v1 :: r) 0 h4 rest NK H5) as H6. 
    destruct (give_arrays (m_lod m) counts 0 (v0 :: v1 :: r) h4) as [vs h5]. destruct H6 as (H6 & Kv & Lv).
    split; [|split; [|exact Lv]].
    + assert (H7 : holds (copied (m_lod m) vs h5) (flat_map vblocks vs ++ rest)).
      { apply holds_copied; [|exact H6]. intros v I x J. apply in_or_app. left. apply in_flat_map. exists v. split; assumption. }
      set (h6 := copied (m_lod m) vs h5) in *. clearbody h6.
      assert (H8 : holds h6 ([(Array, gr); (Array, gc); (Array, bu)] ++ wblocks (Wrapper (w_block w) vs (Some m)) ++ F)).
      { eapply holds_perm; [exact H7|]. unfold rest, wblocks. cbn [w_block w_voxels w_mesh]. perm. }
      cbn [app] in H8. assert (ST : forall f f' : form, strict = true -> f = f') by (intros f f' T; rewrite SF in T; discriminate T).
      eapply holds_delete; [|apply ST]. eapply holds_delete; [|apply ST]. eapply holds_delete; [|apply ST].
      apply holds_use; [|right; left; reflexivity]. apply holds_use; [|left; reflexivity]. apply holds_use; [exact H8|right; right; left; reflexivity].
    + exists (m_lod m :: ks). apply Forall_forall. intros v I. assert (J : In (keys v) (map keys vs)) by (apply in_map, I). cbn [w_voxels] in *.
      rewrite Kv in J. apply in_map_iff in J. destruct J as (u & <- & U). rewrite (proj1 (Forall_forall _ _) K u U). reflexivity.
Qed.
Lemma holds_reset_all vs : forall h F, holds h (flat_map vblocks vs ++ F) -> let (vs', h') := reset_all vs h in
  holds h' (flat_map vblocks vs' ++ F) /\ Forall (fun v => keys v = []) vs' /\ length vs' = length vs.
Proof.
  induction vs as [|v vs IH]; intros h F H; cbn [reset_all]; [split; [exact H|split; [constructor|reflexivity]]|].
  cbn [flat_map] in H. rewrite <- app_assoc in H. pose proof (holds_reset v h _ H) as H1.
  assert (E : fst (reset_voxel v h) = Voxel (v_block v) []) by reflexivity. destruct (reset_voxel v h) as [v' h1]. cbn [fst snd] in *. subst v'.
  pose proof (IH h1 ((Single, v_block v) :: F)) as H2. destruct (reset_all vs h1) as [r h2]. destruct H2 as (H2 & K & L).
  { eapply holds_perm; [exact H1|]. perm. }
  split; [|split; [constructor; [reflexivity|exact K]|cbn [length]; lia]]. eapply holds_perm; [exact H2|]. cbn [flat_map].
  change (vblocks (Voxel (v_block v) [])) with [(Single, v_block v)]. perm.
Qed.
Lemma holds_decode w lod h F : fine w -> holds h (wblocks w ++ F) ->
  let (w', h') := decode w lod h in holds h' (wblocks w' ++ F) /\ fine w' /\ length (w_voxels w') = length (w_voxels w).
Proof.
  intros G H. unfold decode. assert (X : let (w', h') := retrieve w h in holds h' (wblocks w' ++ F) /\ w_voxels w' = w_voxels w).
  { unfold retrieve. destruct (w_mesh w) as [m|] eqn:M; [auto|].
    pose proof (holds_new Array h _ H) as H1. destruct (new Array h) as [d h1]. cbn [fst snd] in H1.
    assert (H2 : holds (happen (Use d) h1) ((Array, d) :: wblocks w ++ F)) by (apply holds_use; [exact H1|left; reflexivity]).
    pose proof (holds_new Single _ _ H2) as H3. destruct (new Single (happen (Use d) h1)) as [b h3]. cbn [fst snd] in H3. split; [|reflexivity].
    assert (H4 : holds (happen (Use d) h3) ((Single, b) :: (Array, d) :: wblocks w ++ F)) by (apply holds_use; [exact H3|right; left; reflexivity]).
    eapply holds_perm; [exact H4|]. unfold wblocks. cbn [w_block w_voxels w_mesh]. rewrite M. unfold mblocks. cbn [m_block m_data m_tree]. perm. }
  destruct (retrieve w h) as [w1 h1]. destruct X as [X V]. destruct (w_mesh w1) as [m|] eqn:M; [|unfold fine; rewrite V; auto].
  unfold advance. destruct (lod <=? m_lod m)%Z.
  - destruct w1 as [b vs me]. cbn [w_mesh w_voxels w_block] in *. subst. unfold fine in *. cbn [w_voxels]. auto.
  - cbn [w_voxels]. unfold fine. cbn [w_voxels]. rewrite V. split; [|split; [exact G|reflexivity]].
    apply holds_use; [eapply holds_perm; [exact X|]|]; unfold wblocks; cbn [w_block w_voxels w_mesh]; rewrite ?M, ?V; unfold mblocks; cbn [m_block m_data m_tree]; [perm|].
    rewrite !map_app. apply in_or_app. left. apply in_or_app. right. apply in_or_app. right. apply in_or_app. left. right. left. reflexivity.
Qed.
(** Every operation keeps the account. *)
Definition few (w : wrapper) : Prop := strict = true -> length (w_voxels w) <= 1.
Lemma holds_act o w h F : fine w -> (match o with Fill _ => few w | _ => True end) -> holds h (wblocks w ++ F) ->
  let (w', h') := act o w h in holds h' (wblocks w' ++ F) /\ fine w' /\ (length (w_voxels w') = length (w_voxels w) \/ length (w_voxels w') <= 1).
Proof.
  intros G S H. destruct o as [lod|counts| | | |]; cbn [act].
  - pose proof (holds_decode w lod h F G H) as X. destruct (decode w lod h) as [w' h']. tauto.
  - pose proof (holds_fill w counts h F G S H) as X. destruct (fill w counts h) as [w' h']. tauto.
  - unfold get_tree. destruct (w_mesh w) as [m|] eqn:M; [|tauto]. destruct (m_tree m) as [t|] eqn:T.
    + split; [|tauto]. apply holds_use; [exact H|]. unfold wblocks. rewrite M. unfold mblocks. rewrite T. rewrite !map_app.
      apply in_or_app. left. apply in_or_app. right. apply in_or_app. right. apply in_or_app. right. left. reflexivity.
    + pose proof (holds_new Single h _ H) as H1. destruct (new Single h) as [t h1]. cbn [fst snd] in H1. split; [|tauto].
      eapply holds_perm; [apply holds_use; [exact H1|left; reflexivity]|]. unfold wblocks. cbn [w_block w_voxels w_mesh]. rewrite M.
      unfold mblocks. cbn [m_block m_data m_tree]. rewrite T. perm.
  - destruct (w_mesh w) as [m|] eqn:M; [|tauto].
    pose proof (holds_clear m h ((Single, w_block w) :: flat_map vblocks (w_voxels w) ++ F)) as X. destruct (clear_tree m h) as [m' h']. cbn [fst snd] in X. split; [|tauto].
    eapply holds_perm; [apply X|]; [eapply holds_perm; [exact H|]|]; unfold wblocks; cbn [w_block w_voxels w_mesh]; rewrite ?M; perm.
  - pose proof (holds_reset_all (w_voxels w) h ((Single, w_block w) :: match w_mesh w with Some m => mblocks m | None => [] end ++ F)) as X.
    destruct (reset_all (w_voxels w) h) as [vs h']. destruct X as (X & K & L); [eapply holds_perm; [exact H|]; unfold wblocks; perm|].
    split; [|split; [exists []; exact K|left; exact L]]. eapply holds_perm; [exact X|]. unfold wblocks. cbn [w_block w_voxels w_mesh]. perm.
  - unfold disable_wrapper. destruct (1 <? length (w_voxels w)); [|tauto].
    pose proof (holds_delete_voxels (w_voxels w) h ((Single, w_block w) :: match w_mesh w with Some m => mblocks m | None => [] end ++ F)) as X.
    set (h1 := fold_left _ _ _) in *. clearbody h1. assert (H1 := X ltac:(eapply holds_perm; [exact H|]; unfold wblocks; perm)).
    pose proof (holds_new Single h1 _ H1) as H2. destruct (new Single h1) as [b h2]. cbn [fst snd] in H2.
    split; [|split; [exists []; constructor; [reflexivity|constructor]|right; cbn; lia]].
    eapply holds_perm; [exact H2|]. unfold wblocks. cbn [w_block w_voxels w_mesh flat_map]. change (vblocks (Voxel b [])) with [(Single, b)]. perm.
Qed.
Lemma few_kept w w' : few w -> (length (w_voxels w') = length (w_voxels w) \/ length (w_voxels w') <= 1) -> few w'.
Proof. unfold few. intros S [E|E] T; [rewrite E; auto|exact E]. Qed.
Lemma holds_act_at o : forall ws i h F, Forall fine ws -> (match o with Fill _ => Forall few ws | _ => True end) -> holds h (flat_map wblocks ws ++ F) ->
  let (ws', h') := act_at i o ws h in holds h' (flat_map wblocks ws' ++ F) /\ Forall fine ws' /\
    Forall2 (fun w w' => length (w_voxels w') = length (w_voxels w) \/ length (w_voxels w') <= 1) ws ws'.
Proof.
  induction ws as [|w ws IH]; intros i h F G S H; [destruct i; cbn [act_at]; (split; [exact H|split; constructor])|]. cbn [flat_map] in H.
  assert (R : forall l : list wrapper, Forall2 (fun w w' => length (w_voxels w') = length (w_voxels w) \/ length (w_voxels w') <= 1) l l)
    by (induction l; constructor; [left; reflexivity|assumption]).
  destruct i as [|i]; cbn [act_at].
  - rewrite <- app_assoc in H. pose proof (holds_act o w h (flat_map wblocks ws ++ F) (Forall_inv G)) as X.
    destruct (act o w h) as [w' h']. destruct X as (X1 & X2 & X3); [destruct o; try exact I; exact (Forall_inv S)|exact H|].
    split; [cbn [flat_map]; rewrite <- app_assoc; exact X1|]. split; [constructor; [exact X2|exact (Forall_inv_tail G)]|]. constructor; [exact X3|apply R].
  - pose proof (IH i h (wblocks w ++ F) (Forall_inv_tail G)) as X. destruct (act_at i o ws h) as [ws' h'].
    destruct X as (X1 & X2 & X3); [destruct o; try exact I; exact (Forall_inv_tail S)|eapply holds_perm; [exact H|]; perm|].
    split; [eapply holds_perm; [exact X1|]; cbn [flat_map]; perm|]. split; [constructor; [exact (Forall_inv G)|exact X2]|].
    constructor; [left; reflexivity|exact X3].
Qed.
Lemma holds_run ops : forall ws h, Forall fine ws -> Forall few ws -> holds h (flat_map wblocks ws) ->
  let (ws', h') := run ops (ws, h) in holds h' (flat_map wblocks ws').
Proof.
  induction ops as [|[i o] ops IH]; intros ws h G S H; [exact H|]. unfold run. cbn [fold_left fst snd].
  pose proof (holds_act_at o ws i h [] G) as X. rewrite app_nil_r in X. destruct (act_at i o ws h) as [ws1 h1].
  destruct X as (X1 & X2 & X3); [destruct o; try exact I; exact S|exact H|]. rewrite app_nil_r in X1. apply IH; [exact X2| |exact X1].
  clear -S X3. induction X3 as [|w w' ws ws' E _ IHX]; [constructor|]. constructor; [exact (few_kept _ _ (Forall_inv S) E)|exact (IHX (Forall_inv_tail S))].
Qed.
Lemma holds_start : holds (Heap [] 0) [].
Proof. exists []. split; [reflexivity|]. split; [constructor|split; [constructor|constructor]]. Qed.
Lemma life_clean sizes ops : (strict = true -> Forall (fun n => n <= 1) sizes) -> clean strict (life sizes ops).
Proof.
  intros S. unfold life. pose proof (holds_open sizes _ _ holds_start) as X. destruct (open_objects sizes (Heap [] 0)) as [ws h].
  destruct X as (X & G & L). rewrite app_nil_r in X.
  assert (FW : Forall few ws).
  { apply Forall_forall. intros w I T. specialize (S T). rewrite <- L in S. rewrite Forall_map in S. exact (proj1 (Forall_forall _ _) S w I). }
  pose proof (holds_run ops ws h G FW X) as Y. destruct (run ops (ws, h)) as [ws' h'].
  assert (Z : holds (delete_tile ws' h') []) by (apply holds_delete_tile; rewrite app_nil_r; exact Y).
  destruct Z as (l & E & P & _). apply Permutation_sym, Permutation_nil in P. subst l. unfold clean.
  rewrite <- (fold_left_rev_right (fun e l => do l <- l; allowed strict l e)), rev_involutive. exact E.
Qed.
Lemma disabled_at : forall ws i h j w', nth_error (fst (act_at i Disable ws h)) j = Some w' ->
  (j = i -> length (w_voxels w') <= 1) /\ exists w, nth_error ws j = Some w /\ (length (w_voxels w') = length (w_voxels w) \/ length (w_voxels w') <= 1).
Proof.
  induction ws as [|w ws IH]; intros i h j w' E; [destruct i, j; discriminate E|]. destruct i as [|i]; cbn [act_at act] in E.
  - assert (L : length (w_voxels (fst (disable_wrapper w h))) <= 1).
    { unfold disable_wrapper. destruct (Nat.ltb_spec 1 (length (w_voxels w))) as [K|K]; [|exact K]. destruct (new Single _). cbn. lia. }
    destruct (disable_wrapper w h) as [v h1]. cbn [fst] in *. destruct j as [|j]; cbn [nth_error] in *.
    + injection E as <-. split; [auto|]. exists w. auto.
    + split; [intro X; discriminate X|]. exists w'. auto.
  - pose proof (IH i h) as X. destruct (act_at i Disable ws h) as [r h1]. cbn [fst] in *. destruct j as [|j]; cbn [nth_error] in *.
    + injection E as <-. split; [intro Y; discriminate Y|]. exists w. auto.
    + destruct (X j w' E) as [A B]. split; [intro Y; injection Y as Y; auto|exact B].
Qed.
Lemma act_at_length o : forall ws i h, length (fst (act_at i o ws h)) = length ws.
Proof.
  induction ws as [|w ws IH]; intros i h; [destruct i; reflexivity|]. destruct i as [|i]; cbn [act_at].
  - destruct (act o w h); reflexivity.
  - specialize (IH i h). destruct (act_at i o ws h). cbn [fst length] in *. lia.
Qed.
Lemma holds_disabled n : forall a ws h, Forall fine ws -> holds h (flat_map wblocks ws) ->
  (forall j w, j < a -> nth_error ws j = Some w -> length (w_voxels w) <= 1) -> 
  let (ws', h') := run (map (fun i => (i, Disable)) (seq a n)) (ws, h) in
  holds h' (flat_map wblocks ws') /\ Forall fine ws' /\ length ws' = length ws /\ (forall j w, j < a + n -> nth_error ws' j = Some w -> length (w_voxels w) <= 1).
Proof.
  induction n as [|n IH]; intros a ws h G H L; [rewrite Nat.add_0_r; cbn [seq map run fold_left]; split; [exact H|split; [exact G|split; [reflexivity|exact L]]]|]. cbn [seq map]. unfold run. cbn [fold_left fst snd].
  pose proof (holds_act_at Disable ws a h [] G I) as X. rewrite app_nil_r in X. pose proof (disabled_at ws a h) as D. pose proof (act_at_length Disable ws a h) as Q.
  destruct (act_at a Disable ws h) as [ws1 h1]. cbn [fst] in *. destruct (X H) as (X1 & X2 & _). rewrite app_nil_r in X1.
  pose proof (IH (S a) ws1 h1 X2 X1) as K. unfold run in K. destruct (fold_left _ _ (ws1, h1)) as [ws' h'].
  destruct K as (I1 & I2 & I3 & I4).
  { intros j w J E. destruct (D j w E) as (D1 & w0 & E0 & D2). destruct (Nat.eq_dec j a) as [Y|Y]; [auto|]. destruct D2 as [D2|D2]; [rewrite D2; apply (L j w0); [lia|exact E0]|exact D2]. }
  split; [exact I1|]. split; [exact I2|]. split; [lia|]. intros j w J. apply I4. lia.
Qed.
Lemma life_disabled sizes ops : clean strict (life sizes (map (fun i => (i, Disable)) (seq 0 (length sizes)) ++ ops)).
Proof.
  unfold life. pose proof (holds_open sizes _ _ holds_start) as X. destruct (open_objects sizes (Heap [] 0)) as [ws h].
  destruct X as (X & G & L). rewrite app_nil_r in X. unfold run. rewrite fold_left_app.
  pose proof (holds_disabled (length sizes) 0 ws h G X ltac:(intros; lia)) as Y. unfold run in Y.
  destruct (fold_left _ (map _ (seq 0 (length sizes))) (ws, h)) as [ws1 h1]. destruct Y as (Y1 & Y2 & Y3 & Y4).
  assert (FW : Forall few ws1).
  { apply Forall_forall. intros w I _. apply In_nth_error in I. destruct I as [j E]. apply (Y4 j w); [|exact E].
    assert (J : j < length ws1) by (apply nth_error_Some; congruence). rewrite <- L, map_length. lia. }
  pose proof (holds_run ops ws1 h1 Y2 FW Y1) as Z0. unfold run in Z0. destruct (fold_left _ ops (ws1, h1)) as [ws' h'].
  assert (Z : holds (delete_tile ws' h') []) by (apply holds_delete_tile; rewrite app_nil_r; exact Z0).
  destruct Z as (l & E & P & _). apply Permutation_sym, Permutation_nil in P. subst l. unfold clean.
  rewrite <- (fold_left_rev_right (fun e l => do l <- l; allowed strict l e)), rev_involutive. exact E.
Qed.
End Owned.

(** C211.  However a tile is used, every block it took is live when it is used or deleted, and all are deleted exactly
    once when the tile is gone. *)
Theorem tile_memory_partial : forall sizes ops, clean false (life sizes ops).
Proof. intros sizes ops. apply life_clean. intros E. discriminate E. Qed.
Print Assumptions tile_memory_partial.
(** If no object has more than one voxel, also delete and delete[] are used as they should. *)
Theorem tile_memory_single : forall sizes ops, Forall (fun n => n <= 1) sizes -> clean true (life sizes ops).
Proof. intros sizes ops S. apply life_clean. intros _. exact S. Qed.
Print Assumptions tile_memory_single.
(** And for objects of any number of voxels if the inner parts are disabled first, as the joiner does without --multiple_mbb. *)
Theorem tile_memory_disabled : forall sizes ops, clean true (life sizes (map (fun i => (i, Disable)) (seq 0 (length sizes)) ++ ops)).
Proof. intros sizes ops. apply life_disabled. Qed.
Print Assumptions tile_memory_disabled.
(** C211 is false for an object with two voxels: arrays are released with delete. *)
Theorem tile_memory_refuted : exists sizes ops, ~ clean true (life sizes ops).
Proof. exists [2], [(0, Decode 50); (0, Fill (fun _ => 1))]. unfold clean. vm_compute. discriminate. Qed.
Print Assumptions tile_memory_refuted.
(** A run with all operations on two objects. *)
Example tile_memory_case : Forall (fun n => n <= 1) [1; 1] /\
  life [1; 1] [(1, Decode 50); (1, Fill (fun _ => 7)); (1, Tree); (1, ClearTree); (1, Tree); (0, Decode 0); (1, Decode 100); (1, Fill (fun _ => 9)); (0, Reset); (1, Reset); (1, Fill (fun _ => 9)); (0, Disable)] <> [].
Proof. split; [repeat constructor|]. vm_compute. discriminate. Qed.
