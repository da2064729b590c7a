(** More about /repo/src/test/fixer.cpp: what filling of holes does to any mesh, and the order of the
    table of edges. *)
From Coq Require Import List ZArith Bool Arith Lia Sorted.
From Verif Require Import Arr FixerModel FixerProofs PropFixer.
Import ListNotations.
Open Scope nat_scope.

(** * Walking along holes, whatever the boundary looks like *)
Section Any.
  Variable conn : nat -> option nat.
  Variable keys : list nat.
  Hypothesis CK : forall v w, conn v = Some w -> In w keys.
  Fixpoint steps (l : list nat) : Prop := match l with a :: ((b :: _) as r) => conn a = Some b /\ steps r | _ => True end.
  Definition left_over (assigned : nat -> bool) : nat := length (filter (fun u => negb (assigned u)) keys).
  Definition turns (f : list nat) : Prop := f <> [] /\ steps f /\ conn (last f 0) = Some (hd 0 f).

  Lemma left_le (g h : nat -> bool) (l : list nat) : (forall u, g u = true -> h u = true) -> length (filter (fun u => negb (h u)) l) <= length (filter (fun u => negb (g u)) l).
  Proof. intro H. induction l as [|x l IH]; cbn [filter]; [lia|]. specialize (H x). destruct (g x), (h x); cbn [negb length]; try lia; specialize (H eq_refl); discriminate H. Qed.
  Lemma left_lt (g h : nat -> bool) v : forall l, In v l -> (forall u, g u = true -> h u = true) -> g v = false -> h v = true ->
    length (filter (fun u => negb (h u)) l) < length (filter (fun u => negb (g u)) l).
  Proof.
    induction l as [|x l IH]; intros I H G K; [destruct I|]. cbn [filter]. destruct I as [->|I].
    - rewrite G, K. cbn [negb length]. pose proof (left_le g h l H). lia.
    - specialize (IH I H G K). pose proof (H x) as Hx. destruct (g x), (h x); cbn [negb length]; try lia; specialize (Hx eq_refl); discriminate Hx.
  Qed.

  Lemma trace_any : forall fuel assigned f v, In v keys -> assigned v = false -> left_over assigned <= fuel ->
    exists g c assigned', trace conn fuel assigned f v = Some (f ++ v :: g, c, assigned') /\ NoDup (v :: g) /\ (forall u, In u (v :: g) -> assigned u = false) /\
      (forall u, assigned' u = true <-> assigned u = true \/ In u (v :: g)) /\ steps (v :: g) /\ (c = true -> conn (last (v :: g) 0) = Some (hd 0 (f ++ v :: g))).
  Proof.
    induction fuel as [|fuel IH]; intros assigned f v Hv Av L.
    { exfalso. assert (K := left_lt assigned (set_true assigned v) v keys Hv). unfold left_over in L.
      assert (X : length (filter (fun u => negb (set_true assigned v u)) keys) < length (filter (fun u => negb (assigned u)) keys)); [|lia].
      apply K; auto; unfold set_true; intros; [rewrite H; apply orb_true_r|rewrite Nat.eqb_refl; reflexivity]. }
    cbn [trace]. set (a' := set_true assigned v).
    assert (SA : forall u, a' u = true <-> assigned u = true \/ u = v).
    { intro u. unfold a', set_true. rewrite orb_true_iff, Nat.eqb_eq. tauto. }
    destruct (conn v) as [w|] eqn:C.
    - destruct (a' w) eqn:Aw.
      + exists [], (w =? hd 0 (f ++ [v])), a'. split; [reflexivity|]. split; [repeat constructor; intros []|]. split; [intros u [<-|[]]; exact Av|]. split; [intro u; rewrite SA; cbn [In]; intuition|]. split; [exact I|].
        intro E. apply Nat.eqb_eq in E. cbn [last]. rewrite C. f_equal. exact E.
      + assert (L' : left_over a' <= fuel).
        { unfold left_over. assert (X : length (filter (fun u => negb (a' u)) keys) < length (filter (fun u => negb (assigned u)) keys)); [|unfold left_over in L; lia].
          apply (left_lt assigned a' v); auto; [intros u Hu; apply SA; auto|apply SA; auto]. }
        destruct (IH a' (f ++ [v]) w (CK _ _ C) Aw L') as (g & c & as' & E & ND & U & R & ST & CL).
        assert (AP : (f ++ [v]) ++ w :: g = f ++ v :: w :: g) by (rewrite <- app_assoc; reflexivity). rewrite AP in E, CL.
        assert (NV : forall u, In u (w :: g) -> assigned u = false /\ u <> v).
        { intros u Hu. pose proof (U u Hu) as Q. split; [destruct (assigned u) eqn:Au; [|reflexivity]|intros ->]; (rewrite (proj2 (SA _)) in Q; [discriminate Q|auto]). }
        exists (w :: g), c, as'. split; [exact E|]. split; [constructor; [intro K; apply NV in K; destruct K as [_ K]; apply K; reflexivity|exact ND]|].
        split; [intros u [<-|Hu]; [exact Av|apply NV; exact Hu]|]. split; [intro u; rewrite R, SA; cbn [In]; intuition|]. split; [split; [exact C|exact ST]|].
        intro Ec. change (last (v :: w :: g) 0) with (last (w :: g) 0). exact (CL Ec).
    - exists [], false, a'. split; [reflexivity|]. split; [repeat constructor; intros []|]. split; [intros u [<-|[]]; exact Av|]. split; [intro u; rewrite SA; cbn [In]; intuition|]. split; [exact I|]. intro E. discriminate E.
  Qed.

  Lemma fill_any P : forall k assigned (p : poly P), left_over assigned <= k ->
    exists ls, fill conn keys (length keys) k assigned p = Some (fold_left add_face ls p) /\ NoDup (concat ls) /\ (forall u, In u (concat ls) -> assigned u = false) /\ Forall turns ls.
  Proof.
    induction k as [|k IH]; intros assigned p L; cbn [fill]; (destruct (find (fun v => negb (assigned v)) keys) as [v|] eqn:F; [|exists []; split; [reflexivity|]; split; [constructor|]; split; [intros u []|constructor]]).
    - exfalso. apply find_some in F. unfold left_over in L. assert (X : In v (filter (fun u => negb (assigned u)) keys)) by (apply filter_In; exact F). destruct (filter _ keys); [destruct X|cbn [length] in L; lia].
    - apply find_some in F. destruct F as [Hv Av]. apply negb_true_iff in Av.
      assert (LK : left_over assigned <= length keys) by (unfold left_over; clear; induction keys as [|x l IHl]; cbn [filter]; [lia|]; destruct (negb (assigned x)); cbn [length]; lia).
      destruct (trace_any (length keys) assigned [] v Hv Av LK) as (g & c & as' & E & ND & U & R & ST & CL). rewrite E. cbn [bind fst snd]. change ([] ++ v :: g) with (v :: g) in *.
      assert (L' : left_over as' <= k).
      { unfold left_over in *. assert (X : length (filter (fun u => negb (as' u)) keys) < length (filter (fun u => negb (assigned u)) keys)); [|lia].
        apply (left_lt assigned as' v); auto; [intros u Hu; apply R; auto|apply R; right; left; reflexivity]. }
      destruct (IH as' (if c then add_face p (v :: g) else p) L') as (ls & E' & ND' & U' & T'). destruct c.
      + exists ((v :: g) :: ls). split; [exact E'|]. change (concat ((v :: g) :: ls)) with ((v :: g) ++ concat ls). split.
        * clear - ND ND' U' R. assert (D : forall u, In u (concat ls) -> ~ In u (v :: g)) by (intros u Hu K; assert (Q := U' u Hu); rewrite (proj2 (R u)) in Q; [discriminate Q|right; exact K]).
          revert ND D. generalize (v :: g) as l. intros l. induction l as [|x l IHl]; intros ND D; [exact ND'|]. inversion ND; subst. cbn [app]. constructor; [|apply IHl; [assumption|intros u Hu K; apply (D u Hu); right; exact K]].
          rewrite in_app_iff. intros [K|K]; [contradiction|]. apply (D x K). left. reflexivity.
        * split; [intros u Hu; apply in_app_iff in Hu; destruct Hu as [Hu|Hu]; [apply U; exact Hu|]|constructor; [split; [intro Q; discriminate Q|split; [exact ST|exact (CL eq_refl)]]|exact T']].
          specialize (U' u Hu). destruct (assigned u) eqn:Au; [|reflexivity]. rewrite (proj2 (R u)) in U'; [discriminate U'|left; exact Au].
      + exists ls. split; [exact E'|]. split; [exact ND'|]. split; [|exact T']. intros u Hu. specialize (U' u Hu). destruct (assigned u) eqn:Au; [|reflexivity]. rewrite (proj2 (R u)) in U'; [discriminate U'|left; exact Au].
  Qed.

  Lemma steps_sides : forall f x, steps f -> (forall l, f = l -> f <> [] -> conn (last f 0) = Some x) -> forall a b, In (a, b) (combine f (tl f ++ [x])) -> conn a = Some b.
  Proof.
    induction f as [|y f IH]; intros x ST CL a b H; [destruct H|]. cbn [tl] in H. destruct f as [|z f].
    - cbn [app combine In] in H. destruct H as [H|[]]. injection H as <- <-. specialize (CL _ eq_refl ltac:(intro Q; discriminate Q)). exact CL.
    - cbn [app combine] in H. destruct H as [H|H].
      + injection H as <- <-. exact (proj1 ST).
      + apply (IH x); [exact (proj2 ST)| |exact H]. intros l El _. apply (CL _ eq_refl). intro Q. discriminate Q.
  Qed.
  Lemma turns_sides f a b : turns f -> In (a, b) (sides f) -> conn a = Some b.
  Proof.
    intros (NE & ST & CL) H. destruct f as [|y f]; [contradiction|]. unfold sides in H. cbn [firstn] in H. apply (steps_sides (y :: f) y ST); [|exact H]. intros l _ _. exact CL.
  Qed.
End Any.

(** Whatever the mesh: the filling comes to an end, keeps points and faces, and adds only faces every
    side of which runs along an open side in the other direction; no vertex is used twice. *)
Theorem fill_holes_only_open : forall P (p : poly P), built p ->
  exists q new, fill_holes p = Some q /\ points q = points p /\ faces q = faces p ++ new /\ built q /\ NoDup (concat new) /\
    forall f, In f new -> f <> [] /\ forall a b, In (a, b) (sides f) -> open_side p b a.
Proof.
  intros P p B. unfold fill_holes. set (ss := single_edges (edges p)).
  assert (SO : forall a b, In (a, b) ss -> open_side p a b). { intros a b H. apply single_in in H. unfold open_side. rewrite <- !(B _ _). exact H. }
  assert (G : exists ls, match ss with [] => Some p | _ => fill (connect ss) (boundary ss) (length (boundary ss)) (length (boundary ss)) (fun _ => false) p end = Some (fold_left add_face ls p) /\ NoDup (concat ls) /\ Forall (turns (connect ss)) ls).
  { assert (H : exists ls, fill (connect ss) (boundary ss) (length (boundary ss)) (length (boundary ss)) (fun _ => false) p = Some (fold_left add_face ls p) /\ NoDup (concat ls) /\ Forall (turns (connect ss)) ls).
    { destruct (fill_any (connect ss) (boundary ss)) with (P := P) (k := length (boundary ss)) (assigned := fun _ : nat => false) (p := p) as (ls & E & ND & _ & T).
      - intros v w H. apply boundary_in. exists (w, v). split; [exact (connect_in _ _ _ H)|left; reflexivity].
      - unfold left_over. generalize (boundary ss). intro l. induction l as [|x l IHl]; cbn [filter negb length] in *; lia.
      - exists ls. auto. }
    destruct ss as [|s ss']; [exists []; split; [reflexivity|split; constructor]|exact H]. }
  destruct G as (ls & E & ND & T). exists (fold_left add_face ls p), ls. destruct (add_faces P ls p) as (H1 & H2 & H3). split; [exact E|]. split; [exact H1|]. split; [exact H2|]. split; [apply add_built; exact B|]. split; [exact ND|].
  intros f Hf. rewrite Forall_forall in T. specialize (T f Hf). split; [exact (proj1 T)|]. intros a b H. apply SO, connect_in. exact (turns_sides _ _ _ _ T H).
Qed.
Print Assumptions fill_holes_only_open.
(** Two triangles that meet in a point: one of the two holes is closed. *)
Example fill_holes_only_open_nonvacuous : built bowtie /\ option_map (fun q => (faces bowtie, skipn (length (faces bowtie)) (faces q))) (fill_holes bowtie) = Some ([[0; 1; 2]; [0; 3; 4]], [[0; 4; 3]]).
Proof. split; [apply built_faces|vm_compute; reflexivity]. Qed.
(** A fin on a closed piece: its open sides 1-3 and 3-0 make no loop, and nothing is added. *)
Example fill_holes_fin : let p := fold_left add_face [[0; 1; 2]; [0; 1; 3]; [1; 0; 2]] (Poly [7; 8; 9; 5] [] []) in single_edges (edges p) = [(1, 3); (3, 0)] /\ fill_holes p = Some p.
Proof. vm_compute. split; reflexivity. Qed.

(** * The table of edges is in the order of std::map *)
Definition before (a b : nat * nat) : Prop := fst a < fst b \/ (fst a = fst b /\ snd a < snd b).
Lemma pair_lt_before a b : pair_lt a b = true <-> before a b.
Proof. unfold pair_lt, before. rewrite orb_true_iff, andb_true_iff, Nat.ltb_lt, Nat.eqb_eq, Nat.ltb_lt. reflexivity. Qed.
Lemma ins_sorted e l : StronglySorted before l -> StronglySorted before (ins e l).
Proof.
  induction 1 as [|x l S IH F]; cbn [ins]; [repeat constructor|]. destruct (pair_eq e x) eqn:E; [constructor; assumption|]. destruct (pair_lt e x) eqn:L.
  - apply pair_lt_before in L. constructor; [constructor; assumption|]. constructor; [exact L|]. rewrite Forall_forall in F |- *. intros y Hy. specialize (F y Hy). unfold before in *. lia.
  - constructor; [exact IH|]. rewrite Forall_forall in F |- *. intros y Hy. apply ins_in in Hy. destruct Hy as [->|Hy]; [|exact (F y Hy)].
    destruct (pair_lt x e) eqn:L2; [apply pair_lt_before; exact L2|]. exfalso.
    assert (N1 : ~ before e x) by (rewrite <- pair_lt_before; congruence). assert (N2 : ~ before x e) by (rewrite <- pair_lt_before; congruence).
    unfold before in N1, N2. assert (Q : pair_eq e x = true) by (unfold pair_eq; rewrite andb_true_iff, !Nat.eqb_eq; lia). congruence.
Qed.
Theorem fixer_edges_in_order : forall P (ps : list P) fs, StronglySorted before (edges (fold_left add_face fs (Poly ps [] []))) /\ NoDup (edges (fold_left add_face fs (Poly ps [] []))).
Proof.
  intros P ps fs. assert (G : StronglySorted before (edges (fold_left add_face fs (Poly ps [] [])))).
  { assert (H : forall p : poly P, StronglySorted before (edges p) -> StronglySorted before (edges (fold_left add_face fs p))); [|apply H; constructor].
    induction fs as [|f fs IH]; intros p H; cbn [fold_left]; [exact H|]. apply IH. cbn [add_face edges]. revert H. generalize (edges p). induction (sides f) as [|e l IHl]; intros es H; cbn [fold_left]; [exact H|]. apply IHl, ins_sorted. exact H. }
  split; [exact G|]. induction G as [|x l S IH F]; constructor; [|exact IH]. intro K. rewrite Forall_forall in F. specialize (F x K). unfold before in F. lia.
Qed.
Print Assumptions fixer_edges_in_order.
Example fixer_edges_in_order_nonvacuous : edges (fold_left add_face [[2; 0; 1]; [1; 0; 3]] (Poly [7; 8; 9; 5] [] [])) = [(0, 1); (0, 3); (1, 0); (1, 2); (2, 0); (3, 1)].
Proof. reflexivity. Qed.

(** * The output as it stands in the file *)
Example dumpto_literal : dumpto (Poly [(1, 2, 3); (12345675, 0, -5); (0, 0, 1)]%Z [[0; 1; 2]; [2; 1; 0]] []) = [3; 2; 0; 1; 2; 3; 12345700; 0; -5; 0; 0; 1; 3; 0; 1; 2; 3; 2; 1; 0]%Z.
Proof. vm_compute. reflexivity. Qed.
