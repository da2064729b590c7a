(** Lemmas on FixerModel. *)
From Coq Require Import List ZArith Bool Arith Lia Relations Permutation.
From Verif Require Import Arr FixerModel.
Import ListNotations.
Open Scope nat_scope.

Lemma pair_eq_spec a b : pair_eq a b = true <-> a = b.
Proof. destruct a as [a1 a2], b as [b1 b2]. unfold pair_eq. cbn [fst snd]. rewrite andb_true_iff, !Nat.eqb_eq. split; [intros [-> ->]; reflexivity|intro H; injection H; auto]. Qed.
Lemma ins_in e x l : In x (ins e l) <-> x = e \/ In x l.
Proof.
  induction l as [|y l IH]; cbn [ins In]; [intuition|]. destruct (pair_eq e y) eqn:E.
  - apply pair_eq_spec in E. subst y. cbn [In]. intuition.
  - destruct (pair_lt e y); cbn [In]; [intuition|]. rewrite IH. intuition.
Qed.
Lemma fold_ins_in es : forall l x, In x (fold_left (fun l e => ins e l) es l) <-> In x es \/ In x l.
Proof. induction es as [|e es IH]; intros l x; cbn [fold_left In]; [intuition|]. rewrite IH, ins_in. intuition. Qed.
Lemma add_faces P fs : forall p : poly P, points (fold_left add_face fs p) = points p /\ faces (fold_left add_face fs p) = faces p ++ fs /\
  forall e, In e (edges (fold_left add_face fs p)) <-> In e (edges p) \/ In e (flat_map sides fs).
Proof.
  induction fs as [|f fs IH]; intros p; cbn [fold_left flat_map].
  - split; [reflexivity|]. split; [symmetry; apply app_nil_r|]. intro e. cbn [In]. tauto.
  - destruct (IH (add_face p f)) as (H1 & H2 & H3). split; [exact H1|]. split.
    + rewrite H2. unfold add_face. cbn [faces]. rewrite <- app_assoc. reflexivity.
    + intro e. rewrite H3. unfold add_face. cbn [edges]. rewrite fold_ins_in, in_app_iff. tauto.
Qed.

(** ** The flood *)
Section Flood.
  Variables (conn : nat -> list nat) (n D : nat).
  Definition linked := clos_refl_trans nat (fun a b => In b (conn a)).
  Definition left_over (cur : nat -> bool) : nat := length (filter (fun v => negb (cur v)) (seq 0 n)).
  Lemma left_over_le cur cur' : (forall v, cur v = true -> cur' v = true) -> left_over cur' <= left_over cur.
  Proof.
    intro H. unfold left_over. induction (seq 0 n) as [|v l IH]; cbn [filter]; [lia|].
    specialize (H v). destruct (cur v), (cur' v); cbn [negb length]; try lia; specialize (H eq_refl); discriminate H.
  Qed.
  Lemma left_over_set cur v : v < n -> cur v = false -> S (left_over (set_true cur v)) = left_over cur.
  Proof.
    intros Hn Hv. unfold left_over. assert (G : forall l, NoDup l -> length (filter (fun w => negb (set_true cur v w)) l) + (if in_dec Nat.eq_dec v l then 1 else 0) = length (filter (fun w => negb (cur w)) l)).
    { induction l as [|w l IH]; intro ND; [reflexivity|]. inversion ND as [|? ? N1 N2]; subst. specialize (IH N2). cbn [filter]. unfold set_true at 1.
      destruct (Nat.eqb_spec w v) as [->|Hw]; cbn [orb negb].
      - rewrite Hv. cbn [negb length]. destruct (in_dec Nat.eq_dec v l) as [K|K]; [contradiction|]. destruct (in_dec Nat.eq_dec v (v :: l)) as [_|K2]; [lia|]. exfalso. apply K2. left. reflexivity.
      - destruct (in_dec Nat.eq_dec v l) as [K|K], (in_dec Nat.eq_dec v (w :: l)) as [K2|K2]; destruct (cur w); cbn [negb length]; try lia;
        exfalso; try (apply K2; right; exact K); (destruct K2 as [K2|K2]; [congruence|contradiction]). }
    rewrite <- (G (seq 0 n) (seq_NoDup n 0)). destruct (in_dec Nat.eq_dec v (seq 0 n)) as [_|K]; [lia|]. exfalso. apply K. apply in_seq. lia.
  Qed.
  Definition weight (cur : nat -> bool) (st : list nat) : nat :=
    length st + 2 * D * left_over cur + match st with v :: _ => if cur v then D else 0 | [] => 0 end.
  Lemma filter_le A (f : A -> bool) l : length (filter f l) <= length l.
  Proof. induction l as [|x l IH]; cbn [filter length]; [lia|]. destruct (f x); cbn [length]; lia. Qed.
  Lemma flood_total : (forall v w, In w (conn v) -> w < n) -> (forall v, length (conn v) < D) ->
    forall fuel cur added st, Forall (fun v => v < n) st -> weight cur st <= fuel -> exists r, flood conn fuel cur added st = Some r.
  Proof.
    intros CN CD. induction fuel as [|k IH]; intros cur added st F W; destruct st as [|v r]; cbn [flood]; try (eexists; reflexivity).
    - unfold weight in W. cbn [length] in W. lia.
    - apply Forall_cons_iff in F. destruct F as [Hv F]. apply IH.
      + apply Forall_app. split; [|exact F]. apply Forall_rev. apply Forall_forall. intros w Hw. apply filter_In in Hw. destruct Hw as [Hw _]. exact (CN v w Hw).
      + set (new := filter (fun p => negb (set_true cur v p)) (conn v)). assert (L := filter_le _ (fun p => negb (set_true cur v p)) (conn v)). fold new in L. specialize (CD v).
        unfold weight in *. cbn [length] in W. rewrite app_length, rev_length. destruct (cur v) eqn:Ec.
        * assert (LO := left_over_le cur (set_true cur v) (fun w Hw => ltac:(unfold set_true; rewrite Hw, orb_true_r; reflexivity))).
          assert (MM : 2 * D * left_over (set_true cur v) <= 2 * D * left_over cur) by (apply Nat.mul_le_mono_l; exact LO).
          destruct (rev new) as [|w l] eqn:En.
          -- apply (f_equal (@length nat)) in En. rewrite rev_length in En. cbn [length] in En. rewrite En. cbn [app]. destruct r as [|x r]; cbn [length] in *; [lia|]. destruct (set_true cur v x); lia.
          -- cbn [app]. assert (Hw : In w new) by (apply in_rev; rewrite En; left; reflexivity). unfold new in Hw. apply filter_In in Hw. destruct Hw as [_ Hw].
             destruct (set_true cur v w); [discriminate Hw|]. lia.
        * assert (LS := left_over_set cur v Hv Ec). assert (MM : 2 * D * left_over cur = 2 * D * left_over (set_true cur v) + 2 * D) by (rewrite <- LS; lia).
          destruct (rev new ++ r) as [|x l]; [lia|]. destruct (set_true cur v x); lia.
  Qed.
  Lemma flood_spec base : forall fuel cur added st cur' added', flood conn fuel cur added st = Some (cur', added') ->
    (forall u w, cur u = true -> In w (conn u) -> cur w = true \/ In w st) ->
    (forall u, added u = base u || cur u) ->
    (forall u w, cur' u = true -> In w (conn u) -> cur' w = true) /\
    (forall u, cur u = true \/ In u st -> cur' u = true) /\
    (forall u, cur' u = true -> cur u = true \/ exists s, In s st /\ linked s u) /\
    (forall u, added' u = base u || cur' u).
  Proof.
    induction fuel as [|k IH]; intros cur added st cur' added' H CL AD; destruct st as [|v r]; cbn [flood] in H.
    - injection H as <- <-. split; [intros u w Hu Hw; destruct (CL u w Hu Hw) as [K|[]]; exact K|]. split; [intros u [K|[]]; exact K|]. split; [auto|exact AD].
    - discriminate H.
    - injection H as <- <-. split; [intros u w Hu Hw; destruct (CL u w Hu Hw) as [K|[]]; exact K|]. split; [intros u [K|[]]; exact K|]. split; [auto|exact AD].
    - destruct (IH _ _ _ _ _ H) as (R1 & R2 & R3 & R4).
      + intros u w Hu Hw. destruct (set_true cur v w) eqn:E; [auto|]. right. unfold set_true in Hu. apply orb_true_iff in Hu. destruct Hu as [Hu|Hu].
        * apply Nat.eqb_eq in Hu. subst u. apply in_app_iff. left. apply -> in_rev. apply filter_In. split; [exact Hw|]. rewrite E. reflexivity.
        * destruct (CL u w Hu Hw) as [K|[K|K]].
          -- unfold set_true in E. rewrite K, orb_true_r in E. discriminate E.
          -- subst w. unfold set_true in E. rewrite Nat.eqb_refl in E. discriminate E.
          -- apply in_app_iff. right. exact K.
      + intros u. unfold set_true. rewrite AD. destruct (u =? v), (base u), (cur u); reflexivity.
      + split; [exact R1|]. split; [|split; [|exact R4]].
        * intros u Hu. apply R2. destruct (Nat.eqb_spec u v) as [->|Hn]; [left; unfold set_true; rewrite Nat.eqb_refl; reflexivity|].
          destruct Hu as [Hu|[Hu|Hu]]; [left; unfold set_true; rewrite Hu, orb_true_r; reflexivity|congruence|right; apply in_app_iff; auto].
        * intros u Hu. destruct (R3 u Hu) as [K|(s & Hs & L)].
          -- unfold set_true in K. apply orb_true_iff in K. destruct K as [K|K]; [|auto]. apply Nat.eqb_eq in K. subst u. right. exists v. split; [left; reflexivity|apply rt_refl].
          -- apply in_app_iff in Hs. destruct Hs as [Hs|Hs]; [|right; exists s; split; [right; exact Hs|exact L]].
             apply in_rev in Hs. apply filter_In in Hs. destruct Hs as [Hs _]. right. exists v. split; [left; reflexivity|]. eapply rt_trans; [apply rt_step; exact Hs|exact L].
  Qed.

  Hypothesis SYM : forall a b, In b (conn a) -> In a (conn b).
  Lemma linked_sym a b : linked a b -> linked b a.
  Proof. induction 1 as [a b H|a|a b c _ IH1 _ IH2]; [apply rt_step; auto|apply rt_refl|eapply rt_trans; eauto]. Qed.
  Lemma closed_linked (c : nat -> bool) : (forall u w, c u = true -> In w (conn u) -> c w = true) -> forall u w, linked u w -> c u = true -> c w = true.
  Proof. intros H u w L. induction L as [a b E|a|a b d _ IH1 _ IH2]; eauto. Qed.
  Lemma flood_one fuel added s cur added' : flood conn fuel (fun _ => false) added [s] = Some (cur, added') ->
    (forall u, cur u = true <-> linked s u) /\ (forall u, added' u = added u || cur u).
  Proof.
    intro H. destruct (flood_spec added _ _ _ _ _ _ H) as (R1 & R2 & R3 & R4); [intros u w K; discriminate K|intro u; rewrite orb_false_r; reflexivity|].
    split; [|exact R4]. intro u. split.
    - intro Hu. destruct (R3 u Hu) as [K|(x & [<-|[]] & L)]; [discriminate K|exact L].
    - intro L. apply (closed_linked cur R1 s u L). apply R2. right. left. reflexivity.
  Qed.
  Lemma components_spec : forall k fuel added cs, components conn n fuel k added = Some cs ->
    (forall u w, added u = true -> In w (conn u) -> added w = true) ->
    Forall (fun c => exists s, s < n /\ added s = false /\ forall u, c u = true <-> linked s u) cs /\
    (forall u, u < n -> added u = false -> exists i c, nth_error cs i = Some c /\ c u = true) /\
    ForallOrdPairs (fun c c' => forall u, c u = true -> c' u = true -> False) cs.
  Proof.
    assert (NF : forall added, find (fun v => negb (added v)) (seq 0 n) = None -> forall u, u < n -> added u = true).
    { intros added E u Hu. assert (Hi : In u (seq 0 n)) by (apply in_seq; lia). assert (K := find_none _ _ E u Hi). cbv beta in K. destruct (added u); [reflexivity|discriminate K]. }
    induction k as [|k IH]; intros fuel added cs H CL; cbn [components] in H; destruct (find _ _) as [s|] eqn:E.
    - discriminate H.
    - injection H as <-. split; [constructor|]. split; [|constructor]. intros u Hu K. rewrite (NF _ E u Hu) in K. discriminate K.
    - destruct (flood conn fuel (fun _ => false) added [s]) as [[cur added']|] eqn:EF; cbn [bind] in H; [|discriminate H].
      destruct (components conn n fuel k added') as [r|] eqn:EC; cbn [bind] in H; [|discriminate H]. injection H as <-.
      destruct (flood_one _ _ _ _ _ EF) as [C1 C2]. apply find_some in E. destruct E as [Es Eu]. apply in_seq in Es. apply negb_true_iff in Eu.
      assert (CC : forall u w, cur u = true -> In w (conn u) -> cur w = true). { intros u w Hu Hw. apply C1. apply C1 in Hu. eapply rt_trans; [exact Hu|apply rt_step; exact Hw]. }
      destruct (IH _ _ _ EC) as (S1 & S2 & S3).
      { intros u w Hu Hw. rewrite C2 in *. apply orb_true_iff in Hu. apply orb_true_iff. destruct Hu as [Hu|Hu]; [left; eauto|right; eauto]. }
      split; [|split].
      + constructor; [exists s; split; [lia|]; split; [exact Eu|exact C1]|]. eapply Forall_impl; [|exact S1]. intros c (s' & H1 & H2 & H3). exists s'. split; [exact H1|]. split; [|exact H3].
        rewrite C2 in H2. apply orb_false_iff in H2. apply H2.
      + intros u Hu Ha. destruct (cur u) eqn:Ec; [exists 0, cur; auto|]. destruct (S2 u Hu) as (i & c & Ei & Hc); [rewrite C2, Ha, Ec; reflexivity|]. exists (S i), c. auto.
      + constructor; [|exact S3]. rewrite Forall_forall in *. intros c Hc u K1 K2. destruct (S1 c Hc) as (s' & H1 & H2 & H3). apply H3 in K2. apply linked_sym in K2.
        assert (cur s' = true) by (apply (closed_linked cur CC u s' K2 K1)). rewrite C2 in H2. rewrite H, orb_true_r in H2. discriminate H2.
    - injection H as <-. split; [constructor|]. split; [|constructor]. intros u Hu K. rewrite (NF _ E u Hu) in K. discriminate K.
  Qed.
  Lemma components_total : (forall v w, In w (conn v) -> w < n) -> (forall v, length (conn v) < D) ->
    forall k fuel added, left_over added <= k -> 1 + 2 * D * n <= fuel -> exists cs, components conn n fuel k added = Some cs.
  Proof.
    intros CN CD. induction k as [|k IH]; intros fuel added L W; cbn [components]; destruct (find _ _) as [s|] eqn:E; try (eexists; reflexivity).
    - apply find_some in E. destruct E as [E1 E2]. exfalso. unfold left_over in L. assert (K : In s (filter (fun v => negb (added v)) (seq 0 n))) by (apply filter_In; auto).
      destruct (filter _ _); [destruct K|cbn [length] in L; lia].
    - apply find_some in E. destruct E as [E1 E2]. apply in_seq in E1. apply negb_true_iff in E2.
      destruct (flood_total CN CD fuel (fun _ => false) added [s]) as ([cur added'] & EF).
      + constructor; [lia|constructor].
      + unfold weight. cbn [length]. assert (K := filter_le _ (fun v : nat => negb false) (seq 0 n)). rewrite seq_length in K. fold (left_over (fun _ => false)) in K.
        assert (2 * D * left_over (fun _ => false) <= 2 * D * n) by (apply Nat.mul_le_mono_l; exact K). lia.
      + rewrite EF. cbn [bind]. destruct (flood_one _ _ _ _ _ EF) as [C1 C2].
        destruct (IH fuel added') as (r & Er); [|exact W|rewrite Er; cbn [bind]; eexists; reflexivity].
        assert (X := left_over_set added s ltac:(lia) E2).
        assert (Y : left_over added' <= left_over (set_true added s)).
        { apply left_over_le. intros u Hu. rewrite C2. unfold set_true in Hu. apply orb_true_iff in Hu. destruct Hu as [Hu|Hu]; [|rewrite Hu; reflexivity].
          apply Nat.eqb_eq in Hu. subst u. assert (cur s = true) by (apply C1; apply rt_refl). rewrite H, orb_true_r. reflexivity. }
        lia.
  Qed.
End Flood.

(** ** Numbering *)
Lemma cg_later cs v : Forall (fun c : nat -> bool => c v = false) cs -> forall i d, cg_map cs i v d = d /\ pid_map cs v d = d.
Proof. induction 1 as [|c cs H _ IH]; intros i d; cbn [cg_map pid_map]; [auto|]. rewrite H. destruct (IH (S i) d). auto. Qed.
Lemma cg_spec cs : ForallOrdPairs (fun c c' : nat -> bool => forall u, c u = true -> c' u = true -> False) cs -> forall i c v, nth_error cs i = Some c -> c v = true ->
  forall j d, cg_map cs j v d = j + i /\ forall d', pid_map cs v d' = length (filter c (seq 0 v)).
Proof.
  induction 1 as [|c0 cs F _ IH]; intros i c v E Hc j d; [destruct i; discriminate E|]. destruct i as [|i]; cbn [nth_error] in E.
  - injection E as <-. cbn [cg_map pid_map]. rewrite Hc.
    assert (L : Forall (fun c : nat -> bool => c v = false) cs).
    { eapply Forall_impl; [|exact F]. intros c' H. cbv beta in H. destruct (c' v) eqn:K; [|reflexivity]. exfalso. exact (H v Hc K). }
    split; [rewrite (proj1 (cg_later cs v L (S j) j)); lia|]. intros _. apply (proj2 (cg_later cs v L 0 _)).
  - cbn [cg_map pid_map]. destruct (IH i c v E Hc (S j) (if c0 v then j else d)) as [H1 H2]. split; [rewrite H1; lia|]. intro d'. apply H2.
Qed.
Lemma rank_spec (c : nat -> bool) n v : v < n -> c v = true -> nth_error (filter c (seq 0 n)) (length (filter c (seq 0 v))) = Some v.
Proof.
  intros Hn Hc. replace n with (v + S (n - v - 1)) by lia. rewrite seq_app, filter_app. rewrite nth_error_app2 by lia. rewrite Nat.sub_diag. cbn [seq filter Nat.add]. rewrite Hc. reflexivity.
Qed.
Lemma nth_flat P (ps : list P) l : Forall (fun v => v < length ps) l -> forall k,
  nth_error (flat_map (fun v => match nth_error ps v with Some x => [x] | None => [] end) l) k = match nth_error l k with Some v => nth_error ps v | None => None end.
Proof.
  induction 1 as [|v l H _ IH]; intro k; cbn [flat_map]; [destruct k; reflexivity|].
  destruct (nth_error ps v) as [x|] eqn:E; [|apply nth_error_None in E; lia]. destruct k as [|k]; cbn [app nth_error]; [auto|apply IH].
Qed.

(** ** Faces and sides *)
Lemma sides_in f a b : In (a, b) (sides f) -> In a f /\ In b f.
Proof.
  unfold sides. intro H. split; [exact (in_combine_l _ _ _ _ H)|]. apply in_combine_r in H. apply in_app_iff in H.
  destruct f as [|x f]; cbn [tl firstn] in H; [destruct H as [[]|[]]|]. destruct H as [H|[<-|[]]]; [right; exact H|left; reflexivity].
Qed.
Lemma connections_in fs v w : In w (connections fs v) <-> In (v, w) (flat_map sides fs) \/ In (w, v) (flat_map sides fs).
Proof.
  unfold connections. rewrite in_flat_map. split.
  - intros ([a b] & H & K). cbn [fst snd] in K. apply in_app_iff in K. destruct K as [K|K].
    + destruct (Nat.eqb_spec a v) as [->|]; [|destruct K]. destruct K as [<-|[]]. auto.
    + destruct (Nat.eqb_spec b v) as [->|]; [|destruct K]. destruct K as [<-|[]]. auto.
  - intros [H|H]; [exists (v, w)|exists (w, v)]; (split; [exact H|]); cbn [fst snd]; apply in_app_iff; rewrite Nat.eqb_refl; [left|right]; left; reflexivity.
Qed.
(** All vertices of a face are linked along its sides. *)
Lemma face_linked fs f a b : In f fs -> In a f -> In b f -> linked (connections fs) a b.
Proof.
  intros Hf Ha Hb. destruct f as [|x f]; [destruct Ha|].
  assert (S : forall e, In e (sides (x :: f)) -> In e (flat_map sides fs)) by (intros e He; apply in_flat_map; exists (x :: f); auto).
  assert (G : forall c, In c (x :: f) -> linked (connections fs) x c).
  { assert (K : forall l y r, (forall e, In e (combine (y :: l) (l ++ r)) -> In e (flat_map sides fs)) -> forall c, In c (y :: l) -> linked (connections fs) y c).
    { induction l as [|z l IH]; intros y r HS c Hc; [destruct Hc as [<-|[]]; apply rt_refl|]. destruct Hc as [<-|Hc]; [apply rt_refl|].
      eapply rt_trans; [apply rt_step; apply connections_in; left; apply HS; left; reflexivity|]. apply (IH z r); [|exact Hc]. intros e He. apply HS. right. exact He. }
    apply (K f x [x]). exact S. }
  eapply rt_trans; [apply linked_sym; [|apply G; exact Ha]|apply G; exact Hb].
  intros p q Hp. apply connections_in. apply connections_in in Hp. tauto.
Qed.
Lemma conn_length fs v : length (connections fs v) < 2 * length (flat_map sides fs) + 1.
Proof.
  unfold connections. induction (flat_map sides fs) as [|e l IH]; cbn [flat_map length]; [lia|]. rewrite !app_length.
  destruct (fst e =? v), (snd e =? v); cbn [length]; lia.
Qed.

(** ** The boundary *)
Lemma has_in e es : has e es = true <-> In e es.
Proof.
  unfold has. rewrite existsb_exists. split.
  - intros (x & H & K). apply pair_eq_spec in K. subst. exact H.
  - intro H. exists e. split; [exact H|]. apply pair_eq_spec. reflexivity.
Qed.
Lemma single_in es a b : In (a, b) (single_edges es) <-> In (a, b) es /\ ~ In (b, a) es.
Proof.
  unfold single_edges. rewrite filter_In. cbn [fst snd]. rewrite negb_true_iff. rewrite <- (has_in (b, a) es). destruct (has (b, a) es); split; intros [H K]; split; auto; try congruence. 
Qed.
Lemma ins_nat_in v x l : In x (ins_nat v l) <-> x = v \/ In x l.
Proof.
  induction l as [|y l IH]; cbn [ins_nat In]; [intuition|]. destruct (Nat.eqb_spec v y) as [->|N]; [cbn [In]; intuition|].
  destruct (v <? y); cbn [In]; [intuition|]. rewrite IH. intuition.
Qed.
Lemma boundary_in ss x : In x (boundary ss) <-> exists e, In e ss /\ (fst e = x \/ snd e = x).
Proof.
  unfold boundary. assert (G : forall l, In x (fold_left (fun l e => ins_nat (snd e) (ins_nat (fst e) l)) ss l) <-> In x l \/ exists e, In e ss /\ (fst e = x \/ snd e = x)).
  { induction ss as [|e ss IH]; intro l; cbn [fold_left].
    - split; [auto|]. intros [H|(e & [] & _)]. exact H.
    - rewrite IH, !ins_nat_in. split.
      + intros [[->|[->|H]]|(e' & H & K)]; [right; exists e; split; [left; reflexivity|auto]|right; exists e; split; [left; reflexivity|auto]|auto|right; exists e'; split; [right; exact H|exact K]].
      + intros [H|(e' & [<-|H] & K)]; [auto|destruct K as [<-|<-]; auto|right; exists e'; auto]. }
  rewrite G. cbn [In]. tauto.
Qed.
Lemma connect_in ss v w : connect ss v = Some w -> In (w, v) ss.
Proof.
  unfold connect. destruct (find _ _) as [[a b]|] eqn:E; cbn [option_map]; [|intro H; discriminate H]. intro H. injection H as <-. apply find_some in E. cbn [fst snd] in *.
  destruct E as [E1 E2]. apply Nat.eqb_eq in E2. subst b. apply in_rev. exact E1.
Qed.
Lemma connect_some ss v w : In (w, v) ss -> (forall w', In (w', v) ss -> w' = w) -> connect ss v = Some w.
Proof.
  intros H U. destruct (connect ss v) as [w'|] eqn:E; [f_equal; apply U; exact (connect_in _ _ _ E)|]. exfalso. unfold connect in E.
  destruct (find _ _) as [e|] eqn:F; [discriminate E|]. apply in_rev in H. assert (K := find_none _ _ F (w, v) H). cbn [snd] in K. rewrite Nat.eqb_refl in K. discriminate K.
Qed.

(** ** Walking along a hole *)
Lemma nodup_app_r A (a b : list A) : NoDup (a ++ b) -> NoDup b.
Proof. induction a as [|x a IH]; cbn [app]; [auto|]. intro H. inversion H; auto. Qed.
Section Holes.
  Variables (conn : nat -> option nat) (keys : list nat).
  Hypothesis TOT : forall v, In v keys -> exists w, conn v = Some w /\ In w keys.
  Hypothesis INJ : forall u v w, In u keys -> In v keys -> conn u = Some w -> conn v = Some w -> u = v.
  (** A chain along [conn]. *)
  Fixpoint chain (f : list nat) : Prop :=
    match f with x :: (y :: _) as r => conn x = Some y /\ chain r | _ => True end.
  Lemma chain_snoc f x y : chain (f ++ [x]) -> conn x = Some y -> chain (f ++ [x] ++ [y]).
  Proof.
    revert x y. induction f as [|a f IH]; intros x y C E; cbn [app chain] in *; [auto|].
    destruct f as [|b f]; cbn [app chain] in *; [tauto|]. destruct C as [C1 C2]. split; [exact C1|]. apply (IH x y C2 E).
  Qed.
  Lemma chain_split f1 : forall x y f2, chain (f1 ++ x :: y :: f2) -> conn x = Some y.
  Proof.
    induction f1 as [|a f1 IH]; intros x y f2 C; cbn [app chain] in C; [tauto|]. destruct f1 as [|b f1]; cbn [app chain] in *; [tauto|]. apply (IH x y f2). tauto.
  Qed.
  Definition closed_under (S : nat -> bool) : Prop := forall v w, In v keys -> conn v = Some w -> (S v = true <-> S w = true).
  Lemma trace_spec : forall fuel S assigned f v, 
    closed_under S -> (forall u, assigned u = true <-> S u = true \/ In u f) ->
    chain (f ++ [v]) -> NoDup (f ++ [v]) -> Forall (fun u => In u keys /\ S u = false) (f ++ [v]) ->
    length keys < fuel + length (f ++ [v]) ->
    exists f' assigned', trace conn fuel assigned f v = Some (f', true, assigned') /\ f' <> [] /\ hd 0 f' = hd 0 (f ++ [v]) /\
      chain f' /\ NoDup f' /\ Forall (fun u => In u keys /\ S u = false) f' /\
      (exists l x, f' = l ++ [x] /\ conn x = Some (hd 0 f')) /\
      (forall u, assigned' u = true <-> S u = true \/ In u f') /\ closed_under assigned'.
  Proof.
    induction fuel as [|k IH]; intros S assigned f v CS AS CH ND FA FU.
    - exfalso. assert (L : length (f ++ [v]) <= length keys). { apply NoDup_incl_length; [exact ND|]. intros u Hu. rewrite Forall_forall in FA. apply FA. exact Hu. } lia.
    - cbn [trace]. assert (Hv : In v keys /\ S v = false) by (rewrite Forall_forall in FA; apply FA; apply in_app_iff; right; left; reflexivity). destruct Hv as [Hv Sv].
      destruct (TOT v Hv) as (w & Ew & Hw). rewrite Ew.
      assert (AS' : forall u, set_true assigned v u = true <-> S u = true \/ In u (f ++ [v])).
      { intro u. unfold set_true. rewrite orb_true_iff, Nat.eqb_eq, AS, in_app_iff. cbn [In]. intuition. }
      assert (Sw : S w = false). { destruct (S w) eqn:E; [|reflexivity]. apply (CS v w Hv Ew) in E. congruence. }
      destruct (set_true assigned v w) eqn:EA.
      + assert (Hin : In w (f ++ [v])). { apply AS' in EA. destruct EA as [K|K]; [congruence|exact K]. }
        assert (Hh : w = hd 0 (f ++ [v])).
        { apply in_split in Hin. destruct Hin as (l1 & l2 & E). destruct l1 as [|a l1]; [rewrite E; reflexivity|]. exfalso.
          assert (exists l x, a :: l1 = l ++ [x]) as (l & x & El) by (destruct (exists_last (l := a :: l1)) as (l & x & El); [discriminate|exists l, x; exact El]).
          rewrite El, <- app_assoc in E. cbn [app] in E. rewrite E in CH. assert (Ex := chain_split _ _ _ _ CH).
          assert (Hx : In x (f ++ [v])) by (rewrite E; apply in_app_iff; right; left; reflexivity).
          assert (x = v). { apply (INJ x v w); [rewrite Forall_forall in FA; apply FA; exact Hx|exact Hv|exact Ex|exact Ew]. } subst x.
          (* v is last but also before w *)
          assert (LV : exists l3, w :: l2 = l3 ++ [v]).
          { destruct (exists_last (l := w :: l2)) as (l3 & y & E3); [discriminate|]. exists l3. rewrite E3. f_equal.
            change (v :: w :: l2) with ([v] ++ (w :: l2)) in E. rewrite E3, !app_assoc in E. apply app_inj_tail in E. destruct E as [_ E]. rewrite E. reflexivity. }
          destruct LV as (l3 & E3). change (v :: w :: l2) with ([v] ++ (w :: l2)) in E. rewrite E3 in E. rewrite E in ND. apply nodup_app_r in ND. cbn [app] in ND. inversion ND as [|? ? N _]. apply N. apply in_app_iff. right. left. reflexivity. }
        exists (f ++ [v]), (set_true assigned v). split; [rewrite Hh, Nat.eqb_refl; reflexivity|]. split; [destruct f; discriminate|]. split; [reflexivity|]. split; [exact CH|]. split; [exact ND|]. split; [exact FA|].
        split; [exists f, v; split; [reflexivity|rewrite <- Hh; exact Ew]|]. split; [exact AS'|].
        intros a b Ha Eab. rewrite !AS'. rewrite (CS a b Ha Eab). split; (intros [K|K]; [auto|right]).
        * apply in_split in K. destruct K as (l1 & l2 & E). destruct l2 as [|y l2].
          -- apply app_inj_tail in E. destruct E as [_ E]. subst a. assert (b = w) by congruence. subst b. exact Hin.
          -- rewrite E in CH. assert (Ey := chain_split _ _ _ _ CH). assert (y = b) by congruence. subst y. rewrite E. apply in_app_iff. right. right. left. reflexivity.
        * apply in_split in K. destruct K as (l1 & l2 & E). destruct l1 as [|x l1].
          -- cbn [app] in E. assert (b = w) by (rewrite Hh, E; reflexivity). subst b. assert (a = v) by (apply (INJ a v w Ha Hv Eab Ew)). subst a. apply in_app_iff. right. left. reflexivity.
          -- destruct (exists_last (l := x :: l1)) as (l & y & El); [discriminate|]. rewrite El, <- app_assoc in E. cbn [app] in E. rewrite E in CH. assert (Ey := chain_split _ _ _ _ CH).
             assert (Hy : In y (f ++ [v])) by (rewrite E; apply in_app_iff; right; left; reflexivity).
             assert (a = y). { apply (INJ a y b Ha); [rewrite Forall_forall in FA; apply FA; exact Hy|exact Eab|exact Ey]. } subst a. exact Hy.
      + assert (Nw : ~ In w (f ++ [v])). { intro K. assert (set_true assigned v w = true) by (apply AS'; auto). congruence. }
        destruct (IH S (set_true assigned v) (f ++ [v]) w CS AS') as (f' & a' & R1 & R2 & R3 & R4 & R5 & R6 & R7 & R8 & R9).
        * rewrite <- app_assoc. apply chain_snoc; [exact CH|exact Ew].
        * apply (Permutation_NoDup (l := w :: f ++ [v])); [apply Permutation_cons_append|]. constructor; assumption.
        * apply Forall_app. split; [exact FA|]. constructor; [auto|constructor].
        * rewrite !app_length in *. cbn [length] in *. lia.
        * exists f', a'. split; [exact R1|]. split; [exact R2|]. split; [rewrite R3; destruct f; reflexivity|]. auto 10.
  Qed.

  (** A loop along [conn]. *)
  Definition loop (f : list nat) : Prop :=
    f <> [] /\ NoDup f /\ (forall a b, In (a, b) (sides f) <-> In a f /\ conn a = Some b).
  Lemma chain_sides f : forall x l, chain (f ++ [x]) -> (forall a b, In (a, b) (combine (f ++ [x]) (tl (f ++ [x]) ++ [l])) -> conn a = Some b \/ (a = x /\ b = l)) /\
    (forall a, In a (f ++ [x]) -> exists b, In (a, b) (combine (f ++ [x]) (tl (f ++ [x]) ++ [l]))).
  Proof.
    induction f as [|y f IH]; intros x l C.
    - cbn. split; [intros a b [K|[]]; injection K as <- <-; auto|]. intros a [<-|[]]. exists l. auto.
    - destruct (IH x l) as [H1 H2]; [cbn [app chain] in C; destruct (f ++ [x]); [exact I|tauto]|].
      cbn [app tl]. destruct (f ++ [x]) as [|z r] eqn:E; [destruct f; discriminate E|]. cbn [app combine]. cbn [app] in C. rewrite E in C. cbn [chain] in C. split.
      + intros a b [K|K]; [injection K as <- <-; left; tauto|]. apply H1. exact K.
      + intros a [<-|K]; [exists z; left; reflexivity|]. destruct (H2 a K) as (b & Hb). exists b. right. exact Hb.
  Qed.
  Lemma loop_of_chain f : f <> [] -> chain f -> NoDup f -> (exists l x, f = l ++ [x] /\ conn x = Some (hd 0 f)) -> loop f.
  Proof.
    intros NE C ND (l & x & E & Ex). split; [exact NE|]. split; [exact ND|]. intros a b.
    assert (S : sides f = combine (l ++ [x]) (tl (l ++ [x]) ++ [hd 0 f])). { unfold sides. rewrite E. destruct l; reflexivity. }
    rewrite S. rewrite E in C. destruct (chain_sides l x (hd 0 f) C) as [H1 H2]. rewrite E. rewrite E in H1, H2, Ex. split.
    - intro K. split; [exact (in_combine_l _ _ _ _ K)|]. destruct (H1 a b K) as [G|[-> ->]]; [exact G|exact Ex].
    - intros [Ha Eb]. destruct (H2 a Ha) as (b' & K). assert (b' = b) by (destruct (H1 a b' K) as [G|[-> ->]]; congruence). subst b'. exact K.
  Qed.
  Definition unassigned (S : nat -> bool) : nat := length (filter (fun v => negb (S v)) keys).
  Lemma fill_spec P : forall k assigned (p : poly P), closed_under assigned -> unassigned assigned <= k ->
    exists ls, fill conn keys (length keys) k assigned p = Some (fold_left add_face ls p) /\ Forall loop ls /\ NoDup (concat ls) /\
      (forall v, In v (concat ls) <-> In v keys /\ assigned v = false).
  Proof.
    induction k as [|k IH]; intros assigned p CU U; cbn [fill]; destruct (find _ keys) as [v|] eqn:E.
    - exfalso. apply find_some in E. destruct E as [E1 E2]. unfold unassigned in U. assert (K : In v (filter (fun v => negb (assigned v)) keys)) by (apply filter_In; auto).
      destruct (filter _ _); [destruct K|cbn [length] in U; lia].
    - exists []. split; [reflexivity|]. split; [constructor|]. split; [constructor|]. intro v. cbn [concat In]. split; [intros []|]. intros [Hv K]. assert (G := find_none _ _ E v Hv). cbv beta in G. rewrite K in G. discriminate G.
    - apply find_some in E. destruct E as [E1 E2]. apply negb_true_iff in E2.
      destruct (trace_spec (length keys) assigned assigned [] v CU) as (f & a' & R1 & R2 & R3 & R4 & R5 & R6 & R7 & R8 & R9).
      + intro u. cbn [In]. tauto.
      + exact I.
      + constructor; [intros []|constructor].
      + constructor; [auto|constructor].
      + cbn [app length]. lia.
      + rewrite R1. cbn [bind snd fst]. assert (Hf : In v f). { cbn [app hd] in R3. destruct f as [|x f]; [contradiction|]. cbn [hd] in R3. subst x. left. reflexivity. }
        destruct (IH a' (add_face p f) R9) as (ls & S1 & S2 & S3 & S4).
        * assert (K : unassigned a' < unassigned assigned).
          { unfold unassigned. clear IH U R1. assert (G : forall l, length (filter (fun v => negb (a' v)) l) <= length (filter (fun v => negb (assigned v)) l) /\ (In v l -> length (filter (fun v => negb (a' v)) l) < length (filter (fun v => negb (assigned v)) l))).
            { induction l as [|y l [IL IL2]]; cbn [filter]; [split; [lia|intros []]|].
              assert (M : assigned y = true -> a' y = true) by (intro K; apply R8; auto).
              split; [destruct (assigned y), (a' y); cbn [negb length]; try lia; specialize (M eq_refl); discriminate M|].
              intros [->|K]; [rewrite E2; assert (a' v = true) by (apply R8; auto); rewrite H; cbn [negb length]; lia|]. specialize (IL2 K).
              destruct (assigned y), (a' y); cbn [negb length]; try lia; specialize (M eq_refl); discriminate M. }
            apply G. exact E1. }
          lia.
        * exists (f :: ls). split; [exact S1|]. split; [constructor; [apply loop_of_chain; assumption|exact S2]|]. rewrite Forall_forall in R6. split.
          -- cbn [concat]. clear - R5 S3 S4 R8. induction f as [|x f IH]; cbn [app]; [exact S3|]. inversion R5 as [|? ? N1 N2]; subst.
             assert (ND : NoDup (f ++ concat ls)). { clear IH. assert (D : forall y, In y f -> ~ In y (concat ls)). { intros y Hy K. apply S4 in K. destruct K as [_ K]. assert (a' y = true) by (apply R8; right; right; exact Hy). congruence. }
               clear - N2 S3 D. induction f as [|y f IH]; cbn [app]; [exact S3|]. inversion N2; subst. constructor; [|apply IH; [assumption|intros z Hz; apply D; right; exact Hz]].
               intro K. apply in_app_iff in K. destruct K as [K|K]; [contradiction|]. exact (D y (or_introl eq_refl) K). }
             constructor; [|exact ND]. intro K. apply in_app_iff in K. destruct K as [K|K]; [contradiction|]. apply S4 in K. destruct K as [_ K]. assert (a' x = true) by (apply R8; right; left; reflexivity). congruence.
          -- intro u. cbn [concat]. rewrite in_app_iff, S4. split.
             ++ intros [K|[K1 K2]]; [exact (R6 u K)|]. split; [exact K1|]. destruct (assigned u) eqn:Eu; [|reflexivity]. assert (a' u = true) by (apply R8; auto). congruence.
             ++ intros [K1 K2]. destruct (a' u) eqn:Eu; [|auto]. apply R8 in Eu. destruct Eu as [Eu|Eu]; [congruence|auto].
    - exists []. split; [reflexivity|]. split; [constructor|]. split; [constructor|]. intro v. cbn [concat In]. split; [intros []|]. intros [Hv K]. assert (G := find_none _ _ E v Hv). cbv beta in G. rewrite K in G. discriminate G.
  Qed.
  Lemma combine_fst A (a b : list A) : length b = length a -> map fst (combine a b) = a.
  Proof. revert b. induction a as [|x a IH]; intros [|y b] H; cbn in *; try discriminate H; [reflexivity|]. rewrite IH; [reflexivity|lia]. Qed.
  Lemma combine_snd A (a b : list A) : length b = length a -> map snd (combine a b) = b.
  Proof. revert b. induction a as [|x a IH]; intros [|y b] H; cbn in *; try discriminate H; [reflexivity|]. rewrite IH; [reflexivity|lia]. Qed.
  Lemma rot_length (f : list nat) : length (tl f ++ firstn 1 f) = length f.
  Proof. destruct f as [|x f]; [reflexivity|]. cbn [tl firstn]. rewrite app_length. cbn [length]. lia. Qed.
  Lemma sides_fst f : map fst (sides f) = f.
  Proof. apply combine_fst, rot_length. Qed.
  Lemma sides_snd f : map snd (sides f) = tl f ++ firstn 1 f.
  Proof. apply combine_snd, rot_length. Qed.
  Lemma flat_sides_fst fs : map fst (flat_map sides fs) = concat fs.
  Proof. induction fs as [|f fs IH]; cbn [flat_map concat]; [reflexivity|]. rewrite map_app, sides_fst, IH. reflexivity. Qed.
  Lemma flat_sides_snd fs : Permutation (map snd (flat_map sides fs)) (concat fs).
  Proof.
    induction fs as [|f fs IH]; cbn [flat_map concat]; [constructor|]. rewrite map_app, sides_snd. apply Permutation_app; [|exact IH].
    destruct f as [|x f]; cbn [tl firstn app]; [constructor|]. apply Permutation_sym, Permutation_cons_append.
  Qed.
  Lemma loops_sides ls : Forall loop ls -> forall a b, In (a, b) (flat_map sides ls) <-> In a (concat ls) /\ conn a = Some b.
  Proof.
    intros F a b. rewrite in_flat_map. rewrite in_concat. rewrite Forall_forall in F. split.
    - intros (f & Hf & K). apply (F f Hf) in K. split; [exists f; tauto|tauto].
    - intros [(f & Hf & K) E]. exists f. split; [exact Hf|]. apply (F f Hf). auto.
  Qed.
End Holes.

(** ** Sides in and out of a vertex *)
Definition swap (e : nat * nat) : nat * nat := (snd e, fst e).
Section InOut.
  Variable L : list (nat * nat).
  Hypothesis ND : NoDup L.
  Hypothesis BAL : Permutation (map fst L) (map snd L).
  Definition outs v := filter (fun e => fst e =? v) L.
  Definition ins_ v := filter (fun e => snd e =? v) L.
  Lemma filter_map_len A (g : A -> nat) v l : length (filter (fun e => g e =? v) l) = count_occ Nat.eq_dec (map g l) v.
  Proof. induction l as [|x l IH]; cbn [filter map count_occ]; [reflexivity|]. destruct (Nat.eq_dec (g x) v) as [E|E]; [rewrite (proj2 (Nat.eqb_eq _ _) E); cbn [length]; lia|rewrite (proj2 (Nat.eqb_neq _ _) E); exact IH]. Qed.
  Lemma balance v : length (outs v) = length (ins_ v).
  Proof. unfold outs, ins_. rewrite !filter_map_len. apply Permutation_count_occ. exact BAL. Qed.
  Lemma filter_split A (f g : A -> bool) l : length (filter f l) = length (filter (fun x => f x && g x) l) + length (filter (fun x => f x && negb (g x)) l).
  Proof. induction l as [|x l IH]; cbn [filter]; [reflexivity|]. destruct (f x), (g x); cbn [andb negb length]; lia. Qed.
  Lemma swap_inj x y : swap x = swap y -> x = y.
  Proof. destruct x, y. unfold swap. cbn [fst snd]. intro H. injection H as -> ->. reflexivity. Qed.
  Lemma paired v : length (filter (fun e => (fst e =? v) && has (swap e) L) L) = length (filter (fun e => (snd e =? v) && has (swap e) L) L).
  Proof.
    assert (SS : forall e, swap (swap e) = e) by (intros []; reflexivity).
    apply Nat.le_antisymm.
    - rewrite <- (map_length swap). apply NoDup_incl_length.
      + apply FinFun.Injective_map_NoDup; [exact swap_inj|apply NoDup_filter; exact ND].
      + intros x Hx. apply in_map_iff in Hx. destruct Hx as (e & <- & He). apply filter_In in He. destruct He as [H1 H2]. apply andb_true_iff in H2. destruct H2 as [H2 H3].
        apply filter_In. rewrite SS, (proj2 (has_in e L) H1). apply has_in in H3. cbn [swap snd]. rewrite H2. auto.
    - rewrite <- (map_length swap (filter (fun e => (snd e =? v) && has (swap e) L) L)). apply NoDup_incl_length.
      + apply FinFun.Injective_map_NoDup; [exact swap_inj|apply NoDup_filter; exact ND].
      + intros x Hx. apply in_map_iff in Hx. destruct Hx as (e & <- & He). apply filter_In in He. destruct He as [H1 H2]. apply andb_true_iff in H2. destruct H2 as [H2 H3].
        apply filter_In. rewrite SS, (proj2 (has_in e L) H1). apply has_in in H3. cbn [swap fst]. rewrite H2. auto.
  Qed.
  Lemma single_balance v : length (filter (fun e => (fst e =? v) && negb (has (swap e) L)) L) = length (filter (fun e => (snd e =? v) && negb (has (swap e) L)) L).
  Proof.
    assert (B := balance v). unfold outs, ins_ in B. rewrite (filter_split _ (fun e => fst e =? v) (fun e => has (swap e) L)), (filter_split _ (fun e => snd e =? v) (fun e => has (swap e) L)), paired in B. lia.
  Qed.
  Definition single a b : Prop := In (a, b) L /\ ~ In (b, a) L.
  Lemma single_in_out v a b : In (a, b) (filter (fun e => (fst e =? v) && negb (has (swap e) L)) L) <-> a = v /\ single a b.
  Proof. rewrite filter_In. cbn [fst]. rewrite andb_true_iff, Nat.eqb_eq, negb_true_iff. unfold swap. cbn [fst snd]. unfold single. rewrite <- (has_in (b, a)). destruct (has (b, a) L); intuition congruence. Qed.
  Lemma single_in_in v a b : In (a, b) (filter (fun e => (snd e =? v) && negb (has (swap e) L)) L) <-> b = v /\ single a b.
  Proof. rewrite filter_In. cbn [snd]. rewrite andb_true_iff, Nat.eqb_eq, negb_true_iff. unfold swap. cbn [fst snd]. unfold single. rewrite <- (has_in (b, a)). destruct (has (b, a) L); intuition congruence. Qed.
  Hypothesis SIMPLE : forall v b b', single v b -> single v b' -> b = b'.
  Lemma at_most_one A (l : list A) : NoDup l -> (forall x y, In x l -> In y l -> x = y) -> length l <= 1.
  Proof. intros N H. destruct l as [|x [|y l]]; cbn [length]; try lia. assert (x = y) by (apply H; cbn; auto). subst y. inversion N as [|? ? K _]. exfalso. apply K. left. reflexivity. Qed.
  Lemma out_le v : length (filter (fun e => (fst e =? v) && negb (has (swap e) L)) L) <= 1.
  Proof.
    apply at_most_one; [apply NoDup_filter; exact ND|]. intros [a b] [a' b'] H H'. apply single_in_out in H. apply single_in_out in H'. destruct H as [-> H], H' as [-> H']. f_equal. exact (SIMPLE v b b' H H').
  Qed.
  Lemma in_unique v a a' : single a v -> single a' v -> a = a'.
  Proof.
    intros H H'. assert (B := single_balance v). assert (O := out_le v). rewrite B in O.
    assert (K : In (a, v) (filter (fun e => (snd e =? v) && negb (has (swap e) L)) L)) by (apply single_in_in; auto).
    assert (K' : In (a', v) (filter (fun e => (snd e =? v) && negb (has (swap e) L)) L)) by (apply single_in_in; auto).
    destruct (filter (fun e => (snd e =? v) && negb (has (swap e) L)) L) as [|x [|y l]]; cbn [length] in O; [destruct K| |lia]. destruct K as [K|[]], K' as [K'|[]]. congruence.
  Qed.
  Lemma out_of_in v a : single a v -> exists b, single v b.
  Proof.
    intro H. assert (B := single_balance v). assert (K : In (a, v) (filter (fun e => (snd e =? v) && negb (has (swap e) L)) L)) by (apply single_in_in; auto).
    destruct (filter (fun e => (fst e =? v) && negb (has (swap e) L)) L) as [|[x b] l] eqn:E; [cbn [length] in B; destruct (filter (fun e => (snd e =? v) && negb (has (swap e) L)) L); [destruct K|discriminate B]|].
    exists b. assert (K2 : In (x, b) ((x, b) :: l)) by (left; reflexivity). rewrite <- E in K2. apply single_in_out in K2. destruct K2 as [-> K2]. exact K2.
  Qed.
  Lemma in_of_out v b : single v b -> exists a, single a v.
  Proof.
    intro H. assert (B := single_balance v). assert (K : In (v, b) (filter (fun e => (fst e =? v) && negb (has (swap e) L)) L)) by (apply single_in_out; auto).
    destruct (filter (fun e => (snd e =? v) && negb (has (swap e) L)) L) as [|[a x] l] eqn:E; [cbn [length] in B; destruct (filter (fun e => (fst e =? v) && negb (has (swap e) L)) L); [destruct K|discriminate B]|].
    exists a. assert (K2 : In (a, x) ((a, x) :: l)) by (left; reflexivity). rewrite <- E in K2. apply single_in_in in K2. destruct K2 as [-> K2]. exact K2.
  Qed.
End InOut.

(** ** Filling *)
Theorem fill_holes_spec P (p : poly P) : (forall e, In e (edges p) <-> In e (flat_map sides (faces p))) -> NoDup (flat_map sides (faces p)) ->
  (forall v b b', single (flat_map sides (faces p)) v b -> single (flat_map sides (faces p)) v b' -> b = b') ->
  exists ls, fill_holes p = Some (fold_left add_face ls p) /\ Forall (fun f => f <> []) ls /\ NoDup (concat ls) /\
    (forall v, In v (concat ls) <-> exists b, single (flat_map sides (faces p)) v b) /\
    (forall a b, In (a, b) (flat_map sides ls) <-> single (flat_map sides (faces p)) b a).
Proof.
  set (L := flat_map sides (faces p)). intros HE ND SI.
  assert (BAL : Permutation (map fst L) (map snd L)) by (unfold L; rewrite flat_sides_fst; apply Permutation_sym, flat_sides_snd).
  assert (SS : forall a b, In (a, b) (single_edges (edges p)) <-> single L a b) by (intros a b; rewrite single_in, !HE; reflexivity).
  set (ss := single_edges (edges p)) in *. unfold fill_holes. fold ss.
  assert (BK : forall v, In v (boundary ss) <-> exists b, single L v b).
  { intro v. rewrite boundary_in. split.
    - intros ([a b] & H & K). cbn [fst snd] in K. apply SS in H. destruct K as [->| ->]; [exists b; exact H|exact (out_of_in L ND BAL v a H)].
    - intros (b & H). exists (v, b). split; [apply SS; exact H|auto]. }
  assert (CO : forall v w, connect ss v = Some w <-> single L w v).
  { intros v w. split; [intro H; apply SS; exact (connect_in _ _ _ H)|]. intro H. apply connect_some; [apply SS; exact H|]. intros w' H'. apply SS in H'. exact (in_unique L ND BAL SI v w' w H' H). }
  destruct (fill_spec (connect ss) (boundary ss)) with (P := P) (k := length (boundary ss)) (assigned := fun _ : nat => false) (p := p) as (ls & R1 & R2 & R3 & R4).
  - intros v Hv. apply BK in Hv. destruct Hv as (b & Hb). destruct (in_of_out L ND BAL v b Hb) as (w & Hw). exists w. split; [apply CO; exact Hw|]. apply BK. exists v. exact Hw.
  - intros u v w _ _ H1 H2. apply CO in H1. apply CO in H2. exact (SI w u v H1 H2).
  - intros v w _ _. tauto.
  - unfold unassigned. apply filter_le.
  - exists ls. assert (Q : ls = [] \/ ss <> []).
    { destruct ss as [|e r] eqn:Es; [left|right; discriminate]. destruct ls as [|f ls]; [reflexivity|]. exfalso. apply Forall_cons_iff in R2. destruct R2 as [(N & _) _]. destruct f as [|x f]; [contradiction|].
      destruct (proj1 (R4 x)) as [K _]; [left; reflexivity|]. cbn in K. exact K. }
    split; [destruct ss as [|e r]; [destruct Q as [->|Q]; [reflexivity|contradiction]|exact R1]|].
    split; [eapply Forall_impl; [|exact R2]; intros f (K & _); exact K|]. split; [exact R3|].
    assert (V : forall v, In v (concat ls) <-> exists b, single L v b) by (intro v; rewrite R4, BK; tauto). split; [exact V|].
    intros a b. rewrite (loops_sides (connect ss) ls R2), V, CO. split; [tauto|]. intro H. split; [|exact H]. exact (out_of_in L ND BAL a b H).
Qed.
