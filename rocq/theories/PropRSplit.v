(** How the R-tree of /repo/src/index/RTree.h chooses: the groups of a split node and the branch a
    new entry goes to. *)
From Coq Require Import QArith Qabs ZArith List Bool Arith Lia Lqa Permutation.
From Verif Require Import AabModel AabProofs RTreeModel RTreeProofs PropRTree.
Import ListNotations.
Open Scope nat_scope.

Section Spec.
  Context {D : Type}.
  Variable vol : Rect -> Q.
  Variable buf : list (Rect * item D).
  Notation n := (length buf).
  Definition box (i : nat) : Rect := nth i (map fst buf) [].
  (** What is wasted if [i] and [j] share a box. *)
  Definition waste (i j : nat) : Q := (vol (combine_rect (box i) (box j)) - vol (box i) - vol (box j))%Q.
  (** The box of a group, whose members are listed from the last to the first. *)
  Fixpoint group_box (G : list nat) : Rect :=
    match G with [] => [] | [k] => box k | k :: G' => combine_rect (box k) (group_box G') end.
  Definition growth (k : nat) (G : list nat) : Q := (vol (combine_rect (box k) (group_box G)) - vol (group_box G))%Q.
  (** How much rather [k] goes to the first group. *)
  Definition pull (k : nat) (G0 G1 : list nat) : Q := (growth k G1 - growth k G0)%Q.
  Definition free (k : nat) (G0 G1 : list nat) : Prop := k < n /\ ~ In k G0 /\ ~ In k G1.
  (** The quadratic split: the worst pair are the seeds; then always an entry that is drawn to one
      group most strongly. *)
  Inductive grown (least : nat) : list nat -> list nat -> Prop :=
  | g_seeds i j : i < j < n -> (forall a b, a < b < n -> (waste a b <= waste i j)%Q) -> grown least [i] [j]
  | g_first G0 G1 k : grown least G0 G1 -> length G0 < n - least -> length G1 < n - least -> free k G0 G1 ->
      (forall k', free k' G0 G1 -> (Qabs (pull k' G0 G1) <= Qabs (pull k G0 G1))%Q) -> (0 <= pull k G0 G1)%Q -> grown least (k :: G0) G1
  | g_second G0 G1 k : grown least G0 G1 -> length G0 < n - least -> length G1 < n - least -> free k G0 G1 ->
      (forall k', free k' G0 G1 -> (Qabs (pull k' G0 G1) <= Qabs (pull k G0 G1))%Q) -> (pull k G0 G1 < 0)%Q -> grown least G0 (k :: G1).
  (** Both groups together are all entries; once a group is as large as allowed, the other one gets
      the rest. *)
  Definition quadratic (least : nat) (G0 G1 : list nat) : Prop :=
    NoDup (G0 ++ G1) /\ (forall i, i < n <-> In i G0 \/ In i G1) /\ least <= length G0 /\ least <= length G1 /\
    exists H0 H1, grown least H0 H1 /\
      ((G0 = H0 /\ G1 = H1) \/ (length H0 = n - least /\ G0 = H0 /\ incl H1 G1) \/ (length H1 = n - least /\ G1 = H1 /\ incl H0 G0)).
  (** The entries of a group in the order of the node. *)
  Definition members (G : list nat) : list (Rect * item D) :=
    flat_map (fun i => if existsb (Nat.eqb i) G then match nth_error buf i with Some b => [b] | None => [] end else []) (seq 0 n).
End Spec.

Section Proofs.
  Context {D : Type}.
  Variable dim : nat.
  Variable vol : Rect -> Q.
  Variable buf : list (Rect * item D).
  Notation n := (length buf).
  Lemma box_rect_at i : rect_at buf i = box buf i.
  Proof. unfold rect_at, box. revert i. induction buf as [|b l IH]; intros [|i]; cbn [nth_error map nth]; auto. Qed.

  Definition pick2 {A} (x y : A) (g : bool) : A := if g then y else x.
  Definition st (G0 G1 : list nat) (pv : pvars) : Prop :=
    length (p_part pv) = n /\ NoDup (G0 ++ G1) /\
    (forall i g, nth_error (p_part pv) i = Some (Some g) <-> In i (pick2 G0 G1 g)) /\
    (forall g, p_count pv g = length (pick2 G0 G1 g)) /\
    (forall g, pick2 G0 G1 g <> [] -> p_cover pv g = group_box buf (pick2 G0 G1 g) /\ p_area pv g = vol (group_box buf (pick2 G0 G1 g))).

  Lemma st_free G0 G1 pv i : st G0 G1 pv -> (nth_error (p_part pv) i = Some None <-> free buf i G0 G1).
  Proof.
    intros (L & _ & P & _). unfold free. pose proof (P i false) as P0. pose proof (P i true) as P1. cbn [pick2] in P0, P1. split.
    - intro E. split; [rewrite <- L; apply nth_error_Some; congruence|]. rewrite <- P0, <- P1, E. split; discriminate.
    - intros (H & N0 & N1). destruct (nth_error (p_part pv) i) as [[[]|]|] eqn:E; [exfalso; apply N1, P1; reflexivity|exfalso; apply N0, P0; reflexivity|reflexivity|].
      apply nth_error_None in E. lia.
  Qed.

  Lemma nodup_mid (a : nat) l1 l2 : NoDup (l1 ++ a :: l2) <-> ~ In a (l1 ++ l2) /\ NoDup (l1 ++ l2).
  Proof.
    split; [intro H; split; [apply NoDup_remove_2; exact H|apply NoDup_remove_1 in H; exact H]|].
    intros [H1 H2]. apply (Permutation_NoDup (l := a :: l1 ++ l2)); [apply Permutation_middle|constructor; assumption].
  Qed.
  Lemma classify_st G0 G1 pv k (g : bool) : st G0 G1 pv -> nth_error (p_part pv) k = Some None ->
    st (if g then G0 else k :: G0) (if g then k :: G1 else G1) (Classify vol buf k g pv).
  Proof.
    intros S E. pose proof (proj1 (st_free G0 G1 pv k S) E) as (HK & N0 & N1). destruct S as (L & ND & P & C & V).
    assert (HL : k < length (p_part pv)) by (apply nth_error_Some; congruence).
    assert (PK : forall h, pick2 (if g then G0 else k :: G0) (if g then k :: G1 else G1) h = if eqb h g then k :: pick2 G0 G1 h else pick2 G0 G1 h) by (intros []; destruct g; reflexivity).
    split; [cbn [Classify p_part]; rewrite upd_nth_length; exact L|]. split.
    { destruct g; [apply nodup_mid|cbn [app]; constructor]; rewrite ?in_app_iff; tauto. }
    split; [|split].
    - intros i h. cbn [Classify p_part]. rewrite upd_nth_get by exact HL. rewrite PK. destruct (Nat.eqb_spec i k) as [EQ|NE].
      + subst i. destruct (eqb h g) eqn:HG; [apply eqb_prop in HG; subst h; split; [left; reflexivity|reflexivity]|].
        split; [intro X; injection X as ->; rewrite eqb_reflx in HG; discriminate HG|]. intro K. apply P in K. congruence.
      + rewrite P. destruct (eqb h g); cbn [In]; [|reflexivity]. intuition congruence.
    - intro h. rewrite PK. cbn [Classify p_count]. unfold upd_group. destruct (eqb h g) eqn:HG; [apply eqb_prop in HG; subst h; cbn [length]; rewrite C; reflexivity|apply C].
    - intro h. rewrite PK. cbn [Classify p_cover p_area]. unfold upd_group. destruct (eqb h g) eqn:HG; [|apply V]. intros _. apply eqb_prop in HG. subst h.
      assert (X : (if p_count pv g =? 0 then rect_at buf k else combine_rect (rect_at buf k) (p_cover pv g)) = group_box buf (k :: pick2 G0 G1 g)); [|rewrite X; auto].
      rewrite C, box_rect_at. destruct (pick2 G0 G1 g) as [|y G'] eqn:EG; [reflexivity|]. cbn [length Nat.eqb].
      destruct (V g) as [V1 _]; [rewrite EG; discriminate|]. rewrite V1, EG. reflexivity.
  Qed.

  (** The seeds. *)
  Lemma pairs_all k a b : a < b < k -> In (a, b) (pairs k).
  Proof. intro H. unfold pairs. apply in_flat_map. exists a. split; [apply in_seq; lia|]. apply in_map_iff. exists b. split; [reflexivity|apply in_seq; lia]. Qed.
  Lemma seed_max : forall l w s0 s1, let '(w', a, b) := fold_left (seed_step vol Qminus buf) l (w, s0, s1) in
    (w <= w')%Q /\ (forall x y, In (x, y) l -> (waste vol buf x y <= w')%Q) /\ ((w' = w /\ a = s0 /\ b = s1) \/ (In (a, b) l /\ w' = waste vol buf a b)).
  Proof.
    induction l as [|[x y] l IH]; intros w s0 s1; cbn [fold_left].
    - split; [apply Qle_refl|]. split; [intros ? ? []|left; auto].
    - unfold seed_step at 2. rewrite !box_rect_at. fold (waste vol buf x y). destruct (Qltb_spec w (waste vol buf x y)) as [HL|HL].
      + specialize (IH (waste vol buf x y) x y). destruct (fold_left _ l _) as [[w' a] b]. destruct IH as (H1 & H2 & H3). split; [apply Qle_trans with (waste vol buf x y); [apply Qlt_le_weak|]; assumption|].
        split; [intros x' y' [EQ|HI]; [injection EQ as <- <-; exact H1|apply H2; exact HI]|]. right. destruct H3 as [(-> & -> & ->)|[H3 H4]]; [split; [left; reflexivity|reflexivity]|split; [right; exact H3|exact H4]].
      + specialize (IH w s0 s1). destruct (fold_left _ l _) as [[w' a] b]. destruct IH as (H1 & H2 & H3). split; [exact H1|]. split; [intros x' y' [EQ|HI]; [injection EQ as <- <-; lra|apply H2; exact HI]|].
        destruct H3 as [H3|[H3 H4]]; [left; exact H3|right; split; [right; exact H3|exact H4]].
  Qed.
  Lemma seeds_st r least : good_sub dim vol Qminus -> Forall (fun b : Rect * item D => length (fst b) = dim) buf -> 2 <= n -> cover_list buf = Some r ->
    exists i j, grown vol buf least [i] [j] /\ st [i] [j] (PickSeeds vol Qminus buf (vol r) (InitParVars n)).
  Proof.
    intros G FK L C. unfold PickSeeds. pose proof (seed_max (pairs n) (- vol r - 1) 0 0) as H.
    destruct (pairs_first n L) as (l & E).
    assert (F : (- vol r - 1 < waste vol buf 0 1)%Q).
    { destruct (nth_error buf 0) as [a|] eqn:E0; [|apply nth_error_None in E0; lia]. destruct (nth_error buf 1) as [b|] eqn:E1; [|apply nth_error_None in E1; lia].
      pose proof (G (fst a) (fst b) r (proj1 (Forall_forall _ _) FK a (nth_error_In _ _ E0)) (proj1 (Forall_forall _ _) FK b (nth_error_In _ _ E1)) (cover_length dim buf FK r C) (cover_absorb buf r 0 1 a b C E0 E1)) as X.
      unfold waste. rewrite <- !box_rect_at. unfold rect_at. rewrite E0, E1. destruct (Qltb_spec (- vol r - 1) (vol (combine_rect (fst a) (fst b)) - vol (fst a) - vol (fst b))) as [Y|Y]; [exact Y|discriminate X]. }
    destruct (fold_left _ (pairs n) _) as [[w i] j]. destruct H as (_ & H2 & H3).
    assert (IJ : In (i, j) (pairs n) /\ w = waste vol buf i j).
    { destruct H3 as [(-> & _)|H3]; [|exact H3]. exfalso. specialize (H2 0 1). assert (K : In (0, 1) (pairs n)) by (apply pairs_all; lia). specialize (H2 K). lra. }
    destruct IJ as [IJ W]. pose proof (pairs_lt _ _ _ IJ) as LT. exists i, j. split.
    - apply g_seeds; [exact LT|]. intros a b HA. rewrite <- W. apply H2, pairs_all. exact HA.
    - assert (S0 : st [] [] (InitParVars n)).
      { split; [apply repeat_length|]. split; [constructor|]. split; [|split; [intros []; reflexivity|intros [] K; contradiction]].
        intros k g. cbn [InitParVars p_part]. split; [|intro K; destruct g; destruct K]. intro K. apply nth_error_In, repeat_spec in K. discriminate K. }
      assert (N0 : nth_error (p_part (InitParVars n)) i = Some None) by (apply (st_free _ _ _ _ S0); split; [lia|split; intros []]).
      pose proof (classify_st [] [] _ i false S0 N0) as S1. cbn iota in S1.
      assert (N1 : nth_error (p_part (Classify vol buf i false (InitParVars n))) j = Some None). { apply (st_free _ _ _ _ S1). split; [lia|]. split; [intros [K|[]]; lia|intros []]. }
      exact (classify_st [i] [] _ j true S1 N1).
  Qed.

  (** One pass over the entries. *)
  Definition scanned (pv : pvars) (G0 G1 : list nat) (l : list nat) (c0 : nat) (b0 : bool) (s : Q * nat * bool) : Prop :=
    let '(d, c, b) := s in
    (s = ((-1)%Q, c0, b0) /\ forall i, In i l -> ~ free buf i G0 G1) \/
    (free buf c G0 G1 /\ (d == Qabs (pull vol buf c G0 G1))%Q /\ (if b then (pull vol buf c G0 G1 < 0)%Q else (0 <= pull vol buf c G0 G1)%Q) /\
     forall i, In i l -> free buf i G0 G1 -> (Qabs (pull vol buf i G0 G1) <= d)%Q).
  Lemma scan_step_spec pv G0 G1 l c0 b0 s i : st G0 G1 pv -> G0 <> [] -> G1 <> [] -> scanned pv G0 G1 l c0 b0 s -> scanned pv G0 G1 (l ++ [i]) c0 b0 (scan_step vol Qminus buf pv s i).
  Proof.
    intros S NE0 NE1 H. destruct s as [[d c] b]. unfold scan_step. destruct (nth_error (p_part pv) i) as [o|] eqn:E.
    2:{ assert (NF : ~ free buf i G0 G1) by (rewrite <- (st_free _ _ _ _ S), E; discriminate). destruct H as [(H1 & H2)|(H1 & H2 & H3 & H4)]; [left|right].
        - split; [exact H1|]. intros k Hk. apply in_app_iff in Hk. destruct Hk as [Hk|[<-|[]]]; [apply H2; exact Hk|exact NF].
        - split; [exact H1|]. split; [exact H2|]. split; [exact H3|]. intros k Hk Fk. apply in_app_iff in Hk. destruct Hk as [Hk|[<-|[]]]; [apply H4; assumption|contradiction]. }
    destruct o as [g|].
    { assert (NF : ~ free buf i G0 G1) by (rewrite <- (st_free _ _ _ _ S), E; discriminate). destruct H as [(H1 & H2)|(H1 & H2 & H3 & H4)]; [left|right].
      - split; [exact H1|]. intros k Hk. apply in_app_iff in Hk. destruct Hk as [Hk|[<-|[]]]; [apply H2; exact Hk|exact NF].
      - split; [exact H1|]. split; [exact H2|]. split; [exact H3|]. intros k Hk Fk. apply in_app_iff in Hk. destruct Hk as [Hk|[<-|[]]]; [apply H4; assumption|contradiction]. }
    assert (FI : free buf i G0 G1) by (apply (st_free _ _ _ _ S); exact E).
    destruct S as (_ & _ & _ & _ & V). destruct (V false NE0) as [VC0 VA0]. destruct (V true NE1) as [VC1 VA1]. cbn [pick2] in *. rewrite VC0, VA0, VC1, VA1, !box_rect_at. cbv zeta.
    fold (growth vol buf i G0) (growth vol buf i G1). fold (pull vol buf i G0 G1). set (p := pull vol buf i G0 G1) in *.
    assert (Z : exists g dd, (if Qle_bool 0 p then (false, p) else (true, (- p)%Q)) = (g, dd) /\ (dd == Qabs p)%Q /\ (if g then (p < 0)%Q else (0 <= p)%Q)).
    { destruct (Qle_bool 0 p) eqn:EP; [apply Qle_bool_iff in EP; exists false, p; rewrite Qabs_pos by exact EP; split; [reflexivity|split; [reflexivity|exact EP]]|].
      assert (PN : (p < 0)%Q). { destruct (Qlt_le_dec p 0) as [X|X]; [exact X|]. apply Qle_bool_iff in X. congruence. }
      exists true, (- p)%Q. rewrite Qabs_neg by lra. split; [reflexivity|split; [reflexivity|exact PN]]. }
    destruct Z as (g & dd & -> & DD & GG). pose proof (Qabs_nonneg p) as NN.
    destruct (Qltb_spec d dd) as [LT|LT].
    - right. split; [exact FI|]. split; [exact DD|]. split; [exact GG|]. intros k Hk Fk. apply in_app_iff in Hk. destruct Hk as [Hk|[<-|[]]]; [|fold p; lra].
      destruct H as [(_ & H2)|(_ & _ & _ & H4)]; [exfalso; exact (H2 k Hk Fk)|specialize (H4 k Hk Fk); lra].
    - destruct H as [(H1 & H2)|(H1 & H2 & H3 & H4)]; [exfalso; injection H1 as -> _ _; lra|].
      assert (AL : forall k, In k (l ++ [i]) -> free buf k G0 G1 -> (Qabs (pull vol buf k G0 G1) <= d)%Q).
      { intros k Hk Fk. apply in_app_iff in Hk. destruct Hk as [Hk|[<-|[]]]; [apply H4; assumption|fold p; lra]. }
      destruct (Qeq_bool dd d && _) eqn:EB.
      + apply andb_true_iff in EB. destruct EB as [EB _]. apply Qeq_bool_iff in EB. right. split; [exact FI|]. split; [fold p; lra|]. split; [exact GG|exact AL].
      + right. auto.
  Qed.
  Lemma scan_spec pv G0 G1 c0 b0 : st G0 G1 pv -> G0 <> [] -> G1 <> [] -> (exists i, free buf i G0 G1) ->
    let '(_, c, b) := fold_left (scan_step vol Qminus buf pv) (seq 0 n) ((-1)%Q, c0, b0) in
    free buf c G0 G1 /\ (if b then (pull vol buf c G0 G1 < 0)%Q else (0 <= pull vol buf c G0 G1)%Q) /\
    forall i, free buf i G0 G1 -> (Qabs (pull vol buf i G0 G1) <= Qabs (pull vol buf c G0 G1))%Q.
  Proof.
    intros S N0 N1 (i & FI).
    assert (G : forall l done s, scanned pv G0 G1 done c0 b0 s -> scanned pv G0 G1 (done ++ l) c0 b0 (fold_left (scan_step vol Qminus buf pv) l s)).
    { induction l as [|x l IH]; intros done s H; cbn [fold_left]; [rewrite app_nil_r; exact H|]. replace (done ++ x :: l) with ((done ++ [x]) ++ l) by (rewrite <- app_assoc; reflexivity). apply IH, scan_step_spec; assumption. }
    specialize (G (seq 0 n) [] ((-1)%Q, c0, b0)). cbn [app] in G. destruct (fold_left _ (seq 0 n) _) as [[d c] b].
    assert (X : scanned pv G0 G1 (seq 0 n) c0 b0 (d, c, b)) by (apply G; left; split; [reflexivity|intros k []]).
    destruct X as [(_ & X)|(X1 & X2 & X3 & X4)]; [exfalso; apply (X i); [apply in_seq; destruct FI; lia|exact FI]|].
    split; [exact X1|]. split; [exact X3|]. intros k Fk. rewrite <- X2. apply X4; [apply in_seq; destruct Fk; lia|exact Fk].
  Qed.

  Lemma st_counts G0 G1 pv : st G0 G1 pv -> incl (G0 ++ G1) (seq 0 n) /\ length G0 + length G1 <= n /\ (length G0 + length G1 < n -> exists i, free buf i G0 G1) /\
    (n <= length G0 + length G1 -> forall i, i < n -> In i G0 \/ In i G1).
  Proof.
    intros (L & ND & P & _).
    assert (IN : incl (G0 ++ G1) (seq 0 n)).
    { intros i Hi. apply in_app_iff in Hi. apply in_seq. split; [lia|]. cbn [Nat.add]. rewrite <- L. apply nth_error_Some. destruct Hi as [Hi|Hi]; [rewrite (proj2 (P i false) Hi)|rewrite (proj2 (P i true) Hi)]; discriminate. }
    pose proof (NoDup_incl_length ND IN) as LE. rewrite app_length, seq_length in LE. split; [exact IN|]. split; [exact LE|]. split.
    - intro LT. destruct (existsb (fun i => negb (existsb (Nat.eqb i) (G0 ++ G1))) (seq 0 n)) eqn:E.
      + apply existsb_exists in E. destruct E as (i & Hi & E). exists i. apply negb_true_iff in E. apply in_seq in Hi.
        assert (N : ~ In i (G0 ++ G1)). { intro K. assert (X : existsb (Nat.eqb i) (G0 ++ G1) = true) by (apply existsb_exists; exists i; split; [exact K|apply Nat.eqb_refl]). congruence. }
        rewrite in_app_iff in N. split; [lia|tauto].
      + exfalso. assert (IN' : incl (seq 0 n) (G0 ++ G1)).
        { intros i Hi. destruct (in_dec Nat.eq_dec i (G0 ++ G1)) as [K|K]; [exact K|]. exfalso. assert (X : existsb (fun i => negb (existsb (Nat.eqb i) (G0 ++ G1))) (seq 0 n) = true); [|congruence].
          apply existsb_exists. exists i. split; [exact Hi|]. apply negb_true_iff. destruct (existsb (Nat.eqb i) (G0 ++ G1)) eqn:EE; [|reflexivity]. apply existsb_exists in EE. destruct EE as (j & Hj & EE). apply Nat.eqb_eq in EE. subst j. contradiction. }
        pose proof (NoDup_incl_length (seq_NoDup n 0) IN') as X. rewrite app_length, seq_length in X. lia.
    - intros GE i Hi. assert (IN' : incl (seq 0 n) (G0 ++ G1)). { apply NoDup_length_incl; [exact ND| |exact IN]. rewrite app_length, seq_length. lia. }
      apply in_app_iff. apply IN'. apply in_seq. lia.
  Qed.

  Lemma loop_spec least : forall fuel pv c b G0 G1, st G0 G1 pv -> grown vol buf least G0 G1 -> G0 <> [] -> G1 <> [] -> length G0 <= n - least -> length G1 <= n - least -> n <= fuel + length G0 + length G1 ->
    exists H0 H1, st H0 H1 (choose_loop vol Qminus fuel buf least pv c b) /\ grown vol buf least H0 H1 /\ H0 <> [] /\ H1 <> [] /\ length H0 <= n - least /\ length H1 <= n - least /\
      (length H0 + length H1 = n \/ length H0 = n - least \/ length H1 = n - least).
  Proof.
    induction fuel as [|fuel IH]; intros pv c b G0 G1 S GR N0 N1 L0 L1 F; cbn [choose_loop]; destruct (st_counts _ _ _ S) as (_ & LE & EX & _).
    - exists G0, G1. do 6 (split; [assumption|]). left. lia.
    - pose proof S as (_ & _ & _ & C & _). pose proof (C false) as C0. pose proof (C true) as C1. cbn [pick2] in C0, C1. rewrite C0, C1.
      destruct ((length G0 + length G1 <? n) && (length G0 <? n - least) && (length G1 <? n - least)) eqn:E.
      + rewrite !andb_true_iff, !Nat.ltb_lt in E. destruct E as [[E1 E2] E3]. pose proof (scan_spec pv G0 G1 c b S N0 N1 (EX E1)) as SC.
        destruct (fold_left _ _ _) as [[d c'] b']. destruct SC as (FC & SG & MX). pose proof (classify_st G0 G1 pv c' b' S (proj2 (st_free _ _ _ _ S) FC)) as S'.
        destruct b'.
        * apply (IH _ c' true G0 (c' :: G1)); [exact S'|apply g_second; auto|exact N0|discriminate|exact L0|cbn [length]; lia|cbn [length]; lia].
        * apply (IH _ c' false (c' :: G0) G1); [exact S'|apply g_first; auto|discriminate|exact N1|cbn [length]; lia|exact L1|cbn [length]; lia].
      + exists G0, G1. do 6 (split; [assumption|]). rewrite !andb_false_iff, !Nat.ltb_ge in E. lia.
  Qed.

  Lemma put_spec (group : bool) : forall l pv G0 G1, st G0 G1 pv -> exists K, 
    st (if group then G0 else K ++ G0) (if group then K ++ G1 else G1) (fold_left (put_step vol buf group) l pv) /\ (forall i, In i l -> i < n -> In i G0 \/ In i G1 \/ In i K).
  Proof.
    induction l as [|x l IH]; intros pv G0 G1 S; cbn [fold_left].
    - exists []. cbn [app]. split; [destruct group; exact S|intros i []].
    - unfold put_step at 2. destruct (nth_error (p_part pv) x) as [[g|]|] eqn:E.
      + destruct (IH pv G0 G1 S) as (K & S' & A). exists K. split; [exact S'|]. intros i [<-|Hi] Hn; [|apply A; assumption]. destruct S as (_ & _ & P & _). apply P in E. destruct g; cbn [pick2] in E; tauto.
      + pose proof (classify_st G0 G1 pv x group S E) as S1. destruct group.
        * destruct (IH _ _ _ S1) as (K & S' & A). exists (K ++ [x]). rewrite <- app_assoc. split; [exact S'|]. intros i Hi Hn. rewrite in_app_iff. cbn [In]. destruct Hi as [<-|Hi]; [tauto|]. specialize (A i Hi Hn). cbn [In] in A. tauto.
        * destruct (IH _ _ _ S1) as (K & S' & A). exists (K ++ [x]). rewrite <- app_assoc. split; [exact S'|]. intros i Hi Hn. rewrite in_app_iff. cbn [In]. destruct Hi as [<-|Hi]; [tauto|]. specialize (A i Hi Hn). cbn [In] in A. tauto.
      + destruct (IH pv G0 G1 S) as (K & S' & A). exists K. split; [exact S'|]. intros i [<-|Hi] Hn; [|apply A; assumption]. destruct S as (L & _). apply nth_error_None in E. lia.
  Qed.

  Lemma partition_spec r least : good_sub dim vol Qminus -> Forall (fun b : Rect * item D => length (fst b) = dim) buf -> 1 <= least -> 2 * least <= n -> cover_list buf = Some r ->
    exists G0 G1, quadratic vol buf least G0 G1 /\ st G0 G1 (ChoosePartition vol Qminus buf (vol r) least).
  Proof.
    intros G FK L1 L2 C. unfold ChoosePartition. destruct (seeds_st r least G FK ltac:(lia) C) as (i & j & GR & S).
    destruct (loop_spec least n _ 0 false [i] [j] S GR) as (H0 & H1 & S' & GR' & N0 & N1 & B0 & B1 & END); try discriminate; try (cbn [length]; lia).
    set (pv := choose_loop vol Qminus n buf least _ 0 false) in *. clearbody pv. clear S GR. destruct (st_counts _ _ _ S') as (IN & LE & _ & ALL).
    assert (W : forall G0 G1 pv, st G0 G1 pv -> (forall i, i < n -> In i G0 \/ In i G1) -> length G0 + length G1 = n /\ NoDup (G0 ++ G1) /\ forall i, i < n <-> In i G0 \/ In i G1).
    { intros G0 G1 pv' ST A. destruct (st_counts _ _ _ ST) as (IN' & LE' & _ & _). destruct ST as (_ & ND & _). split; [|split; [exact ND|]].
      - assert (IN2 : incl (seq 0 n) (G0 ++ G1)) by (intros k Hk; apply in_seq in Hk; apply in_app_iff, A; lia). pose proof (NoDup_incl_length (seq_NoDup n 0) IN2) as X. rewrite app_length, seq_length in X. lia.
      - intro k. split; [apply A|]. intro K. apply in_app_iff in K. apply IN', in_seq in K. lia. }
    unfold put_rest. pose proof S' as (_ & _ & _ & CC & _). pose proof (CC false) as C0. pose proof (CC true) as C1. cbn [pick2] in C0, C1. rewrite C0, C1.
    destruct (Nat.ltb_spec (length H0 + length H1) n) as [LT|GE].
    - change (fun pv index => match nth_error (p_part pv) index with Some None => Classify vol buf index (n - least <=? length H0) pv | _ => pv end) with (put_step vol buf (n - least <=? length H0)).
      destruct (put_spec (n - least <=? length H0) (seq 0 n) pv H0 H1 S') as (K & S2 & A). destruct (Nat.leb_spec (n - least) (length H0)) as [GF|GF].
      + exists H0, (K ++ H1). split; [|exact S2]. destruct (W _ _ _ S2) as (LN & ND & MM); [intros k Hk; rewrite in_app_iff; specialize (A k ltac:(apply in_seq; lia) Hk); tauto|].
        split; [exact ND|]. split; [exact MM|]. split; [lia|]. split; [lia|]. exists H0, H1. split; [exact GR'|]. right. left. split; [lia|]. split; [reflexivity|]. intros k Hk. apply in_app_iff. tauto.
      + exists (K ++ H0), H1. split; [|exact S2]. destruct (W _ _ _ S2) as (LN & ND & MM); [intros k Hk; rewrite in_app_iff; specialize (A k ltac:(apply in_seq; lia) Hk); tauto|].
        split; [exact ND|]. split; [exact MM|]. split; [lia|]. split; [lia|]. exists H0, H1. split; [exact GR'|]. right. right. split; [lia|]. split; [reflexivity|]. intros k Hk. apply in_app_iff. tauto.
    - exists H0, H1. split; [|exact S']. destruct (W _ _ _ S') as (LN & ND & MM); [apply ALL; exact GE|]. split; [exact ND|]. split; [exact MM|]. split; [lia|]. split; [lia|]. exists H0, H1. split; [exact GR'|]. left. auto.
  Qed.
End Proofs.

(** Reading the groups into the nodes. *)
Definition sel {D} (g : bool) (part : list (option bool)) (l : list (Rect * item D)) : list (Rect * item D) :=
  map snd (filter (fun x => is_group g (fst x)) (combine part l)).
Lemma load_sel {D} M : forall part (buf A B : list (Rect * item D)) X Y, LoadNodes M part buf A B = Some (X, Y) -> X = A ++ sel false part buf /\ Y = B ++ sel true part buf.
Proof.
  induction part as [|[[]|] part IH]; intros [|b buf] A B X Y H; cbn [LoadNodes] in H; try discriminate H.
  - injection H as <- <-. unfold sel. cbn [combine filter map]. rewrite !app_nil_r. auto.
  - destruct (length B <? M); [|discriminate H]. apply IH in H. destruct H as [-> ->]. unfold sel. cbn [combine filter fst is_group eqb map snd]. rewrite <- app_assoc. auto.
  - destruct (length A <? M); [|discriminate H]. apply IH in H. destruct H as [-> ->]. unfold sel. cbn [combine filter fst is_group eqb map snd]. rewrite <- app_assoc. auto.
Qed.
Lemma sel_members {D} (buf : list (Rect * item D)) g part G : length part = length buf -> (forall i, nth_error part i = Some (Some g) <-> In i G) -> sel g part buf = members buf G.
Proof.
  intros L P. unfold members, sel.
  assert (H : forall k part' buf', length part' = length buf' -> (forall i, nth_error part (k + i) = nth_error part' i) -> (forall i, nth_error buf (k + i) = nth_error buf' i) ->
    map snd (filter (fun x => is_group g (fst x)) (combine part' buf')) = flat_map (fun i => if existsb (Nat.eqb i) G then match nth_error buf i with Some b => [b] | None => [] end else []) (seq k (length buf'))).
  { clear L. intros k part'. revert k. induction part' as [|x part' IH]; intros k [|b buf'] LL HP HB; cbn [length] in LL; try lia; [reflexivity|]. cbn [combine filter fst length seq flat_map].
    pose proof (HP 0) as X. rewrite Nat.add_0_r in X. cbn [nth_error] in X. pose proof (HB 0) as Y. rewrite Nat.add_0_r in Y. cbn [nth_error] in Y. rewrite Y.
    assert (Z : is_group g x = existsb (Nat.eqb k) G).
    { apply eq_iff_eq_true. rewrite existsb_exists. split.
      - intro K. exists k. split; [|apply Nat.eqb_refl]. apply P. rewrite X. f_equal. destruct x as [h|]; [|discriminate K]. cbn [is_group] in K. apply eqb_prop in K. congruence.
      - intros (j & Hj & K). apply Nat.eqb_eq in K. subst j. apply P in Hj. assert (x = Some g) by congruence. subst x. cbn [is_group]. apply eqb_reflx. }
    rewrite <- Z. rewrite <- (IH (S k) buf'); [destruct (is_group g x); reflexivity|lia| |].
    - intro i. replace (S k + i) with (k + S i) by lia. exact (HP (S i)).
    - intro i. replace (S k + i) with (k + S i) by lia. exact (HB (S i)). }
  apply (H 0 part buf L); reflexivity.
Qed.

(** C158. *)
Theorem rtree_split_quadratic : forall D (dim : nat) M m vol (l : list (Rect * item D)) b, capacities M m -> volume_ok vol ->
  Forall (fun x => length (fst x) = dim) (l ++ [b]) -> length l = M ->
  exists A B G0 G1, SplitNode M m vol Qminus l b = Some (A, B) /\ quadratic vol (l ++ [b]) m G0 G1 /\ A = members (l ++ [b]) G0 /\ B = members (l ++ [b]) G1.
Proof.
  intros D dim M m vol l b (C1 & C2 & C3) V FK LM.
  destruct (SplitNode_ok dim M m vol Qminus (exact_good dim vol V) C1 ltac:(lia) l b FK LM) as (A & B & E & _). exists A, B.
  pose proof E as E'. unfold SplitNode in E'. destruct (cover_list (l ++ [b])) as [r|] eqn:CV; [|discriminate E'].
  destruct (partition_spec dim vol (l ++ [b]) r m (exact_good dim vol V) FK C1) as (G0 & G1 & Q & S); [rewrite app_length; cbn [length]; lia|exact CV|].
  exists G0, G1. split; [exact E|]. split; [exact Q|]. apply load_sel in E'. destruct E' as [-> ->]. cbn [app]. destruct S as (L & _ & P & _).
  split; apply sel_members; auto; intro i; [apply (P i false)|apply (P i true)].
Qed.
Print Assumptions rtree_split_quadratic.

(** Five squares on a line; the seeds are the outermost two. *)
Definition square (x : Z) : Rect * item nat := ([(x, x + 1); (0, 1)]%Z, Data (Z.to_nat x)).
Definition area (r : Rect) : Q := inject_Z (fold_right (fun p a => Z.max 0 (snd p - fst p) * a)%Z 1%Z r).
Example rtree_split_nonvacuous : capacities 4 2 /\ Forall (fun x => length (fst x) = 2) ([square 0; square 9; square 3; square 1] ++ [square 7]) /\
  SplitNode 4 2 area Qminus [square 0; square 9; square 3; square 1] (square 7) = Some ([square 0; square 3; square 1], [square 9; square 7]).
Proof. split; [unfold capacities; lia|]. split; [repeat constructor|vm_compute; reflexivity]. Qed.
Lemma area_ok : volume_ok area.
Proof.
  assert (P : forall r : Rect, (0 <= fold_right (fun p a => Z.max 0 (snd p - fst p) * a)%Z 1%Z r)%Z) by (induction r as [|p r IH]; cbn [fold_right]; [lia|apply Z.mul_nonneg_nonneg; [apply Z.le_max_l|exact IH]]).
  split.
  - intro r. unfold area. change 0%Q with (inject_Z 0). rewrite <- Zle_Qle. apply P.
  - intros a c W. unfold area. rewrite <- Zle_Qle. induction W as [|x y a c H W IH]; cbn [fold_right]; [lia|]. apply Z.mul_le_mono_nonneg; [lia|lia|apply P|exact IH].
Qed.

(** * The branch an entry goes to *)
Definition enlargement {D} (vol : Rect -> Q) (r : Rect) (b : Rect * item D) : Q := (vol (combine_rect r (fst b)) - vol (fst b))%Q.
(** [b] is chosen before [c]: it grows less, or as much and is smaller. *)
Definition better {D} (vol : Rect -> Q) (r : Rect) (b c : Rect * item D) : Prop :=
  (enlargement vol r b < enlargement vol r c)%Q \/ ((enlargement vol r b == enlargement vol r c)%Q /\ (vol (fst b) < vol (fst c))%Q).
Lemma pick_best {D} vol r : forall (l done : list (Rect * item D)) k b e a, nth_error done k = Some b -> (e == enlargement vol r b)%Q -> (a == vol (fst b))%Q ->
  (forall i c, nth_error done i = Some c -> ~ better vol r c b) -> (forall i c, i < k -> nth_error done i = Some c -> better vol r b c) ->
  exists b', nth_error (done ++ l) (pick_loop vol Qminus r l (length done) (Some (k, e, a))) = Some b' /\
    (forall i c, nth_error (done ++ l) i = Some c -> ~ better vol r c b') /\
    (forall i c, i < pick_loop vol Qminus r l (length done) (Some (k, e, a)) -> nth_error (done ++ l) i = Some c -> better vol r b' c).
Proof.
  induction l as [|x l IH]; intros done k b e a N E A H1 H2; cbn [pick_loop].
  - rewrite app_nil_r. exists b. auto.
  - assert (R : done ++ x :: l = (done ++ [x]) ++ l) by (rewrite <- app_assoc; reflexivity). rewrite R. replace (S (length done)) with (length (done ++ [x])) by (rewrite app_length; cbn [length]; lia).
    assert (NX : nth_error (done ++ [x]) (length done) = Some x) by (rewrite nth_error_app2, Nat.sub_diag by lia; reflexivity).
    assert (KL : k < length done) by (apply nth_error_Some; congruence).
    assert (NK : nth_error (done ++ [x]) k = Some b) by (rewrite nth_error_app1; assumption).
    assert (SP : forall i c, nth_error (done ++ [x]) i = Some c -> nth_error done i = Some c \/ (i = length done /\ c = x)).
    { intros i c Hc. destruct (Nat.lt_ge_cases i (length done)) as [L|L]; [rewrite nth_error_app1 in Hc by exact L; left; exact Hc|]. right. rewrite nth_error_app2 in Hc by exact L. destruct (i - length done) as [|q] eqn:EQ; cbn [nth_error] in Hc; [injection Hc as <-; split; [lia|reflexivity]|destruct q; discriminate Hc]. }
    fold (enlargement vol r x).
    assert (NEW : better vol r x b -> exists b', nth_error ((done ++ [x]) ++ l) (pick_loop vol Qminus r l (length (done ++ [x])) (Some (length done, enlargement vol r x, vol (fst x)))) = Some b' /\
      (forall i c, nth_error ((done ++ [x]) ++ l) i = Some c -> ~ better vol r c b') /\
      (forall i c, i < pick_loop vol Qminus r l (length (done ++ [x])) (Some (length done, enlargement vol r x, vol (fst x))) -> nth_error ((done ++ [x]) ++ l) i = Some c -> better vol r b' c)).
    { intro BX. apply (IH (done ++ [x]) (length done) x); [exact NX|reflexivity|reflexivity| |].
      - intros i c Hc. apply SP in Hc. destruct Hc as [Hc|[_ ->]]; [specialize (H1 i c Hc)|]; unfold better in *; [|lra]. intro Q. apply H1. destruct BX as [BX|[BX BX']], Q as [Q|[Q Q']]; [left; lra|left; lra|left; lra|right; split; lra].
      - intros i c Hi Hc. apply SP in Hc. destruct Hc as [Hc|[-> _]]; [|lia]. destruct (Nat.lt_ge_cases i k) as [L|L].
        + specialize (H2 i c L Hc). unfold better in *. destruct BX as [BX|[BX BX']], H2 as [Q|[Q Q']]; [left; lra|left; lra|left; lra|right; split; lra].
        + specialize (H1 i c Hc). unfold better in *. destruct (Qlt_le_dec (enlargement vol r x) (enlargement vol r c)) as [Y|Y]; [left; exact Y|].
          destruct (Qlt_le_dec (enlargement vol r c) (enlargement vol r b)) as [Z|Z]; [exfalso; apply H1; left; exact Z|].
          destruct BX as [BX|[BX BX']]; [lra|]. right. split; [lra|]. destruct (Qlt_le_dec (vol (fst c)) (vol (fst b))) as [V|V]; [exfalso; apply H1; right; split; lra|lra]. }
    assert (OLD : ~ better vol r x b -> exists b', nth_error ((done ++ [x]) ++ l) (pick_loop vol Qminus r l (length (done ++ [x])) (Some (k, e, a))) = Some b' /\
      (forall i c, nth_error ((done ++ [x]) ++ l) i = Some c -> ~ better vol r c b') /\
      (forall i c, i < pick_loop vol Qminus r l (length (done ++ [x])) (Some (k, e, a)) -> nth_error ((done ++ [x]) ++ l) i = Some c -> better vol r b' c)).
    { intro BX. apply (IH (done ++ [x]) k b); [exact NK|exact E|exact A| |].
      - intros i c Hc. apply SP in Hc. destruct Hc as [Hc|[_ ->]]; [exact (H1 i c Hc)|exact BX].
      - intros i c Hi Hc. apply SP in Hc. destruct Hc as [Hc|[-> _]]; [exact (H2 i c Hi Hc)|lia]. }
    destruct (Qltb_spec (enlargement vol r x) e) as [LT|GE]; [apply NEW; left; lra|].
    destruct (Qeq_bool (enlargement vol r x) e) eqn:EB; cbn [andb].
    + apply Qeq_bool_iff in EB. destruct (Qltb_spec (vol (fst x)) a) as [LA|GA]; [apply NEW; right; split; lra|apply OLD; unfold better; lra].
    + assert (NQ : ~ (enlargement vol r x == e)%Q) by (intro Q; apply Qeq_bool_iff in Q; congruence). apply OLD. unfold better. intros [Q|[Q _]]; [lra|apply NQ; lra].
Qed.
(** C159. *)
Theorem rtree_pick_branch : forall D vol r (l : list (Rect * item D)), l <> [] -> exists b, nth_error l (PickBranch vol Qminus r l) = Some b /\
  (forall i c, nth_error l i = Some c -> ~ better vol r c b) /\ (forall i c, i < PickBranch vol Qminus r l -> nth_error l i = Some c -> better vol r b c).
Proof.
  intros D vol r [|x l] NE; [contradiction|]. unfold PickBranch. cbn [pick_loop]. change (x :: l) with ([x] ++ l).
  apply (pick_best vol r l [x] 0 x); [reflexivity|reflexivity|reflexivity| |intros i c Hi; lia].
  intros [|[|i]] c Hc; cbn [nth_error] in Hc; [|discriminate Hc|discriminate Hc]. injection Hc as <-. unfold better. lra.
Qed.
Print Assumptions rtree_pick_branch.
Example rtree_pick_branch_nonvacuous : PickBranch area Qminus [(4, 5); (0, 1)]%Z [([(0, 9); (0, 5)]%Z, Data 0); square 2; ([(3, 8); (0, 4)]%Z, Data 1)] = 2.
Proof. vm_compute. reflexivity. Qed.
