(** Proofs about batches. *)
From Coq Require Import ZArith List Bool Lia Permutation.
From Verif Require Import BatchModel.
Import ListNotations.
Open Scope Z_scope.

(** * Packing *)
Section Packing.
  Variable size : nat -> Z.
  Hypothesis size_ok : forall v, 0 <= size v.
  (** Sum of the sizes of a list of voxels. *)
  Fixpoint total (vs : list nat) : Z := match vs with [] => 0 | v :: r => size v + total r end.
  Lemma total_app a b : total (a ++ b) = total a + total b.
  Proof. induction a as [|x a IH]; cbn [total app]; [lia|]. rewrite IH. lia. Qed.
  Lemma total_nonneg a : 0 <= total a.
  Proof. induction a as [|x a IH]; cbn [total]; [lia|]. specialize (size_ok x). lia. Qed.

  (** The voxels in order of first appearance. *)
  Definition keys (m : vmap) : list nat := map fst m.
  (** A map whose offsets are the running totals. *)
  Fixpoint laid (from : Z) (m : vmap) : Prop :=
    match m with [] => True | (v, (o, s)) :: r => o = from /\ s = size v /\ laid (from + size v) r end.
  Lemma laid_app a : forall b from, laid from (a ++ b) <-> laid from a /\ laid (from + total (keys a)) b.
  Proof.
    induction a as [|[v [o s]] a IH]; intros b from; cbn [laid app keys map total]; [rewrite Z.add_0_r; tauto|].
    rewrite IH. cbn [fst]. fold (keys a). rewrite Z.add_assoc. tauto.
  Qed.
  Lemma vfind_none v m : vfind v m = None <-> ~ In v (keys m).
  Proof.
    induction m as [|[w x] r IH]; cbn [vfind keys map In fst]; [tauto|].
    destruct (Nat.eqb_spec v w) as [->|N].
    - split; [discriminate|]. intros H. exfalso. apply H. now left.
    - fold (keys r). rewrite IH. intuition congruence.
  Qed.
  Lemma vfind_in v x m : vfind v m = Some x -> In (v, x) m.
  Proof.
    induction m as [|[w y] r IH]; cbn [vfind]; [discriminate|]. destruct (Nat.eqb_spec v w) as [->|N]; [intros E; injection E as ->; now left|].
    right. auto.
  Qed.

  Definition shape (s : vmap * Z) : Prop := NoDup (keys (fst s)) /\ laid 0 (fst s) /\ snd s = total (keys (fst s)).
  Variable wrap : Z.
  Hypothesis wrap_ok : 2 ^ 32 <= wrap.

  Lemma add_voxel_shape s v : shape s -> total (keys (fst (add_voxel wrap size s v))) < u32max ->
    shape (add_voxel wrap size s v) /\ In v (keys (fst (add_voxel wrap size s v))) /\
    (forall w, In w (keys (fst s)) -> In w (keys (fst (add_voxel wrap size s v)))) /\
    (forall w, In w (keys (fst (add_voxel wrap size s v))) -> In w (keys (fst s)) \/ w = v).
  Proof.
    unfold add_voxel. intros [N [L T]] B. destruct (vfind v (fst s)) as [x|] eqn:E.
    - split; [split; auto|]. split; [|auto]. destruct (in_dec Nat.eq_dec v (keys (fst s))) as [H|H]; [exact H|].
      apply vfind_none in H. congruence.
    - apply vfind_none in E. cbn [fst snd] in *. unfold keys in *. rewrite map_app in *. cbn [map fst] in *. fold (keys (fst s)) in *.
      rewrite total_app in B. cbn [total] in B.
      pose proof (total_nonneg (keys (fst s))). pose proof (size_ok v). unfold u32max in *.
      change (2 ^ 32) with 4294967296 in *.
      rewrite T. rewrite (Z.mod_small (total (keys (fst s)))), (Z.mod_small (size v)) by lia.
      rewrite (Z.mod_small (total (keys (fst s)) + size v)) by lia.
      split; [|split; [apply in_or_app; right; now left|split; [intros w Hw; apply in_or_app; now left|intros w Hw; apply in_app_or in Hw as [Hw|[<-|[]]]; auto]]].
      split; [|split].
      + cbn [fst]. unfold keys. rewrite map_app. cbn [map fst]. fold (keys (fst s)).
        apply (Permutation_NoDup (l := v :: keys (fst s))); [apply Permutation_cons_append|constructor; assumption].
      + cbn [fst]. apply laid_app. split; [exact L|]. cbn [laid]. rewrite Z.add_0_l. auto.
      + cbn [fst snd]. unfold keys. rewrite map_app. cbn [map fst]. fold (keys (fst s)). rewrite total_app. cbn [total]. lia.
  Qed.
  Lemma add_voxel_grows s v : exists x, fst (add_voxel wrap size s v) = fst s ++ x.
  Proof. unfold add_voxel. destruct (vfind _ _); [exists []; now rewrite app_nil_r|]. eexists. reflexivity. Qed.
  Lemma total_prefix a x : total (keys a) <= total (keys (a ++ x)).
  Proof. unfold keys. rewrite map_app, total_app. pose proof (total_nonneg (map fst x)). lia. Qed.

  Lemma layout_fold pairs : forall s, shape s ->
    let s' := fold_left (fun s p => add_voxel wrap size (add_voxel wrap size s (fst p)) (snd p)) pairs s in
    total (keys (fst s')) < u32max ->
    shape s' /\ (forall p, In p pairs -> In (fst p) (keys (fst s')) /\ In (snd p) (keys (fst s'))) /\
    (forall w, In w (keys (fst s)) -> In w (keys (fst s'))) /\
    (forall w, In w (keys (fst s')) -> In w (keys (fst s)) \/ exists p, In p pairs /\ (w = fst p \/ w = snd p)) /\
    total (keys (fst s)) < u32max.
  Proof.
    assert (G : forall pairs s, exists x, fst (fold_left (fun s p => add_voxel wrap size (add_voxel wrap size s (fst p)) (snd p)) pairs s) = fst s ++ x).
    { induction pairs0 as [|p r IH]; intros s; cbn [fold_left]; [exists []; now rewrite app_nil_r|].
      destruct (IH (add_voxel wrap size (add_voxel wrap size s (fst p)) (snd p))) as [x E].
      destruct (add_voxel_grows (add_voxel wrap size s (fst p)) (snd p)) as [y Ey]. destruct (add_voxel_grows s (fst p)) as [z Ez].
      exists (z ++ y ++ x). rewrite E, Ey, Ez, !app_assoc. reflexivity. }
    induction pairs as [|p r IH]; intros s S; cbn [fold_left]; intros B.
    - split; [exact S|]. split; [intros p []|]. split; [auto|]. split; [auto|exact B].
    - set (s1 := add_voxel wrap size s (fst p)) in *. set (s2 := add_voxel wrap size s1 (snd p)) in *.
      destruct (G r s2) as [x Ex]. pose proof (total_prefix (fst s2) x) as B2. rewrite <- Ex in B2.
      destruct (add_voxel_grows s1 (snd p)) as [y Ey]. fold s2 in Ey. pose proof (total_prefix (fst s1) y) as B1. rewrite <- Ey in B1.
      destruct (add_voxel_grows s (fst p)) as [z Ez]. fold s1 in Ez. pose proof (total_prefix (fst s) z) as B0. rewrite <- Ez in B0.
      destruct (add_voxel_shape s (fst p) S) as [S1 [I1 [K1 J1]]]; [fold s1; lia|]. fold s1 in S1, I1, K1, J1.
      destruct (add_voxel_shape s1 (snd p) S1) as [S2 [I2 [K2 J2]]]; [fold s2; lia|]. fold s2 in S2, I2, K2, J2.
      destruct (IH s2 S2 B) as [S3 [I3 [K3 [J3 _]]]].
      split; [exact S3|]. split; [|split; [|split; [|lia]]].
      + intros q [<-|Hq]; [split; auto|auto].
      + auto.
      + intros w Hw. destruct (J3 w Hw) as [H|[q [Hq E]]]; [|right; exists q; split; [now right|exact E]].
        destruct (J2 w H) as [H2| ->]; [|right; exists p; split; [now left|now right]].
        destruct (J1 w H2) as [H1| ->]; [now left|right; exists p; split; [now left|now left]].
  Qed.

  (** Slices of different voxels. *)
  Lemma laid_bounds m : forall from v o s, laid from m -> In (v, (o, s)) m -> from <= o /\ s = size v /\ o + size v <= from + total (keys m).
  Proof.
    induction m as [|[w [o' s']] r IH]; intros from v o s L H; [destruct H|]. cbn [laid] in L. destruct L as [-> [-> L]].
    cbn [keys map total fst]. fold (keys r).
    destruct H as [E|H].
    - injection E as <- <- <-. pose proof (total_nonneg (keys r)). lia.
    - destruct (IH _ v o s L H) as [A [B C]]. pose proof (size_ok w). lia.
  Qed.
  Lemma laid_disjoint m : forall from v o s v' o' s', laid from m -> NoDup (keys m) -> In (v, (o, s)) m -> In (v', (o', s')) m -> v <> v' ->
    o + size v <= o' \/ o' + size v' <= o.
  Proof.
    induction m as [|[w [ow sw]] r IH]; intros from v o s v' o' s' L N H H' D; [destruct H|].
    cbn [laid] in L. destruct L as [-> [-> L]]. cbn [keys map fst] in N. fold (keys r) in N. inversion N; subst.
    destruct H as [E|H], H' as [E'|H'].
    - congruence.
    - injection E as <- <- <-. left. apply (laid_bounds r _ _ _ _ L H').
    - injection E' as <- <- <-. right. apply (laid_bounds r _ _ _ _ L H).
    - eapply IH; eauto.
  Qed.
  Lemma nodup_key (m : vmap) v x y : NoDup (keys m) -> In (v, x) m -> In (v, y) m -> x = y.
  Proof.
    induction m as [|[w z] r IH]; intros N H H'; [destruct H|]. cbn [keys map fst] in N. fold (keys r) in N. inversion N as [|? ? Hn N']; subst.
    assert (K : forall u, In (w, u) r -> False) by (intros u Hu; apply Hn; unfold keys; apply in_map_iff; exists (w, u); auto).
    destruct H as [E|H], H' as [E'|H']; [congruence| | |auto]; exfalso.
    - injection E as -> ->. eapply K; eauto.
    - injection E' as -> ->. eapply K; eauto.
  Qed.

  Context {A : Type}.
  Variable data : nat -> Z -> A.
  Variable w : Z.
  Hypothesis w_ok : 0 < w.
  Lemma fill_fold (m : vmap) : laid 0 m -> NoDup (keys m) -> w * total (keys m) < u32max ->
    forall l buf, (forall b, In b l -> In b m) -> NoDup (keys l) ->
    forall v o s k, In (v, (o, s)) m -> 0 <= k < size v * w ->
    fold_left (copy_voxel w size data) l buf (o * w + k) = if in_dec Nat.eq_dec v (keys l) then Some (data v k) else buf (o * w + k).
  Proof.
    intros L N B. induction l as [|[v' [o' s']] r IH]; intros buf Sub Nl v o s k H Hk; cbn [fold_left keys map fst].
    - reflexivity.
    - cbn [keys map fst] in Nl. fold (keys r) in Nl |- *. inversion Nl as [|? ? Nv' Nr]; subst.
      rewrite (IH _ (fun b Hb => Sub b (or_intror Hb)) Nr v o s k H Hk).
      pose proof (Sub _ (or_introl eq_refl)) as H'. destruct (laid_bounds m 0 v o s L H) as [A1 [A2 A3]]. destruct (laid_bounds m 0 v' o' s' L H') as [B1 [B2 B3]].
      pose proof (size_ok v). pose proof (size_ok v').
      unfold copy_voxel. cbn [fst snd]. unfold u32max in *. rewrite (Z.mod_small (o' * w)) by nia.
      destruct (in_dec Nat.eq_dec v (keys r)) as [I|I].
      + destruct (in_dec Nat.eq_dec v (v' :: keys r)) as [J|J]; [reflexivity|exfalso; apply J; now right].
      + destruct (in_dec Nat.eq_dec v (v' :: keys r)) as [J|J].
        * destruct J as [->|J]; [|contradiction].
          assert (X : (o', s') = (o, s)) by (exact (nodup_key m v _ _ N H' H)). injection X as -> ->.
          replace (o * w <=? o * w + k) with true by (symmetry; apply Z.leb_le; lia).
          replace (o * w + k <? o * w + size v * w) with true by (symmetry; apply Z.ltb_lt; lia).
          cbn [andb]. do 2 f_equal. lia.
        * assert (D : v <> v') by (intros ->; apply J; now left).
          destruct (laid_disjoint m 0 v o s v' o' s' L N H H' D) as [X|X].
          -- replace (o' * w <=? o * w + k) with false by (symmetry; apply Z.leb_gt; nia). reflexivity.
          -- replace (o * w + k <? o' * w + size v' * w) with false by (symmetry; apply Z.ltb_ge; nia). now rewrite andb_false_r.
  Qed.

  Theorem packing pairs l : let m := fst (layout wrap size pairs) in let n := snd (layout wrap size pairs) in
    w * total (keys m) < u32max -> Permutation l m ->
    NoDup (keys m) /\ (forall v, In v (keys m) <-> exists p, In p pairs /\ (v = fst p \/ v = snd p)) /\
    length (offset_size m pairs) = length pairs /\
    forall i p, nth_error pairs i = Some p -> exists o1 o2,
      nth_error (offset_size m pairs) i = Some ((o1, size (fst p)), (o2, size (snd p))) /\
      (forall k, 0 <= k < size (fst p) * w -> operand w (fill w size data l) (o1, size (fst p)) k = Some (data (fst p) k)) /\
      (forall k, 0 <= k < size (snd p) * w -> operand w (fill w size data l) (o2, size (snd p)) k = Some (data (snd p) k)) /\
      0 <= o1 /\ o1 * w + size (fst p) * w <= allocated wrap w n /\ 0 <= o2 /\ o2 * w + size (snd p) * w <= allocated wrap w n /\
      (fst p <> snd p -> o1 + size (fst p) <= o2 \/ o2 + size (snd p) <= o1).
  Proof.
    intros m n B P. pose proof (total_nonneg (keys m)) as Tn.
    destruct (layout_fold pairs ([], 0)) as [[N [L T]] [I [_ [J _]]]]; [split; [constructor|split; [exact Logic.I|reflexivity]]|fold (layout wrap size pairs); fold m; nia|].
    fold (layout wrap size pairs) in N, L, T, I, J. fold m in N, L, T, I, J. fold n in T. cbn [fst] in J.
    split; [exact N|]. split.
    { intros v. split; [intros H; destruct (J v H) as [[]|H']; exact H'|]. intros [p [Hp [-> | ->]]]; now apply I. }
    split; [unfold offset_size; apply map_length|]. intros i p Hp. pose proof (I p (nth_error_In _ _ Hp)) as [K1 K2].
    assert (F : forall v, In v (keys m) -> exists o, vfind v m = Some (o, size v) /\ In (v, (o, size v)) m /\
       (forall k, 0 <= k < size v * w -> operand w (fill w size data l) (o, size v) k = Some (data v k)) /\
       0 <= o /\ o * w + size v * w <= allocated wrap w n).
    { intros v Hv. destruct (vfind v m) as [[o s]|] eqn:E; [|apply vfind_none in E; contradiction].
      apply vfind_in in E. destruct (laid_bounds m 0 v o s L E) as [A1 [-> A3]]. exists o. split; [reflexivity|]. split; [exact E|]. pose proof (size_ok v) as Sv.
      split; [|split; [lia|]].
      - intros k Hk. unfold operand, fill. cbn [fst]. unfold u32max in *. rewrite (Z.mod_small (o * w)) by nia.
        rewrite (fill_fold m L N B l (fun _ => None)) with (v := v) (s := size v); [| | |exact E|exact Hk].
        + destruct (in_dec Nat.eq_dec v (keys l)) as [H|H]; [reflexivity|]. exfalso. apply H. unfold keys.
          apply (Permutation_in v (Permutation_sym (Permutation_map fst P))). exact Hv.
        + intros b Hb. apply (Permutation_in b P Hb).
        + apply (Permutation_NoDup (Permutation_sym (Permutation_map fst P)) N).
      - unfold allocated. rewrite T. unfold u32max in *. rewrite Z.mod_small by lia. nia. }
    destruct (F (fst p) K1) as [o1 [E1 [M1 [R1 [P1 Q1]]]]]. destruct (F (snd p) K2) as [o2 [E2 [M2 [R2 [P2 Q2]]]]].
    exists o1, o2. split; [unfold offset_size; rewrite nth_error_map, Hp; cbn [option_map]; unfold quad; now rewrite E1, E2|].
    split; [exact R1|]. split; [exact R2|]. split; [exact P1|]. split; [exact Q1|]. split; [exact P2|]. split; [exact Q2|].
    intros D. exact (laid_disjoint m 0 _ _ _ _ _ _ L N M1 M2 D).
  Qed.
End Packing.

(** * Division among threads *)
(** The numbers from [a] on. *)
Definition upto (a n : Z) : list Z := map (fun k => a + Z.of_nat k) (seq 0 (Z.to_nat n)).
Lemma upto_app a m n : 0 <= m -> 0 <= n -> upto a m ++ upto (a + m) n = upto a (m + n).
Proof.
  intros Hm Hn. unfold upto. rewrite Z2Nat.inj_add by lia. rewrite seq_app, map_app. f_equal. cbn [Nat.add].
  assert (G : forall n b, map (fun k => a + m + Z.of_nat k) (seq b n) = map (fun k => a + Z.of_nat k) (seq (Z.to_nat m + b) n)).
  { induction n0 as [|n0 IH]; intros c; cbn [seq map]; [reflexivity|]. rewrite IH. f_equal; [lia|]. do 2 f_equal. lia. }
  rewrite G. now rewrite Nat.add_0_r.
Qed.
Lemma upto_in a n x : In x (upto a n) <-> a <= x < a + n.
Proof.
  unfold upto. rewrite in_map_iff. split.
  - intros [k [<- H]]. apply in_seq in H. lia.
  - intros H. exists (Z.to_nat (x - a)). split; [lia|]. apply in_seq. lia.
Qed.
Lemma upto_nodup a n : NoDup (upto a n).
Proof.
  unfold upto. apply FinFun.Injective_map_NoDup; [intros x y; lia|apply seq_NoDup].
Qed.
Lemma chunks_concat each p : 0 <= each -> forall fuel i, 0 <= i -> each * i <= p ->
  concat (map unit_pairs (chunks_from fuel each p i)) = upto (each * i) (Z.min (each * Z.of_nat fuel) (p - each * i)).
Proof.
  intros He. induction fuel as [|f IH]; intros i Hi Hp; cbn [chunks_from].
  - rewrite Z.mul_0_r, Z.min_l by lia. reflexivity.
  - destruct (Z.leb_spec p (each * i)) as [L|L].
    + replace (p - each * i) with 0 by lia. rewrite Z.min_r by nia. reflexivity.
    + cbn [map concat]. unfold unit_pairs at 1. cbn [fst snd]. fold (upto (each * i) (Z.min each (p - each * i))).
      destruct (Z.le_gt_cases (each * (i + 1)) p) as [L2|L2].
      * rewrite IH by lia. rewrite Z.min_l by lia. replace (each * (i + 1)) with (each * i + each) by lia.
        rewrite upto_app by lia. f_equal. lia.
      * rewrite (Z.min_r each) by lia. destruct f; cbn [chunks_from].
        -- cbn [map concat]. rewrite app_nil_r. f_equal. lia.
        -- destruct (Z.leb_spec p (each * (i + 1))); [|lia]. cbn [map concat]. rewrite app_nil_r. f_equal. nia.
Qed.
Lemma distance_concat p t : 0 <= p -> 0 < t -> concat (map unit_pairs (distance_chunks p t)) = upto 0 p.
Proof.
  intros Hp Ht. unfold distance_chunks. pose proof (Z.div_pos p t Hp Ht). rewrite chunks_concat by lia.
  rewrite Z.mul_0_r, Z.sub_0_r. f_equal. apply Z.min_r. unfold distance_threads.
  destruct (Z.eqb_spec (p / t) 0) as [E|E].
  - rewrite E, Z2Nat.id by lia. lia.
  - rewrite Z2Nat.id by lia. pose proof (Z.mod_pos_bound p t Ht). pose proof (Z.div_mod p t ltac:(lia)). nia.
Qed.
Lemma intersect_concat p t : 0 <= p -> 0 < t -> concat (map unit_pairs (intersect_chunks p t)) = upto 0 (t * (p / t)).
Proof.
  intros Hp Ht. unfold intersect_chunks. pose proof (Z.div_pos p t Hp Ht). rewrite chunks_concat by lia.
  rewrite Z.mul_0_r, Z.sub_0_r, Z2Nat.id by lia. f_equal. rewrite Z.min_l; [lia|]. pose proof (Z.mul_div_le p t Ht). lia.
Qed.

Lemma interleaved_perm ws tr : interleaved ws tr -> Permutation tr (concat ws).
Proof.
  intros H. induction H as [ws F|l x w r tr H IH].
  - induction F as [|w r -> F IH]; [constructor|exact IH].
  - rewrite concat_app in *. cbn [concat] in *. apply (Permutation_cons_app _ _ x). exact IH.
Qed.
Lemma store_spec {A} (f : Z -> A) tr y : store f tr y = if existsb (Z.eqb y) tr then Some (f y) else None.
Proof.
  unfold store. change None with ((fun _ : Z => @None A) y) at 2. generalize (fun _ : Z => @None A).
  induction tr as [|x r IH]; intros out; cbn [fold_left existsb]; [reflexivity|]. rewrite IH.
  destruct (existsb (Z.eqb y) r); [now rewrite orb_true_r|]. rewrite orb_false_r, Z.eqb_sym.
  destruct (Z.eqb_spec y x) as [->|N]; reflexivity.
Qed.

(** * The queue *)
Section Queue.
  Context {A : Type}.
  (** Pairs taken and not yet joined. *)
  Definition in_hand (w : wpc A) : list A := match w with Popped x | Joining x => [x] | _ => [] end.
  Definition hands (ws : list (wpc A)) : list A := flat_map in_hand ws.
  Definition held (ws : list (wpc A)) : nat := length (filter holds_lock ws).
  Definition sane (pairs : list A) (n : nat) (s : jstate A) : Prop :=
    Permutation (j_joined s ++ hands (j_workers s) ++ j_queue s) pairs /\ length (j_workers s) = n /\ (held (j_workers s) <= 1)%nat /\
    (In Stopped (j_workers s) -> j_queue s = []) /\ (In Front (j_workers s) -> j_queue s <> []).

  Lemma hands_mid l (w : wpc A) r : hands (l ++ w :: r) = hands l ++ in_hand w ++ hands r.
  Proof. unfold hands. rewrite flat_map_app. reflexivity. Qed.
  Lemma held_mid l (w : wpc A) r : held (l ++ w :: r) = (held l + (if holds_lock w then 1 else 0) + held r)%nat.
  Proof. unfold held. rewrite filter_app, app_length. cbn [filter]. destruct (holds_lock w); cbn [length]; lia. Qed.
  Lemma free_held ws : @lock_free A ws = true -> held ws = 0%nat.
  Proof.
    unfold lock_free, held. intros H. apply negb_true_iff in H. induction ws as [|w r IH]; cbn [existsb filter] in *; [reflexivity|].
    apply orb_false_elim in H as [H1 H2]. rewrite H1. auto.
  Qed.
  Lemma in_mid (x w : wpc A) l r : In x (l ++ w :: r) <-> x = w \/ In x (l ++ r).
  Proof. rewrite !in_app_iff. cbn [In]. intuition congruence. Qed.

  Lemma perm_swap_mid (log : list A) l x r q pairs : Permutation (log ++ (l ++ [] ++ r) ++ x :: q) pairs <-> Permutation (log ++ (l ++ [x] ++ r) ++ q) pairs.
  Proof.
    assert (P : Permutation (log ++ (l ++ [] ++ r) ++ x :: q) (log ++ (l ++ [x] ++ r) ++ q)).
    { apply Permutation_app_head. cbn [app]. rewrite <- !app_assoc. apply Permutation_app_head. cbn [app].
      symmetry. apply Permutation_middle. }
    split; intros H; [eapply Permutation_trans; [apply Permutation_sym, P|exact H]|eapply Permutation_trans; [exact P|exact H]].
  Qed.
  Lemma perm_swap_log (log : list A) l x r q : Permutation (log ++ (l ++ [x] ++ r) ++ q) ((log ++ [x]) ++ (l ++ [] ++ r) ++ q).
  Proof.
    rewrite <- (app_assoc log). apply Permutation_app_head. cbn [app]. rewrite <- !app_assoc. cbn [app]. symmetry. apply Permutation_middle.
  Qed.

  Lemma jstep_sane pairs n s t : sane pairs n s -> jstep s t -> sane pairs n t.
  Proof.
    intros [P [L [H [St Fr]]]] E. destruct E; cbn [j_queue j_workers j_joined] in *; unfold sane; cbn [j_queue j_workers j_joined];
      rewrite ?app_length in *; cbn [length] in *; rewrite held_mid in *; cbn [holds_lock] in *; rewrite hands_mid in *; cbn [in_hand] in *.
    - repeat split; try assumption; try lia. intros X. apply in_mid in X as [X|X]; [discriminate|]. apply Fr. apply in_mid. now right.
    - repeat split; try assumption; try lia; intros X; apply in_mid in X as [X|X]; try discriminate; (apply St || apply Fr); apply in_mid; now right.
    - match goal with F : lock_free _ = true |- _ => apply free_held in F; rewrite held_mid in F; cbn [holds_lock] in F end.
      repeat split; try assumption; try lia; intros X; apply in_mid in X as [X|X]; try discriminate; (apply St || apply Fr); apply in_mid; now right.
    - repeat split; try assumption; try lia. intros X. apply in_mid in X as [X|X]; [discriminate|]. apply Fr. apply in_mid. now right.
    - repeat split; try assumption; try lia; intros X; apply in_mid in X as [X|X]; try discriminate. apply St. apply in_mid. now right.
    - split; [apply perm_swap_mid; exact P|]. split; [lia|]. split; [lia|]. split.
      + intros X. apply in_mid in X as [X|X]; [discriminate|]. assert (Y : x :: q = []) by (apply St; apply in_mid; now right). discriminate.
      + intros X. apply in_mid in X as [X|X]; [discriminate|]. exfalso.
        (** another worker at [Front] would hold the lock as well *)
        assert (Y : (1 <= held l + held r)%nat).
        { apply in_app_or in X as [X|X]; apply in_split in X as [a [b ->]]; rewrite held_mid; cbn [holds_lock]; lia. }
        lia.
    - repeat split; try assumption; try lia; intros X; apply in_mid in X as [X|X]; try discriminate; (apply St || apply Fr); apply in_mid; now right.
    - split; [eapply Permutation_trans; [apply Permutation_sym, perm_swap_log|exact P]|].
      repeat split; try lia; intros X; apply in_mid in X as [X|X]; try discriminate; (apply St || apply Fr); apply in_mid; now right.
  Qed.
  Lemma jinit_sane pairs n : sane pairs n (jinit pairs n).
  Proof.
    unfold sane, jinit. cbn [j_queue j_workers j_joined app].
    assert (E : hands (repeat Check n) = [] /\ held (repeat (@Check A) n) = 0%nat).
    { induction n as [|n [I1 I2]]; cbn [repeat]; [split; reflexivity|]. split; [exact I1|exact I2]. }
    destruct E as [E1 E2]. rewrite E1, E2, repeat_length. repeat split; auto; intros X; apply repeat_spec in X; discriminate.
  Qed.
  Lemma jsteps_sane pairs n s : jsteps (jinit pairs n) s -> sane pairs n s.
  Proof. remember (jinit pairs n) as i. intros H. induction H; [subst; apply jinit_sane|eapply jstep_sane; eauto]. Qed.

  (** Every step uses up some of a finite budget. *)
  Definition budget_of (w : wpc A) : nat := match w with Check => 5 | Want => 4 | Held => 3 | Front => 2 | Popped _ => 8 | Joining _ => 7 | Stopped => 0 end.
  Definition budget (s : jstate A) : nat := (list_sum (map budget_of (j_workers s)) + 10 * length (j_queue s))%nat.
  Lemma jstep_budget s t : jstep s t -> (budget t < budget s)%nat.
  Proof.
    intros E. unfold budget. destruct E; cbn [j_queue j_workers]; rewrite !map_app, !list_sum_app; cbn [map list_sum fold_right budget_of length]; lia.
  Qed.

  (** Some worker can always move, unless all have stopped. *)
  Lemma jstep_progress pairs n s : sane pairs n s -> Forall (fun w => w = Stopped) (j_workers s) \/ exists t, jstep s t.
  Proof.
    intros [P [L [H [St Fr]]]]. destruct s as [q ws log]. cbn [j_queue j_workers j_joined] in *.
    destruct (existsb holds_lock ws) eqn:El.
    - right. apply existsb_exists in El as [w [Hw Eh]]. assert (Hw' := Hw). apply in_split in Hw as [a [b ->]].
      destruct w; try discriminate.
      + destruct q as [|x q]; eexists; constructor.
      + destruct q as [|x q]; [exfalso; now apply (Fr Hw')|]. eexists; constructor.
      + eexists; constructor.
    - assert (G : Forall (fun w => w = Stopped) ws \/ exists w, In w ws /\ w <> Stopped).
      { clear. induction ws as [|w r IH]; [left; constructor|]. destruct w as [ | | | |x|x| ];
          try (right; eexists; split; [now left|discriminate]).
        destruct IH as [IH|[w [Hw D]]]; [left; constructor; auto|right; exists w; split; [now right|exact D]]. }
      destruct G as [G|[w [Hw D]]]; [left; exact G|right].
      assert (Hl : holds_lock w = false).
      { destruct (holds_lock w) eqn:E; [|reflexivity]. assert (existsb holds_lock ws = true) by (apply existsb_exists; eauto). congruence. }
      apply in_split in Hw as [a [b ->]]. destruct w as [ | | | |x|x| ]; try discriminate; try congruence.
      + destruct q as [|x q]; eexists; constructor.
      + eexists. apply j_lock. unfold lock_free. now rewrite El.
      + eexists. constructor.
  Qed.

  Lemma all_stopped pairs n s : sane pairs n s -> (0 < n)%nat -> Forall (fun w => w = Stopped) (j_workers s) ->
    Permutation (j_joined s) pairs /\ j_queue s = [].
  Proof.
    intros [P [L [H [St Fr]]]] Hn F.
    assert (Q : j_queue s = []).
    { apply St. destruct (j_workers s) as [|w r]; [cbn in L; lia|]. inversion F; subst. now left. }
    split; [|exact Q]. rewrite Q in P.
    assert (E : hands (j_workers s) = []).
    { clear - F. unfold hands. induction F as [|w r -> F IH]; [reflexivity|exact IH]. }
    rewrite E, !app_nil_r in P. exact P.
  Qed.
End Queue.

(** The voxels of the map, whatever the sizes. *)
Lemma layout_keys wrap size pairs : NoDup (keys (fst (layout wrap size pairs))) /\
  forall v, In v (keys (fst (layout wrap size pairs))) <-> exists p, In p pairs /\ (v = fst p \/ v = snd p).
Proof.
  assert (St : forall s v, NoDup (keys (fst s)) -> NoDup (keys (fst (add_voxel wrap size s v))) /\
    forall w, In w (keys (fst (add_voxel wrap size s v))) <-> In w (keys (fst s)) \/ w = v).
  { intros s v N. unfold add_voxel. destruct (vfind v (fst s)) as [x|] eqn:E.
    - split; [exact N|]. intros w. split; [now left|]. intros [H| ->]; [exact H|].
      destruct (in_dec Nat.eq_dec v (keys (fst s))) as [H|H]; [exact H|]. apply vfind_none in H. congruence.
    - apply vfind_none in E. cbn [fst]. unfold keys in *. rewrite map_app. cbn [map fst]. split.
      + apply (Permutation_NoDup (l := v :: map fst (fst s))); [apply Permutation_cons_append|constructor; assumption].
      + intros w. rewrite in_app_iff. cbn [In]. intuition. }
  assert (G : forall pairs s, NoDup (keys (fst s)) ->
    NoDup (keys (fst (fold_left (fun s p => add_voxel wrap size (add_voxel wrap size s (fst p)) (snd p)) pairs s))) /\
    forall v, In v (keys (fst (fold_left (fun s p => add_voxel wrap size (add_voxel wrap size s (fst p)) (snd p)) pairs s))) <->
      In v (keys (fst s)) \/ exists p, In p pairs /\ (v = fst p \/ v = snd p)).
  { induction pairs0 as [|p r IH]; intros s N; cbn [fold_left].
    - split; [exact N|]. intros v. split; [now left|]. intros [H|[p [[] _]]]; exact H.
    - destruct (St s (fst p) N) as [N1 K1]. destruct (St _ (snd p) N1) as [N2 K2]. destruct (IH _ N2) as [N3 K3].
      split; [exact N3|]. intros v. rewrite K3, K2, K1. split.
      + intros [[[H|H]|H]|[q [Hq E]]]; [now left|right; exists p; split; [now left|auto]|right; exists p; split; [now left|auto]|right; exists q; split; [now right|exact E]].
      + intros [H|[q [[<-|Hq] [E|E]]]]; auto; right; exists q; auto. }
  destruct (G pairs ([], 0) (NoDup_nil _)) as [N K]. split; [exact N|]. intros v. unfold layout. rewrite K. cbn [fst keys map In].
  split; [intros [[]|H]; exact H|now right].
Qed.
Lemma total_perm size a b : Permutation a b -> total size a = total size b.
Proof. intros P. induction P; cbn [total]; lia. Qed.
