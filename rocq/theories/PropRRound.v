(** C68, positive part: R-trees whose volume differences are rounded work as long as all boxes lie in
    a box of volume at most 2^23 - 1. *)
From Coq Require Import List Bool Arith ZArith QArith Lia Lqa Permutation Qround.
From Verif Require Import AabModel AabProofs RTreeModel RTreeProofs RTreeIterProofs PropRTree.
Import ListNotations.
Open Scope nat_scope.

(** ** Specification *)
(** A rounding: it keeps the order, and the halves up to 2^23 are numbers it keeps (as 24 bits do,
    whatever the rounding mode). *)
Definition rounding (rnd : Q -> Q) : Prop :=
  (forall x y, x <= y -> rnd x <= rnd y)%Q /\
  forall k, (Z.abs k <= 2 ^ 24)%Z -> (rnd (k # 2) == k # 2)%Q.
(** The differences of volumes as computed: rounded. *)
Definition rounded (rnd : Q -> Q) (x y : Q) : Q := rnd (x - y)%Q.
(** The inserted boxes lie in [hull]. *)
Definition op_in {D} (hull : Rect) (o : op D) : Prop :=
  match o with Ins r _ => within_box r hull | Del _ _ => True end.

(** The same for any property of boxes kept by covers. *)
Definition op_sat {D} (P : rpred) (o : op D) : Prop :=
  match o with Ins r _ => P r | Del _ _ => True end.

(** ** Boxes in a box *)
Lemma within_length a c : within_box a c -> length a = length c.
Proof. induction 1; cbn; congruence. Qed.
Lemma within_combine c : forall a b, within_box a c -> within_box b c -> within_box (combine_rect a b) c.
Proof.
  induction c as [|[u v] c IH]; intros a b A B; inversion A as [|[x y] ? a' ? [A1 A2] A3]; inversion B as [|[x2 y2] ? b' ? [B1 B2] B3]; subst; cbn [combine_rect]; constructor; cbn [fst snd] in *; [lia|].
  apply IH; assumption.
Qed.
Definition inside_hull (hull : Rect) : rpred := {| holds := fun r => within_box r hull; kept := within_combine hull |}.

Lemma rounded_numbers rnd (va vb vu vc : Q) : rounding rnd -> (va <= vu)%Q -> (vb <= vc)%Q -> (0 <= vc)%Q -> (vc <= inject_Z (2 ^ 23 - 1))%Q ->
  Qltb (rnd (- vc - 1)%Q) (rnd (rnd (vu - va) - vb)%Q) = true.
Proof.
  intros [R1 R2] A B Pc C.
  set (k := Qfloor (2 * - vc)). assert (K1 : (inject_Z k <= 2 * - vc)%Q) by apply Qfloor_le.
  assert (K2 : (2 * - vc < inject_Z (k + 1))%Q) by apply Qlt_floor.
  assert (K3 : (- 2 ^ 24 + 2 <= k)%Z). { unfold k. rewrite <- (Qfloor_Z (- 2 ^ 24 + 2)). apply Qfloor_resp_le. cbn in C |- *. unfold inject_Z in *. lra. }
  assert (K4 : (k <= 0)%Z). { unfold k. rewrite <- (Qfloor_Z 0). apply Qfloor_resp_le. unfold inject_Z in *. lra. }
  assert (H1 : forall j, (j # 2 == inject_Z j / 2)%Q) by (intros j; unfold Qeq, inject_Z; cbn; lia).
  assert (X : (rnd (- vc - 1) <= (k - 1) # 2)%Q).
  { rewrite <- (R2 (k - 1)%Z) by lia. apply R1. rewrite H1. replace (k - 1)%Z with (k + -1)%Z by lia. rewrite inject_Z_plus in K2 |- *. change (inject_Z 1) with 1%Q in *. change (inject_Z (-1)) with (-1)%Q.
    apply Qle_shift_div_l; [reflexivity|]. lra. }
  assert (Y : ((k # 2) <= rnd (rnd (vu - va) - vb))%Q).
  { rewrite <- (R2 k) by lia. apply R1. rewrite H1. assert (Z0 : (0 <= rnd (vu - va))%Q). { assert (T : (rnd (0 # 2) == 0)%Q) by (rewrite (R2 0%Z) by lia; reflexivity). rewrite <- T. apply R1. change (0 # 2)%Q with (0 # 2)%Q. assert ((0 # 2) == 0)%Q by reflexivity. lra. }
    apply Qle_shift_div_r; [reflexivity|]. lra. }
  destruct (Qltb_spec (rnd (- vc - 1)%Q) (rnd (rnd (vu - va) - vb)%Q)) as [G|G]; [reflexivity|exfalso]. apply G.
  apply Qle_lt_trans with (1 := X). apply Qlt_le_trans with (2 := Y). unfold Qlt. cbn. lia.
Qed.
Lemma rounded_good vol rnd hull : volume_ok vol -> rounding rnd -> (vol hull <= inject_Z (2 ^ 23 - 1))%Q ->
  good_sub (inside_hull hull) vol (rounded rnd).
Proof.
  intros [P Mo] R H a b c La Lb Lc E. cbn [holds inside_hull] in *. unfold rounded.
  pose proof (within_length _ _ La) as Na. pose proof (within_length _ _ Lb) as Nb. pose proof (within_length _ _ Lc) as Nc.
  assert (A : (vol a <= vol (combine_rect a b))%Q).
  { apply Mo. apply (absorbed_within (length hull)); [exact Na|apply combine_length; assumption|]. rewrite combine_assoc, combine_idem. reflexivity. }
  assert (B : (vol b <= vol c)%Q).
  { apply Mo. apply (absorbed_within (length hull)); [exact Nb|exact Nc|]. rewrite <- E at 1. rewrite combine_assoc, (combine_comm b), <- (combine_assoc a), combine_idem. exact E. }
  assert (C : (vol c <= inject_Z (2 ^ 23 - 1))%Q) by (eapply Qle_trans; [apply Mo; exact Lc|exact H]).
  exact (rounded_numbers rnd _ _ _ _ R A B (P c) C).
Qed.

(** ** Shape *)
Lemma shaped_weaken {D} (P R : rpred) M m : (forall r, P r -> R r) -> forall h (n : item D), shaped P M m h n -> shaped R M m h n.
Proof.
  intros W. induction h as [|h IH]; intros [d|l br] S; try exact S; apply shaped_iff in S; apply shaped_iff; destruct S as (A & B & C & F); (split; [exact A|]; split; [exact B|]; split; [exact C|]);
    eapply Forall_impl; [|exact F| |exact F]; intros b (F1 & F2); (split; [exact (W _ F1)|]).
  - exact F2.
  - destruct F2 as (F2 & F3 & F4). split; [exact (IH _ F2)|]. split; assumption.
Qed.

Section Runs.
Context {D : Type}.
Variable box : rpred.
Variables M m : nat.
Variable vol : Rect -> Q.
Variable sub : Q -> Q -> Q.
Variable deqb : D -> D -> bool.
Hypothesis C : capacities M m.
Hypothesis G : good_sub box vol sub.
Notation H := box.

Lemma round_inserts (ops : list (op D)) : Forall is_ins ops -> Forall (op_sat box) ops ->
  forall root h, shaped H M m h root -> exists root' h', run M m vol sub deqb ops root = Some root' /\ shaped H M m h' root' /\
    Permutation (entries root') (inserted ops ++ entries root).
Proof.
  destruct C as (C1 & C2 & C3). intros I K. induction ops as [|o ops IH]; intros root h S.
  - exists root, h. split; [reflexivity|]. split; [exact S|reflexivity].
  - apply Forall_cons_iff in I, K. destruct I as [Io I], K as [Ko K]. destruct o as [r d|q id]; [|destruct Io].
    cbn [run inserted]. unfold Insert.
    destruct (InsertRect_ok H M m vol sub G C1 ltac:(lia) C2 0 (r, Data d) h root) as (r1 & h1 & -> & S1 & _ & _ & _ & P1); [split; [exact Ko|exists d; reflexivity]|exact S|lia|].
    destruct (IH I K r1 h1 S1) as (r2 & h2 & E2 & S2 & P2). exists r2, h2. split; [exact E2|]. split; [exact S2|].
    rewrite P2, P1. cbn [branch_entries snd fst app]. symmetry. apply Permutation_middle.
Qed.
Lemma round_history (ops : list (op D)) : 2 <= m -> Forall (op_sat box) ops ->
  forall root L, tree H M m root -> Permutation (entries root) L ->
  exists root' k L', run M m vol sub deqb ops root = Some root' /\ tree H M m root' /\ stored deqb ops L k L' /\
    Permutation (entries root') L'.
Proof.
  destruct C as (C1 & C2 & C3). intros C4 K. induction ops as [|o ops IH]; intros root L T P.
  - exists root, 0, L. split; [reflexivity|]. split; [exact T|]. split; [constructor|exact P].
  - apply Forall_cons_iff in K. destruct K as [Ko K]. destruct o as [r d|q id]; cbn [run inserted].
    + destruct (Insert_ok H M m vol sub G C4 ltac:(lia) r d root Ko T) as (r1 & -> & T1 & P1).
      destruct (IH K r1 ((r, d) :: L) T1) as (r2 & k & L' & E & T2 & St & P2); [rewrite P1, P; reflexivity|].
      exists r2, k, L'. split; [exact E|]. split; [exact T2|]. split; [constructor; exact St|exact P2].
    + destruct (Remove_ok H M m vol sub deqb G C4 ltac:(lia) q id root T) as [(-> & Ab)|(r1 & e & -> & T1 & Q & P1)].
      * destruct (IH K root L T P) as (r2 & k & L' & E & T2 & St & P2). exists r2, k, L'. split; [exact E|]. split; [exact T2|].
        split; [|exact P2]. apply st_not; [|exact St]. intros e I Me De. apply (Ab e); [|apply overlap_meets; exact Me|exact De].
        eapply Permutation_in; [symmetry; exact P|exact I].
      * assert (I : In e L) by (eapply Permutation_in; [exact P|eapply Permutation_in; [symmetry; exact P1|left; reflexivity]]).
        apply in_split in I. destruct I as (L1 & L2 & ->).
        destruct (IH K r1 (L1 ++ L2) T1) as (r2 & k & L' & E & T2 & St & P2).
        { apply (Permutation_cons_inv (a := e)). rewrite <- P1, P. symmetry. apply Permutation_middle. }
        exists r2, (S k), L'. split; [exact E|]. split; [exact T2|]. split; [apply st_del; assumption|exact P2].
Qed.
End Runs.
Lemma hull_len hull r : inside_hull hull r -> len (length hull) r.
Proof. exact (within_length r hull). Qed.
Lemma empty_hull {D} (P : rpred) M m : shaped P M m 0 (@empty D).
Proof. apply shaped_iff. cbn [length]. split; [reflexivity|]. split; [lia|]. split; [lia|constructor]. Qed.

(** ** C68 *)
(** Insertions into boxes of small volume: the tree is well shaped, counts and searches right,
    although the differences of volumes are rounded. *)
Theorem rtree_rounded_partial : forall D (hull : Rect) M m vol rnd (deqb : D -> D -> bool) ops,
  capacities M m -> volume_ok vol -> rounding rnd -> (vol hull <= inject_Z (2 ^ 23 - 1))%Q ->
  Forall is_ins ops -> Forall (op_in hull) ops ->
  exists root h, run M m vol (rounded rnd) deqb ops empty = Some root /\
    well_shaped (length hull) M m h root /\ Count root = Some (length (inserted ops)) /\
    forall q, exists found, Search (fun _ _ => true) q root = Some found /\ answers q (inserted ops) found.
Proof.
  intros D hull M m vol rnd deqb ops C V R B I K. pose proof (rounded_good vol rnd hull V R B) as G.
  destruct (round_inserts (inside_hull hull) M m vol (rounded rnd) deqb C G ops I K empty 0 (empty_hull _ M m)) as (root & h & E & S & P).
  cbn in P. rewrite app_nil_r in P. apply (shaped_weaken _ (len (length hull)) M m (hull_len hull)) in S.
  exists root, h. split; [exact E|]. split; [exact (shaped_well _ M m h root S)|].
  split; [unfold Count; rewrite (CountRec_ok _ M m h root 0 S), (Permutation_length P); reflexivity|].
  intros q. exact (search_answers _ M m h q root _ S P).
Qed.
Print Assumptions rtree_rounded_partial.
(** Any history of insertions and removals, with a minimal fill of two or more. *)
Theorem rtree_rounded_history_partial : forall D (hull : Rect) M m vol rnd (deqb : D -> D -> bool) ops,
  capacities M m -> 2 <= m -> volume_ok vol -> rounding rnd -> (vol hull <= inject_Z (2 ^ 23 - 1))%Q ->
  Forall (op_in hull) ops ->
  exists root h k L, run M m vol (rounded rnd) deqb ops empty = Some root /\
    well_shaped (length hull) M m h root /\ stored deqb ops [] k L /\ Count root = Some (length L) /\
    forall q, exists found, Search (fun _ _ => true) q root = Some found /\ answers q L found.
Proof.
  intros D hull M m vol rnd deqb ops C C2 V R B K. pose proof (rounded_good vol rnd hull V R B) as G.
  destruct (round_history (inside_hull hull) M m vol (rounded rnd) deqb C G ops C2 K empty []) as (root & k & L & E & (h & S & _) & St & P).
  { exists 0. split; [apply empty_hull|lia]. } { reflexivity. }
  apply (shaped_weaken _ (len (length hull)) M m (hull_len hull)) in S.
  exists root, h, k, L. split; [exact E|]. split; [exact (shaped_well _ M m h root S)|]. split; [exact St|].
  split; [unfold Count; rewrite (CountRec_ok _ M m h root 0 S), (Permutation_length P); reflexivity|].
  intros q. exact (search_answers _ M m h q root _ S P).
Qed.
Print Assumptions rtree_rounded_history_partial.

(** ** Examples *)
(** Rounding down to halves. *)
Definition halves (x : Q) : Q := Qfloor (2 * x) # 2.
Example halves_rounding : rounding halves.
Proof.
  split.
  - intros x y H. assert (F : (Qfloor (2 * x) <= Qfloor (2 * y))%Z) by (apply Qfloor_resp_le; lra). unfold halves, Qle. cbn [Qnum Qden]. lia.
  - intros k _. unfold halves. assert (E : Qfloor (2 * (k # 2)) = k). { rewrite <- (Qfloor_Z k) at 2. apply Qfloor_comp. unfold Qeq, Qmult, inject_Z. simpl Qnum. simpl Qden. destruct k; simpl; lia. } rewrite E. reflexivity.
Qed.
Example rtree_rounded_nonvacuous :
  capacities 8 4 /\ volume_ok RectVolume /\ (RectVolume [(0, 30); (0, 1)]%Z <= inject_Z (2 ^ 23 - 1))%Q /\
  Forall is_ins (ins_all (strip 20)) /\ Forall (op_in [(0, 30); (0, 1)]%Z) (ins_all (strip 20)).
Proof.
  split; [unfold capacities; lia|]. split; [exact RectVolume_ok|]. split; [vm_compute; discriminate|]. split; [repeat constructor|].
  repeat (constructor; [cbn; unfold within_box; repeat constructor; cbn; lia|]). constructor.
Qed.
