(** C155 for a decoder made for a percentage (spatial_common.cpp:149-155): which headers it opens, and
    how many rounds it then decodes. *)
From Coq Require Import List ZArith Bool Arith Lia.
From Verif Require Import Arr BitsModel LodModel PipeModel ProgModel.
Import ListNotations.
Open Scope Z_scope.

(** The least number of rounds that is [lod] per cent of [n]. *)
Definition enough (n lod level : Z) : Prop := lod * n <= 100 * level /\ (level = 0 \/ 100 * (level - 1) < lod * n).

Section At.
  Variables (n lod level : Z) (Hn : 0 < n) (Hl : 0 <= level) (E : enough n lod level).
  Lemma not_yet c : 0 <= c < level -> stop n c lod = false.
  Proof. intros H. unfold stop. destruct (Z.eqb_spec n 0); [lia|]. apply Z.leb_gt. destruct E as [_ [A|A]]; lia. Qed.
  Lemma reached : stop n level lod = true.
  Proof. unfold stop. destruct (Z.eqb_spec n 0); [lia|]. apply Z.leb_le. apply E. Qed.

  Notation B := (batchOperation (stop n)).
  Lemma batch1 c : 0 <= c < level -> B (Lod Idle c false lod) = Lod UndecimationConquest c false lod.
  Proof. intros H. unfold batchOperation. cbn [l_done l_op l_cur l_pct]. rewrite not_yet by exact H. reflexivity. Qed.
  Lemma batch2 c : B (Lod UndecimationConquest c false lod) = Lod InsertedEdgeDecoding c false lod.
  Proof. reflexivity. Qed.
  Lemma batch3 c : B (Lod InsertedEdgeDecoding c false lod) = Lod Idle (c + 1) false lod.
  Proof. reflexivity. Qed.
  Lemma batch4 : B (Lod Idle level false lod) = Lod Idle level true lod.
  Proof. unfold batchOperation. cbn [l_done l_op l_cur l_pct]. rewrite reached. reflexivity. Qed.
  Lemma batch5 : B (Lod Idle level true lod) = Lod Idle level true lod.
  Proof. reflexivity. Qed.
  Lemma first_step fuel s nc : first_convex (stop n) fuel s nc = if l_cur s <? nc then match fuel with O => None | S f => first_convex (stop n) f (B s) nc end else Some s.
  Proof. destruct fuel; reflexivity. Qed.
  Lemma complete_step fuel s : completeOperation (stop n) fuel s = if l_done s then Some s else match fuel with O => None | S f => completeOperation (stop n) f (B s) end.
  Proof. destruct fuel; reflexivity. Qed.

  Lemma to_convex nc : nc <= level -> forall k fuel, Z.of_nat k <= nc -> (3 * k <= fuel)%nat -> first_convex (stop n) fuel (Lod Idle (nc - Z.of_nat k) false lod) nc = Some (Lod Idle nc false lod).
  Proof.
    intros H. induction k as [|k IH]; intros fuel KN F.
    - replace (nc - Z.of_nat 0) with nc by lia. rewrite first_step. cbn [l_cur]. rewrite Z.ltb_irrefl. reflexivity.
    - destruct fuel as [|[|[|f]]]; try lia.
      assert (L : nc - Z.of_nat (S k) <? nc = true) by (apply Z.ltb_lt; lia).
      rewrite first_step. cbn [l_cur]. rewrite L, batch1 by lia. rewrite first_step. cbn [l_cur]. rewrite L, batch2. rewrite first_step. cbn [l_cur]. rewrite L, batch3.
      replace (nc - Z.of_nat (S k) + 1) with (nc - Z.of_nat k) by lia. apply IH; lia.
  Qed.
  Lemma complete_idle : forall k fuel, Z.of_nat k <= level -> (3 * k < fuel)%nat -> completeOperation (stop n) fuel (Lod Idle (level - Z.of_nat k) false lod) = Some (Lod Idle level true lod).
  Proof.
    induction k as [|k IH]; intros fuel K F.
    - replace (level - Z.of_nat 0) with level by lia. destruct fuel as [|f]; [lia|]. rewrite complete_step. cbn [l_done]. rewrite batch4, complete_step. reflexivity.
    - destruct fuel as [|[|[|f]]]; try lia. rewrite complete_step. cbn [l_done]. rewrite batch1 by lia. rewrite complete_step. cbn [l_done]. rewrite batch2, complete_step. cbn [l_done]. rewrite batch3.
      replace (level - Z.of_nat (S k) + 1) with (level - Z.of_nat k) by lia. apply IH; lia.
  Qed.
  Lemma complete_any fuel s : (s = Lod Idle level true lod \/ exists k, Z.of_nat k <= level /\ (s = Lod Idle (level - Z.of_nat k) false lod \/ s = Lod UndecimationConquest (level - Z.of_nat (S k)) false lod)) ->
    (3 * Z.to_nat level + 3 < fuel)%nat -> completeOperation (stop n) fuel s = Some (Lod Idle level true lod).
  Proof.
    intros [-> |(k & K & [-> | ->])] F; [rewrite complete_step; reflexivity|apply complete_idle; lia|].
    destruct fuel as [|[|f]]; try lia. rewrite complete_step. cbn [l_done]. rewrite batch2, complete_step. cbn [l_done]. rewrite batch3.
    replace (level - Z.of_nat (S k) + 1) with (level - Z.of_nat k) by lia. apply complete_idle; lia.
  Qed.
  (** Once done, the state stays. *)
  Lemma stuck nc fuel : level < nc -> first_convex (stop n) fuel (Lod Idle level true lod) nc = None.
  Proof.
    intros H. assert (L : level <? nc = true) by (apply Z.ltb_lt; lia). induction fuel as [|f IH]; rewrite first_step; cbn [l_cur]; rewrite L; [reflexivity|]. rewrite batch5. exact IH.
  Qed.
  Lemma never nc : level < nc -> forall k fuel, Z.of_nat k <= level -> first_convex (stop n) fuel (Lod Idle (level - Z.of_nat k) false lod) nc = None.
  Proof.
    intros H. induction k as [|k IH]; intros fuel K.
    - replace (level - Z.of_nat 0) with level by lia. rewrite first_step. cbn [l_cur]. destruct (level <? nc) eqn:L; [|apply Z.ltb_ge in L; lia]. destruct fuel as [|f]; [reflexivity|]. rewrite batch4. apply stuck. exact H.
    - assert (L : level - Z.of_nat (S k) <? nc = true) by (apply Z.ltb_lt; lia).
      rewrite first_step. cbn [l_cur]. rewrite L. destruct fuel as [|f]; [reflexivity|]. rewrite batch1 by lia.
      rewrite first_step. cbn [l_cur]. rewrite L. destruct f as [|f]; [reflexivity|]. rewrite batch2.
      rewrite first_step. cbn [l_cur]. rewrite L. destruct f as [|f]; [reflexivity|]. rewrite batch3.
      replace (level - Z.of_nat (S k) + 1) with (level - Z.of_nat k) by lia. apply IH. lia.
  Qed.
End At.

(** The constructor gets past the header exactly if the level it names is not below the number of
    rounds, or not above the number of rounds [lod] per cent are; decoding then ends after exactly that
    number of rounds. *)
Theorem header_opens_at : forall r lod level, 0 <= r_notconvex r -> 0 < r_nquant r + r_rounds r -> 0 <= level -> enough (r_nquant r + r_rounds r) lod level ->
  let test := stop (r_nquant r + r_rounds r) in
  (r_rounds r <= r_notconvex r \/ r_notconvex r <= level -> forall fuel, (3 * Z.to_nat level + 3 < fuel)%nat ->
     exists s, construct_at fuel test lod r = Some s /\ completeOperation test fuel s = Some (Lod Idle level true lod)) /\
  (level < r_notconvex r < r_rounds r -> forall fuel, construct_at fuel test lod r = None).
Proof.
  intros r lod level Hc Hn Hl E test. unfold test. unfold construct_at. split.
  - intros H fuel F. destruct (Z.ltb_spec (r_notconvex r) (r_rounds r)) as [L|L].
    + assert (NC : r_notconvex r <= level) by lia.
      pose proof (to_convex _ _ level Hn E (r_notconvex r) NC (Z.to_nat (r_notconvex r)) fuel ltac:(lia) ltac:(lia)) as T.
      replace (r_notconvex r - Z.of_nat (Z.to_nat (r_notconvex r))) with 0 in T by lia. rewrite T. cbn [bind].
      eexists. split; [reflexivity|]. apply complete_any; auto.
      unfold batchOperation. cbn [l_done l_op l_cur l_pct]. destruct (Z.eq_dec (r_notconvex r) level) as [-> |N].
        { rewrite (reached _ _ _ Hn E). left. reflexivity. }
        { rewrite (not_yet _ _ _ Hn E) by lia. right. exists (Z.to_nat (level - r_notconvex r - 1)). split; [lia|right]. f_equal. lia. }
    + exists (Lod Idle 0 false lod). split; [reflexivity|]. apply complete_any; auto. right. exists (Z.to_nat level). split; [lia|left]. f_equal. lia.
  - intros H fuel. destruct (Z.ltb_spec (r_notconvex r) (r_rounds r)) as [L|L]; [|lia].
    pose proof (never _ _ level Hn E (r_notconvex r) ltac:(lia) (Z.to_nat level) fuel ltac:(lia)) as T. replace (level - Z.of_nat (Z.to_nat level)) with 0 in T by lia. rewrite T. reflexivity.
Qed.
Print Assumptions header_opens_at.
(** Ten rounds, the fourth level not convex: at half way it opens and five rounds are decoded; at 30 per
    cent it does not. *)
Definition ten_rounds : rbase := RBase (0, 0, 0) 0 4 10 0 4 [] [].
Example header_opens_at_nonvacuous : enough 10 50 5 /\ enough 10 30 3 /\ r_notconvex ten_rounds = 4 /\ r_rounds ten_rounds = 10 /\
  construct_at 30 (stop 10) 50 ten_rounds = Some (Lod UndecimationConquest 4 false 50) /\ construct_at 30 (stop 10) 30 ten_rounds = None.
Proof. unfold enough. repeat split; try lia; reflexivity. Qed.
