(** C13, C14, C15: quantisation and refinement. *)
From Coq Require Import QArith Qabs List ZArith Lia Lqa.
From Verif Require Import QuantModel QuantProofs LodModel LodProofs.
Import ListNotations.
Open Scope Z_scope.

(** C13.  With the step chosen for the box, every coordinate inside the box gets a grid position of
    [b] bits, moves by at most half a step, stays strictly inside the bounding cube, and is then
    left alone by further quantisation. *)
Theorem quantisation_error_bounded : forall b ranges step, 0 <= b -> determineQuantStep b ranges = Some step ->
  forall bbMin range p, In range ranges -> (bbMin <= p)%Q -> (p <= bbMin + range)%Q ->
  forall q p', quantizeCoord b bbMin step p = (q, p') ->
  0 <= q < 2 ^ b /\ (Qabs (p' - p) <= step * (1 # 2))%Q /\ (bbMin < p')%Q /\ (p' < bbMin + maxRange ranges)%Q /\
  quantizeCoord b bbMin step p' = (q, p').
Proof. exact quantisation. Qed.
Print Assumptions quantisation_error_bounded.
Example quantisation_nonvacuous :
  determineQuantStep 12 [(3 # 1); (10 # 1); (1 # 2)]%Q = Some (10 # 4096)%Q /\
  fst (quantizeCoord 12 (-(1))%Q (10 # 4096)%Q (2 # 1)%Q) = 1228 /\
  fst (quantizeCoord 12 (-(1))%Q (10 # 4096)%Q (9 # 1)%Q) = 4095.
Proof. repeat split; vm_compute; reflexivity. Qed.

(** C13, precondition: a box without extent has no usable step. *)
Theorem flat_box_not_quantisable_refuted : exists b ranges, determineQuantStep b ranges = None.
Proof. exists 12, [0; 0; 0]%Q. reflexivity. Qed.
Print Assumptions flat_box_not_quantisable_refuted.

(** C14.  Grid position -> coordinate -> grid position is the identity. *)
Theorem quantised_positions_are_fixed_points : forall bbMin step q, (0 < step)%Q -> 0 <= q ->
  getQuantizedPos bbMin step (getPos bbMin step q) = q.
Proof. exact getPos_fixed. Qed.
Print Assumptions quantised_positions_are_fixed_points.
Example fixed_points_nonvacuous : (0 < 10 # 4096)%Q /\ getQuantizedPos (-(3 # 7)) (10 # 4096) (getPos (-(3 # 7)) (10 # 4096) 2047) = 2047.
Proof. split; [reflexivity|vm_compute; reflexivity]. Qed.

(** C15.  Any sequence of requests up to level 100 terminates, ends where the single highest request
    ends, leaves the decoder at the first number of rounds satisfying the stop test, and later
    requests not above it change nothing.  For every monotone stop test, hence also for its
    floating point evaluation. *)
Theorem refining_path_independent : forall n test fuel reqs,
  good_test n test -> 0 <= n -> (3 * Z.to_nat n + 1 <= fuel)%nat -> Forall (fun r => r <= 100) reqs ->
  exists s s', advance_all test fuel fresh reqs = Some s /\ advance_to test fuel fresh (highest reqs) = Some s' /\
    l_cur s = l_cur s' /\ l_pct s = highest reqs /\ first_stop test (highest reqs) (l_cur s) /\ 0 <= l_cur s <= n /\
    forall r, r <= highest reqs -> advance_to test fuel s r = Some s.
Proof. exact path_independent. Qed.
Print Assumptions refining_path_independent.

(** C15, exact test: level [p] of an object with [n] rounds is [ceil (p n / 100)] rounds; level 100
    is all of them. *)
Theorem refining_decodes_exactly : forall n fuel reqs, 0 < n -> (3 * Z.to_nat n + 1 <= fuel)%nat ->
  Forall (fun r => r <= 100) reqs ->
  exists s, advance_all (stop n) fuel fresh reqs = Some s /\ l_cur s = (highest reqs * n + 99) / 100 /\
    (In 100 reqs -> l_cur s = n).
Proof. exact rounds_decoded. Qed.
Print Assumptions refining_decodes_exactly.
Example refining_nonvacuous :
  good_test 7 (stop 7) /\
  match advance_all (stop 7) 40 fresh [20; 10; 45; 45] with Some s => l_cur s = 4 | None => False end /\
  match advance_all (stop 7) 40 fresh [30; 100] with Some s => l_cur s = 7 | None => False end.
Proof. split; [apply stop_good; lia|]. split; vm_compute; reflexivity. Qed.

(** C15 fails for an object without rounds (nothing could be removed from it): the quotient 0/0
    compares false, and the decoder reads a round that was never written. *)
Theorem no_rounds_object_overread_refuted : exists s, advance_to (stop 0) 10 fresh 100 = Some s /\ 0 < l_cur s.
Proof. eexists. split; [reflexivity|reflexivity]. Qed.
Print Assumptions no_rounds_object_overread_refuted.

(** C15 fails for levels above 100: whatever the number of steps allowed, the decoder either is
    still running or has read beyond the last round. *)
Theorem level_above_100_overread_refuted : forall n fuel p, 0 < n -> 100 < p -> 3 * n + 1 <= Z.of_nat fuel ->
  match advance_to (stop n) fuel fresh p with Some s => n < l_cur s | None => True end.
Proof. exact above_100. Qed.
Print Assumptions level_above_100_overread_refuted.
Example above_100_nonvacuous : match advance_to (stop 5) 100 fresh 101 with Some s => l_cur s = 6 | None => False end.
Proof. vm_compute. reflexivity. Qed.

(** C15.  While completing, the batches come as whole rounds, each one undecimation batch followed by
    one edge decoding batch: [trace] records the operation each batch works on. *)
Fixpoint trace (test : Z -> Z -> bool) (fuel : nat) (s : lod) : list operation :=
  if l_done s then [] else
  match fuel with
  | O => []
  | Datatypes.S f => let s' := batchOperation test s in
      (match l_op s with Idle => [] | op => [op] end) ++ trace test f s'
  end.
Theorem refining_whole_rounds : forall n test fuel p, good_test n test -> 0 <= n -> p <= 100 -> (3 * Z.to_nat n + 1 <= fuel)%nat ->
  exists s, completeOperation test fuel (Lod Idle 0 false p) = Some s /\
    trace test fuel (Lod Idle 0 false p) = concat (repeat [UndecimationConquest; InsertedEdgeDecoding] (Z.to_nat (l_cur s))) /\ l_op s = Idle.
Proof.
  intros n test fuel p G Hn Hp Hf. destruct (first_stop_exists n test p G Hn Hp) as (k & Hk & F).
  exists (Lod Idle k true p). split; [apply (complete_up test p k F (Z.to_nat k)); lia|]. split; [|reflexivity]. cbn [l_cur].
  destruct F as [T F].
  assert (X : forall m c fuel, 0 <= c -> c + Z.of_nat m = k -> (3 * m + 1 <= fuel)%nat ->
    trace test fuel (Lod Idle c false p) = concat (repeat [UndecimationConquest; InsertedEdgeDecoding] m)).
  { induction m as [|m IH]; intros c f Hc Hk' Hf'.
    - replace c with k by lia. destruct f as [|f]; [lia|]. cbn [trace l_done]. unfold batchOperation. cbn [l_done l_op l_cur l_pct]. rewrite T. destruct f; reflexivity.
    - destruct f as [|[|[|f]]]; try lia. cbn [trace l_done].
      replace (batchOperation test (Lod Idle c false p)) with (Lod UndecimationConquest c false p)
        by (unfold batchOperation; cbn [l_done l_op l_cur l_pct]; rewrite F by lia; reflexivity).
      cbn [trace l_done l_op app].
      change (batchOperation test (Lod UndecimationConquest c false p)) with (Lod InsertedEdgeDecoding c false p). cbn [trace l_done l_op app].
      change (batchOperation test (Lod InsertedEdgeDecoding c false p)) with (Lod Idle (c + 1) false p).
      cbn [repeat concat app]. rewrite (IH (c + 1) f) by lia. reflexivity. }
  apply X; lia.
Qed.
Print Assumptions refining_whole_rounds.
Example refining_whole_rounds_nonvacuous : trace (stop 3) 10 (Lod Idle 0 false 50) = [UndecimationConquest; InsertedEdgeDecoding; UndecimationConquest; InsertedEdgeDecoding].
Proof. reflexivity. Qed.
