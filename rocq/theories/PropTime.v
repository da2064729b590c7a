(** C180 and C181: the times a join reports. *)
From Coq Require Import QArith List Bool Lqa.
From Verif Require Import JoinerModel TimeModel.
Import ListNotations.
Open Scope Q_scope.

(** All durations are at least 0. *)
Definition level_ok (l : level) : Prop :=
  0 <= l_dec l /\ 0 <= l_pre l /\ 0 <= l_pack l /\ 0 <= l_comp l /\ 0 <= l_upd l /\ 0 <= l_rest l /\ 0 <= l_log1 l /\ 0 <= l_log2 l /\ 0 <= l_log3 l /\ 0 <= l_log4 l.
Definition join_ok (j : times_of_join) : Prop := 0 <= j_gap j /\ 0 <= j_filter j /\ 0 <= j_log j /\ 0 <= j_end j /\ Forall level_ok (j_levels j).

Ltac six s := let a := fresh "a" in let b := fresh "b" in let c := fresh "c" in let d := fresh "d" in let e := fresh "e" in let f := fresh "f" in
  destruct s as [|a [|b [|c [|d [|e [|f [|]]]]]]]; try contradiction.

(** Between levels: how much is accounted for. *)
Definition account (k : Q -> Q -> Q -> Q -> Q -> Q) (s : tstate) (bound : Q) : Prop :=
  match s_times s with
  | [i; d; p; c; u; o] => k i d p c u <= s_start s - bound /\ s_start s <= s_now s
  | _ => False
  end.
Definition five (i d p c u : Q) : Q := i + d + p + c + u.
Definition four (i d p c u : Q) : Q := i + d + c + u.
Definition packing_within (s : tstate) : Prop := match s_times s with [i; d; p; c; u; o] => p <= c | _ => False end.

Lemma intersect_levels bound ls : Forall level_ok ls -> forall s, account five s bound ->
  account five (fold_left exec (flat_map intersect_level ls) s) bound /\
  s_very (fold_left exec (flat_map intersect_level ls) s) = s_very s.
Proof.
  induction 1 as [|l ls K _ IH]; intros s A; [auto|]. cbn [flat_map]. rewrite fold_left_app.
  destruct s as [now st ve inn ts]. unfold account in A. cbn [s_times s_start s_now] in A. six ts.
  destruct K as (K1 & K2 & K3 & K4 & K5 & K6 & K7 & K8 & K9 & K10).
  set (s' := fold_left exec (intersect_level l) _). assert (A' : account five s' bound /\ s_very s' = ve).
  { unfold s', account, five in *. cbn -[Qplus Qminus Qle]. split; [lra|reflexivity]. }
  destruct A' as [A' V]. clearbody s'. destruct (IH s' A') as [X Y]. split; [exact X|]. rewrite Y. exact V.
Qed.
Lemma distance_levels bound ls : Forall level_ok ls -> forall s, account four s bound -> packing_within s ->
  account four (fold_left exec (flat_map distance_level ls) s) bound /\ packing_within (fold_left exec (flat_map distance_level ls) s) /\
  s_very (fold_left exec (flat_map distance_level ls) s) = s_very s.
Proof.
  induction 1 as [|l ls K _ IH]; intros s A P; [auto|]. cbn [flat_map]. rewrite fold_left_app.
  destruct s as [now st ve inn ts]. unfold account in A. unfold packing_within in P. cbn [s_times s_start s_now] in A, P. six ts.
  destruct K as (K1 & K2 & K3 & K4 & K5 & K6 & K7 & K8 & K9 & K10).
  set (s' := fold_left exec (distance_level l) _). assert (A' : account four s' bound /\ packing_within s' /\ s_very s' = ve).
  { unfold s', account, packing_within, four, distance_level in *. destruct (l_data l); cbn -[Qplus Qminus Qle]; (split; [lra|split; [lra|reflexivity]]). }
  destruct A' as (A' & P' & V). clearbody s'. destruct (IH s' A' P') as (X & Y & Z). split; [exact X|split; [exact Y|]]. rewrite Z. exact V.
Qed.

(** C180, one intersection join: the five parts do not exceed the whole, but for the time between the
    first two readings of the clock. *)
Definition parts5 (l : list Q) : Q := match l with [i; d; p; c; u; o] => i + d + p + c + u | _ => 0 end.
Definition whole (l : list Q) : Q := match l with [i; d; p; c; u; o] => o | _ => 0 end.
Lemma one_intersect now j : join_ok j -> let l := join_times intersect_level now j in length l = 6%nat /\ parts5 l <= whole l + j_gap j.
Proof.
  intros (G & F & L & E & K). unfold join_times, whole_join. rewrite !fold_left_app. set (s := fold_left exec [_; _; _; _; _; _; _] _).
  assert (A : account five s now /\ s_very s = now + j_gap j).
  { unfold s, account, five. cbn -[Qplus Qminus Qle]. split; [lra|reflexivity]. }
  destruct A as [A V]. destruct (intersect_levels now (j_levels j) K s A) as [B W]. set (s2 := fold_left exec (flat_map _ _) s) in *. clearbody s2 s.
  destruct s2 as [n2 st ve inn ts]. unfold account in B. cbn [s_times s_start s_now s_very] in *. six ts.
  cbn -[Qplus Qminus Qle]. split; [reflexivity|]. unfold five in B. subst ve. rewrite V. lra.
Qed.
Lemma one_distance now j : join_ok j -> let l := join_times distance_level now j in
  match l with [i; d; p; c; u; o] => i + d + c + u <= o + j_gap j /\ p <= c | _ => False end.
Proof.
  intros (G & F & L & E & K). unfold join_times, whole_join. rewrite !fold_left_app. set (s := fold_left exec [_; _; _; _; _; _; _] _).
  assert (A : account four s now /\ packing_within s /\ s_very s = now + j_gap j).
  { unfold s, account, packing_within, four. cbn -[Qplus Qminus Qle]. split; [lra|split; [lra|reflexivity]]. }
  destruct A as (A & P & V). destruct (distance_levels now (j_levels j) K s A P) as (B & P' & W). set (s2 := fold_left exec (flat_map _ _) s) in *. clearbody s2 s.
  destruct s2 as [n2 st ve inn ts]. unfold account in B. unfold packing_within in P'. cbn [s_times s_start s_now s_very] in *. six ts.
  cbn -[Qplus Qminus Qle]. unfold four in B. subst ve. rewrite V. split; lra.
Qed.

(** The numbers of a list added up. *)
Definition total (l : list Q) : Q := fold_right Qplus 0 l.
Definition gaps (js : list (Q * times_of_join)) : Q := total (map (fun x => j_gap (snd x)) js).

Lemma merged_rel (R : list Q -> Q -> Prop) lev js :
  R [0; 0; 0; 0; 0; 0] 0 -> (forall g x b c, R g b -> R x c -> R (add_times g x) (c + b)) ->
  (forall x, In x js -> R (join_times lev (fst x) (snd x)) (j_gap (snd x))) -> exists b, b == gaps js /\ R (merged lev js) b.
Proof.
  intros R0 RA RJ. unfold merged.
  assert (K : forall js g b, R g b -> (forall x, In x js -> R (join_times lev (fst x) (snd x)) (j_gap (snd x))) ->
    exists b', b' == b + gaps js /\ R (fold_left (fun g x => add_times g (join_times lev (fst x) (snd x))) js g) b').
  { clear - RA. intros js. induction js as [|x js IH]; intros g b Rg RJ; cbn [fold_left].
    - exists b. split; [unfold gaps; cbn; ring|exact Rg].
    - destruct (IH (add_times g (join_times lev (fst x) (snd x))) (j_gap (snd x) + b)) as (b' & E & X).
      + apply RA; [exact Rg|apply RJ; left; reflexivity].
      + intros y I. apply RJ. right; exact I.
      + exists b'. split; [|exact X]. rewrite E. change (gaps (x :: js)) with (j_gap (snd x) + gaps js). ring. }
  destruct (K js _ 0 R0 RJ) as (b & E & X). exists b. split; [rewrite E; ring|exact X].
Qed.

Lemma merged_intersect js : Forall (fun x => join_ok (snd x)) js ->
  match merged intersect_level js with [i; d; p; c; u; o] => i + d + p + c + u <= o + gaps js | _ => False end.
Proof.
  intros F. rewrite Forall_forall in F.
  destruct (merged_rel (fun l b => match l with [i; d; p; c; u; o] => i + d + p + c + u <= o + b | _ => False end) intersect_level js) as (b & E & X).
  - lra.
  - intros g x b c H K. six g. six x. cbn [add_times]. lra.
  - intros x I. pose proof (one_intersect (fst x) (snd x) (F x I)) as [L H]. cbv zeta in *. destruct (join_times _ _ _) as [|i [|d [|p [|c [|u [|o [|]]]]]]]; try discriminate L. exact H.
  - destruct (merged intersect_level js) as [|i [|d [|p [|c [|u [|o [|]]]]]]]; try contradiction. rewrite <- E. exact X.
Qed.
Lemma merged_distance js : Forall (fun x => join_ok (snd x)) js ->
  match merged distance_level js with [i; d; p; c; u; o] => i + d + c + u <= o + gaps js /\ p <= c | _ => False end.
Proof.
  intros F. rewrite Forall_forall in F.
  destruct (merged_rel (fun l b => match l with [i; d; p; c; u; o] => i + d + c + u <= o + b /\ p <= c | _ => False end) distance_level js) as (b & E & X).
  - split; lra.
  - intros g x b c H K. six g. six x. cbn [add_times]. lra.
  - intros x I. exact (one_distance (fst x) (snd x) (F x I)).
  - destruct (merged distance_level js) as [|i [|d [|p [|c [|u [|o [|]]]]]]]; try contradiction. rewrite <- E. exact X.
Qed.

Lemma scale t rep o x y : 0 <= t -> 0 < rep -> 0 < o -> x <= y -> t * x / o / rep <= t * y / o / rep.
Proof.
  intros T R O L. unfold Qdiv. assert (0 < / o) by (apply Qinv_lt_0_compat; exact O). assert (0 < / rep) by (apply Qinv_lt_0_compat; exact R).
  apply Qmult_le_compat_r; [|lra]. apply Qmult_le_compat_r; [|lra]. rewrite !(Qmult_comm t). apply Qmult_le_compat_r; assumption.
Qed.

(** C180, intersection joins: the three numbers of the line "analysis" add up to at most the time per
    repetition, but for the share of the time between the first two readings of the clock. *)
Theorem intersect_analysis : forall js t rep, Forall (fun x => join_ok (snd x)) js -> 0 <= t -> 0 < rep ->
  let l := merged intersect_level js in 0 < whole l ->
  total (analysis t rep l) <= t / rep * (1 + gaps js / whole l).
Proof.
  intros js t rep F T R l O. pose proof (merged_intersect js F) as M. fold l in M. unfold whole in *.
  destruct l as [|i [|d [|p [|c [|u [|o [|]]]]]]]; try contradiction. cbn [analysis total fold_right].
  assert (E1 : t * i / o / rep + (t * d / o / rep + (t * (c + p + u) / o / rep + 0)) == t * (i + d + p + c + u) / o / rep) by (field; split; lra).
  assert (E2 : t / rep * (1 + gaps js / o) == t * (o + gaps js) / o / rep) by (field; split; lra).
  rewrite E1, E2. apply scale; assumption.
Qed.
Print Assumptions intersect_analysis.
Definition sample_level : level := Level true 10 0 40 5 1 1 0 0 0 0.
Definition sample_times : times_of_join := JoinTimes 0 3 0 [sample_level; Level false 2 0 0 0 0 0 0 0 0 0; sample_level] 0.
Example intersect_analysis_nonvacuous : join_ok sample_times /\ 0 < whole (merged intersect_level [(100, sample_times); (7, sample_times)]) /\
  gaps [(100, sample_times); (7, sample_times)] == 0 /\
  map Qred (merged intersect_level [(100, sample_times); (7, sample_times)]) = [6; 46; 160; 20; 4; 238].
Proof.
  split.
  { unfold join_ok. repeat split; try (vm_compute; discriminate). repeat constructor; vm_compute; discriminate. }
  split; [vm_compute; reflexivity|]. split; vm_compute; reflexivity.
Qed.

(** C180 is false for within and nearest-neighbour joins: packing is measured within the time of the
    computation and added to it, so the three numbers can add up to 1.6 times the time that was needed. *)
Theorem distance_analysis_refuted : exists js t rep, Forall (fun x => join_ok (snd x)) js /\ 0 <= t /\ 0 < rep /\ gaps js == 0 /\
  0 < whole (merged distance_level js) /\ (8 # 5) * (t / rep) < total (analysis t rep (merged distance_level js)).
Proof.
  exists [(100, sample_times); (7, sample_times)], 1000, 2.
  split. { destruct intersect_analysis_nonvacuous as [K _]. constructor; [exact K|constructor; [exact K|constructor]]. }
  split; [lra|]. split; [lra|]. split; [vm_compute; reflexivity|]. split; vm_compute; reflexivity.
Qed.
Print Assumptions distance_analysis_refuted.

(** C180 for those joins: without the packing time the numbers add up to at most the whole, and the
    packing time is at most the computation time. *)
Theorem distance_analysis_partial : forall js t rep, Forall (fun x => join_ok (snd x)) js -> 0 <= t -> 0 < rep ->
  let l := merged distance_level js in 0 < whole l ->
  total (analysis t rep l) <= 2 * (t / rep * (1 + gaps js / whole l)) /\
  match l with [i; d; p; c; u; o] => i + d + c + u <= o + gaps js /\ p <= c | _ => False end.
Proof.
  intros js t rep F T R l O. pose proof (merged_distance js F) as M. fold l in M. unfold whole in *.
  assert (NN : 0 <= match l with [i; d; p; c; u; o] => i | _ => 0 end /\ 0 <= match l with [i; d; p; c; u; o] => d | _ => 0 end /\ 0 <= match l with [i; d; p; c; u; o] => u | _ => 0 end).
  { destruct (merged_rel (fun l _ => match l with [i; d; p; c; u; o] => 0 <= i /\ 0 <= d /\ 0 <= u | _ => False end) distance_level js) as (b & _ & X).
    - lra.
    - intros g x b c H K. six g. six x. cbn [add_times]. lra.
    - intros x I. rewrite Forall_forall in F. destruct (F x I) as (G & Fi & L & E & K). unfold join_times, whole_join. rewrite !fold_left_app.
      set (s := fold_left exec [_; _; _; _; _; _; _] _).
      assert (A : match s_times s with [i; d; p; c; u; o] => 0 <= i /\ 0 <= d /\ 0 <= u | _ => False end /\ s_start s <= s_now s).
      { unfold s. cbn -[Qplus Qminus Qle]. split; lra. }
      assert (B : forall ls s, Forall level_ok ls -> match s_times s with [i; d; p; c; u; o] => 0 <= i /\ 0 <= d /\ 0 <= u | _ => False end /\ s_start s <= s_now s ->
        match s_times (fold_left exec (flat_map distance_level ls) s) with [i; d; p; c; u; o] => 0 <= i /\ 0 <= d /\ 0 <= u | _ => False end).
      { clear. intros ls. induction ls as [|l ls IH]; intros s K [A B]; [exact A|]. cbn [flat_map]. rewrite fold_left_app.
        inversion K as [|? ? K1 K2]; subst. destruct s as [now st ve inn ts]. cbn [s_times s_start s_now] in *. six ts.
        destruct K1 as (H1 & H2 & H3 & H4 & H5 & H6 & H7 & H8 & H9 & H10). apply IH; [exact K2|]. unfold distance_level.
        destruct (l_data l); cbn -[Qplus Qminus Qle]; split; lra. }
      specialize (B (j_levels (snd x)) s K A). set (s2 := fold_left exec (flat_map _ _) s) in *. clearbody s2. destruct s2 as [n2 st ve inn ts]. cbn [s_times] in B.
      six ts. cbn -[Qplus Qminus Qle]. exact B.
    - fold l in X. destruct l as [|i [|d [|p [|c [|u [|o [|]]]]]]]; try contradiction. exact X. }
  destruct l as [|i [|d [|p [|c [|u [|o [|]]]]]]]; try contradiction. split; [|exact M]. cbn [analysis total fold_right].
  assert (E1 : t * i / o / rep + (t * d / o / rep + (t * (c + p + u) / o / rep + 0)) == t * (i + d + p + c + u) / o / rep) by (field; split; lra).
  assert (E2 : 2 * (t / rep * (1 + gaps js / o)) == t * (2 * (o + gaps js)) / o / rep) by (field; split; lra).
  rewrite E1, E2. apply scale; try assumption. lra.
Qed.
Print Assumptions distance_analysis_partial.

(** C181: index, decode, computation and other add up to the total. *)
Theorem report_adds_up : forall t i d p c u o, ~ o == 0 ->
  match report t [i; d; p; c; u; o] with
  | [tot; ri; rd; rp; rc; ru; rest] => tot == t /\ ri + rd + rc + rest == tot
  | _ => False
  end.
Proof. intros. cbn [report]. split; [reflexivity|]. field. assumption. Qed.
Print Assumptions report_adds_up.
Example report_adds_up_nonvacuous : map Qred (report 238 (merged intersect_level [(100, sample_times); (7, sample_times)])) = [238; 6; 46; 160; 20; 4; 166].
Proof. vm_compute. reflexivity. Qed.

(** C181 is false of all six parts: packing and updatelist count as other too. *)
Theorem report_parts_refuted : exists js t, Forall (fun x => join_ok (snd x)) js /\ gaps js == 0 /\
  match report t (merged intersect_level js) with
  | [tot; ri; rd; rp; rc; ru; rest] => 0 < tot /\ (3 # 2) * tot < ri + rd + rp + rc + ru + rest
  | _ => False
  end.
Proof.
  exists [(100, sample_times); (7, sample_times)], 238.
  split. { destruct intersect_analysis_nonvacuous as [K _]. constructor; [exact K|constructor; [exact K|constructor]]. }
  split; [vm_compute; reflexivity|]. vm_compute. split; reflexivity.
Qed.
Print Assumptions report_parts_refuted.
