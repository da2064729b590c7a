(** C51: extracting voxels from sampled lines (/repo/src/partition/partition.cpp:31-146). *)
From Coq Require Import List Bool Arith Lia Permutation.
From Verif Require Import Arr CompressProofs SampleModel SampleProofs.
Import ListNotations.

(** Spec: the lines the sampling selects, in the order of the files. *)
Definition sampled {A} (input : list (A * bool)) : list A := flat_map (fun p : A * bool => if snd p then [fst p] else []) input.
Lemma sampled_kept {A} (input : list (A * bool)) : kept input = sampled input.
Proof. unfold kept, sampled. induction input as [|[a []] r IH]; cbn; [reflexivity| |exact IH]. rewrite <- IH. reflexivity. Qed.
Lemma threads_kept {A V} (box : A -> list V) n g g' : ssteps box n g g' -> length (r_us g') = length (r_us g).
Proof. induction 1 as [|g g1 g2 St _ IH]; [reflexivity|]. rewrite IH. destruct St as [x y M|]; [destruct M; reflexivity|]. cbn. apply upd_length. Qed.

(** Not every sampled line is processed: with a single line the program ends, and can only end, with no voxel. *)
Theorem sampling_complete_refuted : exists (A V : Type) (box : A -> list V) (n : nat) (input : list (A * bool)) g,
  0 < n /\ ssteps box n (sinit input n) g /\ sfinal g /\ flat_map box (sampled input) <> [] /\ ~ Permutation (r_out g) (flat_map box (sampled input)).
Proof.
  set (box := fun a : nat => [a]). exists nat, nat, box, 1, [(7, true)].
  assert (S0 : ssane box [(7, true)] (sinit [(7, true)] 1)) by apply sinit_sane.
  destruct (sample_can_end box 1 [(7, true)] (sinit [(7, true)] 1) S0 ltac:(cbn; lia)) as [g [Rg F]]. exists g.
  split; [lia|]. split; [exact Rg|]. split; [exact F|]. split; [discriminate|]. intros P.
  assert (X : Permutation (r_out g) (flat_map box (firstn (length (kept [(7, true)]) / local_queue * local_queue) (kept [(7, true)])))).
  { apply sample_final; [eapply ssteps_sane; eauto|exact F|]. intros E. pose proof (threads_kept _ _ _ _ Rg) as L. rewrite E in L. discriminate. }
  rewrite P in X. apply Permutation_sym, Permutation_nil in X. discriminate.
Qed.
Print Assumptions sampling_complete_refuted.

(** What holds for every input and interleaving: the sampled lines in complete groups of ten, from the first on,
    are processed, each exactly once; the rest is not. *)
Theorem sampling_groups_partial : forall {A V : Type} (box : A -> list V) (n : nat) (input : list (A * bool)) g,
  0 < n -> ssteps box n (sinit input n) g -> sfinal g ->
  Permutation (r_out g) (flat_map box (firstn (length (sampled input) / 10 * 10) (sampled input))).
Proof.
  intros A V box n input g N R F. rewrite <- sampled_kept. apply sample_final; [eapply ssteps_sane; [exact R|apply sinit_sane]|exact F|].
  intros E. pose proof (threads_kept _ _ _ _ R) as L. rewrite E in L. cbn in L. rewrite repeat_length in L. lia.
Qed.
Print Assumptions sampling_groups_partial.

(** So nothing is lost exactly when the number of sampled lines is a multiple of ten. *)
Theorem sampling_multiple_of_ten : forall {A V : Type} (box : A -> list V) (n : nat) (input : list (A * bool)) g,
  0 < n -> ssteps box n (sinit input n) g -> sfinal g -> length (sampled input) mod 10 = 0 -> Permutation (r_out g) (flat_map box (sampled input)).
Proof.
  intros A V box n input g N R F M. rewrite (sampling_groups_partial box n input g N R F). pose proof (Nat.div_mod (length (sampled input)) 10 ltac:(lia)) as D.
  replace (length (sampled input) / 10 * 10) with (length (sampled input)) by lia. rewrite firstn_all. reflexivity.
Qed.
Print Assumptions sampling_multiple_of_ten.

(** No interleaving gets stuck. *)
Theorem sampling_can_finish : forall {A V : Type} (box : A -> list V) (n : nat) (input : list (A * bool)) g,
  0 < n -> ssteps box n (sinit input n) g -> exists g', ssteps box n g g' /\ sfinal g'.
Proof.
  intros A V box n input g N R. eapply (sample_can_end box n input); [eapply ssteps_sane; [exact R|apply sinit_sane]|]. rewrite (threads_kept _ _ _ _ R). cbn. rewrite repeat_length. exact N.
Qed.
Print Assumptions sampling_can_finish.

(** 23 lines, every second one skipped but for the last three: 13 sampled lines, of which ten are processed. *)
Definition some_lines : list (nat * bool) := map (fun i => (i, Nat.even i || (20 <=? i))) (seq 0 23).
Example sampling_runs : length (sampled some_lines) = 13 /\ exists g : sstate nat nat, ssteps (fun a => [a + 100]) 3 (sinit some_lines 3) g /\ sfinal g /\ Permutation (r_out g) (map (fun i => 2 * i + 100) (seq 0 10)).
Proof.
  split; [reflexivity|]. destruct (sampling_can_finish (fun a : nat => [a + 100]) 3 some_lines (sinit some_lines 3) ltac:(lia) (ss_refl _ _ _)) as [g [R F]]. exists g. split; [exact R|]. split; [exact F|].
  exact (sampling_groups_partial (fun a : nat => [a + 100]) 3 some_lines g ltac:(lia) R F).
Qed.
Example sampling_ten : length (sampled (map (fun i => (i, true)) (seq 0 20))) mod 10 = 0. Proof. reflexivity. Qed.
