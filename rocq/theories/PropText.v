(** Text output: numbers, WKT and the program towkt.  The reader is that of TextSpec. *)
From Coq Require Import String Ascii List ZArith QArith Qabs Bool Lia Lqa.
From Verif Require Import Arr TextModel TextSpec TextProofs.
Import ListNotations.
Open Scope list_scope.
Open Scope Q_scope.

(** ** C133: a printed number is the best one with the digits of the stream *)
Theorem text_number_nearest : forall p v, (1 <= p)%nat -> ordinary v ->
  exists w, read_number (general p v) = Some w /\ nearest p v w.
Proof. exact general_read. Qed.
Print Assumptions text_number_nearest.

(** Numbers with few digits are not changed, and no number is changed by more than five units of the
    next digit. *)
Theorem text_number_close : forall p v w, (1 <= p)%nat -> ordinary v -> read_number (general p v) = Some w ->
  (few_digits p v -> w == v) /\ Qabs (w - v) <= (1 # 2) * 10 ^ (1 - Z.of_nat p) * Qabs v.
Proof.
  intros p v w Hp Ho R. destruct (general_read p v Hp Ho) as (w' & R' & N). rewrite R in R'. injection R' as <-.
  split; [|apply nearest_error; assumption].
  intros F. destruct N as [_ N]. specialize (N v F).
  assert (Z0 : Qabs (v - v) == 0) by (setoid_replace (v - v) with 0 by ring; reflexivity).
  rewrite Z0 in N. apply Qabs_Qle_condition in N. lra.
Qed.
Print Assumptions text_number_close.

Example text_number_sample :
  ordinary (1234567 # 8) /\ string_of_list_ascii (general 6 (1234567 # 8)) = "154321"%string /\
  string_of_list_ascii (general 6 (-1 # 300000)) = "-3.33333e-06"%string /\ few_digits 6 (5 # 2).
Proof.
  split; [right; split; vm_compute; congruence|]. split; [vm_compute; reflexivity|]. split; [vm_compute; reflexivity|].
  exists 25%Z, (-1)%Z. split; reflexivity.
Qed.

(** ** C134: the lines of towkt describe the objects, in order *)
Theorem towkt_reads_back : forall os, Forall (Forall face_ok) os ->
  exists rows, read_lines (towkt 0 os) = Some rows /\ map fst rows = map Z.of_nat (seq 0 (length os)) /\
    Forall2 row_of os rows.
Proof. exact towkt_read. Qed.
Print Assumptions towkt_reads_back.

(** polyhedron_to_wkt: the same with ten digits; a newline follows. *)
Theorem polyhedron_wkt_reads_back : forall fs, Forall face_ok fs ->
  exists rings, read_wkt (removelast (polyhedron_to_wkt fs)) = Some rings /\ Forall2 (ring_of 10) fs rings.
Proof.
  intros fs H. unfold polyhedron_to_wkt. rewrite !app_assoc, removelast_last, <- app_assoc.
  apply (wkt_read 10 fs); [lia | exact H].
Qed.
Print Assumptions polyhedron_wkt_reads_back.

(** A tetrahedron with a corner at (1/3, 0, -2). *)
Definition tetra : list (list point) :=
  let a := (1 # 3, 0, - (2)) in let b := (1, 0, 0) in let c := (0, 1, 0) in let d := (0, 0, 1) in
  [[a; b; c]; [a; c; d]; [a; d; b]; [b; d; c]].
Example towkt_sample : Forall (Forall face_ok) [tetra; tetra] /\
  string_of_list_ascii (to_wkt (firstn 1 tetra)) = "POLYHEDRALSURFACE Z (((0.333333 0 -2,1 0 0,0 1 0,0.333333 0 -2)))"%string.
Proof.
  split; [|vm_compute; reflexivity].
  assert (O : forall q, Qeq_bool q 0 || (Qle_bool (10 ^ (-99)) (Qabs q) && negb (Qle_bool (10 ^ 99) (Qabs q))) = true -> ordinary q).
  { intros q H. apply orb_prop in H. destruct H as [H|H]; [left; apply Qeq_bool_iff, H|right].
    apply andb_prop in H. destruct H as [H1 H2]. split; [apply Qle_bool_iff, H1|].
    apply Qnot_le_lt. intros C. apply Qle_bool_iff in C. rewrite C in H2. discriminate H2. }
  assert (T : Forall face_ok tetra).
  { unfold tetra. repeat (apply Forall_cons; [split; [discriminate|]; repeat (apply Forall_cons; [unfold ordinary_point; split; [|split]; apply O; vm_compute; reflexivity|]); apply Forall_nil|]). apply Forall_nil. }
  constructor; [exact T|]. constructor; [exact T|constructor].
Qed.

(** ** C135: points that differ are not kept apart by six digits *)
Theorem text_apart_refuted : exists (a b c q : point),
  NoDup [a; b; c] /\ read_wkt (to_wkt [[a; b; c]]) = Some [[q; q; q; q]].
Proof.
  exists (2000001, 2000000, 2000000), (2000000, 2000001, 2000000), (2000000, 2000000, 2000001), (inject_Z 2 * 10 ^ 6, inject_Z 2 * 10 ^ 6, inject_Z 2 * 10 ^ 6).
  split; [|vm_compute; reflexivity].
  repeat constructor; cbn; intros H; repeat (destruct H as [H|H]); (discriminate H || exact H).
Qed.
Print Assumptions text_apart_refuted.

(** Smaller numbers never come out larger, and numbers that differ by more than a hundred-thousandth
    of their size stay different. *)
Theorem text_apart_partial : forall v v' w w', ordinary v -> ordinary v' ->
  read_number (general 6 v) = Some w -> read_number (general 6 v') = Some w' -> v < v' ->
  w <= w' /\ ((1 # 200000) * (Qabs v + Qabs v') < v' - v -> w < w').
Proof.
  intros v v' w w' O O' R R' L. split.
  - destruct (general_read 6 v ltac:(lia) O) as (u & Ru & [F N]). rewrite R in Ru. injection Ru as <-.
    destruct (general_read 6 v' ltac:(lia) O') as (u' & Ru' & [F' N']). rewrite R' in Ru'. injection Ru' as <-.
    specialize (N w' F'). specialize (N' w F). apply Qnot_lt_le. intros C.
    revert N N'. apply Qabs_case; intros; revert N; apply Qabs_case; intros; revert N'; apply Qabs_case; intros; revert N'; apply Qabs_case; intros; lra.
  - intros H. pose proof (proj2 (text_number_close 6 v w ltac:(lia) O R)) as B.
    pose proof (proj2 (text_number_close 6 v' w' ltac:(lia) O' R')) as B'.
    assert (E : (1 # 2) * 10 ^ (1 - Z.of_nat 6) == 1 # 200000) by reflexivity.
    rewrite E in B, B'. apply Qabs_Qle_condition in B, B'. lra.
Qed.
Print Assumptions text_apart_partial.

Example text_apart_sample : ordinary 100 /\ ordinary (10001 # 100) /\ 100 < (10001 # 100) /\
  (1 # 200000) * (Qabs 100 + Qabs (10001 # 100)) < (10001 # 100) - 100.
Proof. repeat split; (right; split; vm_compute; congruence) || (vm_compute; congruence). Qed.
