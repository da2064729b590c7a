(** C217: the memory of the data generator. *)
From Coq Require Import List Arith ZArith Lia Bool Permutation.
From Verif Require Import Arr TileMemModel PropTileMem PropJoinMem CompressMemModel PropCompressMem GenMemModel.
Import ListNotations.
Close Scope Z_scope.
Open Scope nat_scope.

(** * Specification: [clean] (C211) and [left_over] (C213).  What the program keeps to its end or loses: *)
(** the voxels made for a prototype and its text, *)
Definition kept_prototype (l : line) : nat := S (if l_small l then 1 else Nat.max 1 (l_points l)).
(** for each job the flags of the slots and two texts for each nucleus, *)
Definition lost_job (job : list nucleus) : nat := S (2 * length job).
(** for the file of vessels the buffer, a text for each vessel and one for the prototype, and the voxels without a vertex. *)
Definition lost_vessels (g : setting) : nat := 2 + length (g_shifted g) + lost_voxels (g_vessel2 g).
(** To these come the flags of the vessel and the second stream. *)
Definition kept (g : setting) : nat :=
  2 + kept_prototype (g_vessel g) + list_sum (map kept_prototype (g_nuclei g)) +
  list_sum (map (fun jobs => list_sum (map lost_job jobs)) (g_threads g)) + lost_vessels g.

(** * Proof *)
Ltac inl := rewrite ?map_app; cbn [map snd In]; rewrite ?in_app_iff; cbn [In]; auto 20.
Lemma holds_mesh {sc} r h R : holds sc h R -> exists m d t h', poly_to_mesh r h = (m, d, h') /\ holds sc h' ((Single, m) :: (Array, d) :: (Array, t) :: R).
Proof.
  intro H. unfold poly_to_mesh. nw H text h1 H1.
  assert (H2 : holds sc (happen (Use text) h1) ((Array, text) :: R)) by (apply holds_use; [exact H1|left; reflexivity]).
  set (h2 := happen (Use text) h1) in *. clearbody h2. nw H2 msh h3 H3. nw H3 data h4 H4.
  exists msh, data, text. eexists. split; [reflexivity|].
  eapply (holds_perm sc _ ((Array, data) :: (Single, msh) :: (Array, text) :: R)); [|perm]. apply holds_iter.
  - intros h6 H6. apply holds_encode; [exact H6|left; reflexivity].
  - apply holds_use; [apply holds_use; [exact H4|]|]; cbn [map snd In]; auto.
Qed.
Lemma holds_himesh {sc} l h R : holds sc h R -> exists m d t h', poly_to_himesh l h = (m, d, h') /\ holds sc h' ((Single, m) :: (Array, d) :: (Array, t) :: R).
Proof.
  intro H. unfold poly_to_himesh. destruct (holds_mesh (l_rounds l) h R H) as (msh & data & text & h1 & E & H1). rewrite E.
  nw H1 hm h2 H2. nw H2 codes h3 H3. exists hm, codes, text. eexists. split; [reflexivity|]. unfold delete_mymesh. apply drop, drop.
  eapply (holds_perm sc _ ((Array, codes) :: (Single, hm) :: (Single, msh) :: (Array, data) :: (Array, text) :: R)); [|perm].
  apply holds_use; [|inl]. apply holds_read; [|inl]. apply holds_use; [apply holds_use; [exact H3|]|]; inl.
Qed.
Lemma holds_delete_himesh {sc} m c s h R : holds sc h ((Single, m) :: (Array, c) :: single (opt s) ++ R) -> holds sc (delete_himesh m c s h) R.
Proof.
  intro H. unfold delete_himesh. apply drop, drop. destruct s as [s|]; cbn [opt single map app] in H.
  - apply drop. eapply holds_perm; [exact H|]. perm.
  - eapply holds_perm; [exact H|]. perm.
Qed.
Lemma new_blocks_length n : forall h, length (fst (new_blocks n h)) = n.
Proof.
  induction n as [|n IH]; intro h; [reflexivity|]. cbn [new_blocks]. unfold new. specialize (IH (Heap (New Single (fresh h) :: trace h) (S (fresh h)))).
  destruct (new_blocks n _) as [vs h1]. cbn [fst length] in *. congruence.
Qed.
(** The voxels kept and those lost. *)
Lemma count_voxels {sc} l h R : holds sc h R -> exists s vs h' lostv, make_voxels l h = (s, vs, h') /\ holds sc h' (single (opt s) ++ single vs ++ single lostv ++ R) /\
  length lostv = lost_voxels l /\ length vs + length lostv = (if l_small l then 1 else Nat.max 1 (l_points l)).
Proof.
  intro H. destruct (holds_voxels l h R H) as (s & vs & h' & lv & E & H1 & L). exists s, vs, h', lv. split; [exact E|]. split; [|split; [exact L|]].
  - unfold single in *. rewrite map_app, <- app_assoc in H1. exact H1.
  - revert E. rewrite L. unfold make_voxels, lost_voxels. destruct (l_small l); cbn [orb].
    + unfold new. intro E. injection E as _ <- _. reflexivity.
    + unfold new. set (h1 := if l_sampled l then _ else _). clearbody h1. pose proof (new_blocks_length (l_points l) h1) as N.
      destruct (new_blocks (l_points l) h1) as [us h2]. cbn [fst] in N. rewrite <- N. destruct us as [|u [|w us]]; cbn [length Nat.leb].
      * intro E. injection E as _ <- _. reflexivity.
      * intro E. injection E as _ <- _. reflexivity.
      * assert (A : 1 <= length (u :: w :: us)) by (cbn [length]; lia). change (S (S (length us))) with (length (u :: w :: us)).
        set (all := u :: w :: us) in *. clearbody all. intro E. injection E as _ <- _.
        destruct (keep_split (l_empty l) all 0) as (lv' & P & L'). apply Permutation_length in P. rewrite app_length in P. lia.
Qed.
Lemma holds_prototype {sc} l h R : holds sc h R -> exists vs h' lostb, prototype l h = (vs, h') /\ holds sc h' (single vs ++ lostb ++ R) /\
  length vs + length lostb = kept_prototype l.
Proof.
  intro H. unfold prototype, kept_prototype. destruct (holds_himesh l h R H) as (m & d & t & h1 & E1 & H1). rewrite E1.
  destruct (count_voxels l h1 _ H1) as (s & vs & h2 & lv & E2 & H2 & _ & N). rewrite E2. exists vs. eexists. exists ((Array, t) :: single lv).
  split; [reflexivity|]. split; [|cbn [length]; unfold single; rewrite map_length; lia].
  apply holds_delete_himesh. eapply holds_perm; [exact H2|]. perm.
Qed.
Lemma single_app a b : single (a ++ b) = single a ++ single b.
Proof. apply map_app. Qed.
Lemma holds_prototypes {sc} ls : forall h R, holds sc h R -> exists vss h' lostb, prototypes ls h = (vss, h') /\ holds sc h' (single (concat vss) ++ lostb ++ R) /\
  length (concat vss) + length lostb = list_sum (map kept_prototype ls).
Proof.
  induction ls as [|l ls IH]; intros h R H; cbn [prototypes].
  - exists [], h, []. split; [reflexivity|]. split; [exact H|reflexivity].
  - destruct (holds_prototype l h R H) as (vs & h1 & L1 & E1 & H1 & N1). rewrite E1. destruct (IH h1 _ H1) as (vss & h2 & L2 & E2 & H2 & N2). rewrite E2.
    exists (vs :: vss), h2, (L1 ++ L2). split; [reflexivity|]. split.
    + cbn [concat]. rewrite single_app. eapply holds_perm; [exact H2|]. perm.
    + cbn [concat map list_sum fold_right]. rewrite !app_length. change (fold_right Nat.add 0 (map kept_prototype ls)) with (list_sum (map kept_prototype ls)). lia.
Qed.
Lemma in_single v vs : In v vs -> In v (map snd (single vs)).
Proof. intro I. unfold single. rewrite map_map. cbn [snd]. rewrite map_id. exact I. Qed.
Lemma holds_pairs {sc} o vs : forall h R, holds sc h R -> In o (map snd R) -> (forall v, In v vs -> In v (map snd R)) ->
  holds sc (fold_left (fun h v => happen (Use o) (happen (Use v) h)) vs h) R.
Proof.
  induction vs as [|v vs IH]; intros h R H I V; [exact H|]. cbn [fold_left]. apply IH; [|exact I|intros; apply V; right; assumption].
  apply holds_use; [apply holds_use; [exact H|apply V; left; reflexivity]|exact I].
Qed.
Lemma holds_organize {sc} r vs o h R : holds sc h R -> In o (map snd R) -> (forall v, In v vs -> In v (map snd R)) ->
  exists t, holds sc (organize r vs o h) ((Array, t) :: R).
Proof.
  intros H I V. unfold organize. destruct (holds_mesh r h R H) as (m & d & t & h1 & E & H1). rewrite E. exists t. unfold delete_mymesh.
  apply drop, drop. eapply holds_perm; [|apply perm_swap]. apply holds_pairs; [| |intros v W; right; right; right; apply V, W].
  - apply holds_use; [apply holds_use; [exact H1|]|]; inl.
  - inl.
Qed.
Section Shared.
Context {sc : bool}.
Variables (nvs : list (list nat)) (vt os os2 : nat).
(** The blocks the threads share. *)
Definition shared (R : list (form * nat)) : Prop :=
  In vt (map snd R) /\ In os (map snd R) /\ In os2 (map snd R) /\ forall v, In v (concat nvs) -> In v (map snd R).
Lemma shared_app L R : shared R -> shared (L ++ R).
Proof. intros (A & B & C & D). unfold shared. rewrite map_app. repeat split; try (intros v V; specialize (D v V)); apply in_or_app; right; assumption. Qed.
Lemma nth_concat p v : In v (nth p nvs []) -> In v (concat nvs).
Proof.
  intro I. destruct (Nat.lt_ge_cases p (length nvs)) as [L|L]; [|rewrite nth_overflow in I by exact L; destruct I].
  apply in_concat. exists (nth p nvs []). split; [apply nth_In, L|exact I].
Qed.
Lemma holds_nucleus taken d d2 n h R : shared R -> In taken (map snd R) -> In d (map snd R) -> In d2 (map snd R) -> holds sc h R ->
  exists L, holds sc (one_nucleus nvs vt taken d d2 n h) (L ++ R) /\ length L = 2.
Proof.
  intros (A & B & C & D) T I1 I2 H. unfold one_nucleus.
  match goal with |- context [organize (n_rounds n) _ d ?x] => assert (H1 : holds sc x R); [|set (h1 := x) in *; clearbody h1] end.
  { repeat (apply holds_use; [|assumption]). exact H. }
  destruct (holds_organize (n_rounds n) (nth (n_proto n) nvs []) d h1 R H1 I1) as (t & H2); [intros v V; apply D; eapply nth_concat, V|].
  destruct (holds_organize (n_rounds2 n) (nth (n_proto2 n) nvs []) d2 _ _ H2) as (t2 & H3); [right; exact I2|intros v V; right; apply D; eapply nth_concat, V|].
  exists [(Array, t2); (Array, t)]. split; [exact H3|reflexivity].
Qed.
Lemma holds_nuclei taken d d2 job : forall h R, shared R -> In taken (map snd R) -> In d (map snd R) -> In d2 (map snd R) -> holds sc h R ->
  exists L, holds sc (fold_left (fun h n => one_nucleus nvs vt taken d d2 n h) job h) (L ++ R) /\ length L = 2 * length job.
Proof.
  induction job as [|n job IH]; intros h R S1 T I1 I2 H; cbn [fold_left length]; [exists []; split; [exact H|reflexivity]|].
  destruct (holds_nucleus taken d d2 n h R S1 T I1 I2 H) as (L & H1 & N1).
  destruct (IH (one_nucleus nvs vt taken d d2 n h) (L ++ R) (shared_app _ _ S1)) as (L2 & H2 & N2); try (rewrite map_app; apply in_or_app; right; assumption); [exact H1|].
  exists (L2 ++ L). rewrite <- app_assoc. split; [exact H2|]. rewrite app_length. lia.
Qed.
Lemma holds_job d d2 job h R : shared R -> In d (map snd R) -> In d2 (map snd R) -> holds sc h R ->
  exists L, holds sc (nuclei_job nvs vt d d2 job h) (L ++ R) /\ length L = lost_job job.
Proof.
  intros S1 I1 I2 H. unfold nuclei_job, lost_job. nw H taken h1 H1.
  destruct (holds_nuclei taken d d2 job h1 ((Array, taken) :: R)) as (L & H2 & N); try (right; assumption); [apply (shared_app [_]), S1|left; reflexivity|exact H1|].
  exists (L ++ [(Array, taken)]). rewrite <- app_assoc. split; [exact H2|]. rewrite app_length. cbn [length]. lia.
Qed.
Lemma holds_jobs d d2 jobs : forall h R, shared R -> In d (map snd R) -> In d2 (map snd R) -> holds sc h R ->
  exists L, holds sc (fold_left (fun h job => let h := nuclei_job nvs vt d d2 job h in
    happen (Use d2) (happen (Use os2) (happen (Use d) (happen (Use os) h)))) jobs h) (L ++ R) /\ length L = list_sum (map lost_job jobs).
Proof.
  induction jobs as [|j jobs IH]; intros h R S1 I1 I2 H; cbn [fold_left]; [exists []; split; [exact H|reflexivity]|].
  destruct (holds_job d d2 j h R S1 I1 I2 H) as (L & H1 & N1). cbv zeta.
  match goal with |- context [fold_left _ jobs ?x] => assert (H2 : holds sc x (L ++ R)); [|set (h2 := x) in *; clearbody h2] end.
  { destruct S1 as (A & B & C & D). repeat (apply holds_use; [|rewrite map_app; apply in_or_app; right; assumption]). exact H1. }
  destruct (IH h2 (L ++ R) (shared_app _ _ S1)) as (L2 & H3 & N2); try (rewrite map_app; apply in_or_app; right; assumption); [exact H2|].
  exists (L2 ++ L). rewrite <- app_assoc. split; [exact H3|]. rewrite app_length. cbn [map list_sum fold_right]. unfold list_sum in N2. lia.
Qed.
End Shared.
Lemma holds_unit nvs vt os os2 jobs h R : shared nvs vt os os2 R -> holds false h R ->
  exists L, holds false (unit_thread nvs vt os os2 jobs h) (L ++ R) /\ length L = list_sum (map lost_job jobs).
Proof.
  intros S1 H. unfold unit_thread. nw H d h1 H1. nw H1 d2 h2 H2.
  destruct (holds_jobs (sc := false) nvs vt os os2 d d2 jobs h2 _ (shared_app _ _ _ _ [(Array, d2); (Array, d)] _ S1)) as (L & H3 & N); [right; left; reflexivity|left; reflexivity|exact H2|].
  exists L. split; [|exact N]. eapply holds_delete; [|discriminate]. eapply holds_delete; [|discriminate].
  eapply holds_perm; [exact H3|]. instantiate (1 := Array). instantiate (1 := Array). perm.
Qed.
Lemma holds_units nvs vt os os2 threads : forall h R, shared nvs vt os os2 R -> holds false h R ->
  exists L, holds false (fold_left (fun h jobs => unit_thread nvs vt os os2 jobs h) threads h) (L ++ R) /\
    length L = list_sum (map (fun jobs => list_sum (map lost_job jobs)) threads).
Proof.
  induction threads as [|t threads IH]; intros h R S1 H; cbn [fold_left]; [exists []; split; [exact H|reflexivity]|].
  destruct (holds_unit nvs vt os os2 t h R S1 H) as (L & H1 & N1). destruct (IH _ (L ++ R) (shared_app _ _ _ _ _ _ S1) H1) as (L2 & H2 & N2).
  exists (L2 ++ L). rewrite <- app_assoc. split; [exact H2|]. rewrite app_length. cbn [map list_sum fold_right]. unfold list_sum in *. lia.
Qed.
Lemma holds_shifted {sc} vs d shifted : forall h R, In d (map snd R) -> (forall v, In v vs -> In v (map snd R)) -> holds sc h R ->
  exists L, holds sc (fold_left (fun h r => organize r vs d h) shifted h) (L ++ R) /\ length L = length shifted.
Proof.
  induction shifted as [|r shifted IH]; intros h R I V H; cbn [fold_left length]; [exists []; split; [exact H|reflexivity]|].
  destruct (holds_organize r vs d h R H I V) as (t & H1). destruct (IH (organize r vs d h) ((Array, t) :: R)) as (L & H2 & N); [right; exact I|intros; right; apply V; assumption|exact H1|].
  exists (L ++ [(Array, t)]). rewrite <- app_assoc. split; [exact H2|]. rewrite app_length. cbn [length]. lia.
Qed.
Lemma holds_delete_voxels {sc} vs : forall h R, holds sc h (single vs ++ R) -> holds sc (fold_left (fun h v => happen (Delete Single v) h) vs h) R.
Proof. induction vs as [|v vs IH]; intros h R H; [exact H|]. cbn [fold_left]. apply IH, drop. exact H. Qed.
Lemma holds_vessel {sc} l shifted h R : holds sc h R -> exists L, holds sc (vessel_file l shifted h) (L ++ R) /\ length L = 2 + length shifted + lost_voxels l.
Proof.
  intro H. unfold vessel_file. nw H d h1 H1. destruct (holds_himesh l h1 _ H1) as (m & c & t & h2 & E2 & H2). rewrite E2.
  destruct (count_voxels l h2 _ H2) as (s & vs & h3 & lv & E3 & H3 & NL & _). rewrite E3.
  match type of H3 with holds _ _ ?R3 => destruct (holds_shifted (sc := sc) vs d shifted h3 R3) as (L & H4 & N4); [| |exact H3|] end.
  - rewrite !map_app, !in_app_iff. right. right. right. cbn [map snd In]. auto.
  - intros v V. rewrite !map_app, !in_app_iff. right. left. apply in_single, V.
  - set (h4 := fold_left _ shifted h3) in *. clearbody h4. nw H4 vos h5 H5. exists (L ++ (Array, d) :: (Array, t) :: single lv).
    split; [|rewrite app_length; unfold single; cbn [length]; rewrite map_length; lia].
    apply holds_delete_himesh, holds_delete_voxels.
    eapply holds_perm; [apply drop, holds_use; [apply holds_use; [exact H5|]|]|].
    + rewrite !map_cons, !map_app. cbn [In]. rewrite !in_app_iff. right. right. right. right. right. cbn [map snd In]. auto.
    + left. reflexivity.
    + perm.
Qed.

Lemma holds_threads sc nvs vt os os2 threads h R : (sc = true -> threads = []) -> shared nvs vt os os2 R -> holds sc h R ->
  exists L, holds sc (fold_left (fun h jobs => unit_thread nvs vt os os2 jobs h) threads h) (L ++ R) /\
    length L = list_sum (map (fun jobs => list_sum (map lost_job jobs)) threads).
Proof.
  intros F S1 H. destruct sc; [|apply holds_units; assumption]. rewrite (F eq_refl). exists []. split; [exact H|reflexivity].
Qed.
Lemma generator_blocks sc g : (sc = true -> g_threads g = []) -> exists live, left_over sc (generator g) = Some live /\ length live = kept g.
Proof.
  intro F0. unfold generator. pose proof (holds_start sc) as H0. set (h0 := Heap [] 0) in *. clearbody h0. nw H0 os h1 H1. nw H1 os2 h2 H2.
  unfold load_prototype. destruct (holds_prototype (g_vessel g) h2 _ H2) as (vvs & h3 & L3 & E3 & H3 & N3). rewrite E3.
  destruct (holds_prototypes (g_nuclei g) h3 _ H3) as (nvs & h4 & L4 & E4 & H4 & N4). rewrite E4. nw H4 vt h5 H5.
  match type of H5 with holds _ _ ?R5 => assert (H6 : holds sc (fold_left (fun h v => happen (Use vt) (happen (Use v) h)) vvs h5) R5) end.
  { apply holds_pairs; [exact H5|left; reflexivity|]. intros v V. right. rewrite !map_app, !in_app_iff. right. right. left. apply in_single, V. }
  set (h6 := fold_left _ vvs h5) in *. clearbody h6.
  match type of H6 with holds _ _ ?R6 => assert (S6 : shared nvs vt os os2 R6) end.
  { unfold shared. cbn [map snd]. rewrite !map_app. cbn [map snd In]. rewrite !in_app_iff. cbn [In]. split; [auto|]. split; [auto 10|]. split; [auto 10|].
    intros v V. right. rewrite !in_app_iff. left. apply in_single, V. }
  destruct (holds_threads sc nvs vt os os2 (g_threads g) h6 _ F0 S6 H6) as (L7 & H7 & N7).
  destruct (holds_vessel (g_vessel2 g) (g_shifted g) _ _ H7) as (L8 & H8 & N8).
  set (h8 := vessel_file _ _ _) in *. clearbody h8.
  assert (H9 : exists F, holds sc (happen (Delete Single os) (happen (Use os2) (happen (Use os) h8))) F /\ length F = kept g).
  { exists (L8 ++ L7 ++ (Array, vt) :: single (concat nvs) ++ L4 ++ single vvs ++ L3 ++ [(Single, os2)]). split.
    - apply drop. apply holds_use; [apply holds_use|].
      + eapply holds_perm; [exact H8|]. perm.
      + left. reflexivity.
      + right. rewrite !map_app. cbn [map]. rewrite !map_app, !in_app_iff. cbn [map snd In]. rewrite !in_app_iff. cbn [In]. auto 12.
    - repeat (rewrite app_length || cbn [length]). unfold single. rewrite !map_length. unfold kept, lost_vessels. lia. }
  destruct H9 as (F & H9 & N9). destruct (holds_left _ _ _ H9) as (live & E & P). exists live. split; [exact E|]. rewrite (Permutation_length P). exact N9.
Qed.

(** Full claim of C217: [clean true (generator g)].  Proved for all settings when it is not asked that arrays are deleted with
    delete[]: every block is used and deleted only while it exists, never twice; what is left at the end is exactly [kept]. *)
Theorem generator_memory_partial : forall g, exists live, left_over false (generator g) = Some live /\ length live = kept g.
Proof. intro g. apply generator_blocks. discriminate. Qed.
Print Assumptions generator_memory_partial.
(** The threads are the only ones to delete in the wrong way. *)
Theorem generator_strict_partial : forall g, g_threads g = [] -> exists live, left_over true (generator g) = Some live /\ length live = kept g.
Proof. intros g T. apply generator_blocks. intros _. exact T. Qed.
Print Assumptions generator_strict_partial.
Example no_threads : exists g, g_threads g = [] /\ kept g = 18 /\ g_nuclei g <> [].
Proof.
  exists (Setting (Line 2 3 false 3 true (fun _ => false)) [Line 1 2 true 0 false (fun _ => false); Line 1 2 false 2 false (fun _ => false)] []
    (Line 2 3 false 4 true Nat.odd) [2; 2; 2]). split; [reflexivity|]. split; [vm_compute; reflexivity|]. cbn [g_nuclei]. intro E. discriminate E.
Qed.
(** So every job costs memory for ever, two blocks for each pair of nuclei and one more. *)
Theorem generator_memory_leak : forall g, exists live, left_over false (generator g) = Some live /\
  list_sum (map (fun jobs => list_sum (map (fun job => 1 + 2 * length job) jobs)) (g_threads g)) + length (g_shifted g) < length live.
Proof. intro g. destruct (generator_memory_partial g) as (live & E & N). exists live. split; [exact E|]. rewrite N. unfold kept, lost_vessels, lost_job. cbn [Nat.add]. lia. Qed.
Print Assumptions generator_memory_leak.
(** A vessel with three voxels, two nuclei, two threads with three jobs in all. *)
Definition small_setting : setting :=
  let none := fun _ : nat => false in
  Setting (Line 2 3 false 3 true none) [Line 1 2 true 0 false none; Line 1 2 false 2 false none]
    [[[Nucleus 1 0 1 1]; [Nucleus 1 1 1 0; Nucleus 1 1 1 1]]; [[Nucleus 1 0 1 0]]] (Line 2 3 false 4 true Nat.odd) [2; 2; 2].
Example small_setting_kept : kept small_setting = 29 /\ 250 < length (generator small_setting).
Proof. split; [reflexivity|]. vm_compute. lia. Qed.
(** C217 is false, and arrays are deleted with delete. *)
Theorem generator_delete_refuted : exists g, left_over true (generator g) = None.
Proof. exists small_setting. vm_compute. reflexivity. Qed.
Print Assumptions generator_delete_refuted.
Theorem generator_memory_refuted : exists g, ~ clean true (generator g) /\ ~ clean false (generator g).
Proof. exists small_setting. split; intro C; vm_compute in C; discriminate C. Qed.
Print Assumptions generator_memory_refuted.
