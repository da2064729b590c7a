(** C147-C149: tiles are found by their paths; threads that share a tile. *)
From Coq Require Import String Ascii List ZArith Bool Arith Lia.
From Verif Require Import Arr TileModel TileProofs TextModel TextProofs OpenModel PropTile.
Import ListNotations.
Open Scope Z_scope.

(** * Paths *)
Definition occurs (p s : text) : Prop := exists a b, s = a ++ p ++ b.

Lemma meta_cons c s : (forall r, c :: s <> lit ".dt" ++ r) -> meta_path (c :: s) = c :: meta_path s.
Proof.
  intros H. cbn [meta_path]. destruct s as [|d [|t r]]; try reflexivity.
  destruct (Ascii.eqb_spec c "."%char) as [->|]; [|reflexivity]. destruct (Ascii.eqb_spec d "d"%char) as [->|]; [|reflexivity].
  destruct (Ascii.eqb_spec t "t"%char) as [->|]; [|reflexivity]. exfalso. apply (H r). reflexivity.
Qed.
Lemma occurs_tail p c s : ~ occurs p (c :: s) -> ~ occurs p s.
Proof. intros H [a [b E]]. apply H. exists (c :: a), b. rewrite E. reflexivity. Qed.
Lemma meta_none s : ~ occurs (lit ".dt") s -> meta_path s = s.
Proof.
  induction s as [|c s IH]; intros H; [reflexivity|]. rewrite meta_cons, IH; [reflexivity|apply (occurs_tail _ c); exact H|].
  intros r E. apply H. exists [], r. exact E.
Qed.
Lemma meta_end s : ~ occurs (lit ".dt") s -> meta_path (s ++ lit ".dt") = s ++ lit ".mt".
Proof.
  induction s as [|c s IH]; intros H; [reflexivity|]. cbn [app]. rewrite meta_cons, IH; [reflexivity|apply (occurs_tail _ c); exact H|].
  intros r E. destruct s as [|d [|t s]]; cbn in E; try discriminate E. injection E as -> -> -> <-. apply H. exists [], s. reflexivity.
Qed.
Lemma folder_end s a b : existsb slash a = false -> existsb slash b = false -> folder (s ++ a) = folder (s ++ b).
Proof.
  intros A B. assert (N : forall t, existsb slash t = false -> folder t = []) by (intros [|c t] H; cbn [folder]; [reflexivity|rewrite H; reflexivity]).
  induction s as [|c s IH]; cbn [app]; [rewrite !N by assumption; reflexivity|]. cbn [folder]. rewrite IH. cbn [existsb]. rewrite !existsb_app, A, B. reflexivity.
Qed.
Lemma text_eqb_eq a b : text_eqb a b = true <-> a = b.
Proof. unfold text_eqb. destruct (list_eq_dec ascii_dec a b); split; intros; congruence. Qed.
Lemma text_eqb_refl a : text_eqb a a = true.
Proof. apply text_eqb_eq. reflexivity. Qed.

(** * The length of a number *)
Lemma put_nat_len fuel : forall n k, 0 <= n < 10 ^ Z.of_nat k -> (1 <= k)%nat -> (length (put_nat fuel n) <= k)%nat.
Proof.
  induction fuel as [|f IH]; intros n k H K; cbn [put_nat]; [cbn; lia|]. rewrite app_length. cbn [length].
  destruct (Z.ltb_spec n 10); [cbn; lia|]. destruct k as [|[|k]]; [lia|cbn in H; lia|].
  assert (H1 : 0 <= n / 10 < 10 ^ Z.of_nat (S k)).
  { split; [apply Z.div_pos; lia|]. apply Z.div_lt_upper_bound; [lia|]. rewrite <- Z.pow_succ_r by lia. replace (Z.succ (Z.of_nat (S k))) with (Z.of_nat (S (S k))) by lia. lia. }
  specialize (IH (n / 10) (S k) H1 ltac:(lia)). lia.
Qed.
Lemma loaded_fits n k path : Z.of_nat n < 10 ^ Z.of_nat k -> (1 <= k)%nat -> (length path + k <= 173)%nat -> fits_log (loaded n path) = true.
Proof.
  intros H K L. unfold fits_log, loaded. apply Nat.ltb_lt. rewrite !app_length. pose proof (put_nat_len (Z.to_nat (Z.log2 (Z.of_nat n)) + 1) (Z.of_nat n) k ltac:(lia) K).
  unfold put_int. change (length (lit "loaded ")) with 7%nat. change (length (lit " polyhedra in tile ")) with 19%nat. lia.
Qed.

(** C147, what holds.  A data file whose path ends in ".dt" and has no other ".dt" in it, in a folder
    where files can be made, is opened: its objects are those of the file; the metadata is written
    beside it, no other file is touched; and opening the path again gives the same objects and
    changes nothing.  The path and the number of objects must fit the message: 173 characters. *)
Theorem tile_opens_by_path_partial : forall junk junk' capacity d p dt objs mt k, memory junk -> memory junk' -> fits dt ->
  files d (p ++ lit ".dt") = Some dt -> files d (p ++ lit ".mt") = None -> ~ occurs (lit ".dt") p -> In (folder (p ++ lit ".dt")) (folders d) ->
  open_tile junk capacity dt None = Some (objs, mt) -> Z.of_nat (length objs) < 10 ^ Z.of_nat k -> (1 <= k)%nat -> (length p + 3 + k <= 173)%nat ->
  exists d',
    open_path junk capacity d (p ++ lit ".dt") = Some (Opened objs d') /\
    files d' (p ++ lit ".mt") = Some mt /\ (forall q, q <> p ++ lit ".mt" -> files d' q = files d q) /\
    folder (p ++ lit ".mt") = folder (p ++ lit ".dt") /\
    open_path junk' LONG_MAX d' (p ++ lit ".dt") = Some (Opened objs d').
Proof.
  intros junk junk' cap d p dt objs mt k M M' F D N O I E1 LK K L. destruct (tile_meta_round_trip junk junk' cap dt M M' F) as (objs' & mt' & E1' & E2 & _).
  assert (X : Some (objs, mt) = Some (objs', mt')) by (rewrite <- E1, <- E1'; reflexivity). injection X as <- <-. clear E1'.
  assert (FM : fits_log (loaded (length objs) (p ++ lit ".dt")) = true).
  { apply (loaded_fits _ k); [exact LK|exact K|]. rewrite app_length. change (length (lit ".dt")) with 3%nat. exact L. }
  assert (NE : text_eqb (p ++ lit ".dt") (p ++ lit ".mt") = false).
  { destruct (text_eqb _ _) eqn:X; [|reflexivity]. apply text_eqb_eq in X. apply app_inv_head in X. discriminate X. }
  assert (FO : folder (p ++ lit ".mt") = folder (p ++ lit ".dt")) by (apply folder_end; reflexivity).
  exists (put_file d (p ++ lit ".mt") mt). split.
  - unfold open_path. rewrite D, (meta_end p O), N. cbv zeta. rewrite E1. cbn [bind].
    assert (C : can_make d (p ++ lit ".mt") = true).
    { unfold can_make. apply existsb_exists. exists (folder (p ++ lit ".dt")). split; [exact I|]. rewrite FO. apply text_eqb_refl. }
    rewrite C, FM. reflexivity.
  - split; [cbn [put_file files]; rewrite text_eqb_refl; reflexivity|]. split.
    + intros q Hq. cbn [put_file files]. destruct (text_eqb q (p ++ lit ".mt")) eqn:X; [apply text_eqb_eq in X; contradiction|reflexivity].
    + split; [exact FO|]. unfold open_path. rewrite (meta_end p O). cbn [put_file files]. rewrite NE, text_eqb_refl, D. cbv zeta. rewrite E2. cbn [bind]. rewrite FM. reflexivity.
Qed.
Print Assumptions tile_opens_by_path_partial.

(** The two objects of PropTile in a file of the current folder, and in one of a folder "scan.dt". *)
Definition sample_disk (path : text) : disk := Disk (fun q => if text_eqb q path then Some (flush sample) else None) [[]; lit "scan.dt/"].
Example tile_opens_by_path_applies : let p := lit "nuclei_tmp" in let d := sample_disk (p ++ lit ".dt") in
  memory zeros /\ fits (flush sample) /\ files d (p ++ lit ".dt") = Some (flush sample) /\ files d (p ++ lit ".mt") = None /\ ~ occurs (lit ".dt") p /\
  In (folder (p ++ lit ".dt")) (folders d) /\ exists objs mt, open_tile zeros 1000 (flush sample) None = Some (objs, mt) /\ length objs = 2%nat /\ Z.of_nat (length objs) < 10 ^ Z.of_nat 4 /\ (length p + 3 + 4 <= 173)%nat.
Proof.
  cbv zeta. split; [exact zeros_memory|]. split; [split; [apply flush_bytes, sample_proper|vm_compute; reflexivity]|].
  split; [reflexivity|]. split; [reflexivity|]. split.
  { intros (a & b & E). do 11 (destruct a as [|? a]; [discriminate E|try discriminate E; apply (f_equal (@tl _)) in E; cbn [tl app] in E]). }
  split; [left; reflexivity|]. eexists _, _. split; [vm_compute; reflexivity|]. split; [reflexivity|]. split; [reflexivity|cbn; lia].
Qed.

(** C147 is false as it stands: in a folder whose name has ".dt" in it the metadata is to be written to
    another folder, which need not exist; a path of 173 characters with only two objects does not fit
    the message; and a file whose name has no ".dt" is taken for its own metadata, so that what is shown
    are not its objects. *)
Definition one_object : list (list Z * list vmeta) := [(repeat 0 16, [])].
Theorem tile_paths_refuted :
  open_path zeros LONG_MAX (sample_disk (lit "scan.dt/nuclei.dt")) (lit "scan.dt/nuclei.dt") = Some NullFile /\
  (exists p, length p = 170%nat /\ ~ In "/"%char p /\ open_path zeros LONG_MAX (sample_disk (p ++ lit ".dt")) (p ++ lit ".dt") = Some LongMessage) /\
  (exists objs d, Forall proper one_object /\
     open_path zeros LONG_MAX (Disk (fun q => if text_eqb q (lit "nuclei.tile") then Some (flush one_object) else None) [[]]) (lit "nuclei.tile") = Some (Opened objs d) /\ length objs = 2%nat).
Proof.
  split; [vm_compute; reflexivity|]. split.
  - exists (repeat "a"%char 170). split; [reflexivity|]. split; [intro H; apply repeat_spec in H; discriminate H|]. vm_compute. reflexivity.
  - exists [Wrapper 16 0 0 []; Wrapper 0 0 1 []], (Disk (fun q => if text_eqb q (lit "nuclei.tile") then Some (flush one_object) else None) [[]]).
    split; [repeat constructor; cbn; lia|]. split; [vm_compute; reflexivity|reflexivity].
Qed.
Print Assumptions tile_paths_refuted.

(** * C148: the objects shown are those of the data file *)
(** What holds: on a path of the kind of C147, with no metadata yet or with metadata made from these
    very data, the k-th object shown is the k-th record of the data file: its voxels, and its data when
    they are fetched. *)
Theorem tile_shows_its_data_partial : forall junk junk' capacity d p recs k, memory junk -> memory junk' -> Forall proper recs -> Z.of_nat (length (flush recs)) < 2 ^ 63 ->
  files d (p ++ lit ".dt") = Some (flush recs) ->
  files d (p ++ lit ".mt") = None \/ (exists objs mt, open_tile junk' capacity (flush recs) None = Some (objs, mt) /\ files d (p ++ lit ".mt") = Some mt) ->
  ~ occurs (lit ".dt") p -> In (folder (p ++ lit ".dt")) (folders d) -> Z.of_nat (length recs) < 10 ^ Z.of_nat k -> (1 <= k)%nat -> (length p + 3 + k <= 173)%nat ->
  exists objs d', open_path junk LONG_MAX d (p ++ lit ".dt") = Some (Opened objs d') /\ length objs = length recs /\
    forall i data vs, nth_error recs i = Some (data, vs) -> exists w, nth_error objs i = Some w /\ w_voxels w = vs /\ retrieve (flush recs) w = Some data.
Proof.
  intros junk junk' cap d p recs k M M' PR L D MT O I LK K LP.
  assert (F : fits (flush recs)) by (split; [apply flush_bytes; exact PR|exact L]).
  assert (R : forall j, memory j -> exists objs mt, open_tile j cap (flush recs) None = Some (objs, mt) /\ open_tile junk LONG_MAX (flush recs) (Some mt) = Some (objs, mt) /\
    length objs = length recs /\ forall i data vs, nth_error recs i = Some (data, vs) -> exists w, nth_error objs i = Some w /\ w_voxels w = vs /\ retrieve (flush recs) w = Some data).
  { intros j Mj. destruct (tile_data_located j cap recs Mj PR L) as (objs & mt & E & Ln & H). destruct (tile_meta_round_trip j junk cap (flush recs) Mj M F) as (objs' & mt' & E1 & E2 & _).
    assert (X : Some (objs, mt) = Some (objs', mt')) by (rewrite <- E, <- E1; reflexivity). injection X as <- <-. exists objs, mt. split; [exact E|]. split; [exact E2|]. split; [exact Ln|].
    intros i data vs Hi. destruct (H i data vs Hi) as (w & W1 & W2 & W3 & _). exists w. auto. }
  assert (FM : fits_log (loaded (length recs) (p ++ lit ".dt")) = true).
  { apply (loaded_fits _ k); [exact LK|exact K|]. rewrite app_length. change (length (lit ".dt")) with 3%nat. exact LP. }
  destruct MT as [N|(objs0 & mt0 & E0 & N)].
  - destruct (R junk M) as (objs & mt & E & E' & Ln & H). exists objs, (put_file d (p ++ lit ".mt") mt). split; [|split; [exact Ln|exact H]].
    assert (E'' : open_tile junk LONG_MAX (flush recs) None = Some (objs, mt)) by exact E.
    unfold open_path. rewrite D, (meta_end p O), N. cbv zeta. rewrite E''. cbn [bind].
    assert (C : can_make d (p ++ lit ".mt") = true).
    { unfold can_make. apply existsb_exists. exists (folder (p ++ lit ".dt")). split; [exact I|]. apply text_eqb_eq. apply folder_end; reflexivity. }
    rewrite C, Ln, FM. reflexivity.
  - destruct (R junk' M') as (objs & mt & E & E' & Ln & H). assert (X : Some (objs, mt) = Some (objs0, mt0)) by (rewrite <- E, <- E0; reflexivity). injection X as <- <-.
    exists objs, d. split; [|split; [exact Ln|exact H]]. unfold open_path. rewrite D, (meta_end p O), N. cbv zeta. rewrite E'. cbn [bind]. rewrite Ln, FM. reflexivity.
Qed.
Print Assumptions tile_shows_its_data_partial.

Example tile_shows_its_data_applies : let p := lit "nuclei_tmp" in let d := sample_disk (p ++ lit ".dt") in
  memory zeros /\ Forall proper sample /\ Z.of_nat (length (flush sample)) < 2 ^ 63 /\ files d (p ++ lit ".dt") = Some (flush sample) /\ files d (p ++ lit ".mt") = None /\ ~ occurs (lit ".dt") p /\
  In (folder (p ++ lit ".dt")) (folders d) /\ Z.of_nat (length sample) < 10 ^ Z.of_nat 1 /\ (length p + 3 + 1 <= 173)%nat.
Proof.
  destruct tile_opens_by_path_applies as (A & _ & B & C & D & E & _). cbv zeta. split; [exact A|]. split; [apply sample_proper|]. split; [apply sample_proper|].
  split; [exact B|]. split; [exact C|]. split; [exact D|]. split; [exact E|]. split; [reflexivity|cbn; lia].
Qed.

(** C148 is false as it stands: nothing removes the metadata when the compressor writes the data file
    anew.  Then the tile shows the objects that were there before; fetching the first of them takes
    the bytes of no object. *)
Definition before : list (list Z * list vmeta) := [([1; 2; 3], [sample_voxel 1]); ([4; 5], [sample_voxel 2; sample_voxel 3])].
Definition after_ : list (list Z * list vmeta) := [([6; 7; 8; 9; 10], [sample_voxel 4])].
Theorem tile_written_anew_refuted : exists mt, Forall proper before /\ Forall proper after_ /\
  (exists objs, open_tile zeros LONG_MAX (flush before) None = Some (objs, mt)) /\
  exists objs d, open_path zeros LONG_MAX (Disk (fun q => if text_eqb q (lit "nuclei.dt") then Some (flush after_) else if text_eqb q (lit "nuclei.mt") then Some mt else None) [[]]) (lit "nuclei.dt") = Some (Opened objs d) /\
    length objs = 2%nat /\ exists w, nth_error objs 0 = Some w /\ w_voxels w = [sample_voxel 1] /\ retrieve (flush after_) w = Some [6; 7; 8].
Proof.
  exists (match open_tile zeros LONG_MAX (flush before) None with Some (_, mt) => mt | None => [] end).
  split; [apply sample_proper|]. split; [unfold proper, vok; repeat constructor; cbn; lia|]. split.
  - eexists. vm_compute. reflexivity.
  - exists (match open_tile zeros LONG_MAX (flush before) None with Some (objs, _) => objs | None => [] end). eexists. split; [vm_compute; reflexivity|].
    split; [vm_compute; reflexivity|]. eexists. split; [vm_compute; reflexivity|]. split; vm_compute; reflexivity.
Qed.
Print Assumptions tile_written_anew_refuted.

(** * C149: threads at one tile *)
(** A thread is inside when it has found a mesh missing and has not yet put one there. *)
Definition inside (t : reader) : Prop := r_pc t = Seek \/ r_pc t = Read \/ (r_pc t = Again /\ r_data t <> None) \/ r_pc t = Build.
Definition at_most_one_inside (s : shared * list reader) : Prop :=
  forall j k t u, nth_error (snd s) j = Some t -> nth_error (snd s) k = Some u -> inside t -> inside u -> j = k.
(** Every mesh there is was built from the data of its own object. *)
Definition meshes_right (dt : list Z) (objects : list wrapper) (g : shared) : Prop :=
  forall i m w, nth_error (f_mesh g) i = Some (Some m) -> nth_error objects i = Some w -> m = retrieve dt w /\ m <> None.

Lemma nth_error_upd {A} (l : list A) i j v : nth_error (upd l i v) j = if (Nat.eqb i j && (j <? length l)%nat)%bool then Some v else nth_error l j.
Proof.
  revert i j. induction l as [|x l IH]; intros [|i] [|j]; cbn [upd nth_error length]; try reflexivity.
  - rewrite Bool.andb_false_r. reflexivity.
  - change (S j <? S (length l))%nat with (j <? length l)%nat. rewrite IH. reflexivity.
Qed.

Section Share.
  Variables (dt : list Z) (objects : list wrapper) (junk : Z).
  Hypothesis held : forall w, In w objects -> retrieve dt w <> None.

  (** What a thread inside knows. *)
  Definition knows (g : shared) (t : reader) : Prop :=
    match r_todo t with
    | [] => r_pc t = Enter
    | i :: _ =>
      match r_pc t with
      | Enter => True
      | Seek => meshless g i = true
      | Read => meshless g i = true /\ f_pos g = Z.to_nat (w_offset (own objects i))
      | Again => r_data t = None /\ meshless g i = false \/ (i < length objects)%nat /\ r_data t = retrieve dt (own objects i)
      | Build => (i < length objects)%nat /\ r_data t = retrieve dt (own objects i)
      end
    end.
  Definition good (s : shared * list reader) : Prop :=
    length (f_mesh (fst s)) = length objects /\ meshes_right dt objects (fst s) /\ Forall (knows (fst s)) (snd s).

  Lemma meshless_in g i : length (f_mesh g) = length objects -> meshless g i = true -> (i < length objects)%nat.
  Proof.
    intros L H. unfold meshless in H. destruct (nth_error (f_mesh g) i) eqn:E; [|discriminate H]. assert (N : nth_error (f_mesh g) i <> None) by (rewrite E; discriminate).
    apply nth_error_Some in N. lia.
  Qed.
  Lemma own_in i : (i < length objects)%nat -> In (own objects i) objects /\ nth_error objects i = Some (own objects i).
  Proof. intros H. split; [apply nth_In; exact H|apply nth_error_nth'; exact H]. Qed.
  Lemma read_own i : (i < length objects)%nat ->
    (let '(bytes, _, _) := fread (repeat junk (Z.to_nat (w_data_size (own objects i)))) (skipn (Z.to_nat (w_offset (own objects i))) dt) in Some bytes) = retrieve dt (own objects i).
  Proof.
    intros H. pose proof (held _ (proj1 (own_in i H))) as R. unfold retrieve in *. unfold fread. rewrite repeat_length.
    destruct (Nat.eqb_spec (length (firstn (Z.to_nat (w_data_size (own objects i))) (skipn (Z.to_nat (w_offset (own objects i))) dt))) (Z.to_nat (w_data_size (own objects i)))) as [E|]; [|contradiction].
    rewrite E, (skipn_all2 (repeat junk _)), app_nil_r by (rewrite repeat_length; lia). reflexivity.
  Qed.
  Lemma meshless_more g i j m : meshless g j = false -> meshless (Shared (f_pos g) (upd (f_mesh g) i (Some m))) j = false.
  Proof. unfold meshless. cbn [f_mesh]. rewrite nth_error_upd. destruct (Nat.eqb i j && (j <? length (f_mesh g))%nat)%bool; auto. Qed.

  (** A thread that is not inside keeps what it knows while another one works. *)
  Lemma outside_keeps g g' t : knows g t -> ~ inside t -> (forall j, meshless g j = false -> meshless g' j = false) -> knows g' t.
  Proof.
    unfold knows, inside. intros K N H. destruct (r_todo t) as [|i r]; [exact K|]. destruct (r_pc t); auto; try (exfalso; apply N; tauto).
    destruct K as [[K1 K2]|[K1 K2]]; [left; auto|]. exfalso. apply N. right. right. left. split; [reflexivity|]. rewrite K2. apply held. apply own_in. exact K1.
  Qed.
  Lemma upd_threads g' ts k t' t : nth_error ts k = Some t -> knows g' t' -> (forall j u, nth_error ts j = Some u -> j <> k -> knows g' u) -> Forall (knows g') (upd ts k t').
  Proof.
    intros E K H. apply Forall_forall. intros u Hu. apply In_nth_error in Hu. destruct Hu as [j Hj]. rewrite nth_error_upd in Hj.
    destruct (Nat.eqb_spec k j) as [EQ|N]; cbn [andb] in Hj.
    - subst j. assert (X : nth_error ts k <> None) by (rewrite E; discriminate). apply nth_error_Some in X. destruct (Nat.ltb_spec k (length ts)); [|lia]. injection Hj as <-. exact K.
    - apply (H j); auto.
  Qed.
  Lemma good_step s s' : good s -> at_most_one_inside s -> share_step dt objects junk s s' -> good s'.
  Proof.
    intros (L & MR & K) ONE ST. destruct ST as [g ts k t g' t' E ST]. cbn [fst snd] in *. pose proof (proj1 (Forall_forall _ _) K _ (nth_error_In _ _ E)) as KT.
    assert (KO : forall j u, nth_error ts j = Some u -> knows g u) by (intros j u Hu; exact (proj1 (Forall_forall _ _) K _ (nth_error_In _ _ Hu))).
    assert (OUT : inside t -> forall j u, nth_error ts j = Some u -> j <> k -> ~ inside u) by (intros IT j u Hu N IU; apply N; exact (ONE j k u t Hu E IU IT)).
    unfold reader_step in ST. unfold knows in KT. destruct t as [pc data todo]. cbn [r_todo r_pc r_data] in *. destruct todo as [|i r]; [discriminate ST|].
    destruct pc.
    - injection ST as <- <-. split; [exact L|]. split; [exact MR|]. cbn [fst snd]. apply (upd_threads g ts k _ _ E); [|intros j u Hu _; exact (KO j u Hu)].
      unfold knows. cbn [r_todo r_pc r_data]. destruct (meshless g i) eqn:M; [reflexivity|left; auto].
    - injection ST as <- <-. split; [exact L|]. split; [exact MR|]. cbn [fst snd]. apply (upd_threads _ ts k _ _ E).
      + unfold knows. cbn [r_todo r_pc f_pos]. split; [exact KT|reflexivity].
      + intros j u Hu N. apply (outside_keeps g); [exact (KO j u Hu)|apply (OUT ltac:(left; reflexivity) j u Hu N)|auto].
    - destruct KT as [KM KP]. pose proof (meshless_in g i L KM) as Hi. pose proof (read_own i Hi) as RO. rewrite <- KP in RO.
      destruct (fread (repeat junk (Z.to_nat (w_data_size (own objects i)))) (skipn (f_pos g) dt)) as [[bytes ok] rest] eqn:EF.
      injection ST as <- <-. split; [exact L|]. split; [exact MR|]. cbn [fst snd]. apply (upd_threads _ ts k _ _ E).
      + unfold knows. cbn [r_todo r_pc r_data]. right. split; [exact Hi|exact RO].
      + intros j u Hu N. apply (outside_keeps g); [exact (KO j u Hu)|apply (OUT ltac:(right; left; reflexivity) j u Hu N)|auto].
    - destruct (meshless g i) eqn:M; injection ST as <- <-; (split; [exact L|]; split; [exact MR|]; cbn [fst snd]; apply (upd_threads g ts k _ _ E); [|intros j u Hu _; exact (KO j u Hu)]); unfold knows; cbn [r_todo r_pc r_data].
      + destruct KT as [[_ C]|KT]; [discriminate C|exact KT].
      + destruct r; [reflexivity|exact I].
    - injection ST as <- <-. destruct KT as [Hi KD]. split; [cbn [fst f_mesh]; rewrite upd_length; exact L|]. cbn [fst snd]. split.
      + intros j m w Hj Hw. cbn [f_mesh] in Hj. rewrite nth_error_upd in Hj. destruct (Nat.eqb_spec i j) as [<-|N]; cbn [andb] in Hj; [|exact (MR j m w Hj Hw)].
        destruct (Nat.ltb_spec i (length (f_mesh g))); [|lia]. injection Hj as <-. rewrite (proj2 (own_in i Hi)) in Hw. injection Hw as <-. split; [exact KD|]. rewrite KD. apply held. apply own_in. exact Hi.
      + apply (upd_threads _ ts k _ _ E); [unfold knows; cbn [r_todo r_pc]; destruct r; [reflexivity|exact I]|].
        intros j u Hu N. apply (outside_keeps g); [exact (KO j u Hu)|apply (OUT ltac:(right; right; right; reflexivity) j u Hu N)|]. intros j' Hj'. apply meshless_more. exact Hj'.
  Qed.

  Lemma run_good s l e : share_run dt objects junk s l e -> good s -> Forall at_most_one_inside l -> good e.
  Proof. induction 1 as [s|s s' l e ST R IH]; intros G F; [exact G|]. inversion_clear F as [|? ? F1 F2]. apply IH; [exact (good_step _ _ G F1 ST)|exact F2]. Qed.
  Lemma init_good pos works : good (share_init objects pos works).
  Proof.
    split; [cbn; apply repeat_length|]. split.
    - intros i m w H _. cbn in H. apply nth_error_In, repeat_spec in H. discriminate H.
    - cbn. apply Forall_forall. intros t Ht. apply in_map_iff in Ht. destruct Ht as (w & <- & _). unfold knows. cbn. destruct w; auto.
  Qed.
End Share.

(** C149, what holds.  If at no time two threads are inside retrieve_mesh for a missing mesh of the
    tile - in particular with one thread - then every mesh is built from the data of its own object,
    whatever the order of the steps and wherever the position in the file was. *)
Theorem lone_readers_fetch_right_partial : forall dt objects junk pos works l g ts,
  (forall w, In w objects -> retrieve dt w <> None) ->
  share_run dt objects junk (share_init objects pos works) l (g, ts) -> Forall at_most_one_inside l -> meshes_right dt objects g.
Proof. intros dt objects junk pos works l g ts H R F. exact (proj1 (proj2 (run_good dt objects junk H _ _ _ R (init_good dt objects pos works) F))). Qed.
Print Assumptions lone_readers_fetch_right_partial.

(** One thread alone never meets another one inside. *)
Theorem one_reader_fetches_right : forall dt objects junk pos work l g ts,
  (forall w, In w objects -> retrieve dt w <> None) ->
  share_run dt objects junk (share_init objects pos [work]) l (g, ts) -> meshes_right dt objects g.
Proof.
  intros dt objects junk pos work l g ts H R. apply (lone_readers_fetch_right_partial dt objects junk pos [work] l g ts H R).
  assert (L : forall s l e, share_run dt objects junk s l e -> length (snd s) = 1%nat -> Forall at_most_one_inside l).
  { clear. induction 1 as [s|s s' l e ST R IH]; intros L.
    - constructor; [|constructor]. intros j k t u Hj Hk _ _. assert (A : nth_error (snd s) j <> None) by (rewrite Hj; discriminate). assert (B : nth_error (snd s) k <> None) by (rewrite Hk; discriminate).
      apply nth_error_Some in A, B. lia.
    - constructor.
      + intros j k t u Hj Hk _ _. assert (A : nth_error (snd s) j <> None) by (rewrite Hj; discriminate). assert (B : nth_error (snd s) k <> None) by (rewrite Hk; discriminate).
        apply nth_error_Some in A, B. lia.
      + apply IH. destruct ST as [g ts k t g' t' E _]. cbn [snd] in *. rewrite upd_length. exact L. }
  apply (L _ _ _ R). reflexivity.
Qed.
Print Assumptions one_reader_fetches_right.

(** C149 is false as it stands: with two threads the second may move the position in the file between
    the first one's fseek and its fread.  Both objects have their data; the mesh of the first is built
    from the data of the second. *)
Definition one_each : list (list Z * list vmeta) := [([1; 2], [sample_voxel 1]); ([3; 4], [sample_voxel 2])].
Definition two_objects : list wrapper := Eval vm_compute in match open_tile zeros LONG_MAX (flush one_each) None with Some (objs, _) => objs | None => [] end.
(** The steps of the threads in the order given. *)
Fixpoint follow (dt : list Z) (objects : list wrapper) (junk : Z) (order : list nat) (s : shared * list reader) : option (shared * list reader) :=
  match order with
  | [] => Some s
  | k :: r => do t <- nth_error (snd s) k; do (g, t') <- reader_step dt objects junk (fst s) t; follow dt objects junk r (g, upd (snd s) k t')
  end.
Lemma follow_run dt objects junk order : forall s e, follow dt objects junk order s = Some e -> exists l, share_run dt objects junk s l e.
Proof.
  induction order as [|k r IH]; intros s e H; cbn [follow] in H.
  - injection H as <-. exists [s]. constructor.
  - destruct (nth_error (snd s) k) as [t|] eqn:E; cbn [bind] in H; [|discriminate H]. destruct (reader_step dt objects junk (fst s) t) as [[g t']|] eqn:ST; cbn [bind] in H; [|discriminate H].
    destruct (IH _ _ H) as [l R]. exists (s :: l). econstructor; [|exact R]. destruct s as [g0 ts]. cbn [fst snd] in *. econstructor; eassumption.
Qed.
Theorem shared_tile_refuted : exists (dt : list Z) (objects : list wrapper) (junk : Z) (l : list (shared * list reader)) (g : shared) (ts : list reader),
  (forall w, In w objects -> retrieve dt w <> None) /\
  share_run dt objects junk (share_init objects 0 [[0%nat]; [1%nat]]) l (g, ts) /\ (forall t, In t ts -> r_todo t = []) /\
  exists w w', nth_error objects 0 = Some w /\ nth_error objects 1 = Some w' /\ retrieve dt w <> retrieve dt w' /\ nth_error (f_mesh g) 0 = Some (Some (retrieve dt w')).
Proof.
  assert (E : follow (flush one_each) two_objects 0 [0; 0; 1; 1; 0; 1; 0; 0; 1; 1]%nat (share_init two_objects 0 [[0%nat]; [1%nat]]) =
    Some (Shared 66 [Some (Some [3; 4]); Some (Some [1; 0])], [Reader Enter None []; Reader Enter None []])) by (vm_compute; reflexivity).
  destruct (follow_run _ _ _ _ _ _ E) as [l R]. eexists _, _, _, l, _, _. split; [|split; [exact R|split]].
  - intros w [<-|[<-|[]]]; vm_compute; discriminate.
  - intros t [<-|[<-|[]]]; reflexivity.
  - eexists _, _. split; [reflexivity|]. split; [reflexivity|]. split; [vm_compute; discriminate|vm_compute; reflexivity].
Qed.
Print Assumptions shared_tile_refuted.

(** Two threads one after the other, the first fetching both objects, meet the hypotheses. *)
Definition insideb (t : reader) : bool := match r_pc t, r_data t with Enter, _ => false | Again, None => false | _, _ => true end.
Lemma insideb_spec t : inside t -> insideb t = true.
Proof. destruct t as [[] [d|] w]; unfold inside, insideb; cbn; intuition congruence. Qed.
Lemma one_inside_check s : (length (filter insideb (snd s)) <= 1)%nat -> at_most_one_inside s.
Proof.
  destruct s as [g ts]. cbn [snd]. intros H j k t u Hj Hk It Iu. apply insideb_spec in It, Iu. cbn [snd] in *. revert j k Hj Hk H. induction ts as [|x ts IH]; intros [|j] [|k] Hj Hk H; cbn [nth_error filter] in *; try discriminate; auto.
  - injection Hj as ->. rewrite It in H. cbn [length] in H. exfalso. assert (X : In u (filter insideb ts)) by (apply filter_In; split; [apply (nth_error_In _ _ Hk)|exact Iu]).
    destruct (filter insideb ts); [destruct X|cbn in H; lia].
  - injection Hk as ->. rewrite Iu in H. cbn [length] in H. exfalso. assert (X : In t (filter insideb ts)) by (apply filter_In; split; [apply (nth_error_In _ _ Hj)|exact It]).
    destruct (filter insideb ts); [destruct X|cbn in H; lia].
  - f_equal. apply IH; auto. destruct (insideb x); cbn [length] in H; lia.
Qed.
Fixpoint follow_all (dt : list Z) (objects : list wrapper) (junk : Z) (order : list nat) (s : shared * list reader) : list (shared * list reader) :=
  match order with
  | [] => [s]
  | k :: r => match nth_error (snd s) k with
              | Some t => match reader_step dt objects junk (fst s) t with Some (g, t') => s :: follow_all dt objects junk r (g, upd (snd s) k t') | None => [] end
              | None => [] end
  end.
Lemma follow_all_run dt objects junk order : forall s e, follow dt objects junk order s = Some e -> share_run dt objects junk s (follow_all dt objects junk order s) e.
Proof.
  induction order as [|k r IH]; intros s e H; cbn [follow follow_all] in *.
  - injection H as <-. constructor.
  - destruct (nth_error (snd s) k) as [t|] eqn:E; cbn [bind] in H; [|discriminate H]. destruct (reader_step dt objects junk (fst s) t) as [[g t']|] eqn:ST; cbn [bind] in H; [|discriminate H].
    econstructor; [|apply IH; exact H]. destruct s as [g0 ts]. cbn [fst snd] in *. econstructor; eassumption.
Qed.
Example lone_readers_applies : exists l g ts,
  (forall w, In w two_objects -> retrieve (flush one_each) w <> None) /\
  share_run (flush one_each) two_objects 0 (share_init two_objects 7 [[0%nat; 1%nat]; [1%nat]]) l (g, ts) /\ Forall at_most_one_inside l /\
  f_mesh g = [Some (Some [1; 2]); Some (Some [3; 4])].
Proof.
  assert (E : follow (flush one_each) two_objects 0 [0; 0; 0; 0; 0; 0; 0; 0; 0; 0; 1; 1]%nat (share_init two_objects 7 [[0%nat; 1%nat]; [1%nat]]) =
    Some (Shared 64 [Some (Some [1; 2]); Some (Some [3; 4])], [Reader Enter None []; Reader Enter None []])) by (vm_compute; reflexivity).
  eexists _, _, _. split; [|split; [exact (follow_all_run _ _ _ _ _ _ E)|split; [|reflexivity]]].
  - intros w [<-|[<-|[]]]; vm_compute; discriminate.
  - assert (B : forallb (fun s => length (filter insideb (snd s)) <=? 1)%nat (follow_all (flush one_each) two_objects 0 [0; 0; 0; 0; 0; 0; 0; 0; 0; 0; 1; 1]%nat (share_init two_objects 7 [[0%nat; 1%nat]; [1%nat]])) = true) by (vm_compute; reflexivity).
    apply Forall_forall. intros s Hs. apply one_inside_check. rewrite forallb_forall in B. apply Nat.leb_le. exact (B s Hs).
Qed.

(** What reading does to the common position: it moves on by the bytes that were there to read. *)
Theorem reader_moves_position : forall dt objects junk g t g' t' i r, r_todo t = i :: r -> r_pc t = Read -> (f_pos g <= length dt)%nat ->
  reader_step dt objects junk g t = Some (g', t') ->
  f_mesh g' = f_mesh g /\ f_pos g' = Nat.min (f_pos g + Z.to_nat (w_data_size (own objects i))) (length dt).
Proof.
  intros dt objects junk g t g' t' i r T P B H. unfold reader_step in H. rewrite T, P in H. unfold fread in H. injection H as <- <-. cbn [f_mesh f_pos]. split; [reflexivity|]. rewrite skipn_length. lia.
Qed.
Print Assumptions reader_moves_position.
Example reader_moves_position_nonvacuous : match reader_step [1; 2; 3; 4; 5]%Z [Wrapper 0 4 0 []] 0%Z (Shared 2 [None]) (Reader Read None [0%nat]) with
  | Some (g', _) => f_pos g' = 5%nat | None => False end.
Proof. reflexivity. Qed.
