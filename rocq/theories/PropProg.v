(** C150-C153: reading text, lists of files, the decompressor and the partitioner. *)
From Coq Require Import String Ascii List ZArith Bool Arith Lia Permutation.
From Verif Require Import Arr TextModel SpModel SpProofs CodecModel BitsModel BaseProofs ObjectModel PpmcModel PpmcLevels PpmcObject PpmcGrid LodModel LodProofs PipeModel ProgModel.
From Verif Require AabModel PropSp PropPipe PropPpmcLevels PropPpmc.
Import ListNotations.
Close Scope Z_scope.
Open Scope nat_scope.

(** * C150: get_mesh *)
Lemma c_string_none s : ~ In nul s -> c_string s = None.
Proof.
  induction s as [|c s IH]; intros H; cbn [c_string]; [reflexivity|]. destruct (Ascii.eqb_spec c nul) as [->|]; [exfalso; apply H; left; reflexivity|].
  rewrite IH by (intro X; apply H; right; exact X). reflexivity.
Qed.
Lemma c_string_app s r : ~ In nul s -> c_string (s ++ r) = match c_string r with Some t => Some (s ++ t) | None => None end.
Proof.
  induction s as [|c s IH]; intros H; cbn [app c_string]; [destruct (c_string r); reflexivity|]. destruct (Ascii.eqb_spec c nul) as [->|]; [exfalso; apply H; left; reflexivity|].
  rewrite IH by (intro X; apply H; right; exact X). destruct (c_string r); reflexivity.
Qed.
Lemma bar_nul s : ~ In nul s -> ~ In nul (replace_bar s).
Proof. intros H X. unfold replace_bar in X. apply in_map_iff in X. destruct X as (c & E & I). destruct (Ascii.eqb_spec c "|"%char); [discriminate E|]. subst c. contradiction. Qed.

(** C150, what holds.  When a zero happens to lie behind the array, what is parsed is the line itself
    with every bar replaced by a line end, and nothing else changed. *)
Theorem get_mesh_text_partial : forall line beyond bars, ~ In "000"%char line -> hd_error beyond = Some "000"%char ->
  exists s, get_mesh_in_memory line beyond bars = Some s /\ length s = length line /\
    forall i c, nth_error line i = Some c -> nth_error s i = Some (if bars && (c =? "|"%char)%char then newline else c).
Proof. change "000"%char with nul.
  intros line beyond bars H B. destruct beyond as [|b beyond]; [discriminate B|]. injection B as ->. unfold get_mesh_in_memory.
  exists (if bars then replace_bar line else line). split; [|split].
  - rewrite c_string_app by (destruct bars; [apply bar_nul|]; exact H). cbn [c_string]. rewrite Ascii.eqb_refl, app_nil_r. reflexivity.
  - destruct bars; [apply map_length|reflexivity].
  - intros i c E. destruct bars; cbn [andb]; [|exact E]. unfold replace_bar. rewrite nth_error_map, E. reflexivity.
Qed.
Print Assumptions get_mesh_text_partial.
(** C150 is false: for every line that is text at all the read goes past the end of the array, and
    what lies there becomes part of the mesh file. *)
Theorem get_mesh_reads_past : forall line bars, line <> [] -> ~ In "000"%char line -> get_mesh line bars = ReadsPast.
Proof. change "000"%char with nul.
  intros line bars N H. unfold get_mesh. destruct line as [|c r]; [congruence|]. rewrite c_string_none; [reflexivity|]. destruct bars; [apply bar_nul|]; exact H.
Qed.
Print Assumptions get_mesh_reads_past.
Theorem get_mesh_text_refuted : exists line beyond, ~ In "000"%char line /\ get_mesh line true = ReadsPast /\
  get_mesh_in_memory line beyond true = Some (replace_bar line ++ lit "77").
Proof.
  exists (lit "OFF|0 0 0|"), (lit "77" ++ [nul]). split; [|split; vm_compute; reflexivity]. intro H. vm_compute in H. repeat (destruct H as [H|H]; [discriminate H|]). destruct H.
Qed.
Print Assumptions get_mesh_text_refuted.
Example get_mesh_text_applies : ~ In "000"%char (lit "OFF|4 4 0|0 0 0") /\ hd_error ["000"%char; "x"%char] = Some "000"%char /\ lit "OFF|4 4 0|0 0 0" <> [].
Proof. split; [|split; [reflexivity|discriminate]]. intro H. vm_compute in H. repeat (destruct H as [H|H]; [discriminate H|]). destruct H. Qed.

(** * C151: list_files *)
(** Following names from a node leads to another one; "." and ".." are not followed. *)
Inductive leads : node -> list text -> node -> Prop :=
| leads_here n : leads n [] n
| leads_down es name k names m : In (name, k) es -> name <> lit "." -> name <> lit ".." -> leads k names m -> leads (Folder es) (name :: names) m.
Definition path_of (path : text) (names : list text) : text := path ++ flat_map (fun n => lit "/" ++ n) names.
(** Names within a folder differ and have no slash. *)
Definition proper_tree (n : node) : Prop := forall names es, leads n names (Folder es) -> NoDup (map fst es) /\ forall e, In e es -> ~ In "/"%char (fst e).

Lemma node_deep (Q : node -> Prop) : Q Regular -> Q Special -> Q Broken -> (forall es, Forall (fun e => Q (snd e)) es -> Q (Folder es)) -> forall n, Q n.
Proof.
  intros HR HS HB HF. fix IH 1. intros [|es| |]; [exact HR| |exact HS|exact HB]. apply HF. induction es as [|[name m] es IHes]; constructor; [apply IH|exact IHes].
Qed.
Lemma dots_spec name : is_dots name = true <-> name = lit "." \/ name = lit "..".
Proof.
  assert (A : forall c, c = "."%char \/ c <> "."%char) by (intro c; destruct (ascii_dec c "."%char); auto). split.
  - intros H. destruct name as [|a [|b [|c r]]]; cbn [is_dots] in H; try discriminate H.
    + destruct (A a) as [->|N]; [left; reflexivity|]. exfalso. destruct a as [[] [] [] [] [] [] [] []]; try discriminate H. apply N. reflexivity.
    + destruct (A a) as [->|N]; [|exfalso; destruct a as [[] [] [] [] [] [] [] []]; try discriminate H; apply N; reflexivity].
      destruct (A b) as [->|N]; [right; reflexivity|]. exfalso. destruct b as [[] [] [] [] [] [] [] []]; try discriminate H. apply N. reflexivity.
    + exfalso. destruct a as [[] [] [] [] [] [] [] []]; try discriminate H. destruct b as [[] [] [] [] [] [] [] []]; discriminate H.
  - intros [->| ->]; reflexivity.
Qed.
Lemma path_of_cons path name names : path_of path (name :: names) = path_of (path ++ lit "/" ++ name) names.
Proof. unfold path_of. cbn [flat_map]. rewrite !app_assoc. reflexivity. Qed.

(** C151, what holds.  In a tree without broken links exactly the regular files are listed, each with
    the path that leads to it, whatever names and folders there are, however deep. *)
Theorem files_listed_partial : forall luck path n p, (forall names, ~ leads n names Broken) ->
  (In p (list_files luck path n) <-> exists names, leads n names Regular /\ p = path_of path names).
Proof.
  intros luck path n. revert path. induction n using node_deep; intros path p NB; cbn [list_files is_file].
  - split; [intros [<-|[]]; exists []; split; [constructor|unfold path_of; cbn; rewrite app_nil_r; reflexivity]|].
    intros (names & L & ->). inversion L; subst. left. unfold path_of. cbn. rewrite app_nil_r. reflexivity.
  - split; [intros []|]. intros (names & L & ->). inversion L.
  - exfalso. apply (NB []). constructor.
  - rewrite in_flat_map. split.
    + intros ([name k] & I & Hp). cbn [fst snd] in Hp. destruct (is_dots name) eqn:D; [destruct Hp|]. rewrite Forall_forall in H. specialize (H _ I). cbn [snd] in H.
      assert (ND : name <> lit "." /\ name <> lit "..") by (split; intro E; assert (X : is_dots name = true) by (apply dots_spec; auto); congruence).
      destruct ND as [N1 N2]. apply H in Hp; [|intros names L; apply (NB (name :: names)); econstructor; eauto].
      destruct Hp as (names & L & ->). exists (name :: names). split; [econstructor; eauto|]. rewrite path_of_cons. reflexivity.
    + intros (names & L & ->). inversion L as [|es' name k names' m I N1 N2 L' E1 E2 E3]; subst. exists (name, k). split; [exact I|]. cbn [fst snd].
      destruct (is_dots name) eqn:D; [apply dots_spec in D; tauto|]. rewrite Forall_forall in H. apply (H _ I); [intros names L2; apply (NB (name :: names)); econstructor; eauto|].
      exists names'. split; [exact L'|]. apply path_of_cons.
Qed.
Print Assumptions files_listed_partial.

Lemma listed_prefix luck n : forall path p, In p (list_files luck path n) -> exists rest, p = path ++ rest /\ (rest = [] \/ exists r, rest = "/"%char :: r).
Proof.
  induction n using node_deep; intros path p Hp; cbn [list_files is_file] in Hp.
  - destruct Hp as [<-|[]]. exists []. rewrite app_nil_r. auto.
  - destruct Hp.
  - destruct (luck path); [|destruct Hp]. destruct Hp as [<-|[]]. exists []. rewrite app_nil_r. auto.
  - apply in_flat_map in Hp. destruct Hp as ([name k] & I & Hp). cbn [fst snd] in Hp. destruct (is_dots name); [destruct Hp|]. rewrite Forall_forall in H.
    destruct (H _ I _ _ Hp) as (rest & -> & _). exists (lit "/" ++ name ++ rest). split; [rewrite !app_assoc; reflexivity|]. right. exists (name ++ rest). reflexivity.
Qed.
Lemma no_slash_prefix a b ra rb : ~ In "/"%char a -> ~ In "/"%char b -> (ra = [] \/ exists r, ra = "/"%char :: r) -> (rb = [] \/ exists r, rb = "/"%char :: r) -> a ++ ra = b ++ rb -> a = b.
Proof.
  revert b. induction a as [|c a IH]; intros [|d b] Ha Hb Ra Rb E; cbn [app] in E.
  - reflexivity.
  - exfalso. destruct Ra as [->|[r ->]]; [discriminate E|]. injection E as <- _. apply Hb. left. reflexivity.
  - exfalso. destruct Rb as [->|[r ->]]; [discriminate E|]. injection E as -> _. apply Ha. left. reflexivity.
  - injection E as <- E. f_equal. apply IH; auto; intro X; [apply Ha|apply Hb]; right; exact X.
Qed.
Lemma nodup_app {A} (a b : list A) : NoDup a -> NoDup b -> (forall x, In x a -> ~ In x b) -> NoDup (a ++ b).
Proof.
  induction 1 as [|x a N _ IH]; intros B D; [exact B|]. cbn [app]. constructor.
  - intro H. apply in_app_or in H. destruct H as [H|H]; [contradiction|]. exact (D x (or_introl eq_refl) H).
  - apply IH; [exact B|]. intros y Hy. apply D. right. exact Hy.
Qed.
(** No file is listed twice, whatever broken links look like. *)
Theorem files_listed_once : forall luck path n, proper_tree n -> NoDup (list_files luck path n).
Proof.
  intros luck path n. revert path. induction n using node_deep; intros path PT; cbn [list_files is_file].
  - repeat constructor. intros [].
  - constructor.
  - destruct (luck path); repeat constructor. intros [].
  - destruct (PT [] es ltac:(constructor)) as [ND NS].
    assert (K : forall e, In e es -> NoDup (if is_dots (fst e) then [] else list_files luck (path ++ lit "/" ++ fst e) (snd e))).
    { intros [name k] I. cbn [fst snd]. destruct (is_dots name) eqn:D; [constructor|]. rewrite Forall_forall in H. apply (H _ I). intros names es' L. apply (PT (name :: names)). econstructor; eauto.
      - intro E. assert (X : is_dots name = true) by (apply dots_spec; auto). congruence.
      - intro E. assert (X : is_dots name = true) by (apply dots_spec; auto). congruence. }
    clear H PT. induction es as [|e es IH]; cbn [flat_map]; [constructor|]. cbn [map] in ND. inversion_clear ND as [|? ? ND1 ND2]. apply nodup_app.
    + apply K. left. reflexivity.
    + apply IH; [exact ND2| |]; intros; [apply NS|apply K]; right; assumption.
    + intros p Hp Hq. destruct (is_dots (fst e)); [destruct Hp|]. apply in_flat_map in Hq. destruct Hq as (e' & I' & Hq). destruct (is_dots (fst e')); [destruct Hq|].
      apply listed_prefix in Hp, Hq. destruct Hp as (ra & -> & Ra). destruct Hq as (rb & E & Rb). rewrite <- !app_assoc in E. apply app_inv_head in E. cbn [lit list_ascii_of_string app] in E. injection E as E.
      apply no_slash_prefix in E; auto; [|apply NS; left; reflexivity|apply NS; right; exact I']. apply ND1. rewrite E. apply in_map. exact I'.
Qed.
Print Assumptions files_listed_once.
(** C151 is false as it stands: a link that leads nowhere is listed as a file when the memory stat did not write looks so. *)
Theorem files_listed_refuted : exists n, proper_tree n /\ list_files (fun _ => true) (lit "in") n = [lit "in/a"; lit "in/gone"] /\ ~ leads n [lit "gone"] Regular.
Proof.
  exists (Folder [(lit ".", Special); (lit "a", Regular); (lit "gone", Broken)]). split; [|split].
  - intros names es L. inversion L as [|es' name k names' m I N1 N2 L' E1 E2 E3]; subst.
    + split; [repeat constructor; cbn; intuition discriminate|]. intros e [<-|[<-|[<-|[]]]] Hs; vm_compute in Hs; intuition discriminate.
    + destruct I as [I|[I|[I|[]]]]; injection I as <- <-; inversion L'.
  - vm_compute. reflexivity.
  - intro L. inversion L as [|es' name k names' m I N1 N2 L' E1 E2 E3]; subst. destruct I as [I|[I|[I|[]]]]; try discriminate I. injection I as <-. inversion L'.
Qed.
Print Assumptions files_listed_refuted.
Example files_listed_applies : let n := Folder [(lit "..", Special); (lit "b", Folder [(lit "c.off", Regular); (lit "p", Special)]); (lit "a.off", Regular)] in
  (forall names, ~ leads n names Broken) /\ proper_tree n /\ list_files (fun _ => true) (lit "in") n = [lit "in/b/c.off"; lit "in/a.off"].
Proof.
  cbv zeta. split; [|split].
  - intros names L. inversion L as [|? ? ? ? ? I N1 N2 L' E1 E2 E3]; subst. destruct I as [I|[I|[I|[]]]]; injection I as <- <-; try (inversion L'; fail).
    inversion L' as [|? ? ? ? ? I N3 N4 L'' E1 E2 E3]; subst. destruct I as [I|[I|[]]]; injection I as <- <-; inversion L''.
  - intros names es L. inversion L as [|? ? ? ? ? I N1 N2 L' E1 E2 E3]; subst.
    + split; [repeat constructor; cbn; intuition discriminate|]. intros e [<-|[<-|[<-|[]]]] Hs; vm_compute in Hs; intuition discriminate.
    + destruct I as [I|[I|[I|[]]]]; injection I as <- <-; try (inversion L'; fail). inversion L' as [|? ? ? ? ? I N3 N4 L'' E1 E2 E3]; subst.
      * split; [repeat constructor; cbn; intuition discriminate|]. intros e [<-|[<-|[]]] Hs; vm_compute in Hs; intuition discriminate.
      * destruct I as [I|[I|[]]]; injection I as <- <-; inversion L''.
  - vm_compute. reflexivity.
Qed.

(** * C152: the decompressor *)
Section Levels.
  Variables (P : Type) (qz : Z * Z * Z -> Z -> P -> vec) (gp : Z * Z * Z -> Z -> vec -> P) (bary : list P -> P) (lim : nat) (bpv : Z -> Z) (fuel : nat).
  Notation compressible := (PropPipe.compressible P qz gp bary lim bpv fuel).
  Notation bytes_of := (bytes_of P qz bary lim bpv fuel).
  Notation decompress_mesh := (decompress_mesh P qz gp bary lim bpv fuel).
  Notation decompress_main := (decompress_main P qz gp bary lim bpv fuel).
  (** What a file for level [lod] is to hold: the mesh of that level, p percent of the rounds rounded up. *)
  Definition right_file (s : source P) (ms : list mesh) (rs : list round) (f : Z * (mesh * (nat -> P))) : Prop :=
    exists sg, PropPipe.same_mesh (nth (PropPipe.rounds_at (Z.to_nat (fst f)) (length rs)) ms no_mesh) (s_pos s) (fst (snd f)) (snd (snd f)) sg.

  Lemma complete_is_advance test n lod : n = fuel -> 1 <= n -> (0 <= lod)%Z -> (lod = 0 -> test 0 0 = true)%Z ->
    option_map l_cur (completeOperation test n (Lod Idle 0 false lod)) = option_map l_cur (advance_all test n fresh (if (lod =? 0)%Z then [] else [lod])).
  Proof.
    intros _ F L T. destruct (Z.eqb_spec lod 0) as [->|N].
    - destruct n as [|n]; [lia|]. cbn [advance_all completeOperation l_done option_map fresh l_cur]. unfold batchOperation. cbn [l_done l_op l_cur l_pct]. rewrite T by reflexivity. destruct n; reflexivity.
    - cbn [advance_all]. unfold advance_to, fresh. cbn [l_pct l_op l_cur]. destruct (Z.geb_spec 0 lod); [lia|]. destruct (completeOperation test n _); reflexivity.
  Qed.
  Lemma mesh_is_advance s ms rs bytes c lod : compressible s ms rs -> bytes_of s = Some bytes -> (0 <= lod)%Z ->
    decompress_mesh c bytes lod = advance_levels P qz gp bary lim bpv fuel c bytes (if (lod =? 0)%Z then [] else [lod]).
  Proof.
    intros C EB L. destruct (PropPipe.header P qz gp bary lim bpv fuel s ms rs bytes C EB) as (r & off & ER & (_ & _ & _ & R1 & R2 & R3 & _)).
    destruct (PropPipe.cp_header _ _ _ _ _ _ _ _ _ _ C) as (M1 & M2 & M3).
    unfold ProgModel.decompress_mesh, advance_levels. rewrite ER. cbn [bind]. unfold construct_at, construct. rewrite R1, R2, R3, M1, M2, M3, Z.sub_0_r, Z.ltb_irrefl. cbn [bind].
    pose proof (complete_is_advance (stop (0 + Z.of_nat (length rs))) fuel lod eq_refl) as K.
    assert (F := PropPipe.cp_fuel _ _ _ _ _ _ _ _ _ _ C). specialize (K ltac:(lia) L).
    assert (T : (lod = 0 -> stop (0 + Z.of_nat (length rs)) 0 0 = true)%Z).
    { intros _. unfold stop. assert (N := PropPipe.cp_some _ _ _ _ _ _ _ _ _ _ C). destruct rs; [congruence|]. cbn [length]. destruct (Z.eqb_spec (0 + Z.of_nat (S (length rs))) 0); [lia|]. reflexivity. }
    specialize (K T). destruct (completeOperation _ fuel _) as [a|]; destruct (advance_all _ fuel fresh _) as [b|]; cbn [option_map] in K; try discriminate K; cbn [bind]; [|reflexivity].
    injection K as ->. reflexivity.
  Qed.
  Lemma level_written s ms rs bytes c lod : compressible s ms rs -> bytes_of s = Some bytes -> PropPipe.machine_ok c (s_base s) rs -> (0 <= lod <= 100)%Z ->
    exists m pos more, decompress_mesh c bytes lod = Some (m, pos, more) /\ right_file s ms rs (lod, (m, pos)) /\ (lod = 100%Z -> more = []).
  Proof.
    intros C EB HM L. rewrite (mesh_is_advance s ms rs bytes c lod C EB) by lia.
    destruct (PropPipe.decoded P qz gp bary lim bpv fuel s ms rs C) as (bytes' & EB' & _ & D).
    assert (X : Some bytes = Some bytes') by (rewrite <- EB, <- EB'; reflexivity). injection X as <-.
    destruct (D c (if (lod =? 0)%Z then [] else [lod]) HM) as (m & pos & more & sg & D1 & D2 & D3).
    { destruct (lod =? 0)%Z; repeat constructor. lia. }
    exists m, pos, more. split; [exact D1|]. split.
    - exists sg. cbn [fst snd]. replace (highest (if (lod =? 0)%Z then [] else [lod])) with lod in D2; [exact D2|]. destruct (Z.eqb_spec lod 0) as [->|N]; [reflexivity|]. cbn [highest fold_right]. lia.
    - intros ->. apply D3. left. reflexivity.
  Qed.

  Lemma levels_written s ms rs bytes cs : compressible s ms rs -> bytes_of s = Some bytes -> (forall i, PropPipe.machine_ok (cs i) (s_base s) rs) ->
    forall count i h, i + count <= 11 ->
    exists fs, write_levels P qz gp bary lim bpv fuel cs bytes i count h = Some (fs, if (i + count =? 11) && (0 <? count) then Some bytes else h) /\
      map fst fs = map (fun k => (10 * Z.of_nat k)%Z) (seq i count) /\ Forall (right_file s ms rs) fs.
  Proof.
    intros C EB HM. induction count as [|k IH]; intros i h L; cbn [write_levels].
    - exists []. rewrite andb_false_r. split; [reflexivity|]. split; constructor.
    - destruct (level_written s ms rs bytes (cs i) (10 * Z.of_nat i) C EB (HM i) ltac:(lia)) as (m & pos & more & E & R & M). rewrite E. cbn [bind].
      destruct (IH (S i) (if (10 * Z.of_nat i =? 100)%Z then Some (firstn (length bytes - length more) bytes) else h) ltac:(lia)) as (fs & E2 & F1 & F2).
      rewrite E2. cbn [bind]. exists ((10 * Z.of_nat i, (m, pos))%Z :: fs). split; [|split; [cbn [map seq fst]; rewrite F1; reflexivity|constructor; assumption]].
      f_equal. f_equal. replace (S i + k) with (i + S k) by lia. cbn [Nat.ltb Nat.leb]. rewrite andb_true_r.
      destruct (Z.eqb_spec (10 * Z.of_nat i) 100) as [Eh|Nh].
      + rewrite M by lia. cbn [length]. rewrite Nat.sub_0_r, firstn_all. assert (i = 10 /\ k = 0) as [-> ->] by lia. reflexivity.
      + destruct (Nat.eqb_spec (i + S k) 11) as [E11|N11]; [|reflexivity]. destruct k; [lia|]. reflexivity.
  Qed.
  Lemma last_level s ms rs bytes c : compressible s ms rs -> bytes_of s = Some bytes -> PropPipe.machine_ok c (s_base s) rs ->
    exists m pos more sg, advance_levels P qz gp bary lim bpv fuel c bytes [100%Z] = Some (m, pos, more) /\ PropPipe.same_mesh (s_mesh s) (s_pos s) m pos sg.
  Proof.
    intros C EB HM. destruct (PropPipe.decoded P qz gp bary lim bpv fuel s ms rs C) as (bytes' & EB' & _ & D).
    assert (X : Some bytes = Some bytes') by (rewrite <- EB, <- EB'; reflexivity). injection X as <-.
    destruct (D c [100%Z] HM ltac:(repeat constructor; lia)) as (m & pos & more & sg & D1 & D2 & D3). exists m, pos, more, sg. split; [exact D1|]. apply D3. left. reflexivity.
  Qed.

  (** C152, what holds.  For an object the compressor can handle the decompressor without an argument
      writes eleven files, for the levels 0, 10, ..., 100, and with the argument 10 one file, for level
      100; each holds the mesh of its level, and the object it keeps is decoded to the mesh that was
      compressed, whatever the machines. *)
  Theorem decompressor_writes_levels_partial : forall s ms rs bytes cs, compressible s ms rs -> bytes_of s = Some bytes ->
    (forall i, PropPipe.machine_ok (cs i) (s_base s) rs) ->
    forall arg, arg = None \/ arg = Some 10 ->
    exists fs m pos sg, decompress_main cs bytes arg = Some (Ends fs (m, pos)) /\
      map fst fs = (match arg with None => [0; 10; 20; 30; 40; 50; 60; 70; 80; 90; 100]%Z | Some _ => [100]%Z end) /\
      Forall (right_file s ms rs) fs /\ PropPipe.same_mesh (s_mesh s) (s_pos s) m pos sg.
  Proof.
    intros s ms rs bytes cs C EB HM arg HA. destruct (last_level s ms rs bytes (cs 11) C EB (HM 11)) as (m & pos & more & sg & L1 & L2).
    destruct HA as [->| ->].
    - destruct (levels_written s ms rs bytes cs C EB HM 11 0 None ltac:(lia)) as (fs & E & F1 & F2). exists fs, m, pos, sg. unfold ProgModel.decompress_main. rewrite E. cbn [bind Nat.add Nat.eqb andb Nat.ltb Nat.leb].
      rewrite L1. cbn [bind]. split; [reflexivity|]. split; [exact F1|]. split; assumption.
    - destruct (levels_written s ms rs bytes cs C EB HM 1 10 None ltac:(lia)) as (fs & E & F1 & F2). exists fs, m, pos, sg. unfold ProgModel.decompress_main. rewrite E. cbn [bind Nat.add Nat.eqb andb Nat.ltb Nat.leb].
      rewrite L1. cbn [bind]. split; [reflexivity|]. split; [exact F1|]. split; assumption.
  Qed.

  (** C152 is false for every argument below 10 and every such object: the one file is right, then the
      program uses a pointer that was never set. *)
  Theorem decompressor_argument_uninitialised : forall s ms rs bytes cs a, compressible s ms rs -> bytes_of s = Some bytes ->
    (forall i, PropPipe.machine_ok (cs i) (s_base s) rs) -> a < 10 ->
    exists f, decompress_main cs bytes (Some a) = Some (Uninitialised [f]) /\ fst f = (10 * Z.of_nat a)%Z /\ right_file s ms rs f.
  Proof.
    intros s ms rs bytes cs a C EB HM La. destruct (levels_written s ms rs bytes cs C EB HM 1 a None ltac:(lia)) as (fs & E & F1 & F2).
    unfold ProgModel.decompress_main. rewrite E. cbn [bind]. destruct (Nat.eqb_spec (a + 1) 11); [lia|]. cbn [andb].
    destruct fs as [|f [|g fs]]; try discriminate F1. exists f. split; [reflexivity|]. split; [cbn in F1; injection F1 as ->; reflexivity|]. inversion F2; assumption.
  Qed.
End Levels.
Print Assumptions decompressor_writes_levels_partial.
Print Assumptions decompressor_argument_uninitialised.

Theorem decompressor_argument_refuted : exists bytes cs f, decompress_main pt (qzQ PropPpmcLevels.ex_fv) (gpQ PropPpmcLevels.ex_fv) baryQ 100 Z.log2_up 5000 cs bytes (Some 5) = Some (Uninitialised [f]).
Proof.
  destruct PropPipe.cube_compressible as (ms & C & _). destruct (PropPipe.kept_is _ _ _ _ _ _ _ _ _ _ C) as (bytes & B1 & _).
  destruct (decompressor_argument_uninitialised pt (qzQ PropPpmcLevels.ex_fv) (gpQ PropPpmcLevels.ex_fv) baryQ 100 Z.log2_up 5000 _ _ _ _ (fun _ => PropPipe.cube_machine) 5 C B1 (fun _ => PropPipe.cp_machine _ _ _ _ _ _ _ _ _ _ C) ltac:(lia)) as (f & E & _).
  exists bytes, (fun _ => PropPipe.cube_machine), f. exact E.
Qed.
Print Assumptions decompressor_argument_refuted.
Example decompressor_applies : exists s ms bytes, PropPipe.compressible pt (qzQ PropPpmcLevels.ex_fv) (gpQ PropPpmcLevels.ex_fv) baryQ 100 Z.log2_up 5000 s ms PropPpmcLevels.cube_rounds /\
  bytes_of pt (qzQ PropPpmcLevels.ex_fv) baryQ 100 Z.log2_up 5000 s = Some bytes /\ length ms = 4 /\ (forall i : nat, PropPipe.machine_ok ((fun _ => PropPipe.cube_machine) i) (s_base s) PropPpmcLevels.cube_rounds).
Proof.
  destruct PropPipe.cube_compressible as (ms & C & L). destruct (PropPipe.kept_is _ _ _ _ _ _ _ _ _ _ C) as (bytes & B1 & _).
  exists PropPipe.cube_source, ms, bytes. split; [exact C|]. split; [exact B1|]. split; [exact L|]. intros _. exact (PropPipe.cp_machine _ _ _ _ _ _ _ _ _ _ C).
Qed.
