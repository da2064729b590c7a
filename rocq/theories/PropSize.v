(** C222: the partitioner measures its input right. *)
From Coq Require Import List ZArith Ascii Bool Lia.
From Verif Require Import SizeModel.
Import ListNotations.
Open Scope Z_scope.

(** * Specification *)
(** The last line is not ended. *)
Definition unended (t : list ascii) : Prop := exists u c, t = u ++ [c] /\ c <> newline.
(** A text made of lines that are all ended. *)
Definition ended_lines (ls : list (list ascii)) : list ascii := concat (map (fun l => l ++ [newline]) ls).
(** The sizes of the files that exist. *)
Inductive sizes : list file -> Z -> Prop :=
| s_nil : sizes [] 0
| s_missing r n : sizes r n -> sizes (Missing :: r) n
| s_locked m r n : sizes r n -> sizes (Locked m :: r) (m + n)
| s_readable t r n : sizes r n -> sizes (Readable t :: r) (Z.of_nat (length t) + n).
(** What can be read, and the number of last lines that are not ended. *)
Inductive readable : list file -> Z -> Z -> Prop :=
| r_nil : readable [] 0 0
| r_missing r n k : readable r n k -> readable (Missing :: r) n k
| r_locked m r n k : readable r n k -> readable (Locked m :: r) n k
| r_ended t r n k : ~ unended t -> readable r n k -> readable (Readable t :: r) (Z.of_nat (length t) + n) k
| r_open t r n k : unended t -> readable r n k -> readable (Readable t :: r) (Z.of_nat (length t) + n) (k + 1).
Definition real (f : file) : Prop := match f with Locked n => 0 <= n | _ => True end.

(** * Proof *)
Lemma unended_last u c : unended (u ++ [c]) <-> c <> newline.
Proof.
  split; [|intro N; exists u, c; auto]. intros (v & d & E & N). apply app_inj_tail in E. destruct E as (_ & E). congruence.
Qed.
Lemma unended_cons c u d : unended (c :: u ++ [d]) <-> unended (u ++ [d]).
Proof. rewrite unended_last. apply (unended_last (c :: u) d). Qed.
Lemma unended_app a b : b <> [] -> unended (a ++ b) <-> unended b.
Proof.
  intro B. destruct (exists_last B) as (u & c & ->). rewrite app_assoc, !unended_last. reflexivity.
Qed.
Lemma unended_nil : ~ unended [].
Proof. intros (u & c & E & _). destruct u; discriminate E. Qed.
Lemma lines_spec t : forall cur, ~ In newline cur ->
  Forall (fun l => ~ In newline l) (getlines cur t) /\
  ((unended (rev cur ++ t) /\ ended_lines (getlines cur t) = rev cur ++ t ++ [newline]) \/
   (~ unended (rev cur ++ t) /\ ended_lines (getlines cur t) = rev cur ++ t)).
Proof.
  unfold ended_lines. induction t as [|c t IH]; intros cur C; cbn [getlines].
  - destruct cur as [|d cur].
    + split; [constructor|]. right. split; [apply unended_nil|reflexivity].
    + split; [constructor; [intro I; apply C, in_rev, I|constructor]|]. left. cbn [rev map concat app]. rewrite !app_nil_r. split; [|reflexivity].
      apply unended_last. intro E. apply C. left. exact E.
  - destruct (Ascii.eqb_spec c newline) as [->|N].
    + destruct (IH [] (fun x => x)) as (F & G). split; [constructor; [intro I; apply C, in_rev, I|exact F]|].
      cbn [rev app map concat] in *. destruct t as [|d t].
      * right. split; [rewrite unended_last; intro X; apply X; reflexivity|]. cbn [getlines map concat]. rewrite app_nil_r. reflexivity.
      * assert (U : unended (rev cur ++ newline :: d :: t) <-> unended (d :: t)).
        { change (newline :: d :: t) with ([newline] ++ d :: t). rewrite app_assoc. apply unended_app. discriminate. }
        rewrite U. destruct G as [(G1 & G2)|(G1 & G2)]; [left|right]; (split; [exact G1|]); rewrite G2, <- app_assoc; reflexivity.
    + destruct (IH (c :: cur)) as (F & G).
      { intros [E|I]; [exact (N E)|exact (C I)]. }
      split; [exact F|]. cbn [rev] in G. rewrite <- !app_assoc in G. exact G.
Qed.
(** getline gives the lines of a file: ended with a newline they are its bytes, plus one newline if its last line is not ended;
    no line contains a newline. *)
Theorem getline_lines : forall t, Forall (fun l => ~ In newline l) (lines_of (Readable t)) /\
  (unended t -> ended_lines (lines_of (Readable t)) = t ++ [newline]) /\ (~ unended t -> ended_lines (lines_of (Readable t)) = t).
Proof.
  intro t. destruct (lines_spec t [] (fun x => x)) as (F & G). split; [exact F|]. cbn [rev app] in G. cbn [lines_of].
  destruct G as [(U & G)|(U & G)]; split; intro V; try exact G; contradiction.
Qed.
Print Assumptions getline_lines.
Example getline_lines_ex : let nl := newline in
  unended ["a"; nl; nl; "b"]%char /\ lines_of (Readable ["a"; nl; nl; "b"]%char) = [["a"%char]; []; ["b"%char]].
Proof. split; [apply (unended_last ["a"; newline; newline]%char); discriminate|reflexivity]. Qed.

Lemma sizes_from files n : sizes files n -> Forall real files -> forall a,
  fold_left (fun size f => if 0 <? file_size f then size + file_size f else size) files a = a + n /\ 0 <= n.
Proof.
  induction 1 as [|r n S IH|m r n S IH|t r n S IH]; intros R a; cbn [fold_left file_size]; [lia| | |];
    specialize (IH (Forall_inv_tail R)).
  - exact (IH a).
  - pose proof (Forall_inv R) as M. cbn in M. destruct (Z.ltb_spec 0 m).
    + destruct (IH (a + m)) as (E & B). rewrite E. lia.
    + destruct (IH a) as (E & B). rewrite E. lia.
  - destruct (Z.ltb_spec 0 (Z.of_nat (length t))).
    + destruct (IH (a + Z.of_nat (length t))) as (E & B). rewrite E. lia.
    + destruct (IH a) as (E & B). rewrite E. lia.
Qed.
(** The size of a list of files is the sum of the sizes of those that exist. *)
Theorem file_sizes_sum : forall files n, Forall real files -> sizes files n -> file_sizes files = n.
Proof. intros files n R S. destruct (sizes_from files n S R 0) as (E & _). exact E. Qed.
Print Assumptions file_sizes_sum.

Lemma percent_spec total taken lines : forall i processed,
  snd (percentages total taken i lines processed) = processed + Z.of_nat (length (ended_lines lines)) /\
  Forall (fun d => snd d = total /\ exists p, fst d = p * 100 /\ processed < p <= snd (percentages total taken i lines processed)) (fst (percentages total taken i lines processed)).
Proof.
  unfold ended_lines. induction lines as [|l lines IH]; intros i processed; cbn [percentages map concat]; [split; [cbn; lia|constructor]|].
  specialize (IH (S i) (processed + Z.of_nat (length l) + 1)). destruct (percentages total taken (S i) lines _) as [ds last]. cbn [fst snd] in *.
  destruct IH as (E & F). rewrite !app_length. cbn [length]. split; [lia|].
  assert (F' : Forall (fun d => snd d = total /\ exists p, fst d = p * 100 /\ processed < p <= last) ds).
  { eapply Forall_impl; [|exact F]. intros d (D1 & p & D2 & D3). split; [exact D1|]. exists p. lia. }
  destruct (taken i); [|exact F']. constructor; [|exact F']. cbn [fst snd]. split; [reflexivity|]. exists (processed + Z.of_nat (length l) + 1). lia.
Qed.
Lemma read_length files n k : readable files n k -> Z.of_nat (length (ended_lines (flat_map lines_of files))) = n + k.
Proof.
  unfold ended_lines. induction 1 as [|r n k R IH|m r n k R IH|t r n k U R IH|t r n k U R IH]; cbn [flat_map]; try exact IH; [reflexivity| |];
    rewrite map_app, concat_app, app_length, Nat2Z.inj_add, IH; destruct (getline_lines t) as (_ & A & B); unfold ended_lines in A, B.
  - rewrite (B U). lia.
  - rewrite (A U), app_length. cbn [length]. lia.
Qed.
Lemma read_bounds files n k : readable files n k -> forall m, Forall real files -> sizes files m -> 0 <= k /\ k <= n <= m.
Proof.
  induction 1 as [|r n k R IH|s r n k R IH|t r n k U R IH|t r n k U R IH]; intros m F S; inversion S; subst; try lia;
    match goal with H : sizes r _ |- _ => specialize (IH _ (Forall_inv_tail F) H) end; try lia.
  - pose proof (Forall_inv F) as M. cbn in M. lia.
  - destruct U as (u & c & -> & _). rewrite app_length. cbn [length]. lia.
Qed.
(** At the end processed_filesize is what could be read, and one more for each last line that is not ended. *)
Theorem processed_size : forall taken files n k, readable files n k -> snd (measure taken files) = n + k.
Proof.
  intros taken files n k R. unfold measure. destruct (percent_spec (file_sizes files) taken (flat_map lines_of files) 0 0) as (E & _).
  rewrite E. apply (read_length _ _ _ R).
Qed.
Print Assumptions processed_size.
(** The percentage is never divided by zero: every division is by the size of the files, which is positive, and what is divided is
    positive and above 100 percent at most for the newlines that are not there. *)
Theorem percentage_defined : forall taken files m n k, Forall real files -> sizes files m -> readable files n k ->
  forall a b, In (a, b) (fst (measure taken files)) -> b = m /\ 0 < b /\ 0 < a <= 100 * (m + k).
Proof.
  intros taken files m n k F S R a b I. pose proof (processed_size taken files n k R) as P. destruct (read_bounds files n k R m F S) as (K1 & K2).
  unfold measure in *. destruct (percent_spec (file_sizes files) taken (flat_map lines_of files) 0 0) as (_ & D).
  rewrite Forall_forall in D. destruct (D _ I) as (D1 & p & D2 & D3). cbn [fst snd] in *. rewrite (file_sizes_sum files m F S) in *. subst a b.
  split; [reflexivity|]. lia.
Qed.
Print Assumptions percentage_defined.
(** There is a division for each line taken. *)
Theorem percentage_count : forall taken files,
  length (fst (measure taken files)) = length (filter taken (seq 0 (length (flat_map lines_of files)))).
Proof.
  intros taken files. unfold measure. generalize (file_sizes files) (flat_map lines_of files) O 0. intros total lines.
  induction lines as [|l lines IH]; intros i processed; cbn [percentages length seq filter]; [reflexivity|].
  specialize (IH (S i) (processed + Z.of_nat (length l) + 1)). destruct (percentages total taken (S i) lines _) as [ds last]. cbn [fst] in *.
  destruct (taken i); cbn [length]; congruence.
Qed.
Print Assumptions percentage_count.
(** A missing file, one that cannot be opened, and two that can. *)
Definition four_files : list file :=
  [Missing; Locked 7; Readable ["a"; "b"; newline; newline]%char; Readable ["c"; "d"; "e"]%char].
Example four_files_meet : Forall real four_files /\ sizes four_files 14 /\ readable four_files 7 1 /\
  measure (fun i => negb (Nat.eqb i 1)) four_files = ([(300, 14); (800, 14)], 8).
Proof.
  split; [repeat constructor; cbn; lia|]. split; [|split; [|reflexivity]].
  - apply s_missing. apply (s_locked 7 _ 7). apply (s_readable ["a"; "b"; newline; newline]%char _ 3).
    apply (s_readable ["c"; "d"; "e"]%char _ 0). constructor.
  - apply r_missing, r_locked. apply (r_ended ["a"; "b"; newline; newline]%char _ 3 1).
    + rewrite (unended_last ["a"; "b"; newline]%char newline). intro X. apply X. reflexivity.
    + apply (r_open ["c"; "d"; "e"]%char _ 0 0); [|constructor]. apply (unended_last ["c"; "d"]%char). discriminate.
Qed.
