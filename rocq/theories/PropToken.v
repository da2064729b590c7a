(** C58: tokenising. *)
From Coq Require Import NArith List Bool Lia.
From Verif Require Import TokenModel TokenProofs.
Import ListNotations.

(** Fields, plain or quoted, joined by a delimiter are recovered.  Plain fields are free of
    delimiters and quotes; a quoted field may contain anything but its own quote. *)
Theorem tokenize_inverts_join : forall delimiters quote keepBlankFields d l,
  In d delimiters -> ~ In d quote -> Forall (fits delimiters quote) l ->
  Forall (fun f => value f <> []) l -> ~ In 0%N delimiters ->
  tokenize (joined d (map text l)) delimiters keepBlankFields quote = map value l.
Proof. intros delims quote keep d l Hd Hq F V Z. apply tokenize_joined; auto. Qed.
Print Assumptions tokenize_inverts_join.
(** Default delimiters and quotes; the second field is quoted and contains a delimiter. *)
Definition ex_delims : str := [32; 44; 59; 58; 9]%N.
Definition ex_quote : str := [34; 39]%N.
Definition ex_fields : list field := [Plain [97; 98]%N; Quoted 34%N [99; 44; 32; 39]%N; Plain [100]%N].
Example tokenize_inverts_join_nonvacuous :
  In 44%N ex_delims /\ ~ In 44%N ex_quote /\ Forall (fits ex_delims ex_quote) ex_fields /\
  Forall (fun f => value f <> []) ex_fields /\ ~ In 0%N ex_delims /\
  joined 44%N (map text ex_fields) = [97; 98; 44; 34; 99; 44; 32; 39; 34; 44; 100]%N.
Proof.
  unfold ex_delims, ex_quote, ex_fields.
  split; [cbn; tauto|]. split; [intros [H|[H|[]]]; discriminate|]. split; [|split; [|split]].
  - repeat constructor.
    + cbn in H. destruct H as [<-|[<-|[]]]; intros K; cbn in K; repeat (destruct K as [K|K]; [discriminate|]); destruct K.
    + cbn in H. destruct H as [<-|[<-|[]]]; intros K; cbn in K; repeat (destruct K as [K|K]; [discriminate|]); destruct K.
    + intros K; cbn in K; repeat (destruct K as [K|K]; [discriminate|]); destruct K.
    + intros K; cbn in K; repeat (destruct K as [K|K]; [discriminate|]); destruct K.
    + cbn in H. destruct H as [<-|[]]; intros K; cbn in K; repeat (destruct K as [K|K]; [discriminate|]); destruct K.
    + cbn in H. destruct H as [<-|[]]; intros K; cbn in K; repeat (destruct K as [K|K]; [discriminate|]); destruct K.
  - repeat constructor; discriminate.
  - intros K; cbn in K; repeat (destruct K as [K|K]; [discriminate|]); destruct K.
  - reflexivity.
Qed.

(** Two or more fields, some of them empty, come back when blank fields are kept. *)
Theorem tokenize_keeps_blanks : forall delimiters quote d l,
  In d delimiters -> ~ In d quote ->
  Forall (fun s => forall c, In c s -> ~ In c delimiters /\ ~ In c quote) l -> (2 <= length l)%nat ->
  tokenize (joined d l) delimiters true quote = l.
Proof. exact tokenize_blanks. Qed.
Print Assumptions tokenize_keeps_blanks.
Example tokenize_keeps_blanks_nonvacuous :
  tokenize [44; 97; 44; 44]%N ex_delims true ex_quote = [[]; [97]; []; []]%N /\
  tokenize [44; 97; 44; 44]%N ex_delims false ex_quote = [[97]]%N.
Proof. split; reflexivity. Qed.

(** A single empty field does not come back. *)
Theorem tokenize_single_blank_refuted : exists delimiters quote d l,
  In d delimiters /\ ~ In d quote /\ l <> [] /\ tokenize (joined d l) delimiters true quote <> l.
Proof.
  exists [44]%N, [34]%N, 44%N, [[]]. split; [left; reflexivity|]. split; [intros [H|[]]; discriminate|].
  split; discriminate.
Qed.
Print Assumptions tokenize_single_blank_refuted.

(** C79.  Of a non-empty path exactly one trailing slash is removed; everything else is kept.  The
    empty path is out of range. *)
Theorem remove_slash_spec :
  (forall s, remove_slash (s ++ [47%N]) = Some s) /\
  (forall s c, c <> 47%N -> remove_slash (s ++ [c]) = Some (s ++ [c])) /\
  remove_slash [] = None.
Proof.
  split; [|split; [|reflexivity]].
  - intro s. unfold remove_slash. rewrite rev_app_distr. cbn [rev app N.eqb Pos.eqb]. rewrite rev_involutive. reflexivity.
  - intros s c H. unfold remove_slash. rewrite rev_app_distr. cbn [rev app]. destruct (N.eqb_spec c 47); [contradiction|reflexivity].
Qed.
Print Assumptions remove_slash_spec.
Example remove_slash_nonvacuous : remove_slash [47; 97; 47; 47]%N = Some [47; 97; 47]%N /\ remove_slash [47; 97]%N = Some [47; 97]%N.
Proof. split; reflexivity. Qed.
