(** Proofs about tokenize. *)
From Coq Require Import NArith List Bool Lia.
From Verif Require Import TokenModel.
Import ListNotations.

(** A field as written, and the value it stands for. *)
Inductive field := Plain (s : str) | Quoted (q : char) (s : str).
Definition text (f : field) : str := match f with Plain s => s | Quoted q s => q :: s ++ [q] end.
Definition value (f : field) : str := match f with Plain s => s | Quoted _ s => s end.
Definition fits (delimiters quote : str) (f : field) : Prop :=
  match f with
  | Plain s => forall c, In c s -> ~ In c delimiters /\ ~ In c quote
  | Quoted q s => In q quote /\ ~ In q delimiters /\ ~ In q s
  end.
(** Fields written one after the other with the delimiter [d] between them. *)
Fixpoint joined (d : char) (l : list str) : str :=
  match l with
  | [] => []
  | [s] => s
  | s :: l => s ++ d :: joined d l
  end.

Lemma has_iff s c : has s c = true <-> In c s.
Proof.
  unfold has. rewrite existsb_exists. split; [intros (x & H & E); apply N.eqb_eq in E; subst; exact H|].
  intros H. exists c. split; [exact H|apply N.eqb_refl].
Qed.
Lemma has_not s c : has s c = false <-> ~ In c s.
Proof. rewrite <- has_iff. destruct (has s c); split; congruence. Qed.

Definition last_of (d : char) (s : str) : char := last s d.
Lemma last_cons d a s : last_of d (a :: s) = last_of a s.
Proof.
  unfold last_of. revert a d. induction s as [|b s IH]; intros a d; [reflexivity|].
  change (last (a :: b :: s) d) with (last (b :: s) d). rewrite (IH b d), (IH b a). reflexivity.
Qed.

Section Tok.
  Variables (delims quote : str) (keep : bool).
  Hypothesis ND : delims <> [].
  Let run := fold_left (tok_step delims keep quote).

  Lemma nz {A} (x y : A) : (if match delims with [] => true | _ => false end then x else y) = y.
  Proof. destruct delims; [congruence|reflexivity]. Qed.

  Lemma plain_run s : forall ch cq t r, (forall c, In c s -> ~ In c delims /\ ~ In c quote) ->
    run s {| t_ch := ch; t_current_quote := cq; t_quoted := false; t_token := t; t_result := r |} =
    {| t_ch := last_of ch s; t_current_quote := cq; t_quoted := false; t_token := t ++ s; t_result := r |}.
  Proof.
    induction s as [|c s IH]; intros ch cq t r H; [cbn; rewrite app_nil_r; reflexivity|].
    unfold run in *. cbn [fold_left]. destruct (H c (or_introl eq_refl)) as [Hd Hq].
    assert (E : tok_step delims keep quote {| t_ch := ch; t_current_quote := cq; t_quoted := false; t_token := t; t_result := r |} c =
      {| t_ch := c; t_current_quote := cq; t_quoted := false; t_token := t ++ [c]; t_result := r |}).
    { unfold tok_step. cbn [t_quoted t_token t_current_quote t_result]. rewrite (proj2 (has_not quote c) Hq), (proj2 (has_not delims c) Hd).
      rewrite andb_false_r. cbn [negb]. rewrite andb_true_r. destruct (negb _); reflexivity. }
    rewrite E, IH by (intros; apply H; right; assumption). rewrite <- app_assoc, last_cons. reflexivity.
  Qed.
  Lemma inside_run q s : forall ch t r, ~ In q s -> 
    run s {| t_ch := ch; t_current_quote := q; t_quoted := true; t_token := t; t_result := r |} =
    {| t_ch := last_of ch s; t_current_quote := q; t_quoted := true; t_token := t ++ s; t_result := r |}.
  Proof.
    induction s as [|c s IH]; intros ch t r H; [cbn; rewrite app_nil_r; reflexivity|].
    unfold run in *. cbn [fold_left].
    assert (E : tok_step delims keep quote {| t_ch := ch; t_current_quote := q; t_quoted := true; t_token := t; t_result := r |} c =
      {| t_ch := c; t_current_quote := q; t_quoted := true; t_token := t ++ [c]; t_result := r |}).
    { unfold tok_step. cbn [t_quoted t_token t_current_quote t_result negb].
      assert (Eq : N.eqb q c = false) by (apply N.eqb_neq; intros ->; apply H; left; reflexivity). rewrite Eq.
      destruct (negb _ && has quote c); cbn [negb]; rewrite andb_false_r; reflexivity. }
    rewrite E, IH by (intros X; apply H; right; exact X). rewrite <- app_assoc, last_cons. reflexivity.
  Qed.
  (** A field is collected into the token; the quote remembered afterwards is not observed. *)
  Lemma field_run f ch cq t r : fits delims quote f ->
    exists cq', run (text f) {| t_ch := ch; t_current_quote := cq; t_quoted := false; t_token := t; t_result := r |} =
      {| t_ch := last_of ch (text f); t_current_quote := cq'; t_quoted := false; t_token := t ++ value f; t_result := r |}.
  Proof.
    destruct f as [s|q s]; cbn [text value fits].
    - intros H. exists cq. apply plain_run; exact H.
    - intros (Hq & Hd & Hs). exists 0%N. unfold run. cbn [fold_left].
      assert (QN : match quote with [] => true | _ => false end = false) by (destruct quote; [destruct Hq|reflexivity]).
      assert (E : tok_step delims keep quote {| t_ch := ch; t_current_quote := cq; t_quoted := false; t_token := t; t_result := r |} q =
        {| t_ch := q; t_current_quote := q; t_quoted := true; t_token := t; t_result := r |}).
      { unfold tok_step. cbn [t_quoted t_token t_current_quote t_result negb]. rewrite QN, (proj2 (has_iff quote q) Hq). cbn [andb negb].
        rewrite andb_false_r. reflexivity. }
      rewrite E, fold_left_app. fold run. rewrite inside_run by exact Hs. unfold run. cbn [fold_left].
      unfold tok_step. cbn [t_quoted t_token t_current_quote t_result negb]. rewrite QN, (proj2 (has_iff quote q) Hq), N.eqb_refl. cbn [andb negb].
      rewrite (proj2 (has_not delims q) Hd), andb_true_r. rewrite last_cons. unfold last_of. rewrite last_last.
      destruct (negb _); reflexivity.
  Qed.
  Definition put (t : str) (r : list str) : list str := match t with [] => if keep then r ++ [[]] else r | _ => r ++ [t] end.
  Lemma delim_run d ch cq t r : In d delims -> ~ In d quote ->
    tok_step delims keep quote {| t_ch := ch; t_current_quote := cq; t_quoted := false; t_token := t; t_result := r |} d =
    {| t_ch := d; t_current_quote := cq; t_quoted := false; t_token := []; t_result := put t r |}.
  Proof.
    intros Hd Hq. unfold tok_step. cbn [t_quoted t_token t_current_quote t_result]. rewrite (proj2 (has_not quote d) Hq), andb_false_r. cbn [negb].
    rewrite (proj2 (has_iff delims d) Hd), andb_true_r.
    assert (DN : match delims with [] => true | _ => false end = false) by (destruct delims; [congruence|reflexivity]).
    rewrite DN. cbn [negb]. reflexivity.
  Qed.

  (** What is left when the fields [l], not empty, have been read behind the results [r]. *)
  Lemma joined_run d l : In d delims -> ~ In d quote -> Forall (fits delims quote) l -> l <> [] -> forall ch cq r,
    exists cq', run (joined d (map text l)) {| t_ch := ch; t_current_quote := cq; t_quoted := false; t_token := []; t_result := r |} =
      {| t_ch := last_of ch (joined d (map text l)); t_current_quote := cq'; t_quoted := false;
         t_token := value (last l (Plain [])); t_result := fold_left (fun r f => put (value f) r) (removelast l) r |}.
  Proof.
    intros Hd Hq. induction l as [|f l IH]; intros F NE ch cq r; [congruence|].
    inversion F as [|? ? Ff Fl]; subst. destruct l as [|g l].
    - cbn [map joined last removelast fold_left]. destruct (field_run f ch cq [] r Ff) as (cq' & E). exists cq'. exact E.
    - destruct (field_run f ch cq [] r Ff) as (cq' & E).
      change (joined d (map text (f :: g :: l))) with (text f ++ d :: joined d (map text (g :: l))).
      unfold run in *. rewrite fold_left_app, E. cbn [fold_left app].
      rewrite delim_run by assumption.
      destruct (IH Fl ltac:(discriminate) d cq' (put (value f) r)) as (cq'' & E'). exists cq''. cbn [app]. rewrite E'.
      f_equal. unfold last_of. clear.
      assert (G : forall x y (s t : str), last_of y (s ++ x :: t) = last_of x t).
      { intros x y s t. revert y. induction s as [|a s IH]; intros y; cbn [app]; rewrite last_cons; [reflexivity|apply IH]. }
      unfold last_of in G. rewrite G. reflexivity.
  Qed.

End Tok.
  Lemma puts_values keep l r : (keep = true \/ Forall (fun f => value f <> []) l) ->
    fold_left (fun r f => put keep (value f) r) l r = r ++ map value l.
  Proof.
    revert r. induction l as [|f l IH]; intros r H; cbn [fold_left map]; [rewrite app_nil_r; reflexivity|].
    rewrite IH by (destruct H as [H|H]; [left; exact H|right; inversion H; assumption]).
    assert (E : put keep (value f) r = r ++ [value f]).
    { unfold put. destruct (value f) eqn:V; [|reflexivity]. destruct H as [->|H]; [reflexivity|]. inversion H; subst. congruence. }
    rewrite E, <- app_assoc. reflexivity.
  Qed.

Lemma tokenize_joined delims quote keep d l : In d delims -> ~ In d quote -> Forall (fits delims quote) l ->
  Forall (fun f => value f <> []) l -> (l = [] -> keep = true -> ~ In 0%N delims) ->
  tokenize (joined d (map text l)) delims keep quote = map value l.
Proof.
  intros Hd Hq F V Z. assert (ND : delims <> []) by (intros ->; destruct Hd).
  assert (T : forall s, tokenize s delims keep quote =
      let st := fold_left (tok_step delims keep quote) s {| t_ch := 0%N; t_current_quote := 0%N; t_quoted := false; t_token := []; t_result := [] |} in
      match t_token st with [] => if keep && has delims (t_ch st) then t_result st ++ [[]] else t_result st | _ => t_result st ++ [t_token st] end).
  { intros s. unfold tokenize. destruct delims; [congruence|reflexivity]. }
  rewrite T. pose proof (proj1 (Forall_forall (fun f => value f <> []) l) V) as V'. destruct l as [|f l].
  - cbn. destruct keep; [|reflexivity]. rewrite (proj2 (has_not delims 0%N) (Z eq_refl eq_refl)). reflexivity.
  - destruct (joined_run delims quote keep ND d (f :: l) Hd Hq F ltac:(discriminate) 0%N 0%N []) as (cq & E).
    rewrite E. cbn [t_token t_result t_ch].
    rewrite puts_values. 2: { right. apply Forall_forall. intros g Hg. apply V'.
      rewrite (app_removelast_last (Plain []) (l := f :: l)) by discriminate. apply in_or_app. left. exact Hg. }
    assert (NV : value (last (f :: l) (Plain [])) <> []).
    { apply V'. rewrite (app_removelast_last (Plain []) (l := f :: l)) at 2 by discriminate.
      apply in_or_app. right. left. reflexivity. }
    assert (L : map value (f :: l) = map value (removelast (f :: l)) ++ [value (last (f :: l) (Plain []))]).
    { rewrite (app_removelast_last (Plain []) (l := f :: l)) at 1 by discriminate. rewrite map_app. reflexivity. }
    rewrite L. rewrite app_nil_l.
    destruct (value (last (f :: l) (Plain []))) eqn:W; [congruence|reflexivity].
Qed.

(** With blanks kept, empty fields come back too. *)
Lemma tokenize_blanks delims quote d l : In d delims -> ~ In d quote ->
  Forall (fun s => forall c, In c s -> ~ In c delims /\ ~ In c quote) l -> (2 <= length l)%nat ->
  tokenize (joined d l) delims true quote = l.
Proof.
  intros Hd Hq F Len. assert (ND : delims <> []) by (intros ->; destruct Hd).
  assert (T : forall s, tokenize s delims true quote =
      let st := fold_left (tok_step delims true quote) s {| t_ch := 0%N; t_current_quote := 0%N; t_quoted := false; t_token := []; t_result := [] |} in
      match t_token st with [] => if true && has delims (t_ch st) then t_result st ++ [[]] else t_result st | _ => t_result st ++ [t_token st] end).
  { intros s. unfold tokenize. destruct delims; [congruence|reflexivity]. }
  rewrite T. assert (M : map text (map Plain l) = l) by (rewrite map_map; apply map_id).
  assert (M' : map value (map Plain l) = l) by (rewrite map_map; apply map_id).
  destruct (joined_run delims quote true ND d (map Plain l) Hd Hq) with (ch := 0%N) (cq := 0%N) (r := @nil str) as (cq & E).
  { apply Forall_map. exact F. }
  { destruct l; [cbn in Len; lia|discriminate]. }
  rewrite M in E. rewrite E. cbn [t_token t_result t_ch andb]. rewrite puts_values by (left; reflexivity). cbn [app].
  destruct (exists_last (l := l)) as (l' & s & ->); [destruct l; [cbn in Len; lia|discriminate]|].
  rewrite map_app. cbn [map]. rewrite removelast_last, last_last. cbn [value].
  rewrite map_map. cbn [value]. rewrite map_id.
  destruct s as [|c s]; [|reflexivity].
  assert (L : last_of 0%N (joined d (l' ++ [[]])) = d).
  { assert (NE : l' <> []) by (intros ->; cbn in Len; lia). clear - NE. 
    assert (G : exists w, joined d (l' ++ [[]]) = w ++ [d]).
    { induction l' as [|a l' IH]; [congruence|]. destruct l' as [|b l'].
      - exists a. reflexivity.
      - destruct IH as [w IH]; [discriminate|]. exists (a ++ d :: w).
        change (joined d ((a :: b :: l') ++ [[]])) with (a ++ d :: joined d ((b :: l') ++ [[]])). rewrite IH, <- app_assoc. reflexivity. }
    destruct G as [w ->]. unfold last_of. apply last_last. }
  rewrite L, (proj2 (has_iff delims d) Hd). reflexivity.
Qed.
