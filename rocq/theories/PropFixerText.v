(** C210: what the fixer writes, read by the other programs and by itself. *)
From Coq Require Import List Ascii String Arith ZArith QArith Lia Bool.
From Verif Require Import Arr TextModel TextSpec TextProofs SpModel BufferModel ProgModel PropProg OffReadModel PropOffText PropOffRead OffFileModel PropOffFile FixerModel FixerTextModel.
Import ListNotations.
Close Scope Z_scope. Close Scope Q_scope.
Open Scope list_scope.
Open Scope nat_scope.

Lemma blank_app a b : blank a -> blank b -> blank (a ++ b).
Proof. intros A B c I. apply in_app_or in I. destruct I; [apply A|apply B]; assumption. Qed.
Lemma fixer_points_same pts : flat_map fixer_point pts = flat_map point_line pts.
Proof. reflexivity. Qed.
Lemma fixer_corners f R : forall sp, blank sp ->
  exists sp', blank sp' /\ next_n (List.length f) (sp ++ flat_map (fun v => put v ++ lit " ") f ++ R) = Some (f, sp' ++ R).
Proof.
  induction f as [|v f IH]; intros sp B; [exists sp; split; [exact B|reflexivity]|].
  destruct (IH (lit " ") ltac:(blanks)) as (sp' & B' & E). exists sp'. split; [exact B'|]. cbn [List.length next_n flat_map]. rewrite <- !app_assoc.
  rewrite next_put; [|exact B|reflexivity]. cbn [bind]. rewrite E. reflexivity.
Qed.
Lemma fixer_facets faces R : forall sp, blank sp -> next_facets (List.length faces) (sp ++ flat_map fixer_face faces ++ R) = Some faces.
Proof.
  induction faces as [|f faces IH]; intros sp B; [reflexivity|]. cbn [List.length next_facets flat_map]. unfold fixer_face at 1. rewrite <- !app_assoc.
  rewrite next_put; [|exact B|reflexivity]. cbn [bind].
  destruct (fixer_corners f ([newline] ++ flat_map fixer_face faces ++ R) [tab] ltac:(blanks)) as (sp' & B' & E).
  rewrite E. cbn [bind]. rewrite app_assoc. rewrite IH; [reflexivity|]. apply blank_app; [exact B'|blanks].
Qed.
Lemma fixer_triangles faces : Forall (fun f => List.length f = 3) faces -> forall sp p, blank sp ->
  text_faces (List.length faces) (sp ++ flat_map fixer_face faces) p = Some (fold_left add_face faces p).
Proof.
  induction 1 as [|f faces L _ IH]; intros sp p B; [reflexivity|].
  destruct f as [|a [|b [|c [|d f]]]]; try discriminate L. cbn [List.length text_faces flat_map fold_left]. unfold fixer_face at 1.
  cbn [flat_map List.length]. rewrite app_nil_r, <- !app_assoc.
  rewrite next_put; [|exact B|reflexivity]. cbn [bind].
  rewrite next_put; [|blanks|reflexivity]. cbn [bind]. rewrite next_put; [|blanks|reflexivity]. cbn [bind]. rewrite next_put; [|blanks|reflexivity]. cbn [bind].
  rewrite app_assoc. apply IH. apply blank_app; blanks.
Qed.
Lemma faces_added {P} faces : forall p : poly P, FixerModel.faces (fold_left add_face faces p) = FixerModel.faces p ++ faces /\ points (fold_left add_face faces p) = points p.
Proof.
  induction faces as [|f faces IH]; intros p; cbn [fold_left]; [rewrite app_nil_r; split; reflexivity|].
  destruct (IH (add_face p f)) as [A B]. rewrite A, B. cbn [add_face FixerModel.faces points]. rewrite <- app_assoc. split; reflexivity.
Qed.
Lemma plain_fixer p : plain (fixer_text p).
Proof.
  unfold fixer_text. repeat apply plain_app; try apply plain_put; try (apply plain_lit; reflexivity); apply plain_flat.
  - intros [[x y] z]. unfold fixer_point. repeat apply plain_app; try (apply plain_num, general_chars); apply plain_lit; reflexivity.
  - intros f. unfold fixer_face. repeat apply plain_app; try apply plain_put; try (apply plain_lit; reflexivity).
    apply plain_flat. intros v. apply plain_app; [apply plain_put|apply plain_lit; reflexivity].
Qed.

(** C210.  The text of a mesh put out by the fixer is read as a mesh with the same faces, whatever their number of
    corners, and with the numbers of six digits nearest to the coordinates; whatever the memory behind it holds. *)
Theorem fixer_output_read : forall p behind r bars, Forall ordinary_point (points p) -> ~ In "000"%char behind ->
  exists s pts', get_mesh_in_memory (fixer_text p) (behind ++ "000"%char :: r) bars = Some s /\
    read_real_mesh s = Some (pts', faces p) /\ Forall2 (nearest_point 6) (points p) pts'.
Proof.
  change "000"%char with nul. intros p behind r bars O N. pose proof (plain_fixer p) as P.
  unfold get_mesh_in_memory. replace (if bars then replace_bar _ else _) with (fixer_text p) by (destruct bars; [rewrite (plain_bar _ P)|]; reflexivity).
  rewrite c_string_app by (apply plain_nul, P). rewrite (c_string_to behind r N).
  set (R := flat_map fixer_face (faces p) ++ behind).
  destruct (PropOffFile.read_points (points p) O [newline; newline] R ltac:(blanks)) as (sp & pts' & B & F & E).
  eexists. exists pts'. split; [reflexivity|]. split; [|exact F].
  set (T := newline :: newline :: flat_map point_line (points p) ++ R).
  assert (W : fixer_text p ++ behind = "O"%char :: "F"%char :: "F"%char :: ([newline] ++ put (List.length (points p)) ++ lit " " ++ put (List.length (faces p)) ++ lit " " ++ put 0 ++ T))
    by (unfold fixer_text, T, R; rewrite fixer_points_same, <- !app_assoc; reflexivity).
  rewrite W. unfold read_real_mesh.
  replace (("O" =? "O")%char && ("F" =? "F")%char && ("F" =? "F")%char)%bool with true by reflexivity.
  rewrite (next_put [newline] (List.length (points p)) (lit " " ++ put (List.length (faces p)) ++ lit " " ++ put 0 ++ T) ltac:(blanks) eq_refl). cbn [bind].
  rewrite (next_put (lit " ") (List.length (faces p)) (lit " " ++ put 0 ++ T) ltac:(blanks) eq_refl). cbn [bind].
  rewrite (next_put (lit " ") 0 T ltac:(blanks) eq_refl). cbn [bind].
  change T with ([newline; newline] ++ flat_map point_line (points p) ++ R). rewrite E. cbn [bind].
  unfold R. rewrite (fixer_facets (faces p) behind sp B). reflexivity.
Qed.
Print Assumptions fixer_output_read.

(** C125 for fractions.  A mesh of triangles is read back by the fixer with the same faces, and each coordinate is the
    number of six digits nearest to it. *)
Theorem fixer_text_partial : forall p, Forall ordinary_point (points p) -> Forall (fun f => List.length f = 3) (faces p) ->
  exists q, load_text (fixer_text p) = Some q /\ faces q = faces p /\ Forall2 (nearest_point 6) (points p) (points q).
Proof.
  intros p O T. destruct (PropOffFile.read_points (points p) O [newline] (flat_map fixer_face (faces p)) ltac:(blanks)) as (sp & pts' & B & F & E).
  exists (fold_left add_face (faces p) (Poly pts' [] [])). split; [|destruct (faces_added (faces p) (Poly pts' [] [])) as [-> ->]; split; [reflexivity|exact F]].
  set (U := newline :: newline :: flat_map point_line (points p) ++ flat_map fixer_face (faces p)).
  assert (W : drop_line (fixer_text p) = [] ++ put (List.length (points p)) ++ lit " " ++ put (List.length (faces p)) ++ lit " " ++ put 0 ++ U)
    by (unfold fixer_text, U; rewrite fixer_points_same, <- ?app_assoc; reflexivity).
  unfold load_text. rewrite W.
  rewrite (next_put [] (List.length (points p)) (lit " " ++ put (List.length (faces p)) ++ lit " " ++ put 0 ++ U) blank_nil eq_refl). cbn [bind].
  rewrite (next_put (lit " ") (List.length (faces p)) (lit " " ++ put 0 ++ U) ltac:(blanks) eq_refl). cbn [bind].
  rewrite (next_put (lit " ") 0 U ltac:(blanks) eq_refl). cbn [bind].
  change (drop_line U) with ([newline] ++ flat_map point_line (points p) ++ flat_map fixer_face (faces p)). rewrite E. cbn [bind].
  apply fixer_triangles; assumption.
Qed.
Print Assumptions fixer_text_partial.
(** C125 is false of faces with more corners: the fourth corner of the first face is taken for the size of the next,
    and then there are too few numbers for the last face. *)
Theorem fixer_text_refuted : exists p q, Forall ordinary_point (points p) /\ fold_left add_face (faces p) (Poly (points p) [] []) = p /\
  load_text (fixer_text p) = Some q /\ faces q <> faces p.
Proof.
  set (p := fold_left add_face [[0; 1; 2; 3]; [3; 2; 1]] (Poly [(0, 0, 0); (1, 0, 0); (1, 1, 0); (0, 1, 0)]%Q [] [])).
  exists p. eexists. split; [|split; [reflexivity|split; [vm_compute; reflexivity|discriminate]]].
  assert (Z : ordinary 0%Q) by (left; reflexivity).
  assert (K : ordinary 1%Q) by (right; split; [apply Qle_bool_iff; vm_compute; reflexivity|reflexivity]).
  repeat (constructor; [repeat split; assumption|]). constructor.
Qed.
Print Assumptions fixer_text_refuted.
(** A tetrahedron with fractions meets the hypotheses of both theorems. *)
Example fixer_text_case :
  let p := fold_left add_face [[0; 2; 1]; [0; 1; 3]; [1; 2; 3]; [0; 3; 2]] (Poly [(0, 0, 0); (1234567 # 1000, 0, 0); (0, -(1 # 3), 0); (0, 0, 2500000)]%Q [] []) in
  Forall ordinary_point (points p) /\ Forall (fun f => List.length f = 3) (faces p) /\
  fixer_text p = lit "OFF" ++ [newline] ++ lit "4 4 0" ++ [newline; newline] ++ lit "0 0 0" ++ [newline] ++ lit "1234.57 0 0" ++ [newline]
    ++ lit "0 -0.333333 0" ++ [newline] ++ lit "0 0 2.5e+06" ++ [newline]
    ++ lit "3" ++ [tab] ++ lit "0 2 1 " ++ [newline] ++ lit "3" ++ [tab] ++ lit "0 1 3 " ++ [newline]
    ++ lit "3" ++ [tab] ++ lit "1 2 3 " ++ [newline] ++ lit "3" ++ [tab] ++ lit "0 3 2 " ++ [newline].
Proof.
  intros p. split; [|split].
  - assert (Z : ordinary 0%Q) by (left; reflexivity). assert (K : forall v, Qle_bool (10 ^ (-99)) (Qabs.Qabs v) = true -> Qle_bool (10 ^ 99) (Qabs.Qabs v) = false -> ordinary v).
    { intros v A B. right. split; [apply Qle_bool_iff, A|]. apply Qnot_le_lt. intro C. apply Qle_bool_iff in C. rewrite C in B. discriminate B. }
    repeat (constructor; [unfold ordinary_point; repeat split; try exact Z; apply K; vm_compute; reflexivity|]). constructor.
  - repeat constructor.
  - vm_compute. reflexivity.
Qed.
