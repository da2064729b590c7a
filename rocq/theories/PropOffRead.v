(** C189: the memory behind the line of a mesh and the mesh read from it. *)
From Coq Require Import List ZArith Ascii String Arith Lia Bool.
From Verif Require Import Arr TextModel SpModel BufferModel ProgModel PropProg OffReadModel PropOffText.
Import ListNotations.
Close Scope Z_scope.
Open Scope nat_scope.

(** A line: OFF, each number with the bars and blanks before it, bars and blanks at the end. *)
Definition bars (s : text) : Prop := forall c, In c s -> c = "|"%char \/ c = " "%char.
Definition figures (n : nat) : text := map (fun d => ascii_of_nat (48 + d)) (digits (S n) n).
Definition line_of (l : list (text * nat)) (tail : text) : text :=
  ["O"; "F"; "F"]%char ++ flat_map (fun p => fst p ++ figures (snd p)) l ++ tail.
Definition is_digit (c : ascii) : Prop := 48 <= nat_of_ascii c <= 57.

Definition body (l : list (text * nat)) (R : text) : text := flat_map (fun p => replace_bar (fst p) ++ figures (snd p)) l ++ R.
Definition stops (R : text) : Prop := match R with c :: _ => digit c = None | [] => True end.
Definition good (l : list (text * nat)) : Prop := Forall (fun p => fst p <> [] /\ bars (fst p)) l.

Lemma bars_space s c : bars s -> In c (replace_bar s) -> space c = true /\ digit c = None.
Proof.
  intros B I. unfold replace_bar in I. apply in_map_iff in I. destruct I as (x & <- & I).
  destruct (B x I) as [-> | ->]; split; reflexivity.
Qed.
Lemma skip_bars s r : bars s -> skip_space (replace_bar s ++ r) = skip_space r.
Proof.
  intros B. assert (H : forall c, In c (replace_bar s) -> space c = true) by (intros c I; apply (bars_space s c B I)).
  induction (replace_bar s) as [|c u IH]; [reflexivity|]. cbn [app skip_space]. rewrite (H c (or_introl eq_refl)).
  apply IH. intros x X. apply H. right. exact X.
Qed.
Lemma take_figures ds : Forall (fun d => d < 10) ds -> forall a R, stops R ->
  take_digits a (map (fun d => ascii_of_nat (48 + d)) ds ++ R) = (fold_left (fun n d => 10 * n + d) ds a, R).
Proof.
  induction 1 as [|d ds D _ IH]; intros a R S.
  - cbn [map app fold_left]. destruct R as [|c R]; [reflexivity|]. cbn [take_digits]. rewrite S. reflexivity.
  - cbn [map app take_digits fold_left]. rewrite (proj1 (digit_of d D)). apply IH. exact S.
Qed.
Lemma next_figures g n R : bars g -> stops R -> next (replace_bar g ++ figures n ++ R) = Some (n, R).
Proof.
  intros B S. unfold next. rewrite (skip_bars g _ B). unfold figures.
  destruct (digits_value (Datatypes.S n) n ltac:(lia)) as [V N]. pose proof (digits_small (Datatypes.S n) n) as F.
  destruct (digits (Datatypes.S n) n) as [|d ds]; [congruence|].
  pose proof (Forall_inv F) as D. pose proof (Forall_inv_tail F) as Fs. cbn beta in D.
  cbn [map app skip_space]. assert (X : space (ascii_of_nat (48 + d)) = false).
  { clear -D. do 10 (destruct d as [|d]; [reflexivity|]). lia. }
  rewrite X, (proj1 (digit_of d D)). cbn [bind]. rewrite (take_figures ds Fs _ R S).
  cbn [fold_left] in V. rewrite Nat.mul_0_r in V. cbn [Nat.add] in V. rewrite V. reflexivity.
Qed.
Lemma body_stops l R : good l -> stops R -> stops (body l R).
Proof.
  intros G S. destruct l as [|[g n] l]; [exact S|]. destruct (Forall_inv G) as [N B]. cbn [fst] in *.
  unfold body. cbn [flat_map fst snd]. destruct g as [|c g]; [congruence|].
  change (replace_bar (c :: g)) with ((if (c =? "|")%char then newline else c) :: replace_bar g). cbn [app stops].
  destruct (B c (or_introl eq_refl)) as [-> | ->]; reflexivity.
Qed.
Lemma next_body g n l R : good ((g, n) :: l) -> stops R -> next (body ((g, n) :: l) R) = Some (n, body l R).
Proof.
  intros G S. unfold body. cbn [flat_map fst snd]. rewrite <- !app_assoc. destruct (Forall_inv G) as [_ B].
  apply next_figures; [exact B|]. apply body_stops; [exact (Forall_inv_tail G)|exact S].
Qed.
Lemma next_head n rest l R : good l -> stops R -> map snd l = n :: rest ->
  exists l', good l' /\ map snd l' = rest /\ next (body l R) = Some (n, body l' R).
Proof.
  intros G S E. destruct l as [|[g m] l]; [discriminate E|]. cbn [map snd] in E. injection E as -> E.
  exists l. split; [exact (Forall_inv_tail G)|]. split; [exact E|]. apply next_body; assumption.
Qed.
Lemma next_list f rest : forall l R, good l -> stops R -> map snd l = f ++ rest ->
  exists l', good l' /\ map snd l' = rest /\ next_n (List.length f) (body l R) = Some (f, body l' R).
Proof.
  induction f as [|n f IH]; intros l R G S E; [exists l; auto|].
  destruct (next_head n (f ++ rest) l R G S E) as (l1 & G1 & E1 & X). destruct (IH l1 R G1 S E1) as (l2 & G2 & E2 & Y).
  exists l2. split; [exact G2|]. split; [exact E2|]. cbn [List.length next_n]. rewrite X. cbn [bind]. rewrite Y. reflexivity.
Qed.
Lemma next_pts pts rest : forall l R, good l -> stops R ->
  map snd l = flat_map (fun p => let '(x, y, z) := p in [x; y; z]) pts ++ rest ->
  exists l', good l' /\ map snd l' = rest /\ next_points (List.length pts) (body l R) = Some (pts, body l' R).
Proof.
  induction pts as [|[[x y] z] pts IH]; intros l R G S E; [exists l; auto|]. cbn [flat_map] in E. rewrite <- !app_assoc in E. cbn [app] in E.
  destruct (next_head _ _ l R G S E) as (l1 & G1 & E1 & X1). destruct (next_head _ _ l1 R G1 S E1) as (l2 & G2 & E2 & X2).
  destruct (next_head _ _ l2 R G2 S E2) as (l3 & G3 & E3 & X3). destruct (IH l3 R G3 S E3) as (l4 & G4 & E4 & X4).
  exists l4. split; [exact G4|]. split; [exact E4|]. cbn [List.length next_points].
  rewrite X1. cbn [bind]. rewrite X2. cbn [bind]. rewrite X3. cbn [bind]. rewrite X4. reflexivity.
Qed.
Lemma next_fcs faces rest : forall l R, good l -> stops R ->
  map snd l = flat_map (fun f => List.length f :: f) faces ++ rest -> next_facets (List.length faces) (body l R) = Some faces.
Proof.
  induction faces as [|f faces IH]; intros l R G S E; [reflexivity|]. cbn [flat_map] in E. rewrite <- app_assoc in E. cbn [app] in E.
  destruct (next_head _ _ l R G S E) as (l1 & G1 & E1 & X1). destruct (next_list f _ l1 R G1 S E1) as (l2 & G2 & E2 & X2).
  cbn [List.length next_facets]. rewrite X1. cbn [bind]. rewrite X2. cbn [bind]. rewrite (IH l2 R G2 S E2). reflexivity.
Qed.
Lemma bar_figures n : replace_bar (figures n) = figures n.
Proof.
  unfold replace_bar, figures. rewrite map_map. apply map_ext_in. intros d I.
  pose proof (proj1 (Forall_forall _ _) (digits_small (S n) n) d I) as D. cbn beta in D. clear I.
  do 10 (destruct d as [|d]; [reflexivity|]). lia.
Qed.
Lemma bar_line l tail : replace_bar (line_of l tail) = ["O"; "F"; "F"]%char ++ body l (replace_bar tail).
Proof.
  unfold line_of, body. unfold replace_bar at 1. rewrite !map_app. f_equal. f_equal.
  induction l as [|[g n] l IH]; [reflexivity|]. cbn [flat_map fst snd]. rewrite !map_app, IH.
  fold (replace_bar g). fold (replace_bar (figures n)). rewrite bar_figures. reflexivity.
Qed.
Lemma line_nul l tail : good l -> bars tail -> ~ In nul (line_of l tail).
Proof.
  intros G B I. assert (K : forall s, bars s -> ~ In nul s) by (intros s X Y; destruct (X _ Y) as [E|E]; discriminate E).
  unfold line_of in I. apply in_app_or in I. destruct I as [I|I].
  - repeat (destruct I as [I|I]; [discriminate I|]). exact I.
  - apply in_app_or in I. destruct I as [I|I]; [|exact (K tail B I)].
    apply in_flat_map in I. destruct I as ([g n] & I & J). pose proof (proj1 (Forall_forall _ _) G _ I) as [_ Bg]. cbn [fst snd] in *.
    apply in_app_or in J. destruct J as [J|J]; [exact (K g Bg J)|]. unfold figures in J. apply in_map_iff in J. destruct J as (d & E & J).
    pose proof (proj1 (Forall_forall _ _) (digits_small (S n) n) d J) as D. cbn beta in D. clear J.
    do 10 (destruct d as [|d]; [discriminate E|]). lia.
Qed.
Lemma c_string_to g r : ~ In nul g -> c_string (g ++ nul :: r) = Some g.
Proof. intros H. rewrite (c_string_app g _ H). cbn [c_string]. rewrite Ascii.eqb_refl, app_nil_r. reflexivity. Qed.
Lemma not_digit c : ~ is_digit c -> digit c = None.
Proof.
  unfold is_digit, digit. intros H. destruct (Nat.leb_spec 48 (nat_of_ascii c)); [|reflexivity].
  destruct (Nat.leb_spec (nat_of_ascii c) 57); [lia|reflexivity].
Qed.

(** C189.  A line that ends with a bar or a blank gives its mesh whatever the memory behind it holds;
    one that ends with its last number does if no digit lies behind. *)
Theorem mesh_behind_partial : forall l tail edges pts faces rest behind r,
  Forall (fun p => fst p <> [] /\ bars (fst p)) l -> bars tail -> map snd l = off_numbers edges pts faces ++ rest ->
  ~ In "000"%char behind -> (tail <> [] \/ forall c, hd_error behind = Some c -> ~ is_digit c) ->
  exists s, get_mesh_in_memory (line_of l tail) (behind ++ "000"%char :: r) true = Some s /\ read_mesh s = Some (pts, faces).
Proof.
  change "000"%char with nul. intros l tail edges pts faces rest behind r G B E N D. fold (good l) in G.
  unfold get_mesh_in_memory. rewrite c_string_app by (apply bar_nul, line_nul; assumption). rewrite (c_string_to behind r N).
  eexists. split; [reflexivity|]. rewrite bar_line.
  replace ((["O"; "F"; "F"]%char ++ body l (replace_bar tail)) ++ behind) with (["O"; "F"; "F"]%char ++ body l (replace_bar tail ++ behind))
    by (unfold body; rewrite <- !app_assoc; reflexivity).
  assert (S : stops (replace_bar tail ++ behind)).
  { destruct tail as [|c tail].
    - destruct D as [D|D]; [congruence|]. cbn [replace_bar map app]. destruct behind as [|c behind]; [exact I|]. apply not_digit, D. reflexivity.
    - change (replace_bar (c :: tail)) with ((if (c =? "|")%char then newline else c) :: replace_bar tail). cbn [app stops].
      destruct (B c (or_introl eq_refl)) as [-> | ->]; reflexivity. }
  set (R := replace_bar tail ++ behind) in *. clearbody R. unfold off_numbers in E. cbn [app] in E. rewrite <- app_assoc in E.
  destruct (next_head _ _ l R G S E) as (l1 & G1 & E1 & X1). destruct (next_head _ _ l1 R G1 S E1) as (l2 & G2 & E2 & X2).
  destruct (next_head _ _ l2 R G2 S E2) as (l3 & G3 & E3 & X3). destruct (next_pts pts _ l3 R G3 S E3) as (l4 & G4 & E4 & X4).
  pose proof (next_fcs faces rest l4 R G4 S E4) as X5. cbn [app read_mesh].
  replace (("O" =? "O")%char && ("F" =? "F")%char && ("F" =? "F")%char) with true by reflexivity.
  rewrite X1. cbn [bind]. rewrite X2. cbn [bind]. rewrite X3. cbn [bind]. rewrite X4. cbn [bind]. rewrite X5. reflexivity.
Qed.
Print Assumptions mesh_behind_partial.
(** C189 is false: a line that ends with its last number takes the digits behind it. *)
Theorem mesh_behind_refuted : exists line b1 b2 s1 s2 m1 m2,
  ~ In "000"%char line /\ get_mesh_in_memory line b1 true = Some s1 /\ get_mesh_in_memory line b2 true = Some s2 /\
  read_mesh s1 = Some m1 /\ read_mesh s2 = Some m2 /\ m1 <> m2.
Proof.
  set (line := lit "OFF|4 4 0|0 0 0|9 0 0|0 9 0|0 0 9|3 0 2 1|3 0 1 3|3 1 2 3|3 0 3 2").
  exists line, [nul], (lit "7" ++ [nul]), (replace_bar line), (replace_bar line ++ lit "7"),
    ([(0, 0, 0); (9, 0, 0); (0, 9, 0); (0, 0, 9)], [[0; 2; 1]; [0; 1; 3]; [1; 2; 3]; [0; 3; 2]]),
    ([(0, 0, 0); (9, 0, 0); (0, 9, 0); (0, 0, 9)], [[0; 2; 1]; [0; 1; 3]; [1; 2; 3]; [0; 3; 27]]).
  split; [|split; [vm_compute; reflexivity|split; [vm_compute; reflexivity|split; [vm_compute; reflexivity|split; [vm_compute; reflexivity|]]]]].
  - intro H. vm_compute in H. repeat (destruct H as [H|H]; [discriminate H|]). destruct H.
  - intros H. apply (f_equal (fun m => nth 2 (nth 3 (snd m) []) 0)) in H. discriminate H.
Qed.
Print Assumptions mesh_behind_refuted.
(** The line of the refutation with a bar behind it meets the hypotheses. *)
Example mesh_behind_case :
  let l := map (fun n => (lit " ", n)) (off_numbers 0 [(0, 0, 0); (120, 0, 0); (0, 9, 0); (0, 0, 9)] [[0; 2; 1]; [0; 1; 3]; [1; 2; 3]; [0; 3; 2]]) in
  Forall (fun p => fst p <> [] /\ bars (fst p)) l /\ bars (lit "|") /\ ~ In "000"%char (lit "777") /\
  line_of l (lit "|") = lit "OFF 4 4 0 0 0 0 120 0 0 0 9 0 0 0 9 3 0 2 1 3 0 1 3 3 1 2 3 3 0 3 2|".
Proof.
  intros l. split; [|split; [|split]].
  - apply Forall_forall. intros p I. unfold l in I. apply in_map_iff in I. destruct I as (n & <- & _). split; [discriminate|].
    intros c [<-|[]]. right. reflexivity.
  - intros c [<-|[]]. left. reflexivity.
  - intro H. vm_compute in H. repeat (destruct H as [H|H]; [discriminate H|]). destruct H.
  - vm_compute. reflexivity.
Qed.
