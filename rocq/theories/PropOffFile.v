(** C198: a mesh written to an OFF file and read again. *)
From Coq Require Import List Ascii String Arith ZArith QArith Lia Bool.
From Verif Require Import Arr TextModel TextSpec TextProofs SpModel BufferModel ProgModel PropProg OffReadModel PropOffText PropOffRead OffFileModel.
Import ListNotations.
Close Scope Z_scope. Close Scope Q_scope.
Open Scope list_scope.
Open Scope nat_scope.

(** * One number *)
Definition blank (s : text) : Prop := forall c, In c s -> space c = true.
Lemma skip_blank s r : blank s -> skip_space (s ++ r) = skip_space r.
Proof.
  induction s as [|c s IH]; intros B; [reflexivity|]. cbn [app skip_space]. rewrite (B c (or_introl eq_refl)).
  apply IH. intros x X. apply B. right. exact X.
Qed.
Lemma fold_figures ds : Forall digit_ok ds -> forall a,
  Z.of_nat (fold_left (fun a d => 10 * a + d) (map Z.to_nat ds) a) = fold_left (fun a d => 10 * a + d)%Z ds (Z.of_nat a).
Proof.
  induction 1 as [|d ds D _ IH]; intros a; [reflexivity|]. cbn [map fold_left]. rewrite IH. f_equal. unfold digit_ok in D. lia.
Qed.
Lemma put_figures n : exists ds, put n = map (fun d => ascii_of_nat (48 + d)) ds /\ ds <> [] /\ Forall (fun d => d < 10) ds /\ fold_left (fun a d => 10 * a + d) ds 0 = n.
Proof.
  unfold put. destruct (put_int_spec (Z.of_nat n) ltac:(lia)) as (ds & E & N & D & V). exists (map Z.to_nat ds).
  split; [rewrite E, map_map; reflexivity|]. split; [destruct ds; [contradiction|discriminate]|]. split.
  - apply Forall_map. revert D. apply Forall_impl. intros d. unfold digit_ok. lia.
  - apply Nat2Z.inj. rewrite <- V. apply (fold_figures ds D 0).
Qed.
Lemma next_put sp n R : blank sp -> stops R -> next (sp ++ put n ++ R) = Some (n, R).
Proof.
  intros B S. unfold next. rewrite (skip_blank sp _ B). destruct (put_figures n) as (ds & -> & N & F & V).
  destruct ds as [|d ds]; [congruence|].
  pose proof (Forall_inv F) as D. pose proof (Forall_inv_tail F) as Fs. cbn beta in D.
  cbn [map app skip_space]. assert (X : space (ascii_of_nat (48 + d)) = false).
  { clear -D. do 10 (destruct d as [|d]; [reflexivity|]). lia. }
  rewrite X, (proj1 (digit_of d D)). cbn [bind]. rewrite (take_figures ds Fs _ R S).
  cbn [fold_left] in V. rewrite Nat.mul_0_r in V. cbn [Nat.add] in V. rewrite V. reflexivity.
Qed.
Lemma num_real c : num_char c = true -> real_char c = true /\ space c = false /\ c <> nul /\ c <> "|"%char.
Proof.
  intros H. destruct c as [a b c d e f g h].
  destruct a, b, c, d, e, f, g, h; try discriminate H; (split; [reflexivity|split; [reflexivity|split; intro X; discriminate X]]).
Qed.
Lemma take_num t c R : forallb num_char t = true -> real_char c = false -> take_real (t ++ c :: R) = (t, c :: R).
Proof.
  intros H C. induction t as [|a t IH].
  - cbn [app take_real]. rewrite C. reflexivity.
  - cbn [forallb] in H. apply andb_prop in H. destruct H as [H1 H2]. cbn [app take_real].
    rewrite (proj1 (num_real a H1)), (IH H2). reflexivity.
Qed.
Lemma next_general sp v c R : blank sp -> real_char c = false -> ordinary v ->
  exists w, next_real (sp ++ general 6 v ++ c :: R) = Some (w, c :: R) /\ nearest 6 v w.
Proof.
  intros B C O. destruct (general_read 6 v ltac:(lia) O) as (w & E & N). exists w. split; [|exact N].
  unfold next_real. rewrite (skip_blank sp _ B). pose proof (general_chars 6 v) as G.
  assert (X : skip_space (general 6 v ++ c :: R) = general 6 v ++ c :: R).
  { destruct (general 6 v) as [|a t]; [cbv in E; discriminate E|]. cbn [forallb] in G. apply andb_prop in G. destruct G as [G _].
    cbn [app skip_space]. destruct (num_real a G) as (_ & -> & _). reflexivity. }
  rewrite X, (take_num _ c R G C), E. reflexivity.
Qed.

(** * The lists *)
Lemma blank_nil : blank []. Proof. intros c []. Qed.
Lemma blank_cons c s : space c = true -> blank s -> blank (c :: s).
Proof. intros H B x [<-|X]; [exact H|exact (B x X)]. Qed.
Ltac blanks := repeat (apply blank_cons; [reflexivity|]); apply blank_nil.
Lemma read_points pts : Forall ordinary_point pts -> forall sp R, blank sp ->
  exists sp' pts', blank sp' /\ Forall2 (nearest_point 6) pts pts' /\
    next_real_points (List.length pts) (sp ++ flat_map point_line pts ++ R) = Some (pts', sp' ++ R).
Proof.
  induction 1 as [|[[x y] z] pts (Hx & Hy & Hz) _ IH]; intros sp R B.
  - exists sp, []. split; [exact B|]. split; [constructor|reflexivity].
  - cbn [flat_map point_line]. rewrite <- !app_assoc. change (lit " ") with [" "%char]. cbn [app].
    set (T := flat_map point_line pts ++ R).
    destruct (next_general sp x " "%char (general 6 y ++ " "%char :: general 6 z ++ newline :: T) B eq_refl Hx) as (x' & X & Nx).
    destruct (next_general [" "%char] y " "%char (general 6 z ++ newline :: T) ltac:(blanks) eq_refl Hy) as (y' & Y & Ny).
    destruct (next_general [" "%char] z newline T ltac:(blanks) eq_refl Hz) as (z' & Z & Nz).
    destruct (IH [newline] R ltac:(blanks)) as (sp' & pts' & B' & N' & E).
    exists sp', ((x', y', z') :: pts'). split; [exact B'|]. split; [constructor; [exact (conj Nx (conj Ny Nz))|exact N']|].
    cbn [List.length next_real_points]. rewrite X. cbn [bind]. cbn [app] in Y, Z, E. rewrite Y. cbn [bind]. rewrite Z. cbn [bind].
    unfold T. rewrite E. reflexivity.
Qed.
Lemma read_corners f R : stops R -> forall sp, blank sp ->
  exists sp', blank sp' /\ next_n (List.length f) (sp ++ flat_map (fun v => lit " " ++ put v) f ++ R) = Some (f, sp' ++ R).
Proof.
  intros S. induction f as [|v f IH]; intros sp B; [exists sp; split; [exact B|reflexivity]|].
  destruct (IH [] blank_nil) as (sp' & B' & E). exists sp'. split; [exact B'|]. cbn [List.length next_n flat_map]. rewrite <- !app_assoc.
  rewrite (app_assoc sp). rewrite next_put; [|intros c I; apply in_app_or in I; destruct I as [I|[<-|[]]]; [exact (B c I)|reflexivity]|].
  - cbn [bind]. cbn [app] in E. rewrite E. reflexivity.
  - destruct f as [|w f]; [exact S|reflexivity].
Qed.
Lemma read_facets faces R : forall sp, blank sp -> next_facets (List.length faces) (sp ++ flat_map face_line faces ++ R) = Some faces.
Proof.
  induction faces as [|f faces IH]; intros sp B; [reflexivity|]. cbn [List.length next_facets flat_map]. unfold face_line at 1. rewrite <- !app_assoc.
  rewrite next_put; [|exact B|reflexivity]. cbn [bind].
  destruct (read_corners f ([newline] ++ flat_map face_line faces ++ R) eq_refl (lit " ") ltac:(blanks)) as (sp' & B' & E).
  rewrite E. cbn [bind]. rewrite app_assoc. rewrite IH; [reflexivity|]. intros c I. apply in_app_or in I. destruct I as [I|[<-|[]]]; [exact (B' c I)|reflexivity].
Qed.

(** * No zero and no bar in the text *)
Definition plain (s : text) : Prop := Forall (fun c => c <> nul /\ c <> "|"%char) s.
Lemma plain_app a b : plain a -> plain b -> plain (a ++ b).
Proof. intros A B. apply Forall_app. split; assumption. Qed.
Lemma plain_num t : forallb num_char t = true -> plain t.
Proof. intros H. apply Forall_forall. intros c I. apply (proj1 (forallb_forall _ _) H) in I. destruct (num_real c I) as (_ & _ & X). exact X. Qed.
Lemma plain_put n : plain (put n).
Proof. unfold put. destruct (put_int_spec (Z.of_nat n) ltac:(lia)) as (ds & -> & _ & D & _). apply plain_num, digits_chars, D. Qed.
Lemma plain_lit s : forallb (fun c => negb (Ascii.eqb c nul) && negb (Ascii.eqb c "|"))%bool s = true -> plain s.
Proof.
  intros H. apply Forall_forall. intros c I. apply (proj1 (forallb_forall _ _) H) in I. apply andb_prop in I. destruct I as [A B].
  split; intros ->; [discriminate A|discriminate B].
Qed.
Lemma plain_flat {A} (f : A -> text) l : (forall a, plain (f a)) -> plain (flat_map f l).
Proof. intros H. induction l as [|a l IH]; [constructor|]. cbn [flat_map]. apply plain_app; [apply H|exact IH]. Qed.
Lemma plain_off edges pts faces : plain (write_off edges pts faces).
Proof.
  unfold write_off. repeat apply plain_app; try apply plain_put; try (apply plain_lit; reflexivity); apply plain_flat.
  - intros [[x y] z]. unfold point_line. repeat apply plain_app; try (apply plain_num, general_chars); apply plain_lit; reflexivity.
  - intros f. unfold face_line. repeat apply plain_app; try apply plain_put; try (apply plain_lit; reflexivity).
    apply plain_flat. intros v. apply plain_app; [apply plain_lit; reflexivity|apply plain_put].
Qed.
Lemma plain_bar s : plain s -> replace_bar s = s.
Proof.
  unfold replace_bar. induction 1 as [|c s [_ H] _ IH]; [reflexivity|]. cbn [map]. rewrite IH.
  destruct (Ascii.eqb_spec c "|"%char); [contradiction|reflexivity].
Qed.
Lemma plain_nul s : plain s -> ~ In nul s.
Proof. intros P I. apply (proj1 (Forall_forall _ _) P) in I. destruct I as [I _]. apply I. reflexivity. Qed.

(** C198.  The text of a mesh is read back as the mesh: the same faces, and every coordinate the number of six
    digits that is nearest to it; whatever the memory behind the text holds up to the next zero, and whether bars
    are replaced or not. *)
Theorem off_file_read : forall edges pts faces behind r bars, Forall ordinary_point pts -> ~ In "000"%char behind ->
  exists s pts', get_mesh_in_memory (write_off edges pts faces) (behind ++ "000"%char :: r) bars = Some s /\
    read_real_mesh s = Some (pts', faces) /\ Forall2 (nearest_point 6) pts pts'.
Proof.
  change "000"%char with nul. intros edges pts faces behind r bars O N. pose proof (plain_off edges pts faces) as P.
  unfold get_mesh_in_memory. replace (if bars then replace_bar _ else _) with (write_off edges pts faces) by (destruct bars; [rewrite (plain_bar _ P)|]; reflexivity).
  rewrite c_string_app by (apply plain_nul, P). rewrite (c_string_to behind r N).
  set (R := flat_map face_line faces ++ behind).
  destruct (read_points pts O [newline; newline] R ltac:(blanks)) as (sp & pts' & B & F & E).
  eexists. exists pts'. split; [reflexivity|]. split; [|exact F].
  set (T := newline :: newline :: flat_map point_line pts ++ R).
  assert (W : write_off edges pts faces ++ behind = "O"%char :: "F"%char :: "F"%char :: ([newline] ++ put (List.length pts) ++ lit " " ++ put (List.length faces) ++ lit " " ++ put edges ++ T))
    by (unfold write_off, T, R; rewrite <- !app_assoc; reflexivity).
  rewrite W. unfold read_real_mesh.
  replace (("O" =? "O")%char && ("F" =? "F")%char && ("F" =? "F")%char)%bool with true by reflexivity.
  rewrite (next_put [newline] (List.length pts) (lit " " ++ put (List.length faces) ++ lit " " ++ put edges ++ T) ltac:(blanks) eq_refl). cbn [bind].
  rewrite (next_put (lit " ") (List.length faces) (lit " " ++ put edges ++ T) ltac:(blanks) eq_refl). cbn [bind].
  rewrite (next_put (lit " ") edges T ltac:(blanks) eq_refl). cbn [bind].
  change T with ([newline; newline] ++ flat_map point_line pts ++ R). rewrite E. cbn [bind].
  unfold R. rewrite (read_facets faces behind sp B). reflexivity.
Qed.
Print Assumptions off_file_read.
(** A tetrahedron with coordinates of more than six digits, and digits behind it in memory. *)
Example off_file_case :
  let pts := [(0, 0, 0); (1234567 # 1000, 0, 0); (0, -(1 # 3), 0); (0, 0, 2500000)]%Q in let faces := [[0; 2; 1]; [0; 1; 3]; [1; 2; 3]; [0; 3; 2]] in
  Forall ordinary_point pts /\ ~ In "000"%char (lit "777") /\
  write_off 0 pts faces = lit "OFF" ++ [newline] ++ lit "4 4 0" ++ [newline; newline] ++ lit "0 0 0" ++ [newline] ++ lit "1234.57 0 0" ++ [newline]
    ++ lit "0 -0.333333 0" ++ [newline] ++ lit "0 0 2.5e+06" ++ [newline]
    ++ lit "3  0 2 1" ++ [newline] ++ lit "3  0 1 3" ++ [newline] ++ lit "3  1 2 3" ++ [newline] ++ lit "3  0 3 2" ++ [newline].
Proof.
  intros pts faces. split; [|split].
  - assert (Z : ordinary 0%Q) by (left; reflexivity). assert (K : forall v, Qle_bool (10 ^ (-99)) (Qabs.Qabs v) = true -> Qle_bool (10 ^ 99) (Qabs.Qabs v) = false -> ordinary v).
    { intros v A B. right. split; [apply Qle_bool_iff, A|]. apply Qnot_le_lt. intro C. apply Qle_bool_iff in C. rewrite C in B. discriminate B. }
    repeat (constructor; [unfold ordinary_point; repeat split; try exact Z; apply K; vm_compute; reflexivity|]). constructor.
  - intro H. vm_compute in H. repeat (destruct H as [H|H]; [discriminate H|]). destruct H.
  - vm_compute. reflexivity.
Qed.
