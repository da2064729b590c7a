(** C188, C189 for coordinates with sign, fraction and exponent. *)
From Coq Require Import List Ascii String Arith ZArith QArith Qpower Qfield Lia Bool.
From Verif Require Import Arr TextModel TextSpec TextProofs SpModel BufferModel ProgModel PropProg OffReadModel PropOffText PropOffRead OffFileModel PropOffFile.
Import ListNotations.
Close Scope Z_scope. Close Scope Q_scope.
Open Scope list_scope.
Open Scope nat_scope.

(** A decimal number as it is written: sign, figures, figures behind a point, exponent with its sign. *)
Record decimal_number := { minus : bool; whole : list nat; fraction : option (list nat); exponent : option (bool * list nat) }.
Definition figs (ds : list nat) : text := map (fun d => ascii_of_nat (48 + d)) ds.
Definition written (n : decimal_number) : text :=
  (if minus n then lit "-" else []) ++ figs (whole n)
  ++ match fraction n with Some f => lit "." ++ figs f | None => [] end
  ++ match exponent n with Some (m, e) => lit "e" ++ lit (if m then "-" else "+") ++ figs e | None => [] end.
(** All figures are below ten, and there are some before the point and in the exponent. *)
Definition proper (n : decimal_number) : Prop :=
  whole n <> [] /\ Forall (fun d => d < 10) (whole n) /\
  match fraction n with Some f => Forall (fun d => d < 10) f | None => True end /\
  match exponent n with Some (_, e) => e <> [] /\ Forall (fun d => d < 10) e | None => True end.
(** The value of figures, and of a number. *)
Fixpoint places (ds : list nat) : Z :=
  match ds with [] => 0 | d :: ds => Z.of_nat d * 10 ^ Z.of_nat (List.length ds) + places ds end%Z.
Definition value (n : decimal_number) : Q :=
  let f := match fraction n with Some f => f | None => [] end in
  let e := match exponent n with Some (true, e) => (- places e)%Z | Some (false, e) => places e | None => 0%Z end in
  ((if minus n then -1 else 1) * (inject_Z (places (whole n)) + inject_Z (places f) * 10 ^ (- Z.of_nat (List.length f))) * 10 ^ e)%Q.

(** * Reading one number *)
Lemma take_figs ds R : Forall (fun d => d < 10) ds -> match R with c :: _ => TextSpec.is_digit c = false | [] => True end ->
  TextSpec.take_digits (figs ds ++ R) = (map Z.of_nat ds, R).
Proof.
  intros F S. unfold figs. induction F as [|d ds D _ IH]; cbn [map app].
  - destruct R as [|c R]; [reflexivity|]. cbn [TextSpec.take_digits]. rewrite S. reflexivity.
  - cbn [TextSpec.take_digits]. assert (X : TextSpec.is_digit (ascii_of_nat (48 + d)) = true /\ digit_value (ascii_of_nat (48 + d)) = Z.of_nat d).
    { clear -D. do 10 (destruct d as [|d]; [split; reflexivity|]). lia. }
    destruct X as [-> ->]. rewrite IH. reflexivity.
Qed.
Lemma number_from ds : forall a, fold_left (fun a d => 10 * a + d)%Z (map Z.of_nat ds) a = (a * 10 ^ Z.of_nat (List.length ds) + places ds)%Z.
Proof.
  induction ds as [|d ds IH]; intros a; cbn [map fold_left places List.length].
  - cbn [Z.of_nat]. rewrite Z.pow_0_r. lia.
  - rewrite IH. rewrite Nat2Z.inj_succ, Z.pow_succ_r by lia. ring.
Qed.
Lemma number_places ds : number (map Z.of_nat ds) = places ds.
Proof. unfold number. rewrite number_from. lia. Qed.
Lemma number_app a b : number (map Z.of_nat a ++ map Z.of_nat b) = (places a * 10 ^ Z.of_nat (List.length b) + places b)%Z.
Proof. unfold number. rewrite fold_left_app, (number_from a), number_from. rewrite Z.mul_0_l, Z.add_0_l. reflexivity. Qed.
Lemma read_unsigned_written w f e : w <> [] -> Forall (fun d => d < 10) w -> match f with Some f => Forall (fun d => d < 10) f | None => True end ->
  match e with Some (_, e) => e <> [] /\ Forall (fun d => d < 10) e | None => True end ->
  exists v, read_unsigned (written {| minus := false; whole := w; fraction := f; exponent := e |}) = Some v /\
    (v == value {| minus := false; whole := w; fraction := f; exponent := e |})%Q.
Proof.
  intros N W F E. unfold written, value. cbn [minus whole fraction exponent app].
  set (T := match e with Some (m, e) => lit "e" ++ lit (if m then "-" else "+") ++ figs e | None => [] end).
  set (fs := match f with Some f => f | None => [] end).
  assert (Fs : Forall (fun d => d < 10) fs) by (unfold fs; destruct f; [exact F|constructor]).
  assert (ST : match T with c :: _ => TextSpec.is_digit c = false | [] => True end) by (unfold T; destruct e as [[[] e]|]; [reflexivity|reflexivity|exact I]).
  assert (SF : match (match f with Some f => lit "." ++ figs f | None => [] end ++ T) with c :: _ => TextSpec.is_digit c = false | [] => True end)
    by (destruct f; [reflexivity|exact ST]).
  unfold read_unsigned. rewrite (take_figs w _ W SF).
  assert (X : (if is_char "." (match f with Some f => lit "." ++ figs f | None => [] end ++ T) then TextSpec.take_digits (tl (match f with Some f => lit "." ++ figs f | None => [] end ++ T)) else ([], match f with Some f => lit "." ++ figs f | None => [] end ++ T)) = (map Z.of_nat fs, T)).
  { unfold fs. destruct f as [f|].
    - replace (is_char "." ((lit "." ++ figs f) ++ T)) with true by reflexivity. change (tl ((lit "." ++ figs f) ++ T)) with (figs f ++ T). apply take_figs; assumption.
    - cbn [app]. replace (is_char "." T) with false by (unfold T; destruct e as [[[] e]|]; reflexivity). reflexivity. }
  rewrite X. destruct w as [|d w]; [congruence|]. set (ds := d :: w) in *.
  assert (M : map Z.of_nat ds <> []) by discriminate. assert (V : forall z, (inject_Z (number (map Z.of_nat ds ++ map Z.of_nat fs)) * 10 ^ (z - Z.of_nat (List.length (map Z.of_nat fs)))
    == 1 * (inject_Z (places ds) + inject_Z (places fs) * 10 ^ (- Z.of_nat (List.length fs))) * 10 ^ z)%Q).
  { intros z. rewrite number_app, map_length, inject_Z_plus, inject_Z_mult. rewrite Zpower_Qpower by lia.
    unfold Z.sub. rewrite Qpower_plus by discriminate. rewrite Qpower_opp. change (inject_Z 10) with 10%Q.
    assert (P : ~ (10 ^ Z.of_nat (List.length fs) == 0)%Q) by (apply Qpower_not_0; discriminate).
    set (p := (10 ^ Z.of_nat (List.length fs))%Q) in *. set (q := (10 ^ z)%Q). clearbody p q. field. exact P. }
  unfold T in *. destruct e as [[m e]|].
  - destruct E as [E1 E2]. assert (Y : TextSpec.take_digits (tl (tl (lit "e" ++ lit (if m then "-" else "+") ++ figs e))) = (map Z.of_nat e, [])).
    { replace (tl (tl (lit "e" ++ lit (if m then "-" else "+") ++ figs e))) with (figs e ++ []) by (rewrite app_nil_r; destruct m; reflexivity).
      apply take_figs; [exact E2|exact I]. }
    rewrite Y. rewrite (map_length Z.of_nat e), number_places. destruct (map Z.of_nat ds) as [|y ys] eqn:Em; [congruence|]. 
    destruct e as [|e0 e]; [congruence|].
    exists (inject_Z (number ((y :: ys) ++ map Z.of_nat fs)) * 10 ^ ((if m then - places (e0 :: e) else places (e0 :: e)) - Z.of_nat (List.length (map Z.of_nat fs))))%Q.
    split; [|destruct m; apply V]. destruct m; reflexivity.
  - destruct (map Z.of_nat ds) as [|y ys] eqn:Em; [congruence|].
    eexists. split; [reflexivity|]. apply (V 0%Z).
Qed.
Lemma read_written n : proper n -> exists v, read_number (written n) = Some v /\ (v == value n)%Q.
Proof.
  destruct n as [m w f e]. unfold proper. cbn [whole fraction exponent]. intros (N & W & F & E).
  destruct (read_unsigned_written w f e N W F E) as (v & R & V). unfold read_number. destruct m.
  - exists (- v)%Q. assert (X : written {| minus := true; whole := w; fraction := f; exponent := e |} = "-"%char :: written {| minus := false; whole := w; fraction := f; exponent := e |}) by reflexivity.
    rewrite X. cbn [is_char tl]. replace ("-" =? "-")%char with true by reflexivity. rewrite R. split; [reflexivity|]. rewrite V.
    unfold value. cbn [minus whole fraction exponent]. ring.
  - exists v. destruct w as [|d w]; [congruence|].
    replace (is_char "-" _) with false; [split; assumption|]. unfold written. cbn [minus whole app figs map is_char].
    pose proof (Forall_inv W) as D. cbn beta in D. clear -D. do 10 (destruct d as [|d]; [reflexivity|]). lia.
Qed.

(** * Reading a line *)
(** What a line holds: counts and indices, and coordinates. *)
Inductive item := Count (n : nat) | Coord (n : decimal_number).
Definition item_text (i : item) : text := match i with Count n => figures n | Coord n => written n end.
Definition item_line (l : list (text * item)) (tail : text) : text := lit "OFF" ++ flat_map (fun p => fst p ++ item_text (snd p)) l ++ tail.
Definition off_items (edges : nat) (pts : list (decimal_number * decimal_number * decimal_number)) (faces : list (list nat)) : list item :=
  Count (List.length pts) :: Count (List.length faces) :: Count edges
  :: flat_map (fun p => let '(x, y, z) := p in [Coord x; Coord y; Coord z]) pts ++ flat_map (fun f => Count (List.length f) :: map Count f) faces.
Definition well (i : item) : Prop := match i with Count _ => True | Coord n => proper n end.
Definition same_point (p : decimal_number * decimal_number * decimal_number) (q : Q * Q * Q) : Prop :=
  let '(x, y, z) := p in let '(x', y', z') := q in (x' == value x /\ y' == value y /\ z' == value z)%Q.

Lemma forallb_app' {A} (f : A -> bool) a b : forallb f a = true -> forallb f b = true -> forallb f (a ++ b) = true.
Proof. intros H K. rewrite forallb_app, H, K. reflexivity. Qed.
Lemma figs_num ds : Forall (fun d => d < 10) ds -> forallb num_char (figs ds) = true.
Proof.
  unfold figs. induction 1 as [|d ds D _ IH]; [reflexivity|]. cbn [map forallb]. rewrite IH.
  clear -D. do 10 (destruct d as [|d]; [reflexivity|]). lia.
Qed.
Lemma written_num n : proper n -> forallb num_char (written n) = true.
Proof.
  intros (_ & W & F & E). unfold written. repeat apply forallb_app'.
  - destruct (minus n); reflexivity.
  - apply figs_num, W.
  - destruct (fraction n); [|reflexivity]. apply forallb_app'; [reflexivity|]. apply figs_num, F.
  - destruct (exponent n) as [[m e]|]; [|reflexivity]. destruct E as [_ E]. apply forallb_app'; [reflexivity|]. apply forallb_app'; [destruct m; reflexivity|apply figs_num, E].
Qed.
Lemma item_num i : well i -> forallb num_char (item_text i) = true.
Proof. destruct i as [n|n]; intros W; [|apply written_num, W]. exact (figs_num _ (digits_small (S n) n)). Qed.

Definition seals (R : text) : Prop := match R with c :: _ => real_char c = false | [] => True end.
Definition fine (l : list (text * item)) : Prop := Forall (fun p => (fst p <> [] /\ bars (fst p)) /\ well (snd p)) l.
Definition ibody (l : list (text * item)) (R : text) : text := flat_map (fun p => replace_bar (fst p) ++ item_text (snd p)) l ++ R.
Lemma seals_stops R : seals R -> stops R.
Proof.
  destruct R as [|c R]; [auto|]. cbn [seals stops]. unfold real_char. destruct (BufferModel.digit c); [|reflexivity]. intros H. discriminate H.
Qed.
Lemma take_num' t R : forallb num_char t = true -> seals R -> take_real (t ++ R) = (t, R).
Proof.
  intros H C. destruct R as [|c R]; [|apply take_num; assumption]. rewrite app_nil_r.
  induction t as [|a t IH]; [reflexivity|]. cbn [forallb] in H. apply andb_prop in H. destruct H as [H1 H2]. cbn [take_real].
  rewrite (proj1 (num_real a H1)), (IH H2). reflexivity.
Qed.
Lemma next_written g n R : bars g -> proper n -> seals R -> exists v, next_real (replace_bar g ++ written n ++ R) = Some (v, R) /\ (v == value n)%Q.
Proof.
  intros B P S. destruct (read_written n P) as (v & E & V). exists v. split; [|exact V]. unfold next_real.
  rewrite (skip_bars g _ B). pose proof (written_num n P) as G.
  assert (X : skip_space (written n ++ R) = written n ++ R).
  { destruct (written n) as [|a t]; [cbv in E; discriminate E|]. cbn [forallb] in G. apply andb_prop in G. destruct G as [G _].
    cbn [app skip_space]. destruct (num_real a G) as (_ & -> & _). reflexivity. }
  rewrite X, (take_num' _ R G S), E. reflexivity.
Qed.
Lemma ibody_seals l R : fine l -> seals R -> seals (ibody l R).
Proof.
  intros G S. destruct l as [|[g n] l]; [exact S|]. destruct (Forall_inv G) as [[N B] _]. cbn [fst] in *.
  unfold ibody. cbn [flat_map fst snd]. destruct g as [|c g]; [congruence|].
  change (replace_bar (c :: g)) with ((if (c =? "|")%char then newline else c) :: replace_bar g). cbn [app seals].
  destruct (B c (or_introl eq_refl)) as [-> | ->]; reflexivity.
Qed.
Lemma head_count n rest l R : fine l -> seals R -> map snd l = Count n :: rest ->
  exists l', fine l' /\ map snd l' = rest /\ next (ibody l R) = Some (n, ibody l' R).
Proof.
  intros G S E. destruct l as [|[g m] l]; [discriminate E|]. cbn [map snd] in E. injection E as -> E.
  exists l. split; [exact (Forall_inv_tail G)|]. split; [exact E|]. unfold ibody. cbn [flat_map fst snd item_text]. rewrite <- !app_assoc.
  destruct (Forall_inv G) as [[_ B] _]. apply next_figures; [exact B|]. apply seals_stops, ibody_seals; [exact (Forall_inv_tail G)|exact S].
Qed.
Lemma head_coord n rest l R : fine l -> seals R -> map snd l = Coord n :: rest ->
  exists l' v, fine l' /\ map snd l' = rest /\ next_real (ibody l R) = Some (v, ibody l' R) /\ (v == value n)%Q.
Proof.
  intros G S E. destruct l as [|[g m] l]; [discriminate E|]. cbn [map snd] in E. injection E as -> E.
  destruct (Forall_inv G) as [[_ B] P]. cbn [fst snd well] in *.
  destruct (next_written g n (ibody l R) B P (ibody_seals _ _ (Forall_inv_tail G) S)) as (v & X & V).
  exists l, v. split; [exact (Forall_inv_tail G)|]. split; [exact E|]. split; [|exact V].
  unfold ibody at 1. cbn [flat_map fst snd item_text]. rewrite <- !app_assoc. exact X.
Qed.
Lemma counts_read f rest : forall l R, fine l -> seals R -> map snd l = map Count f ++ rest ->
  exists l', fine l' /\ map snd l' = rest /\ next_n (List.length f) (ibody l R) = Some (f, ibody l' R).
Proof.
  induction f as [|n f IH]; intros l R G S E; [exists l; auto|].
  destruct (head_count n (map Count f ++ rest) l R G S E) as (l1 & G1 & E1 & X). destruct (IH l1 R G1 S E1) as (l2 & G2 & E2 & Y).
  exists l2. split; [exact G2|]. split; [exact E2|]. cbn [List.length next_n]. rewrite X. cbn [bind]. rewrite Y. reflexivity.
Qed.
Lemma coords_read pts rest : forall l R, fine l -> seals R ->
  map snd l = flat_map (fun p => let '(x, y, z) := p in [Coord x; Coord y; Coord z]) pts ++ rest ->
  exists l' qs, fine l' /\ map snd l' = rest /\ next_real_points (List.length pts) (ibody l R) = Some (qs, ibody l' R) /\ Forall2 same_point pts qs.
Proof.
  induction pts as [|[[x y] z] pts IH]; intros l R G S E; [exists l, []; auto|]. cbn [flat_map] in E. rewrite <- !app_assoc in E. cbn [app] in E.
  destruct (head_coord _ _ l R G S E) as (l1 & v1 & G1 & E1 & X1 & V1). destruct (head_coord _ _ l1 R G1 S E1) as (l2 & v2 & G2 & E2 & X2 & V2).
  destruct (head_coord _ _ l2 R G2 S E2) as (l3 & v3 & G3 & E3 & X3 & V3). destruct (IH l3 R G3 S E3) as (l4 & qs & G4 & E4 & X4 & V4).
  exists l4, ((v1, v2, v3) :: qs). split; [exact G4|]. split; [exact E4|]. split; [|constructor; [repeat split; assumption|exact V4]]. cbn [List.length next_real_points].
  rewrite X1. cbn [bind]. rewrite X2. cbn [bind]. rewrite X3. cbn [bind]. rewrite X4. reflexivity.
Qed.
Lemma faces_read faces rest : forall l R, fine l -> seals R ->
  map snd l = flat_map (fun f => Count (List.length f) :: map Count f) faces ++ rest -> next_facets (List.length faces) (ibody l R) = Some faces.
Proof.
  induction faces as [|f faces IH]; intros l R G S E; [reflexivity|]. cbn [flat_map] in E. rewrite <- app_assoc in E. cbn [app] in E. 
  destruct (head_count _ _ l R G S E) as (l1 & G1 & E1 & X1). destruct (counts_read f _ l1 R G1 S E1) as (l2 & G2 & E2 & X2).
  cbn [List.length next_facets]. rewrite X1. cbn [bind]. rewrite X2. cbn [bind]. rewrite (IH l2 R G2 S E2). reflexivity.
Qed.
Lemma num_plain t : forallb num_char t = true -> replace_bar t = t /\ ~ In nul t.
Proof.
  induction t as [|c t IH]; intros H; [split; [reflexivity|auto]|]. cbn [forallb] in H. apply andb_prop in H. destruct H as [H1 H2].
  destruct (IH H2) as [A B]. destruct (num_real c H1) as (_ & _ & N & C). split.
  - unfold replace_bar in *. cbn [map]. rewrite A. destruct (Ascii.eqb_spec c "|"%char); [contradiction|reflexivity].
  - intros [X|X]; [exact (N X)|exact (B X)].
Qed.
Lemma bar_items l tail : fine l -> replace_bar (item_line l tail) = ["O"; "F"; "F"]%char ++ ibody l (replace_bar tail).
Proof.
  intros G. unfold item_line, ibody. unfold replace_bar at 1. rewrite !map_app. f_equal. f_equal.
  induction G as [|[g n] l [_ W] _ IH]; [reflexivity|]. cbn [flat_map fst snd] in *. rewrite !map_app, IH.
  fold (replace_bar g). fold (replace_bar (item_text n)). rewrite (proj1 (num_plain _ (item_num n W))). reflexivity.
Qed.
Lemma items_nul l tail : fine l -> bars tail -> ~ In nul (item_line l tail).
Proof.
  intros G B I. assert (K : forall s, bars s -> ~ In nul s) by (intros s X Y; destruct (X _ Y) as [E|E]; discriminate E).
  unfold item_line in I. apply in_app_or in I. destruct I as [I|I].
  - repeat (destruct I as [I|I]; [discriminate I|]). exact I.
  - apply in_app_or in I. destruct I as [I|I]; [|exact (K tail B I)].
    apply in_flat_map in I. destruct I as ([g n] & I & J). pose proof (proj1 (Forall_forall _ _) G _ I) as [[_ Bg] W]. cbn [fst snd] in *.
    apply in_app_or in J. destruct J as [J|J]; [exact (K g Bg J)|]. exact (proj2 (num_plain _ (item_num n W)) J).
Qed.
Lemma not_real c : ~ In c (lit "0123456789.eE+-") -> real_char c = false.
Proof.
  intros H. destruct (real_char c) eqn:E; [|reflexivity]. exfalso. apply H. clear H. destruct c as [a b c d e f g h].
  destruct a, b, c, d, e, f, g, h; try discriminate E; vm_compute; tauto.
Qed.

Lemma items_read l tail edges pts faces rest behind : fine l -> bars tail -> map snd l = off_items edges pts faces ++ rest ->
  seals (replace_bar tail ++ behind) ->
  exists qs, read_real_mesh (replace_bar (item_line l tail) ++ behind) = Some (qs, faces) /\ Forall2 same_point pts qs.
Proof.
  intros G B E S. rewrite (bar_items l tail G).
  replace ((["O"; "F"; "F"]%char ++ ibody l (replace_bar tail)) ++ behind) with (["O"; "F"; "F"]%char ++ ibody l (replace_bar tail ++ behind))
    by (unfold ibody; rewrite <- !app_assoc; reflexivity).
  set (R := replace_bar tail ++ behind) in *. clearbody R. unfold off_items in E. cbn [app] in E. rewrite <- app_assoc in E.
  destruct (head_count _ _ l R G S E) as (l1 & G1 & E1 & X1). destruct (head_count _ _ l1 R G1 S E1) as (l2 & G2 & E2 & X2).
  destruct (head_count _ _ l2 R G2 S E2) as (l3 & G3 & E3 & X3). destruct (coords_read pts _ l3 R G3 S E3) as (l4 & qs & G4 & E4 & X4 & V).
  pose proof (faces_read faces rest l4 R G4 S E4) as X5. exists qs. split; [|exact V]. cbn [app read_real_mesh].
  replace (("O" =? "O")%char && ("F" =? "F")%char && ("F" =? "F")%char)%bool with true by reflexivity.
  rewrite X1. cbn [bind]. rewrite X2. cbn [bind]. rewrite X3. cbn [bind]. rewrite X4. cbn [bind]. rewrite X5. reflexivity.
Qed.
Lemma tail_seals c tail R : bars (c :: tail) -> seals (replace_bar (c :: tail) ++ R).
Proof.
  intros B. change (replace_bar (c :: tail)) with ((if (c =? "|")%char then newline else c) :: replace_bar tail). cbn [app seals].
  destruct (B c (or_introl eq_refl)) as [-> | ->]; reflexivity.
Qed.

(** C188.  A line with coordinates in decimal notation, in which bars and blanks separate the numbers, is read as
    the points with the values of these numbers and the facets, whatever numbers follow. *)
Theorem off_line_real : forall l tail edges pts faces rest,
  Forall (fun p => (fst p <> [] /\ bars (fst p)) /\ well (snd p)) l -> bars tail -> map snd l = off_items edges pts faces ++ rest ->
  exists qs, read_real_mesh (replace_bar (item_line l tail)) = Some (qs, faces) /\ Forall2 same_point pts qs.
Proof.
  intros l tail edges pts faces rest G B E.
  destruct (items_read l tail edges pts faces rest [] G B E) as (qs & X & V); [|exists qs; rewrite app_nil_r in X; exact (conj X V)].
  destruct tail as [|c tail]; [exact I|apply tail_seals, B].
Qed.
Print Assumptions off_line_real.
(** C189.  Read past its end, a line that ends with a bar or blank gives this mesh whatever the memory
    behind it holds, any other line if no character of a number lies behind. *)
Theorem mesh_behind_real_partial : forall l tail edges pts faces rest behind r,
  Forall (fun p => (fst p <> [] /\ bars (fst p)) /\ well (snd p)) l -> bars tail -> map snd l = off_items edges pts faces ++ rest ->
  ~ In "000"%char behind -> (tail <> [] \/ forall c, hd_error behind = Some c -> ~ In c (lit "0123456789.eE+-")) ->
  exists s qs, get_mesh_in_memory (item_line l tail) (behind ++ "000"%char :: r) true = Some s /\ read_real_mesh s = Some (qs, faces) /\
    Forall2 same_point pts qs.
Proof.
  change "000"%char with nul. intros l tail edges pts faces rest behind r G B E N D. fold (fine l) in G.
  unfold get_mesh_in_memory. rewrite c_string_app by (apply bar_nul, items_nul; assumption). rewrite (c_string_to behind r N).
  destruct (items_read l tail edges pts faces rest behind G B E) as (qs & X & V).
  - destruct tail as [|c tail]; [|apply tail_seals, B]. destruct D as [D|D]; [congruence|]. cbn [replace_bar map app].
    destruct behind as [|c behind]; [exact I|]. apply not_real, D. reflexivity.
  - eexists. exists qs. split; [reflexivity|]. split; [exact X|exact V].
Qed.
Print Assumptions mesh_behind_real_partial.
(** A triangle with such coordinates, and digits behind the line. *)
Example mesh_behind_real_case :
  let n k := {| minus := false; whole := [k]; fraction := None; exponent := None |} in
  let x := {| minus := true; whole := [1; 2]; fraction := Some [0; 5]; exponent := Some (true, [0; 1]) |} in
  let l := map (fun i => (lit "|", i)) (off_items 0 [(n 0, n 0, n 0); (x, n 0, n 0); (n 0, n 7, n 0)] [[0; 1; 2]]) in
  Forall (fun p => (fst p <> [] /\ bars (fst p)) /\ well (snd p)) l /\ bars (lit "|") /\ ~ In "000"%char (lit "777") /\
  item_line l (lit "|") = lit "OFF|3|1|0|0|0|0|-12.05e-01|0|0|0|7|0|3|0|1|2|" /\ (value x == -1205 # 1000)%Q.
Proof.
  intros n x l. split; [|split; [|split; [|split]]].
  - unfold l. cbn [map off_items flat_map app List.length].
    repeat (constructor; [split; [split; [discriminate|intros c [<-|[]]; left; reflexivity]|cbn [snd well]; try exact I; unfold proper; cbn [n x whole fraction exponent]; repeat (split || discriminate || constructor || lia)]|]). constructor.
  - intros c [<-|[]]. left. reflexivity.
  - intro H. vm_compute in H. repeat (destruct H as [H|H]; [discriminate H|]). destruct H.
  - vm_compute. reflexivity.
  - vm_compute. reflexivity.
Qed.
