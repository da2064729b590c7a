(** C188: the text of a mesh is read as it was written. *)
From Coq Require Import List ZArith Ascii String Arith Lia Bool.
From Verif Require Import Arr BufferModel.
Import ListNotations.
Close Scope Z_scope.
Open Scope nat_scope.

(** A number in decimal digits, the highest first; [f] is more than the number of digits. *)
Fixpoint digits (f n : nat) : list nat :=
  match f with O => [] | S f => if n <? 10 then [n] else digits f (n / 10) ++ [n mod 10] end.
Definition spell (ds : list nat) : string := fold_right (fun d s => String (ascii_of_nat (48 + d)) s) EmptyString ds.
Definition decimal (n : nat) : string := spell (digits (S n) n).
(** Each number with what stands before it: bars and blanks, at least one. *)
Definition gap (s : string) : Prop := s <> EmptyString /\ forall i c, String.get i s = Some c -> c = "|"%char \/ c = " "%char.
Definition numbers_line (l : list (string * nat)) : string := fold_right (fun p s => append (fst p) (append (decimal (snd p)) s)) EmptyString l.

Lemma append_assoc' a b c : append (append a b) c = append a (append b c).
Proof. induction a as [|x a IH]; cbn [append]; [reflexivity|rewrite IH; reflexivity]. Qed.
Lemma spell_app a b : spell (a ++ b) = append (spell a) (spell b).
Proof. induction a as [|d a IH]; cbn [spell fold_right app append]; [reflexivity|]. fold (spell (a ++ b)). rewrite IH. reflexivity. Qed.
Lemma digit_of d : d < 10 -> digit (ascii_of_nat (48 + d)) = Some d /\ blank (ascii_of_nat (48 + d)) = false.
Proof. intros H. do 10 (destruct d as [|d]; [split; reflexivity|]). lia. Qed.
Lemma numbers_spell ds : Forall (fun d => d < 10) ds -> forall a r,
  numbers (Some a) (append (spell ds) r) = numbers (Some (fold_left (fun n d => 10 * n + d) ds a)) r.
Proof.
  induction 1 as [|d ds D _ IH]; intros a r; [reflexivity|].
  cbn [spell fold_right append numbers fold_left]. destruct (digit_of d D) as [A B]. rewrite A, B. cbn [bind]. apply IH.
Qed.
Lemma digits_small f n : Forall (fun d => d < 10) (digits f n).
Proof.
  revert n. induction f as [|f IH]; intros n; cbn [digits]; [constructor|]. destruct (Nat.ltb_spec n 10).
  - constructor; [assumption|constructor].
  - apply Forall_app. split; [apply IH|]. constructor; [apply Nat.mod_upper_bound; discriminate|constructor].
Qed.
Lemma digits_value f n : n < f -> fold_left (fun n d => 10 * n + d) (digits f n) 0 = n /\ digits f n <> [].
Proof.
  revert n. induction f as [|f IH]; intros n L; [lia|]. cbn [digits]. destruct (Nat.ltb_spec n 10) as [H|H].
  - split; [cbn [fold_left]; lia|discriminate].
  - split.
    + rewrite fold_left_app. assert (n / 10 < f) as K by (pose proof (Nat.div_lt n 10 ltac:(lia) ltac:(lia)); lia).
      rewrite (proj1 (IH (n / 10) K)). cbn [fold_left]. pose proof (Nat.div_mod n 10 ltac:(discriminate)). lia.
    + intros E. apply app_eq_nil in E. destruct E as [_ E]. discriminate E.
Qed.
Lemma numbers_decimal n r : numbers None (append (decimal n) r) = numbers (Some n) r.
Proof.
  unfold decimal. destruct (digits_value (S n) n ltac:(lia)) as [V N]. pose proof (digits_small (S n) n) as F.
  destruct (digits (S n) n) as [|d ds]; [congruence|]. pose proof (Forall_inv F) as D. pose proof (Forall_inv_tail F) as Fs. cbn beta in D.
  cbn [spell fold_right append numbers]. destruct (digit_of d D) as [A B]. rewrite A, B. cbn [bind].
  fold (spell ds). rewrite (numbers_spell ds Fs). cbn [fold_left] in V. rewrite Nat.mul_0_r in V. cbn [Nat.add] in V. rewrite V. reflexivity.
Qed.
Lemma numbers_gap s r : gap s -> forall cur, numbers cur (append s r) = (do l <- numbers None r; Some (match cur with Some n => n :: l | None => l end)).
Proof.
  intros [N G]. revert N G. induction s as [|c s IH]; intros N G cur; [congruence|]. cbn [append numbers].
  assert (B : blank c = true) by (destruct (G 0 c eq_refl) as [-> | ->]; reflexivity). rewrite B.
  destruct s as [|c' s]; [reflexivity|]. rewrite IH; [|discriminate|intros i x X; exact (G (S i) x X)].
  destruct (numbers None r); reflexivity.
Qed.
Lemma numbers_written l : Forall (fun p => gap (fst p)) l -> forall cur,
  numbers cur (numbers_line l) = Some (match cur with Some n => [n] | None => [] end ++ map snd l).
Proof.
  induction 1 as [|[s n] l G _ IH]; intros cur; cbn [numbers_line fold_right map].
  - cbn [numbers]. destruct cur; reflexivity.
  - cbn [fst snd] in *. fold (numbers_line l). rewrite (numbers_gap s _ G), numbers_decimal, IH. cbn [bind app]. destruct cur; reflexivity.
Qed.

(** The numbers of a mesh in the order of the format: how many points, facets and edges, the points, each
    facet with its number of corners before it. *)
Definition off_numbers (edges : nat) (pts : list (nat * nat * nat)) (faces : list (list nat)) : list nat :=
  List.length pts :: List.length faces :: edges
  :: flat_map (fun p => let '(x, y, z) := p in [x; y; z]) pts ++ flat_map (fun f => List.length f :: f) faces.

Lemma points_read pts r : read_points (List.length pts) (flat_map (fun p => let '(x, y, z) := p in [x; y; z]) pts ++ r) = Some (pts, r).
Proof.
  induction pts as [|[[x y] z] pts IH]; [reflexivity|].
  replace (flat_map (fun p => let '(x, y, z) := p in [x; y; z]) ((x, y, z) :: pts) ++ r)
    with (x :: y :: z :: (flat_map (fun p : nat * nat * nat => let '(x, y, z) := p in [x; y; z]) pts ++ r)) by reflexivity.
  cbn [List.length read_points]. rewrite IH. reflexivity.
Qed.
Lemma facets_read faces r : read_facets (List.length faces) (flat_map (fun f => List.length f :: f) faces ++ r) = Some faces.
Proof.
  induction faces as [|f faces IH]; [reflexivity|].
  replace (flat_map (fun f => List.length f :: f) (f :: faces) ++ r)
    with (List.length f :: f ++ (flat_map (fun f : list nat => List.length f :: f) faces ++ r))
    by (cbn [flat_map app]; rewrite <- app_assoc; reflexivity).
  set (t := flat_map (fun f : list nat => List.length f :: f) faces ++ r) in *. cbn [List.length read_facets].
  replace (List.length f <=? List.length (f ++ t)) with true by (symmetry; apply Nat.leb_le; rewrite app_length; lia).
  rewrite skipn_app, skipn_all, Nat.sub_diag. cbn [app skipn]. rewrite IH. cbn [bind].
  rewrite firstn_app, firstn_all, Nat.sub_diag, firstn_O, app_nil_r. reflexivity.
Qed.

(** C188.  Whatever bars and blanks stand between the numbers, and whatever comes after the last facet. *)
Theorem off_text_read l edges pts faces rest : Forall (fun p => gap (fst p)) l ->
  map snd l = off_numbers edges pts faces ++ rest -> read_off (append "OFF" (numbers_line l)) = Some (pts, faces).
Proof.
  intros G E. unfold read_off. cbn [append]. change (String.eqb _ "OFF") with true. cbv iota.
  rewrite (numbers_written l G None), E. cbn [bind app off_numbers].
  rewrite <- app_assoc, points_read. cbn [bind]. rewrite facets_read. reflexivity.
Qed.
Print Assumptions off_text_read.
Example off_text_case :
  read_off "OFF|4 4 6||0 0 0|120 0 0|0 75 0|0 0 3|3 0 1 2|3 0 2 3|3 0 3 1|3 1 3 2"
  = Some ([(0, 0, 0); (120, 0, 0); (0, 75, 0); (0, 0, 3)], [[0; 1; 2]; [0; 2; 3]; [0; 3; 1]; [1; 3; 2]])
  /\ gap "||" /\ decimal 120 = "120"%string.
Proof.
  split; [reflexivity|]. split; [|reflexivity]. split; [discriminate|].
  intros [|[|i]] c H; cbn in H; [injection H as <-; auto|injection H as <-; auto|discriminate H].
Qed.
