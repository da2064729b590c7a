(** C208, C209: equal faces, and what remove_redundant does with them. *)
From Coq Require Import List Bool Arith Lia.
From Verif Require Import FixerModel RedundantModel.
Import ListNotations.

(** ** Specification *)
(** Two faces go around the same vertices in the same sense. *)
Definition same_cycle (a b : list nat) : Prop := exists l r, a = l ++ r /\ b = r ++ l.
Definition first_three (f : list nat) : list nat := firstn 3 f.

Lemma same_from_spec : forall a b, length a = length b -> (same_from a b = true <-> a = b).
Proof.
  induction a as [|x a IH]; intros [|y b] L; try discriminate L; [split; reflexivity|]. cbn [same_from]. injection L as L.
  destruct (Nat.eqb_spec x y) as [->|N].
  - rewrite (IH b L). split; [intros ->; reflexivity|intros X; injection X as ->; reflexivity].
  - split; [intros X; discriminate X|intros X; congruence].
Qed.
(** C208, positive part: == tells lists of vertices apart exactly. *)
Theorem face_equal_partial : forall a b, face_equal a b = true <-> a = b.
Proof.
  intros a b. unfold face_equal. destruct (Nat.eqb_spec (length a) (length b)) as [L|L]; [apply same_from_spec; exact L|].
  split; [intros X; discriminate X|intros ->; congruence].
Qed.
Print Assumptions face_equal_partial.
(** C208 is false: the same triangle from another vertex on is another face. *)
Theorem face_equal_refuted : exists a b, same_cycle a b /\ face_equal a b = false.
Proof. exists [1; 2; 3], [2; 3; 1]. split; [exists [1], [2; 3]; split; reflexivity|reflexivity]. Qed.
Print Assumptions face_equal_refuted.

(** ** remove_redundant *)
Lemma key_some f k : key f = Some k <-> first_three f = [fst (fst k); snd (fst k); snd k] /\ 3 <= length f.
Proof.
  destruct k as [[x y] z]. destruct f as [|a [|b [|c f]]]; cbn; (split; [intros X|intros [X L]]).
  1, 3, 5: discriminate X. 1-3: lia.
  - injection X as -> -> ->. split; [reflexivity|lia].
  - injection X as -> -> ->. reflexivity.
Qed.
Lemma key_eqb_spec a b : key_eqb a b = true <-> a = b.
Proof.
  destruct a as [[x y] z], b as [[u v] w]. cbn. rewrite !andb_true_iff, !Nat.eqb_eq. split; [intros [[-> ->] ->]; reflexivity|intros X; injection X as -> -> ->; auto].
Qed.
(** The map after the faces [seen]: the first face with each key. *)
Definition is_map (seen : list (list nat)) (m : list ((nat * nat * nat) * list nat)) : Prop :=
  forall k, lookup k m = find (fun f => match key f with Some k' => key_eqb k k' | None => false end) seen.
Definition found (seen : list (list nat)) (f g : list nat) : Prop :=
  exists i, nth_error seen i = Some g /\ first_three g = first_three f /\ forall j h, j < i -> nth_error seen j = Some h -> first_three h <> first_three f.
Lemma key_same f g k : key f = Some k -> 3 <= length g -> (match key g with Some k' => key_eqb k k' | None => false end = true <-> first_three g = first_three f).
Proof.
  intros K L. destruct (key g) as [k'|] eqn:G.
  - rewrite key_eqb_spec. apply key_some in K, G. destruct K as [K _], G as [G _]. rewrite K, G. destruct k as [[x y] z], k' as [[u v] w]. cbn.
    split; [intros X; injection X as -> -> ->; reflexivity|intros X; injection X as -> -> ->; reflexivity].
  - exfalso. destruct g as [|a [|b [|c g]]]; cbn in L; try lia. discriminate G.
Qed.
Lemma find_first (fs : list (list nat)) f k : key f = Some k -> Forall (fun g => 3 <= length g) fs ->
  match find (fun f => match key f with Some k' => key_eqb k k' | None => false end) fs with
  | Some g => found fs f g
  | None => forall g, In g fs -> first_three g <> first_three f
  end.
Proof.
  intros K. induction fs as [|g fs IH]; intros L; cbn [find]; [intros g []|].
  pose proof (key_same f g k K (Forall_inv L)) as S.
  destruct (match key g with Some k' => key_eqb k k' | None => false end).
  - exists 0. split; [reflexivity|]. split; [apply S; reflexivity|]. intros j h J. lia.
  - assert (N : first_three g <> first_three f) by (intros X; pose proof (proj2 S X) as Y; discriminate Y).
    specialize (IH (Forall_inv_tail L)). destruct (find _ fs) as [h|].
    + destruct IH as (i & E & T & U). exists (Datatypes.S i). split; [exact E|]. split; [exact T|].
      intros [|j] x J X; [cbn in X; injection X as <-; exact N|]. apply (U j x); [lia|exact X].
    + intros x [<-|X]; [exact N|apply IH; exact X].
Qed.
Lemma find_app_one {A} (p : A -> bool) l x : find p (l ++ [x]) = match find p l with Some y => Some y | None => if p x then Some x else None end.
Proof. induction l as [|y l IH]; cbn; [reflexivity|]. destruct (p y); [reflexivity|exact IH]. Qed.
(** What is printed for the faces [fs] after the faces [seen]. *)
Inductive printed : list (list nat) -> list (list nat) -> list (list nat * list nat) -> Prop :=
| pr_end seen : printed seen [] []
| pr_new seen f fs out : (forall g, In g seen -> first_three g <> first_three f) -> printed (seen ++ [f]) fs out -> printed seen (f :: fs) out
| pr_again seen f g fs out : found seen f g -> printed (seen ++ [f]) fs out -> printed seen (f :: fs) ((g, f) :: out).
Lemma redundant_ok : forall fs seen m, is_map seen m -> Forall (fun g => 3 <= length g) seen -> Forall (fun g => 3 <= length g) fs ->
  exists out, redundant fs m = Some out /\ printed seen fs out.
Proof.
  induction fs as [|f fs IH]; intros seen m Im Ls Lf; cbn [redundant]; [exists []; split; [reflexivity|constructor]|].
  pose proof (Forall_inv Lf) as L. destruct (key f) as [k|] eqn:K; [|exfalso; destruct f as [|a [|b [|c f]]]; cbn in L; try lia; discriminate K].
  pose proof (find_first seen f k K Ls) as F. rewrite (Im k).
  assert (Ls2 : Forall (fun g => 3 <= length g) (seen ++ [f])) by (apply Forall_app; split; [exact Ls|constructor; [exact L|constructor]]).
  destruct (find (fun f => match key f with Some k' => key_eqb k k' | None => false end) seen) as [g|] eqn:E.
  - destruct (IH (seen ++ [f]) m) as (out & R & P); [|exact Ls2|exact (Forall_inv_tail Lf)|].
    + intros k'. rewrite (Im k'), find_app_one. destruct (find (fun f0 => match key f0 with Some k'0 => key_eqb k' k'0 | None => false end) seen) eqn:E'; [reflexivity|]. rewrite K.
      destruct (key_eqb k' k) eqn:Q; [|reflexivity]. apply key_eqb_spec in Q. subst k'. congruence.
    + exists ((g, f) :: out). rewrite R. split; [reflexivity|]. constructor; assumption.
  - destruct (IH (seen ++ [f]) ((k, f) :: m)) as (out & R & P); [|exact Ls2|exact (Forall_inv_tail Lf)|].
    + intros k'. rewrite find_app_one. unfold lookup. cbn [find fst]. rewrite K. destruct (key_eqb k' k) eqn:Q; cbn [option_map snd].
      * apply key_eqb_spec in Q. subst k'. rewrite E. reflexivity.
      * pose proof (Im k') as I2. unfold lookup in I2. rewrite I2. destruct (find (fun f0 => match key f0 with Some k'0 => key_eqb k' k'0 | None => false end) seen); reflexivity.
    + exists out. rewrite R. split; [reflexivity|]. constructor; assumption.
Qed.
(** C209, positive part: for faces of three vertices or more the mesh stays as it is, and every face that
    starts with the same three vertices as an earlier one is printed, with the first such face. *)
Theorem redundant_reported_partial : forall P (p : poly P), Forall (fun f => 3 <= length f) (faces p) ->
  exists out, remove_redundant p = Some (p, out) /\ printed [] (faces p) out.
Proof.
  intros P p L. destruct (redundant_ok (faces p) [] [] (fun k => eq_refl) (Forall_nil _) L) as (out & R & Pr).
  exists out. unfold remove_redundant. rewrite R. split; [reflexivity|exact Pr].
Qed.
Print Assumptions redundant_reported_partial.
(** C209 is false: nothing is removed; a triangle given from another vertex on is not even printed, and of
    two different quadrilaterals one is. *)
Theorem redundant_removed_refuted :
  (exists p out, remove_redundant p = Some (p, out) /\ nth_error (@faces nat p) 0 = nth_error (faces p) 1 /\ nth_error (faces p) 1 <> None) /\
  (exists a b p, same_cycle a b /\ @faces nat p = [a; b] /\ remove_redundant p = Some (p, [])) /\
  (exists a b p, a <> b /\ ~ same_cycle a b /\ @faces nat p = [a; b] /\ remove_redundant p = Some (p, [(a, b)])).
Proof.
  split; [|split].
  - exists (Poly [0; 0; 0] [[0; 1; 2]; [0; 1; 2]] []), [([0; 1; 2], [0; 1; 2])]. split; [reflexivity|]. split; [reflexivity|discriminate].
  - exists [0; 1; 2], [1; 2; 0], (Poly [0; 0; 0] [[0; 1; 2]; [1; 2; 0]] []). split; [exists [0], [1; 2]; split; reflexivity|]. split; reflexivity.
  - exists [0; 1; 2; 3], [0; 1; 2; 4], (Poly [0; 0; 0; 0; 0] [[0; 1; 2; 3]; [0; 1; 2; 4]] []). split; [discriminate|]. split; [|split; reflexivity].
    intros (l & r & A & B). assert (I : In 3 [0; 1; 2; 4]). { rewrite B. apply in_or_app. assert (J : In 3 (l ++ r)) by (rewrite <- A; cbn; auto). apply in_app_or in J. tauto. }
    cbn in I. lia.
Qed.
Print Assumptions redundant_removed_refuted.

(** ** Examples *)
Example redundant_nonvacuous : Forall (fun f => 3 <= length f) [[0; 1; 2]; [0; 2; 3]; [0; 1; 2]; [1; 0; 3]; [0; 1; 2]] /\
  remove_redundant (Poly [0; 0; 0; 0] [[0; 1; 2]; [0; 2; 3]; [0; 1; 2]; [1; 0; 3]; [0; 1; 2]] []) =
  Some (Poly [0; 0; 0; 0] [[0; 1; 2]; [0; 2; 3]; [0; 1; 2]; [1; 0; 3]; [0; 1; 2]] [], [([0; 1; 2], [0; 1; 2]); ([0; 1; 2], [0; 1; 2])]).
Proof. split; [repeat constructor|reflexivity]. Qed.
Example face_equal_example : face_equal [4; 5; 6] [4; 5; 6] = true /\ face_equal [4; 5; 6] [4; 5; 6; 7] = false.
Proof. split; reflexivity. Qed.
