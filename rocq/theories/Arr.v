(** C arrays as lists: reads and writes outside the bounds are undefined behaviour, [None]. *)
From Coq Require Import List ZArith Lia.
Import ListNotations.
Open Scope Z_scope.

(** Not taken from one place of /repo: the meaning given to [a[i]] and [a[i] = v] throughout. *)
Definition aget {A} (l : list A) (i : Z) : option A :=
  if i <? 0 then None else nth_error l (Z.to_nat i).
Fixpoint upd {A} (l : list A) (i : nat) (v : A) : list A :=
  match l, i with
  | [], _ => []
  | _ :: r, O => v :: r
  | x :: r, S j => x :: upd r j v
  end.
Definition aset {A} (l : list A) (i : Z) (v : A) : option (list A) :=
  if ((0 <=? i) && (i <? Z.of_nat (length l)))%bool then Some (upd l (Z.to_nat i) v) else None.

Definition bind {A B} (x : option A) (f : A -> option B) : option B :=
  match x with None => None | Some a => f a end.
Notation "'do' x <- e ; f" := (bind e (fun x => f)) (at level 200, x pattern, e at level 100, f at level 200).

Lemma upd_length {A} (l : list A) i v : length (upd l i v) = length l.
Proof. revert i; induction l as [|x l IH]; intros [|i]; cbn [upd length]; auto. Qed.
Lemma nth_upd_eq {A} (l : list A) i v d : (i < length l)%nat -> nth i (upd l i v) d = v.
Proof. revert i; induction l as [|x l IH]; intros [|i] H; cbn [upd length nth] in *; try lia; auto. apply IH; lia. Qed.
Lemma nth_upd_ne {A} (l : list A) i j v d : i <> j -> nth j (upd l i v) d = nth j l d.
Proof.
  revert i j; induction l as [|x l IH]; intros [|i] [|j] H; cbn [upd nth]; auto; try congruence.
Qed.
Lemma aget_nth {A} (l : list A) (i : Z) d : 0 <= i < Z.of_nat (length l) -> aget l i = Some (nth (Z.to_nat i) l d).
Proof.
  intro H. unfold aget. destruct (Z.ltb_spec i 0); [lia|]. apply nth_error_nth'. lia.
Qed.
Lemma aset_upd {A} (l : list A) (i : Z) v : 0 <= i < Z.of_nat (length l) -> aset l i v = Some (upd l (Z.to_nat i) v).
Proof.
  intro H. unfold aset. destruct (Z.leb_spec 0 i); [|lia]. destruct (Z.ltb_spec i (Z.of_nat (length l))); [reflexivity|lia].
Qed.
