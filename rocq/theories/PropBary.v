(** C220: the barycenters of a face. *)
From Coq Require Import QArith ZArith List Lia Lqa Permutation.
From Verif Require Import BaryModel.
Import ListNotations.
Open Scope Q_scope.

(** * Specification: points with the same coordinates, and the value of a linear function. *)
Definition same (p q : point) : Prop := let '(a, b, c) := p in let '(x, y, z) := q in a == x /\ b == y /\ c == z.
Definition dot (a p : point) : Q := let '(u, v, w) := a in let '(x, y, z) := p in u * x + v * y + w * z.
Definition shifted (t : point) (l : list point) : list point := map (fun p => let '(x, y, z) := p in let '(a, b, c) := t in (x + a, y + b, z + c)) l.

(** * Proof: every linear function takes the mean of its values at the corners. *)
Fixpoint total (a : point) (l : list point) : Q := match l with [] => 0 | p :: r => dot a p + total a r end.
Lemma dot_plus a p q : dot a (plus p q) == dot a p + dot a q.
Proof. destruct a as [[u v] w], p as [[x y] z], q as [[x' y'] z']. cbn [dot plus]. ring. Qed.
Lemma dot_over a p d : ~ d == 0 -> dot a (over p d) == dot a p / d.
Proof. intro D. destruct a as [[u v] w], p as [[x y] z]. cbn [dot over]. field. exact D. Qed.
Lemma dot_origin a : dot a origin == 0.
Proof. destruct a as [[u v] w]. cbn [dot origin]. ring. Qed.
Lemma number_pos {A} (l : list A) : l <> [] -> 1 <= number l.
Proof. intro N. destruct l as [|x l]; [congruence|]. unfold number. change 1 with (inject_Z 1). rewrite <- Zle_Qle. cbn [length]. lia. Qed.
Lemma facet_loop a d l : ~ d == 0 -> forall b, dot a (fold_left (fun b p => plus b (over p d)) l b) == dot a b + total a l / d.
Proof.
  intro D. induction l as [|p l IH]; intro b; cbn [fold_left total]; [field; exact D|]. rewrite IH, dot_plus, dot_over by exact D. field. exact D.
Qed.
Lemma polygon_loop a d l : ~ d == 0 -> forall b, dot a (bary_loop d l b) == dot a b + total a l / d.
Proof.
  intro D. induction l as [|p l IH]; intro b; cbn [bary_loop total]; [field; exact D|]. rewrite IH, dot_plus, dot_over by exact D. field. exact D.
Qed.
Lemma gate_loop a l : forall b k, snd (sum_count l b k) = (k + Z.of_nat (length l))%Z /\ dot a (fst (sum_count l b k)) == dot a b + total a l.
Proof.
  induction l as [|p l IH]; intros b k; cbn [sum_count total length fst snd]; [split; [lia|ring]|].
  destruct (IH (plus b p) (k + 1)%Z) as (A & B). split; [rewrite A; lia|]. rewrite B, dot_plus. ring.
Qed.
Lemma nonzero {A} (l : list A) : l <> [] -> ~ number l == 0.
Proof. intros N E. pose proof (number_pos l N). lra. Qed.
Lemma facet_mean a l : l <> [] -> dot a (bary_facet l) == total a l / number l.
Proof. intro N. unfold bary_facet. rewrite facet_loop by (apply nonzero, N). rewrite dot_origin. ring. Qed.
Lemma polygon_mean a l : l <> [] -> dot a (bary_polygon l) == total a l / number l.
Proof. intro N. unfold bary_polygon. rewrite polygon_loop by (apply nonzero, N). rewrite dot_origin. ring. Qed.
Lemma gate_mean a l : l <> [] -> dot a (bary_gate l) == total a l / number l.
Proof.
  intro N. unfold bary_gate. destruct (gate_loop a l origin 0%Z) as (A & B). destruct (sum_count l origin 0%Z) as [b k]. cbn [fst snd] in *.
  rewrite Z.add_0_l in A. subst k. fold (number l). rewrite dot_plus, dot_over by (apply nonzero, N). rewrite B, !dot_origin. field. apply nonzero, N.
Qed.
Lemma same_dot p q : (forall a, dot a p == dot a q) -> same p q.
Proof.
  intro H. destruct p as [[x y] z], q as [[x' y'] z']. unfold same. pose proof (H (1, 0, 0)) as A. pose proof (H (0, 1, 0)) as B. pose proof (H (0, 0, 1)) as C.
  cbn [dot] in *. lra.
Qed.
Lemma total_perm a l l' : Permutation l l' -> total a l == total a l'.
Proof. induction 1; cbn [total]; try lra. Qed.
Lemma total_le a c l : (forall p, In p l -> dot a p <= c) -> total a l <= c * number l.
Proof.
  intro H. unfold number. induction l as [|p l IH]; cbn [total length].
  - change (inject_Z (Z.of_nat 0)) with 0. lra.
  - rewrite Nat2Z.inj_succ. unfold Z.succ. rewrite inject_Z_plus. change (inject_Z 1) with 1.
    pose proof (H p (or_introl eq_refl)). assert (L : total a l <= c * inject_Z (Z.of_nat (length l))) by (apply IH; intros; apply H; right; assumption). lra.
Qed.
Lemma total_shift a t l : total a (shifted t l) == total a l + dot a t * number l.
Proof.
  unfold number. induction l as [|p l IH]; cbn [shifted map total length].
  - change (inject_Z (Z.of_nat 0)) with 0. ring.
  - fold (shifted t l). rewrite IH, Nat2Z.inj_succ. unfold Z.succ. rewrite inject_Z_plus. change (inject_Z 1) with 1.
    destruct a as [[u v] w], p as [[x y] z], t as [[r s] q]. cbn [dot]. ring.
Qed.

(** C220.  The three functions give the same point. *)
Theorem barycenters_same : forall l, l <> [] -> same (bary_facet l) (bary_gate l) /\ same (bary_gate l) (bary_polygon l).
Proof.
  intros l N. split; apply same_dot; intro a; rewrite ?facet_mean, ?gate_mean, ?polygon_mean by exact N; reflexivity.
Qed.
Print Assumptions barycenters_same.
(** It does not depend on the corner the walk starts at or on its direction. *)
Theorem barycenter_order : forall l l', l <> [] -> Permutation l l' -> same (bary_facet l) (bary_facet l') /\ same (bary_gate l) (bary_gate l') /\ same (bary_polygon l) (bary_polygon l').
Proof.
  intros l l' N P. assert (N' : l' <> []) by (intro E; subst l'; apply N, Permutation_nil, Permutation_sym, P).
  assert (M : number l = number l') by (unfold number; rewrite (Permutation_length P); reflexivity).
  repeat split; apply same_dot; intro a; rewrite ?facet_mean, ?gate_mean, ?polygon_mean by assumption; rewrite (total_perm a l l' P), M; reflexivity.
Qed.
Print Assumptions barycenter_order.
(** It lies in every half-space that contains the corners, so in their convex hull, their box and their plane. *)
Theorem barycenter_inside : forall l a c, l <> [] -> (forall p, In p l -> dot a p <= c) ->
  dot a (bary_facet l) <= c /\ dot a (bary_gate l) <= c /\ dot a (bary_polygon l) <= c.
Proof.
  intros l a c N H. pose proof (number_pos l N) as K. pose proof (total_le a c l H) as L.
  assert (D : total a l / number l <= c) by (apply Qle_shift_div_r; [lra|exact L]).
  rewrite facet_mean, gate_mean, polygon_mean by exact N. auto.
Qed.
Print Assumptions barycenter_inside.
(** It moves with the corners. *)
Theorem barycenter_moves : forall l t, l <> [] -> same (bary_gate (shifted t l)) (plus (bary_gate l) t).
Proof.
  intros l t N. assert (N' : shifted t l <> []) by (destruct l; [congruence|discriminate]). apply same_dot. intro a.
  rewrite dot_plus, !gate_mean by assumption. rewrite total_shift.
  assert (E : number (shifted t l) = number l) by (unfold number, shifted; rewrite map_length; reflexivity). rewrite E. field. apply nonzero, N.
Qed.
Print Assumptions barycenter_moves.
(** A quadrangle in the plane z = 2, all of it with x <= 4. *)
Definition quadrangle : list point := [(0, 0, 2); (4, 0, 2); (4, 3, 2); (0, 1, 2)].
Example quadrangle_bary : same (bary_facet quadrangle) (2, 1, 2) /\ (forall p, In p quadrangle -> dot (1, 0, 0) p <= 4).
Proof.
  split; [vm_compute; auto|]. intros p [<-|[<-|[<-|[<-|[]]]]]; cbn [dot]; lra.
Qed.
