(** C173, C174: distances of triangles (TriDist.cpp). *)
From Coq Require Import QArith List Bool Arith Lia Lqa Setoid.
From Verif Require Import AabModel AabProofs SegDistModel SegDistProofs TriDistModel TriDistProofs TriDistSlide TriDistMain.
Import ListNotations.
Open Scope Q_scope.

(** A triangle with the given corners. *)
Definition tri (a b c : vec) : nat -> vec := fun k => match k with O => a | 1%nat => b | _ => c end.

(** C173 is false: two triangles with a corner in common that are answered the squared distance 2,
    and two triangles that are apart and are answered 0. *)
Definition meet_s := tri (v3 3 0 4) (v3 2 0 3) (v3 4 4 3).
Definition meet_t := tri (v3 1 2 1) (v3 4 4 3) (v3 1 0 2).
Definition apart_s := tri (v3 3 0 2) (v3 3 1 0) (v3 3 2 0).
Definition apart_t := tri (v3 0 3 2) (v3 1 3 0) (v3 3 0 3).
Theorem tridist_smallest_refuted :
  (exists S T d, fat S /\ fat T /\ TriDist S T = Some d /\ d == 2 /\ exists p, in_tri S p /\ in_tri T p) /\
  (exists S T d, fat S /\ fat T /\ TriDist S T = Some d /\ d == 0 /\ forall p q, in_tri S p -> in_tri T q -> 1 # 2 <= dist2 p q).
Proof.
  split.
  - exists meet_s, meet_t. destruct (TriDist meet_s meet_t) as [d|] eqn:E; [|vm_compute in E; discriminate E]. exists d.
    split; [vm_compute; reflexivity|]. split; [vm_compute; reflexivity|]. split; [reflexivity|]. split.
    + assert (K : match TriDist meet_s meet_t with Some d => Qeq_bool d 2 | None => false end = true) by (vm_compute; reflexivity).
      rewrite E in K. apply Qeq_bool_iff in K. exact K.
    + exists (v3 4 4 3). split; [apply (corner_in meet_s 2); lia|apply (corner_in meet_t 1); lia].
  - exists apart_s, apart_t. destruct (TriDist apart_s apart_t) as [d|] eqn:E; [|vm_compute in E; discriminate E]. exists d.
    split; [vm_compute; reflexivity|]. split; [vm_compute; reflexivity|]. split; [reflexivity|]. split.
    + assert (K : match TriDist apart_s apart_t with Some d => Qeq_bool d 0 | None => false end = true) by (vm_compute; reflexivity).
      rewrite E in K. apply Qeq_bool_iff in K. exact K.
    + intros p q Ip Iq. set (n := v3 (-(3)) 4 6).
      assert (A : vdot n p <= 3) by (apply (in_tri_le apart_s); [|exact Ip]; intros k Hk; destruct (lt3 k Hk) as [->|[->| ->]]; vm_compute; discriminate).
      assert (B : 9 <= vdot n q) by (apply (in_tri_ge apart_t); [|exact Iq]; intros k Hk; destruct (lt3 k Hk) as [->|[->| ->]]; vm_compute; discriminate).
      assert (C := slab n p q). assert (Ew : vdot n (vsub q p) == vdot n q - vdot n p) by (unfold n; flat3; ring).
      assert (En : vdot n n == 61) by reflexivity. rewrite Ew, En in C. nra.
Qed.
Print Assumptions tridist_smallest_refuted.

(** C173, the part that holds: if SegDist answers the smallest distance for each pair of sides (see
    C37) and the triangles have an area, the answer is the smallest squared distance of a point of
    the one from a point of the other.  Missing: pairs of sides for which SegDist is not exact. *)
Theorem tridist_smallest_partial : forall S T, fat S -> fat T -> sides_right S T ->
  exists d, TriDist S T = Some d /\
    (exists p q, in_tri S p /\ in_tri T q /\ d == dist2 p q) /\
    forall p q, in_tri S p -> in_tri T q -> d <= dist2 p q.
Proof.
  intros S T FS FT HR. unfold TriDist, TriDist_seg.
  assert (P3 : forall x, In x edge_pairs -> (fst x < 3 /\ snd x < 3)%nat).
  { intros [i j] H. apply in_prod_iff in H. destruct H as [H1 H2]. apply in_seq in H1, H2. cbn [fst snd]. lia. }
  assert (P9 : forall i j, (i < 3)%nat -> (j < 3)%nat -> In (i, j) edge_pairs) by (intros i j Hi Hj; apply in_prod; apply in_seq; lia).
  assert (K := loop_spec S T HR edge_pairs P3 None false).
  assert (At : forall i j, (i < 3)%nat -> (j < 3)%nat -> exists p q, in_tri S p /\ in_tri T q /\ dd S T i j == dist2 p q).
  { intros i j Hi Hj. destruct (pair_on S T i j) as [O1 O2]. exists (px S T i j), (py S T i j).
    split; [apply (on_side_in S i); auto|]. split; [apply (on_side_in T j); auto|]. unfold dd, V. symmetry. apply dist2_dot. }
  destruct (seg_loop S T edge_pairs None false) as [d|m shown].
  - destruct K as (i & j & [Hi Hj] & E & A & B); [intros d0 X; discriminate X|intro X; discriminate X|].
    exists d. split; [reflexivity|]. split.
    + destruct (At i j Hi Hj) as (p & q & I1 & I2 & D). exists p, q. split; [exact I1|]. split; [exact I2|]. lra.
    + intros p q Ip Iq. assert (M := found_min S T HR i j Hi Hj p q A B Ip Iq). lra.
  - destruct K as (Sh & Ma & _ & Mi); [intros d0 X; discriminate X|intro X; discriminate X|].
    unfold TriDist_other. destruct (face_corner S T) as [s1 r1] eqn:E1. destruct (face_spec S T s1 r1 FS E1) as [Sh1 R1].
    destruct r1 as [d|]; [exists d; split; [reflexivity|apply R1; reflexivity]|].
    destruct (face_corner T S) as [s2 r2] eqn:E2. destruct (face_spec T S s2 r2 FT E2) as [Sh2 R2].
    destruct r2 as [d|].
    { exists d. split; [reflexivity|]. destruct (R2 d eq_refl) as [(p & q & I1 & I2 & D) M]. split.
      - exists q, p. split; [exact I2|]. split; [exact I1|]. rewrite D. apply dist2_sym.
      - intros p' q' Ip Iq. rewrite dist2_sym. apply M; auto. }
    (* the triangles meet: otherwise the closest pair of sides would have passed the test *)
    assert (M : meet S T).
    { destruct (Mi 0%nat 0%nat (P9 0%nat 0%nat ltac:(lia) ltac:(lia))) as [(d & Em & _) _].
      destruct (Ma d Em) as (i & j & [Hi Hj] & Ed).
      destruct (not_found S T HR i j Hi Hj) as [X|(p & q & Ip & Iq & L)]; [|exact X|].
      - intro X. destruct (Mi i j (P9 i j Hi Hj)) as [_ St]. destruct (St X) as (d' & Em' & L'). rewrite Em in Em'. injection Em' as <-. lra.
      - destruct (slide_pair S T p q FS FT Ip Iq) as [X|[X|[X|X]]]; [exact X|exfalso..].
        + destruct X as (i' & j' & x & y & Hi' & Hj' & O1 & O2 & L2).
          destruct (Mi i' j' (P9 i' j' Hi' Hj')) as [(d' & Em' & L') _]. rewrite Em in Em'. injection Em' as <-.
          assert (M := pair_min S T HR i' j' Hi' Hj' x y O1 O2). rewrite dist2_dot in M. change (dd S T i' j' <= dist2 x y) in M. lra.
        + destruct X as (sh & d' & X & _). rewrite E1 in X. discriminate X.
        + destruct X as (sh & d' & X & _). rewrite E2 in X. discriminate X. }
    assert (Hsh : shown || (s1 || s2) = false).
    { destruct (shown || (s1 || s2)) eqn:E; [exfalso|reflexivity]. apply orb_prop in E. destruct E as [E|E]; [apply (Sh E); exact M|].
      apply orb_prop in E. destruct E as [E|E]; [apply (Sh1 E); exact M|apply (Sh2 E); apply meet_sym; exact M]. }
    rewrite Hsh. exists 0. split; [reflexivity|]. split; [|intros p q _ _; apply dist2_nonneg].
    destruct M as (x & Ix & Iy). exists x, x. split; [exact Ix|]. split; [exact Iy|]. symmetry. apply dist2_same. intro k; reflexivity.
Qed.
Print Assumptions tridist_smallest_partial.

(** When SegDist answers the smallest distance can be checked by the derivatives at the answer. *)
Definition side_check (P Q0 A B : vec) : bool :=
  let t := ans_t P Q0 A B in let u := ans_u P Q0 A B in
  let g := vdot A A * t - vdot A B * u - vdot A (vsub Q0 P) in
  let h := vdot B B * u - vdot A B * t + vdot B (vsub Q0 P) in
  negb (Qeq_bool (vdot A A) 0) && negb (Qeq_bool (vdot B B) 0) &&
  Qle_bool 0 (g * (0 - t)) && Qle_bool 0 (g * (1 - t)) && Qle_bool 0 (h * (0 - u)) && Qle_bool 0 (h * (1 - u)).
Lemma side_check_right P Q0 A B : side_check P Q0 A B = true -> exists e, SegDist P Q0 A B (vdot A A) (vdot B B) = Some e /\
  forall t u, unit t -> unit u -> e <= dist2 (at_ P A t) (at_ Q0 B u).
Proof.
  intro H. unfold side_check in H. cbv zeta in H. repeat (apply andb_prop in H; destruct H as [H ?]).
  apply negb_true_iff, Qeq_bool_neq in H. match goal with K : negb _ = true |- _ => apply negb_true_iff, Qeq_bool_neq in K; rename K into Hb end.
  repeat match goal with K : Qle_bool _ _ = true |- _ => apply Qle_bool_iff in K end.
  destruct (SegDist_value P Q0 A B H Hb) as (e & E & V). exists e. split; [exact E|]. intros t u [T0 T1] [U0 U1]. rewrite V. apply convex.
  - set (g := vdot A A * ans_t P Q0 A B - vdot A B * ans_u P Q0 A B - vdot A (vsub Q0 P)) in *. set (t0 := ans_t P Q0 A B) in *. clearbody g t0. 
    assert (X : g * (t - t0) == (1 - t) * (g * (0 - t0)) + t * (g * (1 - t0))) by ring. rewrite X. nra.
  - set (h := vdot B B * ans_u P Q0 A B - vdot A B * ans_t P Q0 A B + vdot B (vsub Q0 P)) in *. set (u0 := ans_u P Q0 A B) in *. clearbody h u0.
    assert (X : h * (u - u0) == (1 - u) * (h * (0 - u0)) + u * (h * (1 - u0))) by ring. rewrite X. nra.
Qed.
Definition sides_check (S T : nat -> vec) : bool := forallb (fun x => side_check (S (fst x)) (T (snd x)) (side S (fst x)) (side T (snd x))) edge_pairs.
Lemma sides_check_right S T : sides_check S T = true -> sides_right S T.
Proof.
  intros H i j Hi Hj. unfold sides_check in H. rewrite forallb_forall in H. apply side_check_right. apply (H (i, j)). apply in_prod; apply in_seq; lia.
Qed.

(** Triangles for which it holds: closest along two sides, a corner over a face of the first and of
    the second, and crossing triangles. *)
Definition answered (S T : nat -> vec) (d : Q) : Prop :=
  (fat S /\ fat T /\ sides_right S T) /\ match TriDist S T with Some e => e == d | None => False end.
Lemma answered_by S T d : Qltb (1 # 1000000000000000) (len S) && Qltb (1 # 1000000000000000) (len T) && sides_check S T &&
  match TriDist S T with Some e => Qeq_bool e d | None => false end = true -> answered S T d.
Proof.
  intro H. repeat (apply andb_prop in H; destruct H as [H ?]). split; [split; [|split]|].
  - unfold fat. destruct (Qltb_spec (1 # 1000000000000000) (len S)); [auto|discriminate].
  - unfold fat. destruct (Qltb_spec (1 # 1000000000000000) (len T)); [auto|discriminate].
  - apply sides_check_right. assumption.
  - destruct (TriDist S T); [apply Qeq_bool_iff; assumption|discriminate].
Qed.
Example tridist_smallest_nonvacuous :
  answered (tri (v3 2 3 0) (v3 1 0 3) (v3 0 1 0)) (tri (v3 2 3 3) (v3 0 3 0) (v3 2 3 2)) (18 # 17) /\
  answered (tri (v3 3 0 1) (v3 0 0 1) (v3 3 1 3)) (tri (v3 1 1 1) (v3 0 3 0) (v3 2 1 1)) (4 # 5) /\
  answered (tri (v3 2 1 2) (v3 1 0 2) (v3 3 1 1)) (tri (v3 2 2 3) (v3 0 1 1) (v3 2 2 0)) (4 # 5) /\
  answered (tri (v3 0 3 0) (v3 2 0 0) (v3 3 1 1)) (tri (v3 3 0 0) (v3 0 3 1) (v3 0 2 0)) 0.
Proof. split; [|split; [|split]]; apply answered_by; vm_compute; reflexivity. Qed.

(** C174.  The answer for two buffers of triangles is the smallest answer of a pair, and "none" only
    if there is no pair; corner [k] of triangle [i] is made of the floats 9i+3k, 9i+3k+1, 9i+3k+2. *)
Theorem tridist_single_minimum : forall data1 data2 n1 n2,
  match TriDist_single data1 data2 n1 n2 with
  | Some d =>
      (exists i j, (i < n1 /\ j < n2)%nat /\ TriDist (tri_at data1 i) (tri_at data2 j) = Some d) /\
      (forall i j e, (i < n1)%nat -> (j < n2)%nat -> TriDist (tri_at data1 i) (tri_at data2 j) = Some e -> d <= e)
  | None => forall i j, (i < n1)%nat -> (j < n2)%nat -> TriDist (tri_at data1 i) (tri_at data2 j) = None
  end.
Proof.
  intros data1 data2 n1 n2.
  set (all := flat_map (fun i => map (fun j => TriDist (tri_at data1 i) (tri_at data2 j)) (seq 0 n2)) (seq 0 n1)).
  assert (E : TriDist_single data1 data2 n1 n2 = fold_left dmin all None).
  { unfold TriDist_single, all. rewrite <- fold_flat. generalize (@None Q). generalize (seq 0 n1). induction l as [|i l IH]; intro m; [reflexivity|].
    cbn [fold_left]. rewrite IH. f_equal. rewrite <- fold_map. reflexivity. }
  rewrite E. clear E. destruct (fold_dmin all None) as (_ & H2 & H3).
  assert (I : forall i j, (i < n1)%nat -> (j < n2)%nat -> In (TriDist (tri_at data1 i) (tri_at data2 j)) all).
  { intros i j Hi Hj. apply in_flat_map. exists i. split; [apply in_seq; lia|]. apply in_map_iff. exists j. split; [reflexivity|apply in_seq; lia]. }
  destruct (fold_left dmin all None) as [d|].
  - split.
    + destruct H3 as [H3|H3]; [discriminate H3|]. apply in_flat_map in H3. destruct H3 as (i & Hi & H3). apply in_map_iff in H3. destruct H3 as (j & H3 & Hj).
      apply in_seq in Hi, Hj. exists i, j. split; [lia|exact H3].
    + intros i j e Hi Hj E. specialize (H2 _ (I i j Hi Hj)). rewrite E in H2. exact H2.
  - intros i j Hi Hj. specialize (H2 _ (I i j Hi Hj)). destruct (TriDist (tri_at data1 i) (tri_at data2 j)); [destruct H2|reflexivity].
Qed.
Print Assumptions tridist_single_minimum.

(** C174 in terms of points: where the sides of all pairs are answered right, the answer is the
    smallest squared distance of two points of the surfaces. *)
Theorem tridist_single_smallest : forall data1 data2 n1 n2, (0 < n1)%nat -> (0 < n2)%nat ->
  (forall i, (i < n1)%nat -> fat (tri_at data1 i)) -> (forall j, (j < n2)%nat -> fat (tri_at data2 j)) ->
  (forall i j, (i < n1)%nat -> (j < n2)%nat -> sides_right (tri_at data1 i) (tri_at data2 j)) ->
  exists d, TriDist_single data1 data2 n1 n2 = Some d /\
    (exists i j p q, (i < n1)%nat /\ (j < n2)%nat /\ in_tri (tri_at data1 i) p /\ in_tri (tri_at data2 j) q /\ d == dist2 p q) /\
    forall i j p q, (i < n1)%nat -> (j < n2)%nat -> in_tri (tri_at data1 i) p -> in_tri (tri_at data2 j) q -> d <= dist2 p q.
Proof.
  intros data1 data2 n1 n2 N1 N2 F1 F2 HR. assert (M := tridist_single_minimum data1 data2 n1 n2).
  assert (P : forall i j, (i < n1)%nat -> (j < n2)%nat -> _) by (intros i j Hi Hj; exact (tridist_smallest_partial _ _ (F1 i Hi) (F2 j Hj) (HR i j Hi Hj))).
  destruct (TriDist_single data1 data2 n1 n2) as [d|].
  - exists d. split; [reflexivity|]. destruct M as [(i & j & [Hi Hj] & E) M]. split.
    + destruct (P i j Hi Hj) as (e & Ee & (p & q & I1 & I2 & D) & _). rewrite E in Ee. injection Ee as <-. exists i, j, p, q. repeat split; auto; lia.
    + intros i' j' p q Hi' Hj' Ip Iq. destruct (P i' j' Hi' Hj') as (e & Ee & _ & L). assert (A := M i' j' e Hi' Hj' Ee). assert (B := L p q Ip Iq). lra.
  - destruct (P 0%nat 0%nat N1 N2) as (e & Ee & _). rewrite (M 0%nat 0%nat N1 N2) in Ee. discriminate Ee.
Qed.
Print Assumptions tridist_single_smallest.
Definition two_tris : list Q := [2;3;0; 1;0;3; 0;1;0;  1;6;2; 0;4;6; 6;1;0].
Definition one_tri : list Q := [2;3;3; 0;3;0; 2;3;2].
Example tridist_single_nonvacuous :
  (match TriDist_single two_tris one_tri 2 1 with Some d => Qeq_bool d (1 # 5) | None => false end = true) /\
  (forall i, (i < 2)%nat -> fat (tri_at two_tris i)) /\ fat (tri_at one_tri 0) /\
  (forall i, (i < 2)%nat -> sides_right (tri_at two_tris i) (tri_at one_tri 0)).
Proof.
  split; [vm_compute; reflexivity|]. split; [|split].
  - intros i Hi. destruct i as [|[|i]]; [vm_compute; reflexivity|vm_compute; reflexivity|lia].
  - vm_compute; reflexivity.
  - intros i Hi. apply sides_check_right. destruct i as [|[|i]]; [vm_compute; reflexivity|vm_compute; reflexivity|lia].
Qed.
