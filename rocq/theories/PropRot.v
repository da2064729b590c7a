(** C59: the integer rotation. *)
From Coq Require Import QArith ZArith List Bool Lia Lqa.
From Verif Require Import AabModel AabProofs SegDistModel TriIntModel RotModel RotProofs.
Import ListNotations.
Open Scope Q_scope.

(** C59 is false.  The frame is orthonormal and the library functions satisfy the identities of
    trigonometry where they are used, yet the vector does not come back: round() sends halves away
    from zero, so a lifting step hitting a half is not undone. *)
Definition pick (l : list (Q * Q)) (x : Q) : Q :=
  match find (fun p => Qeq_bool (fst p) x) l with Some p => snd p | None => 0 end.
(** Angle 1 stands for the one with cosine 15/17. *)
Definition trig : libm := {|
  l_tan := pick [(1 # 2, 1 # 4); (- (1 # 2), - (1 # 4))];
  l_sin := pick [(1, 8 # 17); (-1, - (8 # 17))];
  l_cos := pick [(0, 1); (1, 15 # 17); (-1, 15 # 17)];
  l_acos := pick [(1, 0); (15 # 17, 1)];
  l_sqrt := pick [(1, 1)] |}.
Definition trig_ok (L : libm) : Prop :=
  (forall a, In a [0; 1; -1] -> l_sin L a * l_sin L a + l_cos L a * l_cos L a == 1 /\
     l_tan L (a / 2) * (1 + l_cos L a) == l_sin L a) /\
  l_sqrt L 1 == 1 /\ l_cos L (l_acos L 1) == 1 /\ l_cos L (l_acos L (15 # 17)) == 15 # 17.
Theorem rotation_reversible_refuted : exists L T1 T2 normal u,
  trig_ok L /\
  vdot T1 T1 == 1 /\ vdot T2 T2 == 1 /\ vdot normal normal == 1 /\
  vdot T1 T2 == 0 /\ vdot T1 normal == 0 /\ vdot T2 normal == 0 /\
  invFrenetRotation L (frenetRotation L u T1 T2 normal) T1 T2 normal <> u.
Proof.
  exists trig, (v3 (15 # 17) (8 # 17) 0), (v3 0 0 1), (v3 (- (8 # 17)) (15 # 17) 0), (1, 2, 0)%Z.
  split; [|repeat split; vm_compute; try reflexivity; discriminate].
  split; [|repeat split; reflexivity]. intros a [<-|[<-|[<-|[]]]]; split; vm_compute; reflexivity.
Qed.
Print Assumptions rotation_reversible_refuted.

(** C59, the part that holds: the vector comes back whenever no product of a lifting coefficient and
    a coordinate met on the way lies halfway between two integers; whatever the library functions
    return.  Missing: runs that meet such a product. *)
Theorem rotation_reversible_partial : forall L T1 T2 normal u,
  clear_run 0 (compRotationMat L T1 T2 normal) u ->
  invFrenetRotation L (frenetRotation L u T1 T2 normal) T1 T2 normal = u.
Proof. intros L T1 T2 n u C. unfold invFrenetRotation, frenetRotation. apply back; [apply comp_kinds|exact C]. Qed.
Print Assumptions rotation_reversible_partial.

(** Sufficient: coefficients with odd denominators, as for an angle of cosine 4/5. *)
Lemma odd_clear m u : (forall r c, r <> c -> exists n d, m r c == inject_Z n / inject_Z (2 * d + 1)) -> clear_step m u.
Proof.
  intros H r c N (k & E). destruct (H r c N) as (n & d & F). rewrite F in E.
  set (x := coord u c) in *.
  assert (D : ~ inject_Z (2 * d + 1) == 0) by (intros Z0; unfold Qeq in Z0; cbn [Qnum Qden inject_Z] in Z0; lia).
  assert (G : inject_Z n * inject_Z x * 2 == (inject_Z k * 2 + 1) * inject_Z (2 * d + 1)).
  { assert (X : inject_Z n / inject_Z (2 * d + 1) * inject_Z x * inject_Z (2 * d + 1) * 2 ==
                (inject_Z k + (1 # 2)) * inject_Z (2 * d + 1) * 2) by (rewrite E; reflexivity).
    assert (Y : inject_Z n / inject_Z (2 * d + 1) * inject_Z x * inject_Z (2 * d + 1) * 2 == inject_Z n * inject_Z x * 2) by (field; exact D).
    rewrite Y in X. rewrite X. ring. }
  change 2 with (inject_Z 2) in G. change 1 with (inject_Z 1) in G.
  rewrite <- !inject_Z_mult, <- inject_Z_plus, <- inject_Z_mult in G. apply (proj1 (inject_Z_injective _ _)) in G.
  assert (P : (2 * (n * x) = 2 * (2 * (k * d) + k + d) + 1)%Z) by lia.
  lia.
Qed.
(** The same as a check on the matrices alone. *)
Definition odd_den (q : Q) : bool := Z.odd (Zpos (Qden (Qred q))).
Definition odd_mat (m : mat) : bool :=
  forallb (fun r => forallb (fun c => odd_den (m r c)) [AX; AY; AZ]) [AX; AY; AZ].
Lemma odd_run Ss : forall i u, forallb odd_mat Ss = true -> clear_run i Ss u.
Proof.
  induction Ss as [|m Ss IH]; intros i u H; [exact I|]. cbn [forallb] in H. apply andb_prop in H. destruct H as [H K].
  split; [right|apply IH; exact K]. apply odd_clear. intros r c _.
  assert (O : odd_den (m r c) = true).
  { unfold odd_mat in H. rewrite forallb_forall in H.
    assert (A : forall x : axis, In x [AX; AY; AZ]) by (intros []; cbn; tauto).
    specialize (H r (A r)). rewrite forallb_forall in H. exact (H c (A c)). }
  unfold odd_den in O. apply Z.odd_spec in O. destruct O as (d & O).
  exists (Qnum (Qred (m r c))), d. rewrite <- O, <- (Qred_correct (m r c)) at 1.
  destruct (Qred (m r c)) as [p q]. cbn [Qnum Qden]. apply Qmake_Qdiv.
Qed.
Definition trig35 : libm := {|
  l_tan := pick [(1 # 2, 1 # 3); (- (1 # 2), - (1 # 3))];
  l_sin := pick [(1, 3 # 5); (-1, - (3 # 5))];
  l_cos := pick [(0, 1); (1, 4 # 5); (-1, 4 # 5)];
  l_acos := pick [(1, 0); (4 # 5, 1)];
  l_sqrt := pick [(1, 1)] |}.
Example rotation_reversible_nonvacuous :
  clear_run 0 (compRotationMat trig35 (v3 (4 # 5) (3 # 5) 0) (v3 0 0 1) (v3 (- (3 # 5)) (4 # 5) 0)) (7, -4, 9)%Z /\
  frenetRotation trig35 (7, -4, 9)%Z (v3 (4 # 5) (3 # 5) 0) (v3 0 0 1) (v3 (- (3 # 5)) (4 # 5) 0) = (3, 9, -8)%Z.
Proof. split; [apply odd_run; vm_compute; reflexivity|vm_compute; reflexivity]. Qed.
