(** C202: the arrays of vertices and corners describe the mesh. *)
From Coq Require Import ZArith QArith List Arith Lia.
From Verif Require Import ArraysModel.
Import ListNotations.
Close Scope Q_scope. Close Scope Z_scope.
Open Scope nat_scope.

(** Spec: what a reader of the arrays sees: three coordinates make a point, three numbers of points a triangle. *)
Definition read_point (vs : list Q) (i : nat) : Q * Q * Q := (nth (3 * i) vs 0%Q, nth (3 * i + 1) vs 0%Q, nth (3 * i + 2) vs 0%Q).
Fixpoint read_triangles (vs : list Q) (ts : list nat) : list (list (Q * Q * Q)) :=
  match ts with a :: b :: c :: r => [read_point vs a; read_point vs b; read_point vs c] :: read_triangles vs r | _ => [] end.
Definition surface (m : amesh) : list (list (Q * Q * Q)) := map (map (m_point m)) (m_facets m).

Lemma points_at (g : nat -> Q * Q * Q) n : forall s i, i < n ->
  read_point (flat_map (fun i => let '(x, y, z) := g i in [x; y; z]) (seq s n)) i = g (s + i).
Proof.
  induction n as [|n IH]; intros s i I; [lia|]. cbn [seq flat_map]. destruct i as [|i].
  - rewrite Nat.add_0_r. destruct (g s) as [[x y] z]. reflexivity.
  - replace (s + S i) with (S s + i) by lia. rewrite <- IH by lia. destruct (g s) as [[x y] z]. unfold read_point.
    replace (3 * S i) with (S (S (S (3 * i)))) by lia. reflexivity.
Qed.
Lemma points_length (g : nat -> Q * Q * Q) n : forall s, length (flat_map (fun i => let '(x, y, z) := g i in [x; y; z]) (seq s n)) = 3 * n.
Proof.
  induction n as [|n IH]; intros s; [reflexivity|]. cbn [seq flat_map]. rewrite app_length, IH. destruct (g s) as [[x y] z]. cbn [length]. lia.
Qed.
Lemma triangles_at vs (h : list nat -> nat -> nat) (q : nat -> Q * Q * Q) fs :
  Forall (fun f => length f = 3 /\ forall k, k < 3 -> read_point vs (h f k) = q (nth k f 0)) fs ->
  read_triangles vs (flat_map (fun f => map (h f) [0; 1; 2]) fs) = map (map q) fs.
Proof.
  induction 1 as [|f fs [L H] _ IH]; [reflexivity|]. cbn [flat_map]. set (rest := flat_map _ fs) in *. cbn [map app read_triangles]. rewrite IH, !H by lia. f_equal.
  destruct f as [|a [|b [|c [|d f]]]]; cbn [length] in L; try lia. reflexivity.
Qed.

(** C202, what holds.  The array of vertices holds the points in order.  If the ids are the places of the vertices
    and there are at most 65536 of them, the arrays describe the triangles. *)
Theorem arrays_describe_partial : forall m,
  (length (fill_vertices m) = 3 * m_size m /\ forall i, i < m_size m -> read_point (fill_vertices m) i = m_point m i) /\
  length (fill_topology m) = 3 * length (m_facets m) /\
  ((forall i, i < m_size m -> m_id m i = i) -> (Z.of_nat (m_size m) <= 65536)%Z -> Forall (fun f => length f = 3 /\ Forall (fun i => i < m_size m) f) (m_facets m) ->
   read_triangles (fill_vertices m) (fill_topology m) = surface m).
Proof.
  intros m. assert (P : forall i, i < m_size m -> read_point (fill_vertices m) i = m_point m i) by (intros i I; unfold fill_vertices; rewrite points_at by exact I; reflexivity).
  split; [split; [|exact P]|split].
  - apply points_length.
  - unfold fill_topology. induction (m_facets m) as [|f fs IH]; [reflexivity|]. cbn [flat_map]. rewrite app_length, IH, map_length. cbn [length]. lia.
  - intros I N F. unfold surface, fill_topology. apply (triangles_at _ (fun f k => short (m_id m (corner f k)))).
    revert F. apply Forall_impl. intros f [L B]. split; [exact L|]. intros k K. unfold corner. rewrite L, (Nat.mod_small k 3 K).
    assert (X : nth k f 0 < m_size m) by (apply (proj1 (Forall_forall _ _) B), nth_In; lia).
    rewrite (I _ X). unfold short. rewrite Z.mod_small by lia. rewrite Nat2Z.id. apply P, X.
Qed.
Print Assumptions arrays_describe_partial.
(** A tetrahedron whose ids are the places of its vertices. *)
Definition tetra_point (i : nat) : Q * Q * Q := match i with 1 => (1, 0, 0)%Q | 2 => (0, 1, 0)%Q | 3 => (0, 0, 1)%Q | _ => (0, 0, 0)%Q end.
Definition tetra_facets : list (list nat) := [[0; 2; 1]; [0; 1; 3]; [1; 2; 3]; [0; 3; 2]].
Example arrays_describe_case : let m := AMesh 4 tetra_point (fun i => i) tetra_facets in
  (forall i, i < m_size m -> m_id m i = i) /\ (Z.of_nat (m_size m) <= 65536)%Z /\ Forall (fun f => length f = 3 /\ Forall (fun i => i < m_size m) f) (m_facets m) /\
  fill_topology m = [0; 2; 1; 0; 1; 3; 1; 2; 3; 0; 3; 2].
Proof. intros m. split; [reflexivity|]. split; [vm_compute; discriminate|]. split; [|reflexivity]. repeat constructor. Qed.
(** C202 is false of every decoded mesh that has a facet with two different points: the ids are all 0, so all
    corners are the first vertex. *)
Theorem arrays_decoded : forall n point facets t,
  In t (read_triangles (fill_vertices (decoded n point facets)) (fill_topology (decoded n point facets))) -> forall p q, In p t -> In q t -> p = q.
Proof.
  intros n point facets t. unfold fill_topology. cbn [m_id m_facets decoded]. set (vs := fill_vertices _). clearbody vs.
  induction facets as [|f fs IH]; intros I; [destruct I|]. cbn [flat_map] in I. set (rest := flat_map _ fs) in *. cbn [map app read_triangles] in I.
  destruct I as [<-|I]; [|exact (IH I)]. change (short 0) with 0. cbn [In]. intros p q P Q.
  repeat (destruct P as [P|P]; [|]); repeat (destruct Q as [Q|Q]; [|]); try contradiction; congruence.
Qed.
Print Assumptions arrays_decoded.
(** Refuted: for the decoded tetrahedron; for a mesh of 65537 vertices with right ids; for a square. *)
Theorem arrays_describe_refuted :
  (exists n point facets, Forall (fun f => length f = 3 /\ Forall (fun i => i < n) f) facets /\
    read_triangles (fill_vertices (decoded n point facets)) (fill_topology (decoded n point facets)) <> surface (decoded n point facets)) /\
  (exists m, (forall i, m_id m i = i) /\ Forall (fun f => length f = 3 /\ Forall (fun i => i < m_size m) f) (m_facets m) /\
    read_triangles (fill_vertices m) (fill_topology m) <> surface m) /\
  (exists m, (forall i, m_id m i = i) /\ m_size m = 4 /\ Forall (fun f => Forall (fun i => i < m_size m) f) (m_facets m) /\
    read_triangles (fill_vertices m) (fill_topology m) <> surface m).
Proof.
  split; [|split].
  - exists 4, tetra_point, tetra_facets. split; [repeat constructor|]. intros H. apply (f_equal (fun l => nth 1 (nth 0 l []) (0, 0, 0)%Q)) in H. vm_compute in H. discriminate H.
  - set (N := Z.to_nat 65536). assert (L : 3 < N) by (unfold N; lia).
    assert (S0 : forall i, (i < 3) -> short i = i) by (intros i I; unfold short; rewrite Z.mod_small by lia; apply Nat2Z.id).
    assert (SN : short N = 0) by (unfold short, N; rewrite Z2Nat.id by lia; reflexivity). clearbody N.
    set (g := fun i : nat => if Nat.eqb i 0 then (0, 0, 0)%Q else (1, 0, 0)%Q).
    set (m := AMesh (S N) g (fun i => i) [[N; 1; 2]]). exists m. split; [reflexivity|]. split.
    { constructor; [|constructor]. split; [reflexivity|]. cbn [m_size m]. repeat constructor; lia. }
    intros H. apply (f_equal (fun l => nth 0 (nth 0 l []) (0, 0, 0)%Q)) in H.
    assert (T : fill_topology m = [0; 1; 2]).
    { unfold fill_topology. cbn [m_facets m_id m flat_map map app]. unfold corner. cbn [length Nat.modulo Nat.divmod Nat.sub fst snd nth]. rewrite SN, !S0 by lia. reflexivity. }
    rewrite T in H. cbn [read_triangles nth] in H. rewrite (proj2 (proj1 (arrays_describe_partial m)) 0) in H by (cbn [m_size m]; lia).
    unfold surface in H. cbn [m_facets m map nth m_point] in H. unfold g in H. destruct (Nat.eqb_spec N 0); [lia|]. cbn [Nat.eqb] in H. discriminate H.
  - exists (AMesh 4 tetra_point (fun i => i) [[0; 1; 2; 3]]). split; [reflexivity|]. split; [reflexivity|]. split; [repeat constructor|].
    intros H. apply (f_equal (fun l => length (nth 0 l []))) in H. vm_compute in H. discriminate H.
Qed.
Print Assumptions arrays_describe_refuted.
Example arrays_decoded_case : read_triangles (fill_vertices (decoded 4 tetra_point tetra_facets)) (fill_topology (decoded 4 tetra_point tetra_facets))
  = repeat (repeat (0, 0, 0)%Q 3) 4.
Proof. reflexivity. Qed.
