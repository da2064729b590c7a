(** C155: opening a record whose header names a level that is not convex. *)
From Coq Require Import List ZArith Bool Arith Lia.
From Verif Require Import Arr BitsModel LodModel PipeModel.
Import ListNotations.
Open Scope Z_scope.

Lemma first_convex_stuck n fuel level : 0 < n -> 0 < level -> first_convex (stop n) fuel (Lod Idle 0 true 0) level = None.
Proof.
  intros Hn Hl. induction fuel as [|f IH]; cbn [first_convex l_cur]; (destruct (Z.ltb_spec 0 level); [|lia]); [reflexivity|].
  unfold batchOperation. cbn [l_done]. exact IH.
Qed.

(** Exactly which headers the constructor gets past: those that name no such level, or one not below
    the number of rounds.  For all others the loop never ends, however many batches it is given. *)
Theorem header_opens_partial : forall r, 0 <= r_notconvex r -> 0 <= r_nquant r ->
  (r_notconvex r = 0 \/ r_rounds r <= r_notconvex r -> exists s, l_cur s = 0 /\ l_op s = Idle /\ l_pct s = 0 /\ forall fuel, construct (stop (r_nquant r + r_rounds r)) fuel r = Some s) /\
  (0 < r_notconvex r < r_rounds r -> forall fuel, construct (stop (r_nquant r + r_rounds r)) fuel r = None).
Proof.
  intros r Hc Hq. unfold construct. split.
  - intros H. destruct (Z.ltb_spec (r_notconvex r) (r_rounds r)) as [L|L].
    + destruct H as [H|H]; [|lia]. rewrite H. exists (Lod Idle 0 true 0). cbn [l_cur l_op l_pct]. repeat (split; [reflexivity|]). intro fuel.
      destruct fuel; cbn [first_convex fresh l_cur Z.ltb Z.compare bind]; unfold batchOperation, fresh, stop; cbn [l_done l_op l_cur l_pct];
        (destruct (Z.eqb_spec (r_nquant r + r_rounds r) 0); [lia|reflexivity]).
    + exists fresh. auto.
  - intros H fuel. destruct (Z.ltb_spec (r_notconvex r) (r_rounds r)) as [L|L]; [|lia].
    assert (E : first_convex (stop (r_nquant r + r_rounds r)) fuel fresh (r_notconvex r) = None); [|rewrite E; reflexivity].
    destruct fuel; cbn [first_convex fresh l_cur]; (destruct (Z.ltb_spec 0 (r_notconvex r)); [|lia]); [reflexivity|].
    replace (batchOperation _ fresh) with (Lod Idle 0 true 0); [apply first_convex_stuck; lia|].
    unfold batchOperation, fresh, stop. cbn [l_done l_op l_cur l_pct]. destruct (Z.eqb_spec (r_nquant r + r_rounds r) 0); [lia|reflexivity].
Qed.
Print Assumptions header_opens_partial.

(** A tetrahedron with two rounds, written by writeBaseMesh for [k] as the level that is not convex. *)
Definition tetra_with (k : Z) : base :=
  Base (0, 0, 0) 0 4 2 0 k [(0, 0, 0); (15, 0, 0); (0, 15, 0); (0, 0, 15)] (0%nat, 1%nat) [[0; 2; 1]; [0; 1; 3]; [1; 2; 3]; [0; 3; 2]]%nat.
(** False of other headers: what writeBaseMesh itself makes of an object whose level 1 is not convex
    is read back, and then opened without end. *)
Theorem header_opens_refuted : exists m bytes r off,
  writeBaseMesh Z.log2_up (repeat 0 64) m = Some bytes /\ readBaseMesh Z.log2_up (bytes ++ repeat 0 8) = Some (r, off) /\
  m_notconvex m = 1 /\ m_rounds m = 2 /\ length (r_pos r) = 4%nat /\ forall fuel, construct (stop (r_nquant r + r_rounds r)) fuel r = None.
Proof.
  pose (x := writeBaseMesh Z.log2_up (repeat 0 64) (tetra_with 1)). destruct x as [bytes|] eqn:E; [|vm_compute in E; discriminate E].
  exists (tetra_with 1), bytes. unfold x in E. vm_compute in E. injection E as <-.
  match goal with |- context[readBaseMesh ?a ?b] => let v := eval vm_compute in (readBaseMesh a b) in match v with Some (?r, ?off) => exists r, off end end.
  split; [vm_compute; reflexivity|]. split; [vm_compute; reflexivity|]. repeat (split; [reflexivity|]).
  apply header_opens_partial; cbn [r_notconvex r_nquant r_rounds]; lia.
Qed.
Print Assumptions header_opens_refuted.
(** What the compressor writes, where that level is 0, opens. *)
Example header_opens_nonvacuous : match writeBaseMesh Z.log2_up (repeat 0 64) (tetra_with 0) with
  | Some bytes => match readBaseMesh Z.log2_up (bytes ++ repeat 0 8) with
    | Some (r, _) => (r_notconvex r, r_rounds r, construct (stop (r_nquant r + r_rounds r)) 0 r) = (2, 2, Some (Lod Idle 0 false 0))
    | None => False end
  | None => False end.
Proof. vm_compute. reflexivity. Qed.
