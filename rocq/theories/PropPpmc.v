(** The progressive mesh coder: one compression round and the round that undoes it. *)
From Coq Require Import List ZArith Bool Arith Lia.
From Verif Require Import Arr CodecModel PpmcModel PpmcTopo PpmcOps PpmcStar PpmcEnc PpmcTrav PpmcDec PpmcRound PpmcCheck.
Import ListNotations.
Close Scope Z_scope.
Open Scope nat_scope.

(** A concrete closed mesh: the cube with one of its six faces cut into two triangles. *)
Definition cut_cube : list (list nat) := [[0;1;2];[0;2;3];[7;6;5;4];[0;4;5;1];[1;5;6;2];[2;6;7;3];[3;7;4;0]].
Definition cube_pos (v : nat) : vec :=
  nth v [(0,0,0);(4,0,0);(4,4,0);(0,4,0);(0,0,4);(4,0,4);(4,4,4);(0,4,4)]%Z (0,0,0)%Z.
Definition mean (l : list vec) : vec :=
  let '(x, y, z) := fold_left vadd l (0,0,0)%Z in let n := Z.of_nat (length l) in (x / n, y / n, z / n)%Z.
Definition edge_list (m : mesh) (n : nat) : list (dart * option nat) :=
  map (fun d => (d, m (fst d) (snd d))) (filter (fun d : dart => is_some (m (fst d) (snd d))) (list_prod (seq 0 n) (seq 0 n))).
Definition cube_round : option (mesh * option round) :=
  compressRound vec (fun p => p) mean 100 (fun _ _ => true) 0 1 cube_pos (of_faces cut_cube) (7, 6) 1000.

Example cut_cube_good : good cut_cube = true /\ wf (of_faces cut_cube) /\ connected (of_faces cut_cube) /\ of_faces cut_cube 7 6 <> None.
Proof. assert (G : good cut_cube = true) by (vm_compute; reflexivity). split; [exact G|]. destruct (good_spec _ G). repeat (split; [assumption|]). vm_compute. discriminate. Qed.

(** Decoding a round from the coarser mesh gives back exactly the finer mesh: every half-edge with
    its next one, hence every vertex, edge and facet, none more and none fewer.  The vertices that
    come back are exactly those removed ([ns], the identity of the vertex each new handle stands
    for).  Vertices that stayed keep their position, vertices that come back get the centre of the
    quantisation cell of their position.  No symbol beyond the round's own is read ([extra]). *)
Theorem round_restores_mesh : forall (P : Type) (qz : P -> vec) (gp : vec -> P) (bary : list P -> P)
    lim convex d0 d1 (pos : nat -> P) M h0 fuel X r,
  wf M -> connected M -> M (fst h0) (snd h0) <> None ->
  compressRound P qz bary lim convex d0 d1 pos M h0 fuel = Some (X, Some r) ->
  exists ns, NoDup ns /\ (forall v, In v ns <-> vertex M v /\ ~ vertex X v) /\ length ns = length (residual_symbols (fst r)) /\
    forall pos' hs extra, (forall v, vertex X v -> pos' v = pos v) -> NoDup hs -> (forall a b, X a b <> None -> In (a, b) hs) ->
    exists M' pos2,
      decompressRound P qz gp bary lim d0 d1 X pos' (fst r ++ fst extra, snd r ++ snd extra) ns hs fuel = Some (M', pos2, extra) /\
      (forall a b, M' a b = M a b) /\
      (forall v, vertex X v -> pos2 v = pos v) /\ (forall v, In v ns -> pos2 v = gp (qz (pos v))).
Proof. intros P qz gp bary lim convex d0 d1 pos M h0 fuel X r. apply round_trip. Qed.
Print Assumptions round_restores_mesh.

Example round_restores_nonvacuous :
  match cube_round with
  | Some (X, Some r) =>
    edge_list X 8 =
      [((0,1), Some 6); ((0,3), Some 4); ((0,4), Some 1); ((1,0), Some 4); ((1,4), Some 6); ((1,6), Some 3);
       ((3,0), Some 1); ((3,4), Some 0); ((3,6), Some 4); ((4,0), Some 3); ((4,1), Some 0); ((4,3), Some 6);
       ((4,6), Some 1); ((6,1), Some 4); ((6,3), Some 0); ((6,4), Some 3)] /\
    r = ([Some (2,2,-1); None; Some (2,-1,2); Some (-1,2,2); None]%Z, [0;1;1;1;1;1;0]%Z) /\
    match decompressRound vec (fun p => p) (fun p => p) mean 100 0 1 X cube_pos r [2;5;7] (map fst (edge_list X 8)) 1000 with
    | Some (M', _, rest) => edge_list M' 8 = edge_list (of_faces cut_cube) 8 /\ rest = ([], [])
    | None => False
    end
  | _ => False
  end.
Proof. vm_compute. repeat split; reflexivity. Qed.

(** Whatever a round does, the mesh it leaves is closed, without double edges, each vertex with one
    fan of facets and no facet on both sides of an edge, in one piece; and no vertex is new. *)
Theorem round_keeps_mesh_closed : forall (P : Type) (qz : P -> vec) (bary : list P -> P) lim convex d0 d1 (pos : nat -> P) M h0 fuel X r,
  wf M -> connected M -> M (fst h0) (snd h0) <> None ->
  compressRound P qz bary lim convex d0 d1 pos M h0 fuel = Some (X, r) ->
  wf X /\ connected X /\ (forall v, vertex X v -> vertex M v).
Proof.
  intros P qz bary lim convex d0 d1 pos M h0 fuel X r W C Hh H. unfold compressRound in H.
  destruct (decimate lim convex d0 d1 (beginDecimation M h0) fuel) as [s|] eqn:ED; cbn [bind] in H; [|discriminate].
  destruct (decimation_spec _ _ _ _ _ _ _ _ W C Hh ED) as (U & R & A & DCs & _).
  assert (E : X = e_m s).
  { destruct (e_n s =? 0); [injection H as <- _; auto|]. repeat (match type of H with bind ?o _ = _ => destruct o; cbn [bind] in H; [|discriminate] end). injection H as <- _. auto. }
  subst X. destruct DCs as [WX WU CX ST TRI NB UN ADD ND NO AD SP FLAG FC ALL VX]. split; [auto|]. split; [auto|].
  intros v (w & Hw). apply (VX v w). rewrite (ST v w) in Hw. apply star_dart in Hw; tauto.
Qed.
Print Assumptions round_keeps_mesh_closed.
Example round_keeps_mesh_closed_nonvacuous :
  match cube_round with
  | Some (X, Some _) => length (edge_list X 8) = 16 /\ length (edge_list (of_faces cut_cube) 8) = 26
  | _ => False end.
Proof. vm_compute. auto. Qed.

(** A round in which nothing can be removed leaves the mesh as it is and produces no symbols. *)
Theorem round_without_removal_changes_nothing : forall (P : Type) (qz : P -> vec) (bary : list P -> P) lim convex d0 d1 (pos : nat -> P) M h0 fuel X,
  wf M -> connected M -> M (fst h0) (snd h0) <> None ->
  compressRound P qz bary lim convex d0 d1 pos M h0 fuel = Some (X, None) -> forall a b, X a b = M a b.
Proof.
  intros P qz bary lim convex d0 d1 pos M h0 fuel X W C Hh H. unfold compressRound in H.
  destruct (decimate lim convex d0 d1 (beginDecimation M h0) fuel) as [s|] eqn:ED; cbn [bind] in H; [|discriminate].
  destruct (decimation_spec _ _ _ _ _ _ _ _ W C Hh ED) as (U & R & A & _ & _ & _ & N0 & _).
  destruct (Nat.eqb_spec (e_n s) 0) as [E|E]; [injection H as <-; apply N0; auto|].
  repeat (match type of H with bind ?o _ = _ => destruct o; cbn [bind] in H; [|discriminate] end). discriminate.
Qed.
Print Assumptions round_without_removal_changes_nothing.
Definition tetrahedron : list (list nat) := [[0;1;2];[0;2;3];[0;3;1];[1;3;2]].
Example round_without_removal_nonvacuous : good tetrahedron = true /\
  match compressRound vec (fun p => p) mean 100 (fun _ _ => false) 0 1 cube_pos (of_faces tetrahedron) (2, 3) 1000 with
  | Some (X, None) => edge_list X 4 = edge_list (of_faces tetrahedron) 4 | _ => False end.
Proof. vm_compute. auto. Qed.

(** The vertices removed by one round are pairwise not joined by an edge, and the departure edge,
    where the decoder starts, is never touched: its ends stay and it stays an edge. *)
Theorem round_removes_independent_vertices : forall (P : Type) (qz : P -> vec) (bary : list P -> P) lim convex d0 d1 (pos : nat -> P) M h0 fuel X r,
  wf M -> connected M -> M (fst h0) (snd h0) <> None ->
  compressRound P qz bary lim convex d0 d1 pos M h0 fuel = Some (X, r) ->
  (forall u v, ~ vertex X u -> ~ vertex X v -> M u v = None) /\
  (M d0 d1 <> None -> X d0 d1 <> None).
Proof.
  intros P qz bary lim convex d0 d1 pos M h0 fuel X r W C Hh H. unfold compressRound in H.
  destruct (decimate lim convex d0 d1 (beginDecimation M h0) fuel) as [s|] eqn:ED; cbn [bind] in H; [|discriminate].
  destruct (decimation_spec _ _ _ _ _ _ _ _ W C Hh ED) as (U & R & A & DCs & D0 & D1 & _).
  assert (E : X = e_m s).
  { destruct (e_n s =? 0); [injection H as <- _; auto|]. repeat (match type of H with bind ?o _ = _ => destruct o; cbn [bind] in H; [|discriminate] end). injection H as <- _. auto. }
  subst X. destruct DCs as [WX WU CX ST TRI NB UN ADD ND NO AD SP FLAG FC ALL VX].
  assert (MU : forall p q, M p q <> None -> U p q <> None).
  { intros p q Hm K. apply Hm. rewrite <- (UN p q). apply dels_none. auto. }
  assert (XD : forall p q, e_m s p q <> None <-> R p = false /\ R q = false /\ U p q <> None) by (intros p q; rewrite (ST p q); apply star_dart; auto).
  assert (RV : forall v w, M v w <> None -> ~ vertex (e_m s) v -> R v = true).
  { intros v w Hw Hx. apply MU in Hw. destruct (R v) eqn:Rv; [auto|]. exfalso. apply Hx.
    destruct (R w) eqn:Rw; [|exists w; apply XD; auto].
    assert (Hw' : U w v <> None) by (apply (wf_sym U WU); auto). destruct (U w v) as [b|] eqn:E; [|congruence]. destruct (TRI _ _ _ Rw E) as [E1 E2].
    exists b. apply XD. split; [auto|]. split; [|congruence]. apply (NB w b Rw). apply (wf_sym U WU). congruence. }
  split.
  - intros u v Hu Hv. destruct (M u v) as [w|] eqn:E; [|auto]. exfalso.
    assert (E' : M u v <> None) by congruence. assert (Ru := RV u v E' Hu). assert (Rv := RV v u (wf_sym M W _ _ E') Hv).
    rewrite (NB u v Ru (MU _ _ E')) in Rv. discriminate.
  - intro Hd. apply XD. auto.
Qed.
Print Assumptions round_removes_independent_vertices.
Example round_removes_independent_nonvacuous :
  match cube_round with
  | Some (X, _) => map (fun v => existsb (fun w => is_some (X v w)) (seq 0 8)) (seq 0 8) = [true;true;false;true;true;false;true;false] /\ is_some (X 0 1) = true
  | None => False end.
Proof. vm_compute. auto. Qed.
