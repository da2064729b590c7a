(** C219: the memory of the fixer. *)
From Coq Require Import List Arith ZArith Lia Bool Permutation.
From Verif Require Import Arr FixerModel.
From Verif Require Import TileMemModel PropTileMem PropJoinMem CompressMemModel PropCompressMem FixMemModel.
Import ListNotations.
Close Scope Z_scope.
Open Scope nat_scope.

(** * Proof.  The specification is [clean] of C211. *)
Definition qblocks (q : piece) : list (form * nat) := (Single, q_blk q) :: single (q_points q) ++ single (q_faces q).
Notation qall := (flat_map qblocks).
Lemma single_of v vs : In v vs -> In v (map snd (single vs)).
Proof. intro I. unfold single. rewrite map_map. cbn [snd]. rewrite map_id. exact I. Qed.
Lemma holds_drop_blocks {sc} vs : forall h R, holds sc h (single vs ++ R) -> holds sc (fold_left (fun h v => happen (Delete Single v) h) vs h) R.
Proof. induction vs as [|v vs IH]; intros h R H; [exact H|]. cbn [fold_left]. apply IH, drop. exact H. Qed.
Lemma holds_delete_piece {sc} q h R : holds sc h (qblocks q ++ R) -> holds sc (delete_piece q h) R.
Proof.
  intro H. unfold delete_piece. apply drop, holds_drop_blocks, holds_drop_blocks. eapply holds_perm; [exact H|]. unfold qblocks. perm.
Qed.
Lemma holds_read_piece {sc} q h R : holds sc h (qblocks q ++ R) -> holds sc (read_piece q h) (qblocks q ++ R).
Proof.
  intro H. unfold read_piece. apply holds_uses; [apply holds_uses; [exact H|]|]; intros f F; unfold qblocks; cbn [app map]; right; rewrite !map_app, !in_app_iff.
  - left. left. apply single_of, F.
  - left. right. apply single_of, F.
Qed.
Lemma holds_load {sc} np nf h R : holds sc h R -> exists p h', load_piece np nf h = (p, h') /\ holds sc h' (qblocks p ++ R) /\
  length (q_points p) = np /\ length (q_faces p) = nf.
Proof.
  intro H. unfold load_piece. nw H b h1 H1. destruct (holds_blocks np h1 _ H1) as (N2 & H2). destruct (new_blocks np h1) as [ps h2]. cbn [fst snd] in *.
  destruct (holds_blocks nf h2 _ H2) as (N3 & H3). destruct (new_blocks nf h2) as [fs h3]. cbn [fst snd] in *.
  exists (Piece b ps fs). eexists. split; [reflexivity|]. split; [|split; assumption]. unfold qblocks. cbn [q_blk q_points q_faces].
  fold (single ps) in *. fold (single fs) in *.
  eapply (holds_perm sc _ (single fs ++ single ps ++ (Single, b) :: R)); [|perm]. apply holds_uses; [exact H3|].
  intros f F. rewrite map_app, in_app_iff. left. apply single_of, F.
Qed.
Lemma holds_pieces {sc} n : forall h R, holds sc h R -> exists qs h', new_pieces n h = (qs, h') /\ holds sc h' (qall qs ++ R) /\ length qs = n.
Proof.
  induction n as [|n IH]; intros h R H; cbn [new_pieces]; [exists [], h; repeat split; exact H|]. nw H b h1 H1.
  destruct (IH h1 _ H1) as (qs & h2 & E & H2 & N). rewrite E. exists (Piece b [] [] :: qs), h2. split; [reflexivity|]. split; [|cbn [length]; lia].
  cbn [flat_map qblocks q_blk q_points q_faces single map app]. eapply holds_perm; [exact H2|]. perm.
Qed.
Lemma holds_copy_points {sc} src c : forall h R, Forall (fun i => i < length src) c -> (forall v, In v src -> In v (map snd R)) -> holds sc h R ->
  exists bs h', copy_points src c h = (bs, h') /\ holds sc h' (single bs ++ R).
Proof.
  induction c as [|i c IH]; intros h R F S1 H; cbn [copy_points]; [exists [], h; split; [reflexivity|exact H]|].
  assert (H1 : holds sc (happen (Use (nth i src (fresh h))) h) R) by (apply holds_use; [exact H|]; apply S1, nth_In, (Forall_inv F)).
  set (h1 := happen _ h) in *. clearbody h1. nw H1 b h2 H2. destruct (IH h2 ((Single, b) :: R) (Forall_inv_tail F)) as (bs & h3 & E & H3); [intros; right; auto|exact H2|].
  rewrite E. exists (b :: bs), h3. split; [reflexivity|]. cbn [single map app]. fold (single bs). eapply holds_perm; [exact H3|]. perm.
Qed.
Lemma holds_copy_all {sc} src comps : forall qs h R, Forall (Forall (fun i => i < length src)) comps -> (forall v, In v src -> In v (map snd R)) ->
  holds sc h (qall qs ++ R) -> exists qs' h', copy_all src comps qs h = (qs', h') /\ holds sc h' (qall qs' ++ R) /\ length qs' = length qs.
Proof.
  induction comps as [|c comps IH]; intros qs h R F S1 H; [exists qs, h; repeat split; exact H|]. cbn [copy_all].
  destruct qs as [|q qs]; [exists [], h; repeat split; exact H|].
  destruct (holds_copy_points (sc := sc) src c h (qall (q :: qs) ++ R) (Forall_inv F)) as (bs & h1 & E1 & H1); [intros v V; rewrite map_app, in_app_iff; right; auto|exact H|]. rewrite E1.
  destruct (IH qs h1 (qblocks q ++ single bs ++ R) (Forall_inv_tail F)) as (qs' & h2 & E2 & H2 & N2).
  - intros v V. rewrite !map_app, !in_app_iff. right. right. auto.
  - eapply holds_perm; [exact H1|]. cbn [flat_map]. perm.
  - rewrite E2. eexists. exists h2. split; [reflexivity|]. split; [|cbn [length]; congruence].
    cbn [flat_map]. unfold qblocks at 1. cbn [q_blk q_points q_faces]. unfold single in *. rewrite map_app. eapply holds_perm; [exact H2|]. unfold qblocks, single. perm.
Qed.
Lemma add_to_perm f qs : forall i, i < length qs -> Permutation (qall (add_to i f qs)) ((Single, f) :: qall qs) /\ length (add_to i f qs) = length qs.
Proof.
  induction qs as [|q qs IH]; intros i L; [cbn [length] in L; lia|]. destruct i as [|i]; cbn [add_to flat_map length].
  - split; [|reflexivity]. unfold qblocks at 1. cbn [q_blk q_points q_faces]. unfold single. rewrite map_app. cbn [map]. unfold qblocks at 2, single. perm.
  - cbn [length] in L. destruct (IH i ltac:(lia)) as (P & N). split; [|lia]. eapply Permutation_trans; [apply Permutation_app_head, P|]. perm.
Qed.
Lemma holds_copy_faces {sc} parts : forall src qs h R, (forall v, In v src -> In v (map snd R)) -> Forall (fun i => i < length qs) parts ->
  holds sc h (qall qs ++ R) -> exists qs' h', copy_faces src parts qs h = (qs', h') /\ holds sc h' (qall qs' ++ R).
Proof.
  induction parts as [|i parts IH]; intros src qs h R S1 F H.
  - exists qs, h. split; [destruct src; reflexivity|exact H].
  - destruct src as [|f src]; [exists qs, h; split; [reflexivity|exact H]|]. cbn [copy_faces]. nw H nf h1 H1.
    destruct (add_to_perm nf qs i (Forall_inv F)) as (P & N).
    apply IH; [intros; apply S1; right; assumption|rewrite N; exact (Forall_inv_tail F)|].
    eapply holds_perm; [|apply Permutation_app_tail, Permutation_sym, P]. cbn [app].
    apply holds_use; [apply holds_use; [exact H1|]|left; reflexivity]. right. rewrite map_app, in_app_iff. right. apply S1. left. reflexivity.
Qed.
Lemma holds_walks {sc} l : forall q h R, holds sc h (qblocks q ++ R) -> exists q' h', walks l q h = (q', h') /\ holds sc h' (qblocks q' ++ R).
Proof.
  induction l as [|v l IH]; intros q h R H; cbn [walks]; [exists q, h; split; [reflexivity|exact H]|]. unfold walk. nw H f h1 H1.
  assert (H2 : holds sc (happen (Use f) h1) ((Single, f) :: qblocks q ++ R)) by (apply holds_use; [exact H1|left; reflexivity]).
  destruct v; apply IH; [|apply drop, H2].
  eapply (holds_perm sc _ ((Single, f) :: qblocks q ++ R)); [apply holds_use; [exact H2|left; reflexivity]|].
  unfold qblocks. cbn [q_blk q_points q_faces]. unfold single. rewrite map_app. cbn [map]. perm.
Qed.
Lemma holds_each {sc} holes qs : forall i h R, holds sc h (qall qs ++ R) -> holds sc (each i holes qs h) R.
Proof.
  induction qs as [|q qs IH]; intros i h R H; [exact H|]. cbn [each flat_map] in *. rewrite <- app_assoc in H.
  destruct (100 <? length (q_points q)).
  - destruct (holds_walks (holes i) q _ _ (holds_read_piece q h _ H)) as (q' & h1 & E & H1). rewrite E. apply IH, holds_delete_piece, holds_read_piece, H1.
  - apply IH, holds_delete_piece, H.
Qed.

(** C219.  Whatever the points, the components, the assignment of faces to them and the holes: every block is used and deleted only
    while it exists, deleted exactly once and with the right form, and nothing is left. *)
Theorem fixer_memory : forall np comps parts holes, Forall (Forall (fun v => v < np)) comps -> Forall (fun i => i < length comps) parts ->
  clean true (fixer np comps parts holes).
Proof.
  intros np comps parts holes F1 F2. unfold fixer. destruct (holds_load np (length parts) _ _ (holds_start true)) as (p & h1 & E1 & H1 & NP & NF). rewrite E1.
  unfold depart_mem.
  assert (IP : forall R v, In v (q_points p) -> In v (map snd (qblocks p ++ R))).
  { intros R v V. unfold qblocks. cbn [app map]. right. rewrite !map_app, !in_app_iff. left. left. apply single_of, V. }
  assert (IF : forall R v, In v (q_faces p) -> In v (map snd (qblocks p ++ R))).
  { intros R v V. unfold qblocks. cbn [app map]. right. rewrite !map_app, !in_app_iff. left. right. apply single_of, V. }
  assert (H2 : holds true (fold_left (fun h f => happen (Use f) h) (q_faces p) h1) (qblocks p ++ [])) by (apply holds_uses; [exact H1|apply IF]).
  set (h2 := fold_left _ (q_faces p) h1) in *. clearbody h2.
  destruct (holds_pieces (length comps) h2 _ H2) as (qs & h3 & E3 & H3 & N3). rewrite E3.
  destruct (holds_copy_all (sc := true) (q_points p) comps qs h3 (qblocks p ++ [])) as (qs2 & h4 & E4 & H4 & N4); [rewrite NP; exact F1|apply IP|exact H3|]. rewrite E4.
  destruct (holds_copy_faces (sc := true) parts (q_faces p) qs2 h4 (qblocks p ++ [])) as (qs3 & h5 & E5 & H5); [apply IF|rewrite N4, N3; exact F2|exact H4|]. rewrite E5.
  apply holds_clean, holds_delete_piece, holds_each, H5.
Qed.
Print Assumptions fixer_memory.

(** * Link with FixerModel: the components and assignments depart works with meet the hypotheses *)
Lemma cg_range cs v : forall i d, d < i + length cs -> cg_map cs i v d < i + length cs.
Proof.
  induction cs as [|c cs IH]; intros i d L; cbn [cg_map length] in *; [exact L|]. specialize (IH (S i) (if c v then i else d)).
  destruct (c v); lia.
Qed.
Theorem fixer_memory_of_depart : forall P fuel (p : poly P) parts holes, depart fuel p = Some parts ->
  exists cs, components (connections (faces p)) (length (points p)) fuel (length (points p)) (fun _ => false) = Some cs /\ length parts = length cs /\
    let comps := map (fun c => filter c (seq 0 (length (points p)))) cs in
    map (fun q => length (points q)) parts = map (@length nat) comps /\
    clean true (fixer (length (points p)) comps (map (fun f => cg_map cs 0 (hd 0 f) 0) (faces p)) holes).
Proof.
  intros P fuel p parts holes E. unfold depart in E. destruct (negb _ || _) eqn:G; [discriminate E|].
  destruct (components _ _ _ _ _) as [cs|] eqn:C; cbn [bind] in E; [|discriminate E]. exists cs. split; [reflexivity|]. injection E as <-.
  split; [rewrite map_length, combine_length, seq_length; lia|]. cbv zeta. split.
  - rewrite !map_map.
    assert (K : forall fs (q : poly P), points (fold_left add_face fs q) = points q).
    { induction fs as [|f fs IH]; intro q; [reflexivity|]. cbn [fold_left]. rewrite IH. reflexivity. }
    assert (L : forall l, Forall (fun v => v < length (points p)) l ->
      length (flat_map (fun v => match nth_error (points p) v with Some x => [x] | None => [] end) l) = length l).
    { induction l as [|v l IH]; intro F; [reflexivity|]. cbn [flat_map length]. rewrite app_length, IH by exact (Forall_inv_tail F).
      destruct (nth_error (points p) v) eqn:X; [reflexivity|]. apply nth_error_None in X. pose proof (Forall_inv F) as Y. cbn beta in Y. lia. }
    rewrite (map_ext _ (fun x => length (filter (snd x) (seq 0 (length (points p)))))).
    + rewrite <- (map_map snd (fun c => length (filter c (seq 0 (length (points p)))))). f_equal.
      clear. generalize 0. induction cs as [|c cs IH]; intro k; [reflexivity|]. cbn [length seq combine map snd]. rewrite IH. reflexivity.
    + intro x. rewrite K. cbn [points]. apply L. apply Forall_forall. intros v V. apply filter_In in V. destruct V as [V _]. apply in_seq in V. lia.
  - apply fixer_memory.
    + apply Forall_forall. intros c I. apply in_map_iff in I. destruct I as (g & <- & _). apply Forall_forall. intros v V.
      apply filter_In in V. destruct V as [V _]. apply in_seq in V. lia.
    + rewrite map_length. apply Forall_forall. intros i I. apply in_map_iff in I. destruct I as (f & <- & I).
      apply orb_false_iff in G. destruct G as [G1 G2]. apply negb_false_iff in G1. rewrite forallb_forall in G1. specialize (G1 f I).
      destruct f as [|v f]; [exfalso; rewrite <- Bool.not_true_iff_false in G2; apply G2; apply existsb_exists; exists []; split; [exact I|reflexivity]|].
      cbn [forallb] in G1. apply andb_true_iff in G1. destruct G1 as [V _]. apply Nat.ltb_lt in V.
      destruct (length (points p)) as [|n]; [lia|]. cbn [components seq find negb] in C.
      destruct (flood _ _ _ _ _) as [[cur added]|]; cbn [bind] in C; [|discriminate C]. destruct (components _ _ _ _ added) as [r|]; cbn [bind] in C; [|discriminate C].
      injection C as <-. apply (cg_range (cur :: r) _ 0 0). cbn [length]. lia.
Qed.
Print Assumptions fixer_memory_of_depart.
(** Two tetrahedra, one open, and a single point; and a run in which a piece with 101 points has three holes of which one does not close. *)
Definition two_pieces : poly nat := fold_left add_face [[0; 1; 2]; [0; 2; 3]; [0; 3; 1]; [1; 3; 2]; [4; 5; 6]; [4; 6; 7]; [4; 7; 5]] (Poly (seq 0 9) [] []).
Example two_pieces_depart : option_map (map (fun q => (length (points q), length (faces q)))) (depart 100 two_pieces) = Some [(4, 4); (4, 3); (1, 0)].
Proof. vm_compute. reflexivity. Qed.
Example fixer_hypotheses : let comps := [seq 0 101; [101; 102; 103]] in
  Forall (Forall (fun v => v < 104)) comps /\ Forall (fun i => i < length comps) [0; 0; 1] /\
  length (fixer 104 comps [0; 0; 1] (fun _ => [true; false; true])) = 769.
Proof.
  split; [|split]; [| |vm_compute; reflexivity].
  - repeat constructor; apply Forall_forall; intros v V; cbn [In] in V; apply in_seq in V || idtac; lia.
  - repeat constructor; cbn [length]; lia.
Qed.
