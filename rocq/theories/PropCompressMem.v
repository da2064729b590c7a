(** C215: the memory of the compressor. *)
From Coq Require Import List Arith ZArith Lia Bool Permutation.
From Verif Require Import Arr TileMemModel PropTileMem PropJoinMem CompressMemModel.
Import ListNotations.
Close Scope Z_scope.
Open Scope nat_scope.

(** * Specification: [clean] (C211) and [left_over] (C213).  The blocks a line costs for ever: its text, and the voxels without
    a vertex when there are several. *)
Definition lost_voxels (l : line) : nat :=
  if l_small l || (l_points l <=? 1) then 0 else length (filter (l_empty l) (seq 0 (l_points l))).
Definition lost (lines : list line) : nat := fold_right (fun l n => S (lost_voxels l) + n) 0 lines.

(** * Proof *)
Lemma start_new {sc} f h R : holds sc h R -> exists b h', new f h = (b, h') /\ holds sc h' ((f, b) :: R).
Proof. intro H. pose proof (holds_new sc f h R H) as N. destruct (new f h) as [b h']. exists b, h'. auto. Qed.
Ltac nw H b h N := match type of H with holds _ ?h0 ?L0 =>
  match goal with |- context [new ?f h0] => destruct (start_new f h0 L0 H) as (b & h & N & ?K); rewrite N; clear N; cbv beta iota zeta; rename K into N end end.
Ltac used := repeat (apply holds_use; [|rewrite ?map_app; cbn [map snd In]; rewrite ?in_app_iff; cbn [In]; auto 12]).
Lemma drop {sc} f b h R : holds sc h ((f, b) :: R) -> holds sc (happen (Delete f b) h) R.
Proof. intro H. eapply holds_delete; [exact H|auto]. Qed.
Lemma holds_encode {sc} d h R : holds sc h R -> In d (map snd R) -> holds sc (encode_round d h) R.
Proof.
  intros H I. unfold encode_round. nw H off h1 H1. nw H1 mes h2 H2. apply drop, drop.
  used. exact H2.
Qed.
Lemma holds_iter {sc} n (f : heap -> heap) R : (forall h, holds sc h R -> holds sc (f h) R) -> forall h, holds sc h R -> holds sc (Nat.iter n f h) R.
Proof. intros F. induction n as [|n IH]; intros h H; [exact H|]. cbn [Nat.iter nat_rect]. apply F, IH, H. Qed.
Lemma holds_faces {sc} n : forall h R, holds sc h R -> holds sc (snd (new_faces n h)) (map (fun f => (Array, f)) (fst (new_faces n h)) ++ R).
Proof.
  induction n as [|n IH]; intros h R H; [exact H|]. cbn [new_faces]. nw H f h1 H1. specialize (IH h1 _ H1).
  destruct (new_faces n h1) as [fs h2]. cbn [fst snd map app] in *. eapply holds_perm; [exact IH|]. perm.
Qed.
Lemma holds_blocks {sc} n : forall h R, holds sc h R -> length (fst (new_blocks n h)) = n /\
  holds sc (snd (new_blocks n h)) (map (fun f => (Single, f)) (fst (new_blocks n h)) ++ R).
Proof.
  induction n as [|n IH]; intros h R H; [split; [reflexivity|exact H]|]. cbn [new_blocks]. nw H f h1 H1. specialize (IH h1 _ H1).
  destruct (new_blocks n h1) as [fs h2]. cbn [fst snd map app length] in *. destruct IH as (IL & IH). split; [lia|]. eapply holds_perm; [exact IH|]. perm.
Qed.
Lemma holds_uses {sc} fs : forall h R, holds sc h R -> (forall f, In f fs -> In f (map snd R)) -> holds sc (fold_left (fun h f => happen (Use f) h) fs h) R.
Proof.
  induction fs as [|f fs IH]; intros h R H I; [exact H|]. cbn [fold_left]. apply IH; [|intros; apply I; right; assumption].
  apply holds_use; [exact H|]. apply I. left. reflexivity.
Qed.
Lemma holds_drops {sc} fs : forall h R, holds sc h (map (fun f => (Array, f)) fs ++ R) -> holds sc (fold_left (fun h f => happen (Delete Array f) h) fs h) R.
Proof. induction fs as [|f fs IH]; intros h R H; [exact H|]. cbn [fold_left]. apply IH. apply drop. exact H. Qed.
Lemma holds_read {sc} n d h R : holds sc h R -> In d (map snd R) -> holds sc (read_base n d h) R.
Proof.
  intros H I. unfold read_base. nw H p h1 H1. nw H1 q h2 H2.
  assert (H3 : holds sc (happen (Use d) h2) ((Single, q) :: (Single, p) :: R)) by (apply holds_use; [exact H2|right; right; exact I]).
  pose proof (holds_faces n _ _ H3) as H4. destruct (new_faces n (happen (Use d) h2)) as [fs h4]. cbn [fst snd] in H4.
  apply drop, drop, holds_drops. apply holds_uses.
  - apply holds_use; [apply holds_use; [exact H4|]|]; rewrite map_app, in_app_iff; right; cbn [map snd In]; auto.
  - intros f F. rewrite map_app, map_map, in_app_iff. left. cbn [snd]. rewrite map_id. exact F.
Qed.
(** The blocks of voxels kept and of voxels lost. *)
Lemma keep_split e vs : forall i, exists lostv, Permutation vs (keep_full e i vs ++ lostv) /\ length lostv = length (filter e (seq i (length vs))).
Proof.
  induction vs as [|v vs IH]; intro i; [exists []; split; [constructor|reflexivity]|]. destruct (IH (S i)) as (lv & P & L).
  cbn [keep_full length seq filter]. destruct (e i).
  - exists (v :: lv). split; [|cbn [length]; congruence]. eapply Permutation_trans; [apply perm_skip, P|]. apply Permutation_middle.
  - exists lv. split; [|exact L]. cbn [app]. apply perm_skip, P.
Qed.
Definition single (bs : list nat) : list (form * nat) := map (fun b => (Single, b)) bs.
Definition opt (s : option nat) : list nat := match s with Some s => [s] | None => [] end.
Definition kblocks (k : held) : list (form * nat) := (Single, k_mesh k) :: (Array, k_data k) :: single (opt (k_skeleton k) ++ k_voxels k).
Lemma holds_voxels {sc} l h R : holds sc h R -> exists s vs h' lostv, make_voxels l h = (s, vs, h') /\ holds sc h' (single (opt s ++ vs) ++ single lostv ++ R) /\
  length lostv = lost_voxels l.
Proof.
  intro H. unfold make_voxels, lost_voxels. destruct (l_small l); cbn [orb].
  - nw H v h1 H1. exists None, [v], h1, []. split; [reflexivity|]. split; [exact H1|reflexivity].
  - nw H s h1 H1. assert (H2 : holds sc (happen (Use s) h1) ((Single, s) :: R)) by (apply holds_use; [exact H1|left; reflexivity]).
    set (h2 := happen (Use s) h1) in *. clearbody h2.
    assert (H3 : holds sc (if l_sampled l then let (k, h) := new Array h2 in happen (Delete Array k) (happen (Use k) h) else h2) ((Single, s) :: R)).
    { destruct (l_sampled l); [|exact H2]. nw H2 k h3 H3. apply drop, holds_use; [exact H3|left; reflexivity]. }
    set (h3 := if l_sampled l then _ else _) in *. clearbody h3. destruct (holds_blocks (l_points l) h3 _ H3) as (BL & H4).
    destruct (new_blocks (l_points l) h3) as [vs h4]. cbn [fst snd] in *. rewrite <- BL.
    destruct vs as [|v [|w vs]]; cbn [length Nat.leb] in *.
    + cbn [map app] in H4. nw H4 v h5 H5. exists (Some s), [v], h5, []. split; [reflexivity|]. split; [|reflexivity].
      cbn [opt single map app]. eapply holds_perm; [exact H5|]. perm.
    + exists (Some s), [v], h4, []. split; [reflexivity|]. split; [|reflexivity]. cbn [opt single map app] in *. eapply holds_perm; [exact H4|]. perm.
    + set (all := v :: w :: vs) in *. destruct (keep_split (l_empty l) all 0) as (lv & P & L). exists (Some s), (keep_full (l_empty l) 0 all), h4, lv.
      split; [reflexivity|]. split; [|exact L].
      eapply holds_perm; [exact H4|]. unfold single. cbn [opt app map].
      eapply Permutation_trans; [apply Permutation_app_tail, Permutation_map, P|]. rewrite map_app. perm.
Qed.
Lemma holds_line {sc} l h R : holds sc h R -> exists k h' L, compress_line l h = (k, h') /\ holds sc h' (kblocks k ++ L ++ R) /\ length L = S (lost_voxels l).
Proof.
  intro H. unfold compress_line. nw H text h1 H1.
  assert (H2 : holds sc (happen (Use text) h1) ((Array, text) :: R)) by (apply holds_use; [exact H1|left; reflexivity]).
  set (h2 := happen (Use text) h1) in *. clearbody h2. nw H2 msh h3 H3. nw H3 data h4 H4.
  match goal with |- context [Nat.iter (l_rounds l) (encode_round data) ?x] => assert (H5 : holds sc x ((Array, data) :: (Single, msh) :: (Array, text) :: R)); [|set (h5 := x) in *; clearbody h5] end.
  { apply holds_use; [apply holds_use; [exact H4|]|]; cbn [map snd In]; auto. }
  assert (H6 : holds sc (Nat.iter (l_rounds l) (encode_round data) h5) ((Array, data) :: (Single, msh) :: (Array, text) :: R)).
  { apply holds_iter; [|exact H5]. intros h6 H6. apply holds_encode; [exact H6|left; reflexivity]. }
  set (h6 := Nat.iter _ _ h5) in *. clearbody h6. nw H6 hm h7 H7. nw H7 codes h8 H8.
  match goal with |- context [make_voxels l ?x] => assert (H9 : holds sc x ((Array, codes) :: (Single, hm) :: (Array, data) :: (Single, msh) :: (Array, text) :: R)); [|set (h9 := x) in *; clearbody h9] end.
  { apply holds_use; [|left; reflexivity]. apply holds_read; [|left; reflexivity]. apply holds_use; [apply holds_use; [exact H8|]|]; cbn [map snd In]; auto. }
  destruct (holds_voxels l h9 _ H9) as (s & vs & h10 & lv & E & H10 & LL). rewrite E. do 2 eexists. exists ((Array, text) :: single lv).
  split; [reflexivity|]. split; [|cbn [length]; unfold single; rewrite map_length; congruence].
  apply drop, drop. unfold kblocks. cbn [k_mesh k_data k_skeleton k_voxels]. eapply holds_perm; [exact H10|]. perm.
Qed.
Lemma holds_drop_voxels {sc} vs : forall h R, holds sc h (single vs ++ R) -> holds sc (fold_left (fun h v => happen (Delete Single v) (happen (Use v) h)) vs h) R.
Proof.
  induction vs as [|v vs IH]; intros h R H; [exact H|]. cbn [fold_left]. apply IH, drop. apply holds_use; [exact H|left; reflexivity].
Qed.
Lemma holds_flush_one {sc} k h R : holds sc h (kblocks k ++ R) -> holds sc (flush_one k h) R.
Proof.
  intro H. unfold flush_one. apply drop, drop.
  assert (H1 : holds sc (happen (Use (k_data k)) h) (single (k_voxels k) ++ single (opt (k_skeleton k)) ++ (Array, k_data k) :: (Single, k_mesh k) :: R)).
  { eapply holds_perm; [apply holds_use; [exact H|right; left; reflexivity]|]. unfold kblocks, single. rewrite map_app. perm. }
  apply holds_drop_voxels in H1. destruct (k_skeleton k); [apply drop|]; exact H1.
Qed.
Lemma holds_flush {sc} ks : forall h R, holds sc h (flat_map kblocks ks ++ R) -> holds sc (flush ks h) R.
Proof.
  induction ks as [|k ks IH]; intros h R H; [exact H|]. cbn [flush fold_left]. apply IH, holds_flush_one. cbn [flat_map] in H. rewrite app_assoc. exact H.
Qed.
Lemma holds_work {sc} lines : forall ks h R, holds sc h (flat_map kblocks ks ++ R) -> exists L, holds sc (work lines ks h) (L ++ R) /\ length L = lost lines.
Proof.
  induction lines as [|l lines IH]; intros ks h R H; cbn [work lost fold_right].
  - exists []. split; [apply holds_flush, H|reflexivity].
  - destruct (holds_line l h _ H) as (k & h1 & L1 & E & H1 & N1). rewrite E. fold (lost lines).
    assert (H2 : holds sc h1 (flat_map kblocks (ks ++ [k]) ++ L1 ++ R)).
    { eapply holds_perm; [exact H1|]. rewrite flat_map_app. cbn [flat_map]. rewrite app_nil_r. perm. }
    destruct (100 <=? length (ks ++ [k])).
    + destruct (IH [] (flush (ks ++ [k]) h1) (L1 ++ R) (holds_flush _ _ _ H2)) as (L2 & H3 & N2). exists (L2 ++ L1). split; [rewrite <- app_assoc; exact H3|rewrite app_length; lia].
    + destruct (IH (ks ++ [k]) h1 (L1 ++ R) H2) as (L2 & H3 & N2). exists (L2 ++ L1). split; [rewrite <- app_assoc; exact H3|rewrite app_length; lia].
Qed.

(** Full claim of C215: [clean true (worker lines)].  Proved for all input: every block is used and deleted only while it exists,
    never twice, with the right form of delete; what is left over is one block for each line and one for each voxel that got no
    vertex, and nothing else. *)
Theorem compress_memory_partial : forall lines, exists live, left_over true (worker lines) = Some live /\ length live = lost lines.
Proof.
  intro lines. destruct (holds_work lines [] (Heap [] 0) [] (holds_start true)) as (L & H & N). rewrite app_nil_r in H.
  destruct (holds_left _ _ _ H) as (live & E & P). exists live. split; [exact E|]. rewrite (Permutation_length P). exact N.
Qed.
Print Assumptions compress_memory_partial.
(** So memory is lost with every line. *)
Theorem compress_memory_leak : forall lines, exists live, left_over true (worker lines) = Some live /\ length lines <= length live.
Proof.
  intro lines. destruct (compress_memory_partial lines) as (live & E & N). exists live. split; [exact E|]. rewrite N.
  clear. induction lines as [|l lines IH]; cbn [lost fold_right length]; [lia|]. fold (lost lines). lia.
Qed.
Print Assumptions compress_memory_leak.
(** A small object, and one with four voxels of which two get no vertex. *)
Definition two_lines : list line := [Line 3 4 true 0 false (fun _ => false); Line 2 3 false 4 true (fun i => Nat.odd i)].
Example two_lines_lost : lost two_lines = 4 /\ 60 < length (worker two_lines).
Proof. split; [reflexivity|]. vm_compute. lia. Qed.
(** C215 is false. *)
Theorem compress_memory_refuted : exists lines, ~ clean true (worker lines) /\ ~ clean false (worker lines).
Proof. exists two_lines. split; intro C; vm_compute in C; discriminate C. Qed.
Print Assumptions compress_memory_refuted.
