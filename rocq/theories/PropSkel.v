(** C184: for which meshes there is a skeleton, and so voxels. *)
From Coq Require Import QArith ZArith List Bool Lia.
From Verif Require Import Arr AabModel VoxelModel SkelModel.
Import ListNotations.
Open Scope Z_scope.

(** What is expected of CGAL: the facets of a closed mesh can be cut into triangles, and a mesh of
    triangles has a skeleton. *)
Definition cuts (triangulate : facets -> bool * facets) : Prop :=
  forall fs, fst (triangulate fs) = true /\ Forall (fun f => length f = 3%nat) (snd (triangulate fs)).
Definition works (skeletonize : facets -> option (list vec)) : Prop :=
  forall fs, Forall (fun f => length f = 3%nat) fs -> skeletonize fs <> None.

Lemma tri_spec fs : is_triangle_mesh fs = true <-> Forall (fun f => length f = 3%nat) fs.
Proof.
  unfold is_triangle_mesh. rewrite forallb_forall, Forall_forall.
  split; intros H f I; [apply Nat.eqb_eq|apply (proj2 (Nat.eqb_eq _ _))]; auto.
Qed.

(** As compiled, making voxels ends the program exactly when the mesh has at least voxel_size vertices, no
    skeleton kept for its level, and a facet that is not a triangle. *)
Theorem voxels_exit_iff triangulate skeletonize rand skeletons voxel_size m fs : works skeletonize ->
  (make_voxels false triangulate skeletonize rand skeletons voxel_size m fs = Exited
   <-> voxel_size <= Z.of_nat (length (m_vertices m)) /\ skeletons (m_lod m) = None /\ exists f, In f fs /\ length f <> 3%nat).
Proof.
  intros W. unfold make_voxels. destruct (Z.ltb_spec (Z.of_nat (length (m_vertices m))) voxel_size) as [L|L].
  { split; [intros H; discriminate H|intros [H _]; lia]. }
  unfold extract_skeleton. destruct (skeletons (m_lod m)) as [s|].
  { split; [intros H; discriminate H|intros [_ [H _]]; discriminate H]. }
  cbn [triangulated]. destruct (is_triangle_mesh fs) eqn:T; cbn [negb].
  - apply tri_spec in T. pose proof (W fs T) as K. destruct (skeletonize fs) as [s|]; [|congruence].
    split; [intros H; discriminate H|]. intros [_ [_ [f [I N]]]]. exfalso. rewrite Forall_forall in T. exact (N (T f I)).
  - split; [intros _|reflexivity]. split; [exact L|]. split; [reflexivity|].
    unfold is_triangle_mesh in T. clear - T. induction fs as [|f fs IH]; cbn [forallb] in T; [discriminate T|].
    destruct (Nat.eqb_spec (length f) 3) as [E|E].
    + destruct (IH T) as [g [I N]]. exists g. split; [right; exact I|exact N].
    + exists f. split; [left; reflexivity|exact E].
Qed.
Print Assumptions voxels_exit_iff.

(** With asserts compiled it would never end the program. *)
Theorem voxels_with_asserts triangulate skeletonize rand skeletons voxel_size m fs : cuts triangulate -> works skeletonize ->
  make_voxels true triangulate skeletonize rand skeletons voxel_size m fs <> Exited.
Proof.
  intros C W. unfold make_voxels. destruct (_ <? voxel_size); [intros H; discriminate H|].
  unfold extract_skeleton. destruct (skeletons (m_lod m)) as [s|]; [intros H; discriminate H|].
  unfold triangulated. destruct (C fs) as [A B]. destruct (triangulate fs) as [ok fs']. cbn [fst snd] in A, B. rewrite A.
  rewrite (proj2 (tri_spec fs') B). cbn [negb]. pose proof (W fs' B) as K.
  destruct (skeletonize fs') as [s|]; [intros H; discriminate H|congruence].
Qed.
Print Assumptions voxels_with_asserts.

(** A skeleton is computed once for a level: asking again gives the same, also when the mesh has been
    refined to other levels in between. *)
Theorem skeleton_kept asserts triangulate skeletonize skeletons lod fs s skeletons' :
  extract_skeleton asserts triangulate skeletonize skeletons lod fs = Returned (s, skeletons') ->
  (forall lod', lod' <> lod -> skeletons' lod' = skeletons lod')
  /\ forall fs', extract_skeleton asserts triangulate skeletonize skeletons' lod fs' = Returned (s, skeletons').
Proof.
  unfold extract_skeleton. destruct (skeletons lod) as [k|] eqn:E.
  - intros H. injection H as <- <-. split; [reflexivity|]. intros fs'. rewrite E. reflexivity.
  - destruct (triangulated _ _ fs) as [|t]; [intros H; discriminate H|]. destruct (is_triangle_mesh t); [|intros H; discriminate H]. cbn [negb].
    destruct (skeletonize t) as [k|]; [|intros H; discriminate H]. intros H. injection H as <- <-. split.
    + intros lod' N. unfold put. destruct (Z.eqb_spec lod' lod); [congruence|reflexivity].
    + intros fs'. unfold put at 1. rewrite Z.eqb_refl. reflexivity.
Qed.
Print Assumptions skeleton_kept.

(** ** Examples *)
Definition corner (i : Z) : vec := fun a => inject_Z (match a with AX => i mod 2 | AY => (i / 2) mod 2 | AZ => i / 4 end).
Definition cube_mesh (lod : Z) : mesh := Mesh lod (map corner [0; 1; 2; 3; 4; 5; 6; 7]) [] [].
Definition cube_quads : facets := [[0; 2; 3; 1]; [4; 5; 7; 6]; [0; 1; 5; 4]; [2; 6; 7; 3]; [0; 4; 6; 2]; [1; 3; 7; 5]]%nat.
(** Each facet cut into a fan, and its first corners taken as a skeleton. *)
Definition fan (f : list nat) : facets := match f with a :: r => map (fun p => [a; fst p; snd p]) (combine r (tl r)) | [] => [] end.
Definition cut_all (fs : facets) : bool * facets := (true, flat_map fan fs).
Definition first_corners (fs : facets) : option (list vec) := Some (map (fun f => corner (Z.of_nat (hd 0%nat f))) fs).
Example cut_all_cuts : cuts cut_all.
Proof.
  intros fs. split; [reflexivity|]. cbn [snd cut_all]. induction fs as [|[|a r] fs IH]; cbn [flat_map fan app]; [constructor|exact IH|].
  apply Forall_app. split; [|exact IH]. apply Forall_forall. intros f I. apply in_map_iff in I. destruct I as [p [<- _]]. reflexivity.
Qed.
Example first_corners_works : works first_corners.
Proof. intros fs _ H. discriminate H. Qed.
(** A cube of triangles is let through, with asserts a cube of squares, too. *)
Example voxels_exit_case :
  (exists vs, make_voxels false cut_all first_corners (fun k => Z.of_nat k) (fun _ => None) 8 (cube_mesh 100) (snd (cut_all cube_quads)) = Returned vs)
  /\ (exists vs, make_voxels true cut_all first_corners (fun k => Z.of_nat k) (fun _ => None) 8 (cube_mesh 100) cube_quads = Returned vs)
  /\ (exists s k, extract_skeleton false cut_all first_corners (fun _ => None) 100 (snd (cut_all cube_quads)) = Returned (s, k)).
Proof. split; [eexists; reflexivity|]. split; [eexists; reflexivity|]. eexists; eexists; reflexivity. Qed.

(** C184 is false: for a cube made of squares, however the facets could be cut and whatever skeleton there
    could be, making voxels ends the program. *)
Theorem voxels_every_mesh_refuted : exists m fs voxel_size, 0 < voxel_size /\ m_vertices m <> []
  /\ forall triangulate skeletonize rand, make_voxels false triangulate skeletonize rand (fun _ => None) voxel_size m fs = Exited.
Proof.
  exists (cube_mesh 100), cube_quads, 8. split; [lia|]. split; [discriminate|]. intros. reflexivity.
Qed.
Print Assumptions voxels_every_mesh_refuted.
