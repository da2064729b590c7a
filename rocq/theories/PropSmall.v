(** C69, C95, C148: which points are sampled, how much memory a device is given, and what a voxel is
    beyond the end of its file. *)
From Coq Require Import QArith List ZArith Bool Arith Lia.
From Verif Require Import Arr TriIntModel VoxelModel VoxelProofs.
From Verif Require CompressProofs DeviceModel TileModel.
Import ListNotations.
Open Scope Z_scope.

(** ** C69: the points kept *)
(** [chosen nc rand n k K K']: [n] rounds that start with the [k]-th value of rand() and the points [K]
    already kept end with [K']: each round keeps the first of at most ten drawn numbers from 1 to [nc] that is
    not kept already. *)
Definition drawn (nc : Z) (rand : nat -> Z) (k : nat) : Z := rand k mod nc + 1.
Inductive chosen (nc : Z) (rand : nat -> Z) : nat -> nat -> list Z -> list Z -> Prop :=
| ch_done k K : chosen nc rand 0 k K K
| ch_new n k j K K' : (j < 10)%nat -> (forall i, (i < j)%nat -> In (drawn nc rand (k + i)) K) -> ~ In (drawn nc rand (k + j)) K ->
    chosen nc rand n (k + j + 1) (drawn nc rand (k + j) :: K) K' -> chosen nc rand (S n) k K K'
| ch_none n k K K' : (forall i, (i < 10)%nat -> In (drawn nc rand (k + i)) K) -> chosen nc rand n (k + 10) K K' -> chosen nc rand (S n) k K K'.
(** The points with numbers in [K], in their order. *)
Definition picked {A} (pts : list A) (K : list Z) : list A :=
  map snd (filter (fun p => if in_dec Z.eq_dec (fst p) K then true else false) (combine (map Z.of_nat (seq 0 (length pts))) pts)).

Definition marks (keep : list bool) (K : list Z) : Prop := forall i b, aget keep i = Some b -> (b = true <-> In i K).

Lemma aget_some {A} (l : list A) i : 0 <= i < Z.of_nat (length l) -> exists x, aget l i = Some x.
Proof.
  intros H. unfold aget. destruct (Z.ltb_spec i 0); [lia|]. destruct (nth_error l (Z.to_nat i)) eqn:E; [eauto|]. apply nth_error_None in E. lia.
Qed.
Section Draw.
  Variables (nc : Z) (rand : nat -> Z) (Hnc : 0 < nc).
  Lemma drawn_range k : 1 <= drawn nc rand k <= nc.
  Proof. unfold drawn. pose proof (Z.mod_pos_bound (rand k) nc Hnc). lia. Qed.

  (** What the tries of one round do after [j] failures. *)
  Lemma try_choice keep K : nc < Z.of_nat (length keep) -> marks keep K -> forall left j k, (left + j = 10)%nat -> (forall i, (i < j)%nat -> In (drawn nc rand (k + i)) K) ->
    (exists i, (i < 10)%nat /\ (forall i', (i' < i)%nat -> In (drawn nc rand (k + i')) K) /\ ~ In (drawn nc rand (k + i)) K /\
       try_round left rand (k + j) nc keep = Some ((k + i + 1)%nat, upd keep (Z.to_nat (drawn nc rand (k + i))) true)) \/
    ((forall i, (i < 10)%nat -> In (drawn nc rand (k + i)) K) /\ try_round left rand (k + j) nc keep = Some ((k + 10)%nat, keep)).
  Proof.
    intros HL M. induction left as [|l IH]; intros j k E H; cbn [try_round].
    - right. assert (j = 10)%nat by lia. subst j. split; [exact H|reflexivity].
    - change (get_rand_number (rand (k + j)%nat) nc) with (drawn nc rand (k + j)). pose proof (drawn_range (k + j)) as R.
      destruct (aget_some keep (drawn nc rand (k + j)) ltac:(lia)) as [b Eb]. rewrite Eb. cbn [bind]. pose proof (M _ _ Eb) as Mb. destruct b.
      + destruct (IH (S j) k ltac:(lia)) as [D|D].
        { intros i Hi. destruct (Nat.eq_dec i j) as [-> |N]; [apply Mb; reflexivity|apply H; lia]. }
        { left. replace (S (k + j)) with (k + S j)%nat by lia. exact D. }
        { right. replace (S (k + j)) with (k + S j)%nat by lia. exact D. }
      + left. exists j. split; [lia|]. split; [exact H|]. split; [intro K0; apply Mb in K0; discriminate K0|].
        unfold aset. destruct (Z.leb_spec 0 (drawn nc rand (k + j))); [|lia]. destruct (Z.ltb_spec (drawn nc rand (k + j)) (Z.of_nat (length keep))); [|lia]. cbn [andb bind]. repeat f_equal. lia.
  Qed.
  Lemma marks_upd keep K t : 0 <= t < Z.of_nat (length keep) -> marks keep K -> marks (upd keep (Z.to_nat t) true) (t :: K).
  Proof.
    intros R M i b E. unfold aget in E. destruct (Z.ltb_spec i 0); [discriminate E|].
    assert (X : nth_error keep (Z.to_nat t) <> None) by (apply nth_error_Some; lia). destruct (nth_error keep (Z.to_nat t)) as [y|] eqn:Y; [|congruence].
    rewrite (CompressProofs.nth_error_upd' _ _ _ _ _ Y) in E. destruct (Nat.eqb_spec (Z.to_nat t) (Z.to_nat i)) as [Q|Q].
    - injection E as <-. split; [intros _; left; lia|reflexivity].
    - assert (G : aget keep i = Some b) by (unfold aget; destruct (Z.ltb_spec i 0); [lia|exact E]). rewrite (M i b G). cbn [In]. split; [auto|intros [Z0|Z0]; [subst; lia|exact Z0]].
  Qed.
  Lemma rounds_choice : forall n k keep K, nc < Z.of_nat (length keep) -> marks keep K ->
    exists keep' K', rounds n rand k nc keep = Some keep' /\ length keep' = length keep /\ marks keep' K' /\ chosen nc rand n k K K'.
  Proof.
    induction n as [|n IH]; intros k keep K HL M; cbn [rounds].
    - exists keep, K. repeat split; auto; try apply M; auto. constructor.
    - destruct (try_choice keep K HL M 10 0 k eq_refl) as [(i & Hi & B & N & E)|(B & E)]; [intros i Hi; lia| |]; rewrite Nat.add_0_r in E; rewrite E; cbn [bind].
      + destruct (IH (k + i + 1)%nat (upd keep (Z.to_nat (drawn nc rand (k + i))) true) (drawn nc rand (k + i) :: K)) as (keep' & K' & E' & L' & M' & C).
        { rewrite upd_length. exact HL. }
        { apply marks_upd; [pose proof (drawn_range (k + i)); lia|exact M]. }
        exists keep', K'. split; [exact E'|]. split; [rewrite L'; apply upd_length|]. split; [exact M'|]. eapply ch_new; eauto.
      + destruct (IH (k + 10)%nat keep K HL M) as (keep' & K' & E' & L' & M' & C). exists keep', K'. split; [exact E'|]. split; [exact L'|]. split; [exact M'|]. eapply ch_none; eauto.
  Qed.
End Draw.
Lemma erase_picked {A} (K : list Z) : forall (pts : list A) keep i0, length keep = length pts -> (forall j b, nth_error keep j = Some b -> (b = true <-> In (Z.of_nat (i0 + j)) K)) ->
  erase_others pts keep = map snd (filter (fun p => if in_dec Z.eq_dec (fst p) K then true else false) (combine (map Z.of_nat (seq i0 (length pts))) pts)).
Proof.
  induction pts as [|p pts IH]; intros [|b keep] i0 L H; try discriminate L; [reflexivity|]. cbn [erase_others length seq map combine filter fst].
  pose proof (H O b eq_refl) as H0. rewrite Nat.add_0_r in H0.
  assert (G : erase_others pts keep = map snd (filter (fun p => if in_dec Z.eq_dec (fst p) K then true else false) (combine (map Z.of_nat (seq (S i0) (length pts))) pts))).
  { apply IH; [injection L; auto|]. intros j c E. rewrite (H (S j) c E). replace (i0 + S j)%nat with (S i0 + j)%nat by lia. reflexivity. }
  destruct (in_dec Z.eq_dec (Z.of_nat i0) K) as [Y|Y]; destruct b.
  - cbn [map snd]. f_equal. exact G.
  - apply H0 in Y. discriminate Y.
  - exfalso. apply Y, H0. reflexivity.
  - exact G.
Qed.
(** C69, more exactly: the points kept are those the random numbers choose. *)
Theorem skeleton_sampling_choice : forall (A : Type) rand (pts : list A) nc, 0 < nc < Z.of_nat (length pts) ->
  exists K, chosen nc rand (Z.to_nat nc) 0 [] K /\ get_skeleton_points rand (Some pts) nc = Some (picked pts K).
Proof.
  intros A rand pts nc H. unfold get_skeleton_points. destruct (Z.eqb_spec (Z.of_nat (length pts)) 0); [lia|]. destruct (Z.ltb_spec (Z.of_nat (length pts)) nc); [lia|].
  destruct (rounds_choice nc rand (proj1 H) (Z.to_nat nc) 0 (repeat false (length pts)) []) as (keep & K & E & L & M & C).
  - rewrite repeat_length. lia.
  - intros i b E. unfold aget in E. destruct (i <? 0); [discriminate E|]. apply nth_error_In, repeat_spec in E. subst b. split; [intro X; discriminate X|intros []].
  - exists K. split; [exact C|]. rewrite E. cbn [bind]. unfold picked. rewrite (erase_picked K pts keep 0); [reflexivity|rewrite L; apply repeat_length|].
    intros j b Ej. apply (M (Z.of_nat (0 + j)) b). unfold aget. destruct (Z.ltb_spec (Z.of_nat (0 + j)) 0); [lia|]. rewrite Nat2Z.id. exact Ej.
Qed.
Print Assumptions skeleton_sampling_choice.
(** The second round draws 1, which is kept already, and then 3. *)
Definition rolls (k : nat) : Z := nth k [3; 3; 2; 1]%list 0.
Example skeleton_sampling_choice_nonvacuous : chosen 3 rolls 3 0 [] [2; 3; 1] /\ get_skeleton_points rolls (Some [10; 11; 12; 13; 14]) 3 = Some [11; 12; 13] /\
  picked [10; 11; 12; 13; 14] [2; 3; 1] = [11; 12; 13].
Proof.
  split; [|split; vm_compute; reflexivity].
  apply (ch_new 3 rolls 2 0 0 [] [2; 3; 1]); [lia|intros i Hi; lia|intros []|].
  apply (ch_new 3 rolls 1 1 1 [1] [2; 3; 1]); [lia|intros i Hi; assert (i = O) by lia; subst; vm_compute; auto|vm_compute; intros [X|[]]; discriminate X|].
  apply (ch_new 3 rolls 0 3 0 [3; 1] [2; 3; 1]); [lia|intros i Hi; lia|vm_compute; intros [X|[X|[]]]; discriminate X|]. constructor.
Qed.

(** ** C95: the memory of a device *)
(** Megabytes of a device with [total] bytes: at most 2048, at most four fifths of them, and less by no more
    than two megabytes than either. *)
Theorem device_memory : forall total, 0 <= total -> let m := DeviceModel.mem_size total in
  0 <= m <= 2048 /\ m * 2 ^ 20 * 5 <= 4 * total /\ (m = 2048 \/ 4 * total < (m + 2) * 2 ^ 20 * 5).
Proof.
  intros total H m. unfold m, DeviceModel.mem_size. rewrite Z.div_div by lia. change (1024 * 1024) with (2 ^ 20). change (2 ^ 20) with 1048576.
  pose proof (Z.div_mod total 1048576 ltac:(lia)) as D. pose proof (Z.mod_pos_bound total 1048576 ltac:(lia)) as B. set (q := total / 1048576) in *.
  pose proof (Z.div_mod (q * 4) 5 ltac:(lia)) as D2. pose proof (Z.mod_pos_bound (q * 4) 5 ltac:(lia)) as B2. set (p := q * 4 / 5) in *.
  destruct (Z.ltb_spec 2048 p); lia.
Qed.
Print Assumptions device_memory.
Example device_memory_nonvacuous : map DeviceModel.mem_size [0; 2 ^ 30; 8 * 2 ^ 30] = [0; 819; 2048].
Proof. reflexivity. Qed.

(** ** C148: voxels beyond the end of the file *)
(** The float with these four bytes: little endian, bits as in IEEE 754. *)
Definition bits (l : list Z) : Z := match l with [a; b; c; d] => a + 256 * (b + 256 * (c + 256 * d)) | _ => 0 end.
(** Infinity: exponent all ones, fraction zero. *)
Definition infinity_bits (negative : bool) : Z := (if negative then 2 ^ 31 else 0) + 255 * 2 ^ 23.
Definition three (l : list Z) (x : Z) : Prop := length l = 12%nat /\ bits (firstn 4 l) = x /\ bits (firstn 4 (skipn 4 l)) = x /\ bits (skipn 8 l) = x.
Theorem voxels_after_end : forall junk n, let '(vs, rest) := TileModel.read_voxels junk n [] in
  length vs = n /\ rest = [] /\ forall v, In v vs -> three (TileModel.vm_min v) (infinity_bits false) /\ three (TileModel.vm_max v) (infinity_bits true) /\ TileModel.vm_core v = junk.
Proof.
  intros junk n. assert (E : TileModel.read_voxels junk n [] = (repeat (TileModel.fresh_voxel junk) n, [])).
  { induction n as [|n IH]; [reflexivity|]. cbn [TileModel.read_voxels]. unfold TileModel.fread. rewrite ?firstn_nil, ?skipn_nil. cbn [length app skipn].
    rewrite IH. reflexivity. }
  rewrite E. split; [apply repeat_length|]. split; [reflexivity|]. intros v Hv. apply repeat_spec in Hv. subst v. split; [|split; [|reflexivity]]; repeat split.
Qed.
Print Assumptions voxels_after_end.
Example voxels_after_end_nonvacuous : length (fst (TileModel.read_voxels [7; 7; 7; 7; 7; 7; 7; 7; 7; 7; 7; 7] 2 [])) = 2%nat.
Proof. reflexivity. Qed.

(** ** C167: the number of voxels *)
Lemma aset_inv {A} (l : list A) i v l' : aset l i v = Some l' -> 0 <= i < Z.of_nat (length l) /\ l' = upd l (Z.to_nat i) v.
Proof.
  unfold aset. destruct (Z.leb_spec 0 i); destruct (Z.ltb_spec i (Z.of_nat (length l))); cbn [andb]; intro E; try discriminate E. injection E as <-. split; [lia|reflexivity].
Qed.
Lemma try_count rand nc : forall left k keep k' keep', try_round left rand k nc keep = Some (k', keep') -> length keep' = length keep /\ (trues keep' <= S (trues keep))%nat.
Proof.
  induction left as [|l IH]; intros k keep k' keep' H; cbn [try_round] in H; [injection H as <- <-; split; [reflexivity|lia]|].
  destruct (aget keep _) as [b|] eqn:E; [|discriminate H]. cbn [bind] in H. destruct b; [exact (IH _ _ _ _ H)|].
  destruct (aset keep _ true) as [x|] eqn:A1; [|discriminate H]. cbn [bind] in H. injection H as <- <-. apply aset_inv in A1. destruct A1 as [R ->].
  split; [apply upd_length|]. rewrite trues_upd; [lia|]. unfold aget in E. destruct (_ <? 0); [discriminate E|exact E].
Qed.
Lemma rounds_count rand nc : forall n k keep keep', rounds n rand k nc keep = Some keep' -> length keep' = length keep /\ (trues keep' <= trues keep + n)%nat.
Proof.
  induction n as [|n IH]; intros k keep keep' H; cbn [rounds] in H; [injection H as <-; split; [reflexivity|lia]|].
  destruct (try_round 10 rand k nc keep) as [[k1 keep1]|] eqn:E; [|discriminate H]. cbn [bind] in H. apply try_count in E. apply IH in H. destruct E as [E1 E2], H as [H1 H2]. split; [congruence|lia].
Qed.
Lemma skeleton_count {A} rand (sk : option (list A)) nc r : 0 <= nc -> get_skeleton_points rand sk nc = Some r -> Z.of_nat (length r) <= nc.
Proof.
  intros Hn. unfold get_skeleton_points. destruct sk as [pts|]; [|intro E; injection E as <-; exact Hn].
  destruct (Z.of_nat (length pts) =? 0); [intro E; discriminate E|]. destruct (Z.ltb_spec (Z.of_nat (length pts)) nc) as [L|L]; [intro E; injection E as <-; lia|].
  destruct (rounds _ _ _ _ _) as [keep|] eqn:R; [|intro E; discriminate E]. cbn [bind]. intro E. injection E as <-. apply rounds_count in R. destruct R as [R1 R2].
  rewrite repeat_length in R1. rewrite (erase_length pts keep R1).
  assert (T0 : forall n, trues (repeat false n) = 0%nat) by (induction n; cbn; auto). rewrite T0 in R2. lia.
Qed.
Lemma assign_count lod cores : forall ps vs vs', assign_vertices lod cores vs ps = Some vs' -> length vs' = length vs.
Proof.
  induction ps as [|p ps IH]; intros vs vs' H; cbn [assign_vertices] in H; [injection H as <-; reflexivity|].
  destruct (assign_vertex lod cores vs p) as [x|] eqn:E; [|discriminate H]. cbn [bind] in H. rewrite (IH _ _ H). unfold assign_vertex in E.
  destruct (aget vs _); [|discriminate E]. cbn [bind] in E. destruct (v_size _ _); [|discriminate E]. cbn [bind] in E. apply aset_inv in E. destruct E as [_ ->]. apply upd_length.
Qed.
Lemma filter_count {A} (f : A -> bool) l : (length (filter f l) <= length l)%nat.
Proof. induction l as [|x l IH]; cbn; [lia|]. destruct (f x); cbn; lia. Qed.
(** An object of [n] vertices has at most n / voxel_size voxels, and one voxel if n is below the size. *)
Theorem voxel_count : forall rand skeleton voxel_size m vs, 0 < voxel_size -> generate_voxels rand skeleton voxel_size m = Some vs ->
  let n := Z.of_nat (length (m_vertices m)) in
  (n < voxel_size -> length vs = 1%nat) /\ (voxel_size <= n -> Z.of_nat (length vs) <= n / voxel_size).
Proof.
  intros rand sk size m vs P H n. unfold generate_voxels in H. fold n in H. destruct (Z.ltb_spec n size) as [L|L].
  - split; [intros _; injection H as <-; reflexivity|lia].
  - split; [lia|]. intros _. destruct (get_skeleton_points rand sk (n / size - 1 + 1)) as [cores|] eqn:E; [|discriminate H]. cbn [bind] in H.
    assert (D : 1 <= n / size) by (apply Z.div_le_lower_bound; lia). apply skeleton_count in E; [|lia].
    unfold voxels_of_cores in H. set (f := fun c : AabModel.vec => _) in H. destruct cores as [|c [|c' cores]]; cbn [map] in H; [injection H as <-; cbn [length]; lia|injection H as <-; cbn [length]; lia|].
    destruct (assign_vertices _ _ _ _) as [vs'|] eqn:A1 in H; [|discriminate H]. cbn [bind] in H. injection H as <-. apply assign_count in A1.
    pose proof (filter_count (has_data (m_lod m)) vs'). cbn [length] in *. rewrite map_length in A1. lia.
Qed.
Print Assumptions voxel_count.
(** Five vertices in voxels of two: at most two, here both; in voxels of six: one. *)
Definition five : mesh := Mesh 100 (map (fun x => AabModel.v3 (inject_Z x) 0 0) [0; 1; 2; 8; 9]) [] [].
Definition two_cores : option (list AabModel.vec) := Some (map (fun x => AabModel.v3 (inject_Z x) 0 0) [5; 1; 9]).
Example voxel_count_nonvacuous : option_map (@length _) (generate_voxels Z.of_nat two_cores 2 five) = Some 2%nat /\
  option_map (@length _) (generate_voxels Z.of_nat two_cores 6 five) = Some 1%nat.
Proof. split; vm_compute; reflexivity. Qed.

(** ** Arrays *)
(** What counts as an access inside an array, for all the models. *)
Theorem array_access : forall (A : Type) (l : list A) i v,
  (aget l i <> None <-> 0 <= i < Z.of_nat (length l)) /\ (aset l i v <> None <-> 0 <= i < Z.of_nat (length l)) /\
  forall l', aset l i v = Some l' -> length l' = length l /\ aget l' i = Some v /\ forall j, j <> i -> aget l' j = aget l j.
Proof.
  intros A l i v. split; [|split].
  - unfold aget. destruct (Z.ltb_spec i 0); [split; [intro H0; contradiction H0; reflexivity|lia]|]. rewrite nth_error_Some. lia.
  - split; [intro H|intro H].
    + destruct (aset l i v) as [l'|] eqn:E; [|contradiction H; reflexivity]. apply aset_inv in E. tauto.
    + rewrite aset_upd by exact H. intro K. discriminate K.
  - intros l' E. apply aset_inv in E. destruct E as [R ->]. split; [apply upd_length|].
    assert (X : nth_error l (Z.to_nat i) <> None) by (apply nth_error_Some; lia). destruct (nth_error l (Z.to_nat i)) as [y|] eqn:Y; [|congruence].
    split.
    + unfold aget. destruct (Z.ltb_spec i 0); [lia|]. rewrite (CompressProofs.nth_error_upd' _ _ _ _ _ Y), Nat.eqb_refl. reflexivity.
    + intros j N. unfold aget. destruct (Z.ltb_spec j 0); [reflexivity|]. rewrite (CompressProofs.nth_error_upd' _ _ _ _ _ Y). destruct (Nat.eqb_spec (Z.to_nat i) (Z.to_nat j)); [lia|reflexivity].
Qed.
Print Assumptions array_access.
Example array_access_nonvacuous : (aset [1; 2; 3] 1 7, aset [1; 2; 3] 3 7, aset [1; 2; 3] (-1) 7) = (Some [1; 7; 3], None, None).
Proof. reflexivity. Qed.
