(** C43-C47, C70, C71: tiles on disk. *)
From Coq Require Import QArith ZArith List Bool Lia Lqa.
From Verif Require Import Arr AabModel AabProofs TileModel TileProofs.
Import ListNotations.
Open Scope Z_scope.

Definition LONG_MAX : Z := 2 ^ 63 - 1.
(** Whatever an uninitialised array of three floats holds: twelve bytes. *)
Definition memory (junk : list Z) : Prop := length junk = 12%nat /\ Forall byte junk.
Definition fits (file : list Z) : Prop := Forall byte file /\ Z.of_nat (length file) < 2 ^ 63.

Lemma long_max_cap : int_of LONG_MAX mod word = word - 1.
Proof. reflexivity. Qed.
Lemma int_small k : 0 <= k < 2 ^ 31 -> int_of k mod word = k.
Proof.
  intros H. unfold int_of, word. change (2 ^ 31) with 2147483648 in *. change (2 ^ 32) with 4294967296. change (2 ^ 64) with 18446744073709551616.
  rewrite (Z.mod_small k) by lia. destruct (Z.ltb_spec k 2147483648); [|lia]. apply Z.mod_small. lia.
Qed.

(** C43.  Opening any data file the first time and opening it again with the metadata saved then gives
    the same objects: positions, sizes, ids, voxels (and so the same boxes), and keeps the metadata. *)
Theorem tile_meta_round_trip : forall junk junk' capacity dt, memory junk -> memory junk' -> fits dt ->
  exists objs mt, open_tile junk capacity dt None = Some (objs, mt) /\ open_tile junk' LONG_MAX dt (Some mt) = Some (objs, mt) /\
    forall k w, nth_error objs k = Some w -> w_id w = Z.of_nat k.
Proof.
  intros junk junk' cap dt [J Fj] [J' Fj'] [F L]. destruct (parse_spec junk J Fj (S (length dt)) 0 0 0 dt F) as [objs [E [W [N B]]]]; [lia|].
  exists objs, (persist objs). cbn [open_tile]. unfold parse_raw. rewrite E. cbn [bind]. split; [reflexivity|]. split.
  - unfold load. rewrite long_max_cap. rewrite load_persist; auto; [|pose proof (persist_len objs); lia|lia].
    rewrite firstn_all2; [reflexivity|]. unfold word. lia.
  - assert (X : forall l i k w, numbered i l -> nth_error l k = Some w -> w_id w = i + Z.of_nat k).
    { induction l as [|a l IH]; intros i [|k] w Hn Hk; cbn in Hk; try discriminate; destruct Hn as [Hn1 Hn2].
      - inversion Hk; subst. lia.
      - rewrite (IH (i + 1) k w Hn2 Hk). lia. }
    intros k w Hk. rewrite (X objs 0 k w N Hk). lia.
Qed.
Print Assumptions tile_meta_round_trip.

(** What the compressor hands to flush_mesh_buffer: bytes, three times three floats per voxel. *)
Definition proper (o : list Z * list vmeta) : Prop := Forall byte (fst o) /\ Forall (fun v => vok v /\ Forall byte (voxel_bytes v)) (snd o).

Lemma flush_bytes recs : Forall proper recs -> Forall byte (flush recs).
Proof.
  induction 1 as [|o recs [A B] F IH]; [constructor|]. cbn [flush flat_map]. apply Forall_app. split; [|exact IH].
  unfold record_bytes. repeat (apply Forall_app; split); try apply le_bytes; [exact A|]. clear -B. induction B as [|v vs [_ H] B IH]; cbn; [constructor|]. apply Forall_app; auto.
Qed.
Lemma proper_ok recs : Forall proper recs -> Z.of_nat (length (flush recs)) < 2 ^ 63 -> Forall record_ok recs.
Proof.
  intros F L. apply Forall_forall. intros [data vs] H. rewrite Forall_forall in F. destruct (F _ H) as [_ V]. cbn in V.
  apply In_nth_error in H. destruct H as [k Hk]. rewrite (flush_split _ _ _ _ Hk), !app_length in L.
  assert (V' : Forall vok vs) by (eapply Forall_impl; [|exact V]; intros a [X _]; exact X).
  assert (RL : (length (record_bytes (data, vs)) = 16 + length data + 36 * length vs)%nat).
  { unfold record_bytes. cbn [fst snd]. rewrite !app_length, !le_length, voxels_len by auto. lia. }
  split; [|split; [|exact V']]; unfold sized, word; cbn [fst snd]; lia.
Qed.

(** C44.  If the data file consists of the records the compressor wrote, then after opening, object k
    is record k: the bytes read at its position are its compressed data, and its voxels are the
    record's.  Both ways of opening agree by C43. *)
Theorem tile_data_located : forall junk capacity recs, memory junk -> Forall proper recs -> Z.of_nat (length (flush recs)) < 2 ^ 63 ->
  exists objs mt, open_tile junk capacity (flush recs) None = Some (objs, mt) /\ length objs = length recs /\
    forall k data vs, nth_error recs k = Some (data, vs) -> exists w, nth_error objs k = Some w /\
      retrieve (flush recs) w = Some data /\ w_voxels w = vs /\ w_id w = Z.of_nat k.
Proof.
  intros junk cap recs [J Fj] P L. pose proof (proper_ok recs P L) as R.
  pose proof (parse_flush junk J recs (S (length (flush recs))) 0 0 0 R) as E.
  exists (located 0 0 recs), (persist (located 0 0 recs)). cbn [open_tile]. unfold parse_raw.
  rewrite E by (pose proof (flush_len recs); unfold word; lia). cbn [bind]. split; [reflexivity|]. split; [apply located_length|].
  intros k data vs Hk. eexists. split; [apply (located_nth recs 0 0 k data vs Hk R)|]. split; [|split; [reflexivity|cbn; lia]].
  unfold retrieve. cbn [w_data_size w_offset]. rewrite Nat2Z.id.
  replace (Z.to_nat (0 + Z.of_nat (length (flush (firstn k recs))) + 8)) with (length (flush (firstn k recs)) + 8)%nat by lia.
  assert (S : skipn (length (flush (firstn k recs)) + 8) (flush recs) = data ++ le 8 (Z.of_nat (length vs)) ++ flat_map voxel_bytes vs ++ flush (skipn (S k) recs)).
  { rewrite (flush_split _ _ _ _ Hk). unfold record_bytes. cbn [fst snd]. rewrite <- !app_assoc. rewrite skipn_app.
    rewrite skipn_all2 by lia. cbn [app]. rewrite skipn_app, le_length. rewrite skipn_all2 by (rewrite le_length; lia). cbn [app].
    replace (length (flush (firstn k recs)) + 8 - length (flush (firstn k recs)) - 8)%nat with 0%nat by lia. reflexivity. }
  rewrite S, firstn_app, firstn_all, Nat.sub_diag, firstn_O, app_nil_r, Nat.eqb_refl. reflexivity.
Qed.
Print Assumptions tile_data_located.

(** C45.  For any list of objects, in particular those of an opened tile: the box of an object with
    voxels is the least box containing its voxels' boxes, and the tile's box is the least one
    containing the boxes of its objects. *)
Theorem tile_boxes_least : forall fl objs,
  (forall w, In w objs -> w_voxels w <> [] -> exists b, object_box fl w = Some b /\ least b (map (fun v => IBox (vbox fl v)) (w_voxels w))) /\
  (forall boxes, boxes <> [] -> Forall2 (fun w b => object_box fl w = Some b) objs boxes ->
     exists b, tile_box fl objs = Some b /\ least b (map IBox boxes)).
Proof.
  intros fl objs. split.
  - intros w _ NE. destruct (accumulate_least (map (fun v => IBox (vbox fl v)) (w_voxels w))) as [b [E L]].
    { intro X. apply map_eq_nil in X. auto. }
    exists b. split; [|exact L]. rewrite <- E. unfold object_box. clear. generalize (@None aab).
    induction (w_voxels w) as [|v r IH]; intros o; [reflexivity|]. cbn. apply IH.
  - intros boxes NE F. destruct (accumulate_least (map IBox boxes)) as [b [E L]]. { intro X. apply map_eq_nil in X. auto. }
    exists b. split; [|exact L]. rewrite <- E. unfold tile_box. clear -F. generalize (@None aab).
    induction F as [|w c objs boxes H F IH]; intros o; [reflexivity|]. cbn [fold_left map]. rewrite H. apply IH.
Qed.
Print Assumptions tile_boxes_least.

(** ** C46 *)
(** What holds: if saving stops after n bytes, the next opening shows the objects whose records are
    complete, followed by at most one further object.  Missing: that this is noticed. *)
Theorem tile_crash_partial : forall junk junk' capacity recs n, memory junk -> memory junk' -> Forall proper recs -> Z.of_nat (length (flush recs)) < 2 ^ 63 ->
  exists objs mt, open_tile junk capacity (flush recs) None = Some (objs, mt) /\
  exists k tail, open_tile junk' LONG_MAX (flush recs) (Some (firstn n mt)) = Some (firstn k objs ++ tail, firstn n mt) /\
    (length tail <= 1)%nat /\ (length (persist (firstn k objs)) <= n)%nat /\ ((k < length objs)%nat -> (n < length (persist (firstn (S k) objs)))%nat).
Proof.
  intros junk junk' cap recs n [J Fj] [J' Fj'] P L. pose proof (proper_ok recs P L) as R. pose proof (flush_bytes recs P) as FB.
  destruct (parse_spec junk J Fj (S (length (flush recs))) 0 0 0 (flush recs) FB) as [objs [E [W [N B]]]]; [lia|].
  exists objs, (persist objs). cbn [open_tile]. unfold parse_raw. rewrite E. split; [reflexivity|].
  assert (EL : objs = located 0 0 recs). { rewrite parse_flush in E; auto; [congruence|pose proof (flush_len recs); lia|lia|unfold word; lia]. }
  assert (WB : Forall (fun w => Forall byte (wrapper_bytes w)) objs).
  { rewrite EL. clear -P. generalize 0 at 1. generalize 0. induction P as [|[data vs] recs [_ H] P IH]; intros i o; cbn [located]; constructor; [|apply IH].
    apply wrapper_bytes_byte. cbn [w_voxels]. eapply Forall_impl; [|exact H]. intros a [_ X]. exact X. }
  unfold load. rewrite long_max_cap.
  assert (G : (length objs + 1 < S (S (length (firstn n (persist objs))) + length objs))%nat) by lia.
  destruct (load_prefix junk' J' Fj' objs n (word - 1) 0 0 (S (length (firstn n (persist objs)) + (length objs + 2))) W WB N) as [k [tail [E' [T [K [T' [P1 P2]]]]]]]; [lia|unfold word; lia|].
  exists k, tail. split; [|auto].
  assert (M : forall cap f d i s r, load_loop junk' f cap d i s = Some r -> Forall byte s -> (length s < f)%nat -> load_loop junk' (S (length s)) cap d i s = Some r).
  { clear -J' Fj'. intros cap f d i s r Hr Fs Lf.
    assert (Q : forall f g d i s, Forall byte s -> (length s < f)%nat -> (length s < g)%nat -> load_loop junk' f cap d i s = load_loop junk' g cap d i s).
    { clear -J' Fj'. induction f as [|f IH]; intros g d i s Fs Lf Lg; [lia|]. destruct g as [|g]; [lia|]. cbn [load_loop]. destruct (i <? cap); [|reflexivity].
      destruct (fread_size d s) as [[z ok] s1] eqn:E1. destruct (fread_size_spec _ _ _ _ _ Fs E1) as [A1 [A2 [A3 [A4 A5]]]]. destruct ok; [|reflexivity]. specialize (A4 eq_refl).
      destruct (fread_size 0 s1) as [[ds ok2] s2] eqn:E2. destruct (fread_size_spec _ _ _ _ _ A2 E2) as [B1 [B2 [B3 _]]].
      destruct (fread_size z s2) as [[k ok3] s3] eqn:E3. destruct (fread_size_spec _ _ _ _ _ B2 E3) as [C1 [C2 [C3 _]]].
      destruct (read_voxels junk' (Z.to_nat k) s3) as [vs s4] eqn:E4. destruct (read_voxels_spec junk' J' Fj' _ _ _ _ C2 E4) as [D1 [D2 [D3 [D4 D5]]]].
      rewrite (IH g k (i + 1) s4 D3) by lia. reflexivity. }
    rewrite <- Hr. apply Q; auto; lia. }
  rewrite (M _ _ _ _ _ _ E').
  - reflexivity.
  - apply firstn_byte. clear -WB. induction WB; cbn [persist flat_map]; [constructor|]. apply Forall_app; auto.
  - lia.
Qed.
Print Assumptions tile_crash_partial.

(** Two small objects. *)
Definition sample_voxel (b : Z) : vmeta := VMeta (repeat b 12) (repeat (b + 1) 12) (repeat b 12).
Definition sample : list (list Z * list vmeta) := [([1; 2; 3], [sample_voxel 1]); ([4; 5], [sample_voxel 2; sample_voxel 3])].
Definition zeros : list Z := repeat 0 12.
Lemma zeros_memory : memory zeros.
Proof. split; [reflexivity|]. repeat constructor; lia. Qed.
Lemma sample_proper : Forall proper sample /\ Z.of_nat (length (flush sample)) < 2 ^ 63.
Proof. split; [|reflexivity]. unfold proper, vok. repeat constructor; try (cbn; lia). Qed.
Example tile_example : memory zeros /\ Forall proper sample /\ Z.of_nat (length (flush sample)) < 2 ^ 63 /\
  match open_tile zeros LONG_MAX (flush sample) None with Some (objs, mt) => length objs = 2%nat /\ map (retrieve (flush sample)) objs = [Some [1; 2; 3]; Some [4; 5]] /\ length mt = 156%nat | None => False end.
Proof. split; [exact zeros_memory|]. split; [apply sample_proper|]. split; [apply sample_proper|]. vm_compute. auto. Qed.

(** C46 is false: there are objects and a number of bytes after which saving may stop such that the next
    opening succeeds and shows fewer objects; and one after which it shows an object that has eight
    voxels although no object has. *)
Theorem tile_crash_refuted : exists recs n n', Forall proper recs /\
  match open_tile zeros LONG_MAX (flush recs) None with
  | Some (objs, mt) => length objs = 2%nat /\ (n < length mt)%nat /\ (n' < length mt)%nat /\ Forall (fun w => (length (w_voxels w) <= 2)%nat) objs /\
    match open_tile zeros LONG_MAX (flush recs) (Some (firstn n mt)), open_tile zeros LONG_MAX (flush recs) (Some (firstn n' mt)) with
    | Some (few, _), Some (odd, _) => length few = 1%nat /\ map (fun w => length (w_voxels w)) odd = [8%nat]
    | _, _ => False end
  | None => False end.
Proof. exists sample, 60%nat, 8%nat. split; [apply sample_proper|]. vm_compute. repeat split; try lia. repeat constructor. Qed.
Print Assumptions tile_crash_refuted.

(** ** C47 *)
(** What holds: with metadata, a capacity below 2^31 shows the first min(k, n) objects. *)
Theorem tile_capacity_partial : forall junk junk' capacity k dt, memory junk -> memory junk' -> fits dt -> 0 <= k < 2 ^ 31 ->
  exists objs mt, open_tile junk capacity dt None = Some (objs, mt) /\ open_tile junk' k dt (Some mt) = Some (firstn (Z.to_nat k) objs, mt).
Proof.
  intros junk junk' cap k dt [J Fj] [J' Fj'] [F L] K. destruct (parse_spec junk J Fj (S (length dt)) 0 0 0 dt F) as [objs [E [W [N B]]]]; [lia|].
  exists objs, (persist objs). cbn [open_tile]. unfold parse_raw. rewrite E. split; [reflexivity|].
  unfold load. rewrite int_small by auto. rewrite load_persist; auto; [|pose proof (persist_len objs); lia|lia].
  rewrite Z.sub_0_r. reflexivity.
Qed.
Print Assumptions tile_capacity_partial.

(** C47 is false: the first opening ignores the capacity, and a capacity of 2^32 hides all objects. *)
Theorem tile_capacity_refuted : exists recs, Forall proper recs /\
  match open_tile zeros 1 (flush recs) None with
  | Some (objs, mt) => length objs = 2%nat /\
    match open_tile zeros 1 (flush recs) (Some mt), open_tile zeros (2 ^ 32) (flush recs) (Some mt) with
    | Some (again, _), Some (none, _) => length again = 1%nat /\ none = []
    | _, _ => False end
  | None => False end.
Proof. exists sample. split; [apply sample_proper|]. vm_compute. auto. Qed.
Print Assumptions tile_capacity_refuted.

(** ** C70 *)
(** Adding an object from memory never adds an object. *)
Theorem tile_add_raw_keeps_objects : forall fl junk data t, snd (add_raw fl junk data t) = snd t.
Proof.
  intros fl junk data t. unfold add_raw. destruct (fread_size 0 data) as [[n ok] s]. destruct (fread_size n (skipn (Z.to_nat n) s)) as [[k ok'] s'].
  destruct (read_voxels junk (Z.to_nat k) s'). reflexivity.
Qed.
Print Assumptions tile_add_raw_keeps_objects.
Theorem tile_add_raw_refuted : exists fl rec, proper rec /\ snd (add_raw fl zeros (record_bytes rec) (None, [])) = [] /\
  match open_tile zeros LONG_MAX (record_bytes rec) None with Some (objs, _) => length objs = 1%nat | None => False end.
Proof.
  exists (fun _ => 0%Q), ([1; 2; 3], [sample_voxel 1]). split.
  { pose proof sample_proper as [P _]. inversion P; subst. assumption. }
  split; [reflexivity|]. vm_compute. reflexivity.
Qed.
Print Assumptions tile_add_raw_refuted.

(** ** C71 *)
(** Without inner parts every object with a box has exactly one voxel if it had several, its box is the
    object's, and it contains all former voxels and its own core. *)
Theorem tile_innerpart_disabled : forall box vs, least box (map (fun v => IBox (vv_box v)) vs) -> wf box -> (1 < length vs)%nat ->
  exists v, disable_innerpart (Some box, vs) = Some [v] /\ vv_box v = box /\ inside (vv_core v) box /\ Forall (fun u => within (vv_box u) (vv_box v)) vs.
Proof.
  intros box vs [C _] W L. unfold disable_innerpart. destruct (Nat.ltb_spec 1 (length vs)); [|lia]. cbn [bind]. eexists. split; [reflexivity|]. cbn [vv_box vv_core].
  split; [reflexivity|]. split.
  - intros a. specialize (W a).
    assert (X : ((bmax box a - bmin box a) / 2 + bmin box a == (bmax box a + bmin box a) * (1 # 2))%Q) by field.
    rewrite X. split; lra.
  - rewrite Forall_forall in *. intros u Hu. apply (C (IBox (vv_box u))). apply in_map_iff. exists u. auto.
Qed.
Print Assumptions tile_innerpart_disabled.
Example innerpart_example : let a := Aab (v3 0 0 0) (v3 1 1 1) in let b := Aab (v3 2 0 0) (v3 3 1 1) in let c := Aab (v3 0 0 0) (v3 3 1 1) in
  least c (map (fun v => IBox (vv_box v)) [VValue a (v3 0 0 0); VValue b (v3 2 0 0)]) /\ wf c.
Proof.
  cbv zeta. split; [|intros [| |]; cbn; lra]. split.
  - constructor; [|constructor; [|constructor]]; intros [| |]; cbn; split; lra.
  - intros d H. inversion H as [|? ? H1 H2]; subst. inversion H2 as [|? ? H3 H4]; subst. cbn in H1, H3. intros a. specialize (H1 a). specialize (H3 a).
    destruct a; cbn in *; split; lra.
Qed.

(** C45.  What the boxes above are made of: the k-th float of a stored corner is bytes 4k to 4k+3. *)
Theorem stored_corner_floats : forall fl b0 b1 b2 b3 b4 b5 b6 b7 b8 b9 b10 b11 c0 c1 c2 c3 c4 c5 c6 c7 c8 c9 c10 c11 core,
  let v := VMeta [b0; b1; b2; b3; b4; b5; b6; b7; b8; b9; b10; b11] [c0; c1; c2; c3; c4; c5; c6; c7; c8; c9; c10; c11] core in
  bmin (vbox fl v) AX = fl [b0; b1; b2; b3] /\ bmin (vbox fl v) AY = fl [b4; b5; b6; b7] /\ bmin (vbox fl v) AZ = fl [b8; b9; b10; b11] /\
  bmax (vbox fl v) AX = fl [c0; c1; c2; c3] /\ bmax (vbox fl v) AY = fl [c4; c5; c6; c7] /\ bmax (vbox fl v) AZ = fl [c8; c9; c10; c11].
Proof. intros. repeat split. Qed.
Print Assumptions stored_corner_floats.
