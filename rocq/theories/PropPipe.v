(** C143-C145: from the compressor into the voxels. *)
From Coq Require Import List ZArith QArith Bool Arith Lia Lqa Permutation.
From Verif Require Import Arr RangeCoderModel RangeCoderProofs CodecModel CodecProofs BitsModel BaseProofs ObjectModel
  PpmcModel PpmcTopo PpmcRound PpmcCheck PpmcLevels PpmcLevelsProofs PpmcObject PpmcGrid LodModel LodProofs CompressModel PipeModel.
From Verif Require PpmcEnc AabModel TileModel TileProofs VoxelModel PropTile PropCompress PropQuantLod PropPpmc PropPpmcLevels PropVoxel.
Import ListNotations.
Close Scope Q_scope.
Close Scope Z_scope.
Open Scope nat_scope.

(** * Specification *)
(** Mesh [m'] with positions [pos'] is mesh [m] with positions [pos] up to the names of the vertices. *)
Definition same_mesh {P} (m : mesh) (pos : nat -> P) (m' : mesh) (pos' : nat -> P) (sg : nat -> nat) : Prop :=
  (forall u v, sg u = sg v -> u = v) /\
  (forall u v, m' (sg u) (sg v) = option_map sg (m u v)) /\
  (forall p q, m' p q <> None -> exists u v, p = sg u /\ q = sg v) /\
  (forall v, vertex m v -> pos' (sg v) = pos v).
(** A decoder whose new vertices get new handles and that stores every half-edge once. *)
Definition machine_ok (c : machine) (b : base) (rs : list round) : Prop := exists N,
  (forall m, (forall p q, m p q <> None -> p < N /\ q < N) -> NoDup (c_stor c m) /\ forall a b, m a b <> None -> In (a, b) (c_stor c m)) /\
  length (m_pos b) <= N /\
  Forall2 (fun ns r => length ns = length (residual_symbols (fst r))) (c_nss c) rs /\ NoDup (concat (c_nss c)) /\
  (forall p, In p (concat (c_nss c)) -> length (m_pos b) <= p < N).

Section Pipe.
  Variables (P : Type) (qz : Z * Z * Z -> Z -> P -> vec) (gp : Z * Z * Z -> Z -> vec -> P) (bary : list P -> P) (lim : nat) (bpv : Z -> Z) (fuel : nat).
  (** An object the compressor can handle, with its levels [ms], coarsest first, and rounds [rs]: a
      closed mesh in one piece, positions fixed by quantisation, rounds within the limits of the
      coder, at least one of them; the base mesh written is the coarsest level with the number of rounds,
      no rounds of quantisation and no convex level (mymesh.cpp:36, never changed); the buffer is large
      enough; voxels of nine floats. *)
  Record compressible (s : source P) (ms : list mesh) (rs : list round) : Prop := {
    cp_wf : wf (s_mesh s); cp_con : connected (s_mesh s); cp_dep : s_mesh s (s_d0 s) (s_d1 s) <> None;
    cp_gate : forall k m, wf m -> (forall v, vertex m v -> vertex (s_mesh s) v) -> (exists a b, m a b <> None) -> m (fst (s_gate s k m)) (snd (s_gate s k m)) <> None;
    cp_fixed : forall v, vertex (s_mesh s) v -> gp (m_box (s_base s)) (m_step (s_base s)) (qz (m_box (s_base s)) (m_step (s_base s)) (s_pos s v)) = s_pos s v;
    cp_levels : levels_of P qz bary lim fuel s = Some (ms, rs);
    cp_some : rs <> []; cp_codable : Forall codable_round rs;
    cp_base : exists vl, describes (hd no_mesh ms) (fun v => qz (m_box (s_base s)) (m_step (s_base s)) (s_pos s v)) (s_d0 s) (s_d1 s) vl (s_base s);
    cp_writable : writable bpv (s_base s);
    cp_header : m_rounds (s_base s) = Z.of_nat (length rs) /\ m_nquant (s_base s) = 0%Z /\ m_notconvex (s_base s) = 0%Z;
    cp_room : (128 + bits_of_header (bpv (Z.of_nat (length (m_pos (s_base s))))) (m_quant (s_base s) - m_nquant (s_base s)) (Z.of_nat (length (m_pos (s_base s)))) (m_faces (s_base s)) + 32 <= 8 * Z.of_nat (s_size s))%Z;
    cp_fuel : 3 * length rs + 1 <= fuel;
    cp_machine : machine_ok (s_machine s) (s_base s) rs;
    cp_voxels : Forall (fun v => TileProofs.vok v /\ Forall TileProofs.byte (TileModel.voxel_bytes v)) (s_voxels s) }.

  (** The number of rounds of level [p] out of [n]: p percent, rounded up. *)
  Definition rounds_at (p n : nat) : nat := (p * n + 99) / 100.

  Lemma highest_100 reqs : Forall (fun r => r <= 100)%Z reqs -> (0 <= highest reqs <= 100)%Z.
  Proof.
    induction 1 as [|r l H _ IH]; cbn [highest fold_right]; [lia|]. unfold highest in IH. lia.
  Qed.
  Lemma rounds_at_le p n : p <= 100 -> rounds_at p n <= n.
  Proof.
    intro H. unfold rounds_at. transitivity ((100 * n + 99) / 100); [apply Nat.div_le_mono; nia|].
    replace (100 * n + 99) with (99 + n * 100) by lia. rewrite Nat.div_add by lia. reflexivity.
  Qed.

  Lemma header s ms rs bytes : compressible s ms rs -> bytes_of P qz bary lim bpv fuel s = Some bytes ->
    exists r off, readBaseMesh bpv bytes = Some (r, off) /\ same_object (s_base s) r.
  Proof.
    intros C E. destruct (cp_base _ _ _ C) as (vl & DS).
    unfold bytes_of in E. rewrite (cp_levels _ _ _ C) in E. cbn [bind] in E. unfold writeCompressedData in E.
    destruct (header_round_trip bpv (s_base s) (s_size s) (cp_writable _ _ _ C) (cp_room _ _ _ C)) as (h & EH & BH & DH). rewrite EH in E. cbn [bind] in E.
    pose proof (cp_levels _ _ _ C) as L. unfold levels_of in L.
    destruct (compressAll_spec _ _ _ _ _ _ _ _ _ _ _ (cp_gate _ _ _ C) _ _ _ _ (fun v Hv => Hv) (cp_wf _ _ _ C) (cp_con _ _ _ C) (cp_dep _ _ _ C) L) as (S1 & S2 & S3 & S4).
    destruct (decode_levels P _ (gp (m_box (s_base s)) (m_step (s_base s))) bary lim _ _ (s_pos s) fuel (fun _ => []) 0
      ltac:(intros m0 Hm0; split; [constructor|]; intros a b K0; destruct (Hm0 a b K0); lia) (s_junk s) rs ms S1) with (buffer := h) as (body & EB & BB & LB & _).
    - intros m0 Hm. destruct (S4 m0 Hm) as (A1 & _ & _ & A4). split; [exact A1|]. intros v Hv. apply (cp_fixed _ _ _ C). auto.
    - exact (cp_codable _ _ _ C).
    - rewrite EB in E. apply (f_equal (fun o => match o with Some x => x | None => [] end)) in E. cbv beta iota in E. subst bytes.
      destruct (DH body BB) as (r & ER & SO); [|eauto].
      pose proof (cp_some _ _ _ C). destruct rs; [congruence|]. cbn [length] in LB. lia.
  Qed.

  Lemma decoded s ms rs : compressible s ms rs ->
    exists bytes, bytes_of P qz bary lim bpv fuel s = Some bytes /\ Forall is_byte bytes /\
    forall c reqs, machine_ok c (s_base s) rs -> Forall (fun r => r <= 100)%Z reqs ->
      let j := rounds_at (Z.to_nat (highest reqs)) (length rs) in
      exists m' pos' more sg, advance_levels P qz gp bary lim bpv fuel c bytes reqs = Some (m', pos', more) /\
        same_mesh (nth j ms no_mesh) (s_pos s) m' pos' sg /\
        (In 100%Z reqs -> more = [] /\ same_mesh (s_mesh s) (s_pos s) m' pos' sg).
  Proof.
    intros C. destruct (cp_base _ _ _ C) as (vl & DS).
    destruct (PropPpmcLevels.levels_restored_from_bytes P qz gp bary lim bpv (s_junk s) (s_size s) (s_convex s) (s_gate s) (s_d0 s) (s_d1 s) (s_pos s) (s_mesh s) fuel (s_rounds s) ms rs (s_base s) vl
      (cp_wf _ _ _ C) (cp_con _ _ _ C) (cp_dep _ _ _ C) (cp_gate _ _ _ C) (cp_fixed _ _ _ C) (cp_levels _ _ _ C) (cp_some _ _ _ C) (cp_codable _ _ _ C) DS (cp_writable _ _ _ C) (cp_room _ _ _ C))
      as (bytes & B1 & B2 & B3).
    assert (EB : bytes_of P qz bary lim bpv fuel s = Some bytes) by (unfold bytes_of; rewrite (cp_levels _ _ _ C); exact B1).
    exists bytes. split; [exact EB|]. split; [exact B2|]. intros c reqs (N & H1 & H2 & H3 & H4 & H5) HR j.
    destruct (header s ms rs bytes C EB) as (r & off & ER & (_ & _ & _ & R1 & R2 & R3 & _)).
    destruct (cp_header _ _ _ C) as (M1 & M2 & M3).
    assert (Ln : 0 < length rs) by (pose proof (cp_some _ _ _ C); destruct rs; [congruence|cbn; lia]).
    pose proof (highest_100 reqs HR) as H100.
    destruct (PropQuantLod.refining_decodes_exactly (Z.of_nat (length rs)) fuel reqs ltac:(lia)) as (st & A1 & A2 & A3); [pose proof (cp_fuel _ _ _ C); lia|exact HR|].
    assert (Ej : Z.to_nat (l_cur st) = j).
    { rewrite A2. unfold j, rounds_at. rewrite Z2Nat.inj_div by lia. rewrite Z2Nat.inj_add, Z2Nat.inj_mul, Nat2Z.id by lia. reflexivity. }
    assert (Lj : j <= length rs) by (apply rounds_at_le; lia).
    destruct (B3 [] (c_junk c) (c_stor c) N (c_nss c) j ltac:(constructor) H1 H2 H3 H4 H5 Lj) as (sg & m' & pos' & more & D1 & D2 & D3 & D4 & D5 & D6).
    exists m', pos', more, sg. split; [|split].
    - unfold advance_levels. rewrite ER. cbn [bind]. rewrite R1, R2, M1, M2. unfold construct. rewrite R1, R3, M1, M3, Z.sub_0_r, Z.ltb_irrefl. cbn [bind]. rewrite Z.add_0_l, A1. cbn [bind].
      rewrite Ej. rewrite app_nil_r in D1. exact D1.
    - split; [exact D2|]. split; [exact D3|]. split; [exact D4|exact D5].
    - intro I. specialize (A3 I). assert (EJ : j = length rs) by (rewrite <- Ej, A3; apply Nat2Z.id). destruct (D6 EJ) as [D7 D8]. split; [exact D7|].
      split; [exact D2|]. split; [exact D8|]. split; [exact D4|]. intros v Hv. apply D5. destruct Hv as (w & Hw).
      exists w. intro K. apply Hw. specialize (D3 v w). rewrite D8, K in D3. cbn [option_map] in D3. destruct (s_mesh s v w); [discriminate D3|reflexivity].
  Qed.

  Lemma kept_is s ms rs : compressible s ms rs -> exists bytes, bytes_of P qz bary lim bpv fuel s = Some bytes /\
    kept P qz gp bary lim bpv fuel s = Some (bytes, s_voxels s) /\ PropTile.proper (bytes, s_voxels s).
  Proof.
    intros C. destruct (decoded s ms rs C) as (bytes & E & B & D). exists bytes. split; [exact E|]. split.
    - destruct (D (s_machine s) [100%Z] (cp_machine _ _ _ C) ltac:(repeat constructor; lia)) as (m' & pos' & more & sg & A & _ & K). destruct (K (or_introl eq_refl)) as [-> _].
      unfold kept. rewrite E. cbn [bind]. rewrite A. cbn [bind length]. rewrite Nat.sub_0_r, firstn_all. reflexivity.
    - split; cbn [fst snd]; [|exact (cp_voxels _ _ _ C)]. eapply Forall_impl; [|exact B]. intros a Ha. exact Ha.
  Qed.

  Lemma wanted_in {A} n (lines : list A) x : In x (PropCompress.wanted n lines) -> In x lines.
  Proof. unfold PropCompress.wanted. destruct (n =? 0); [auto|]. intro H. rewrite <- (firstn_skipn n lines). apply in_or_app. auto. Qed.

  Lemma recorded order : Forall (fun s => exists ms rs, compressible s ms rs) order ->
    exists recs, concat (map (record_of P qz gp bary lim bpv fuel) order) = TileModel.flush recs /\ Forall PropTile.proper recs /\
      Forall2 (fun s o => kept P qz gp bary lim bpv fuel s = Some o) order recs.
  Proof.
    induction 1 as [|s l (ms & rs & C) _ (recs & E & F & G)]; [exists []; split; [reflexivity|]; split; constructor|].
    destruct (kept_is s ms rs C) as (bytes & _ & K & Pr). exists ((bytes, s_voxels s) :: recs). split; [|split; constructor; auto].
    cbn [map concat TileModel.flush flat_map]. unfold record_of at 1. rewrite K, E. reflexivity.
  Qed.

  (** C143.  What any run of the parallel compressor writes for objects it can handle is a tile of
      these objects: opened either way it has one object per line, in some order, with the voxels
      made for it, and whatever levels up to 100 are asked of it, in whatever sequence, the object is decoded to the
      level that belongs to the highest of them, p percent of its rounds rounded up; for level 100
      that is the mesh compressed.  Nothing is left over and nothing is missing, whatever the
      machine that decodes it. *)
  Theorem compressed_objects_come_back : forall (lines : list (source P)) queue_size maximum n g capacity junk junk',
    csteps (record_of P qz gp bary lim bpv fuel) queue_size maximum (cinit lines n) g -> cfinal g ->
    Forall (fun s => exists ms rs, compressible s ms rs) lines -> (Z.of_nat (length (g_out g)) < 2 ^ 63)%Z ->
    PropTile.memory junk -> PropTile.memory junk' ->
    exists order objs mt, Permutation order (PropCompress.wanted maximum lines) /\
      TileModel.open_tile junk capacity (g_out g) None = Some (objs, mt) /\
      TileModel.open_tile junk' PropTile.LONG_MAX (g_out g) (Some mt) = Some (objs, mt) /\
      length objs = length order /\
      forall k s ms rs, nth_error order k = Some s -> compressible s ms rs ->
        exists w, nth_error objs k = Some w /\ TileModel.w_id w = Z.of_nat k /\ TileModel.w_voxels w = s_voxels s /\
          forall c reqs, machine_ok c (s_base s) rs -> Forall (fun r => r <= 100)%Z reqs ->
            exists m' pos' more sg, decode_object P qz gp bary lim bpv fuel c (g_out g) w reqs = Some (m', pos', more) /\
              same_mesh (nth (rounds_at (Z.to_nat (highest reqs)) (length rs)) ms no_mesh) (s_pos s) m' pos' sg /\
              (In 100%Z reqs -> more = [] /\ same_mesh (s_mesh s) (s_pos s) m' pos' sg).
  Proof.
    intros lines q mx n g cap junk junk' R F HC L J J'.
    destruct (PropCompress.compress_complete _ q mx n lines g R F) as (order & E & Pm & _).
    assert (HO : Forall (fun s => exists ms rs, compressible s ms rs) order).
    { rewrite Forall_forall in *. intros s Hs. apply HC. apply (wanted_in mx). eapply Permutation_in; eauto. }
    destruct (recorded order HO) as (recs & ER & PR & KR). rewrite E, ER in *.
    destruct (PropTile.tile_data_located junk cap recs J PR L) as (objs & mt & O1 & O2 & O3).
    destruct (PropTile.tile_meta_round_trip junk junk' cap (TileModel.flush recs) J J') as (objs' & mt' & O4 & O5 & O6); [split; [apply PropTile.flush_bytes; exact PR|exact L]|].
    assert (X : Some (objs, mt) = Some (objs', mt')) by (rewrite <- O1, <- O4; reflexivity). injection X as <- <-.
    exists order, objs, mt. split; [exact Pm|]. split; [exact O1|]. split; [exact O5|]. split; [rewrite O2; symmetry; clear -KR; induction KR; cbn; auto|].
    intros k s ms rs Hk C. destruct (kept_is s ms rs C) as (bytes & B1 & B2 & _).
    assert (Hr : nth_error recs k = Some (bytes, s_voxels s)).
    { clear -KR Hk B2. revert k Hk. induction KR as [|x o l l' H _ IH]; intros [|k] Hk; try discriminate Hk; cbn [nth_error] in *.
      - injection Hk as ->. rewrite <- B2, <- H. reflexivity.
      - apply IH. exact Hk. }
    destruct (O3 k bytes (s_voxels s) Hr) as (w & W1 & W2 & W3 & W4). exists w. split; [exact W1|]. split; [exact W4|]. split; [exact W3|].
    intros c reqs HM HR. destruct (decoded s ms rs C) as (bytes' & B1' & _ & D). assert (X : Some bytes = Some bytes') by (rewrite <- B1, <- B1'; reflexivity). injection X as <-.
    destruct (D c reqs HM HR) as (m' & pos' & more & sg & D1 & D2 & D3). exists m', pos', more, sg. split; [|auto].
    unfold decode_object. rewrite W2. cbn [bind]. exact D1.
  Qed.
End Pipe.
Print Assumptions compressed_objects_come_back.

(** The cut cube of PropPpmcLevels as an object of the compressor, with one voxel. *)
Definition cube_machine : machine := Machine (fun _ => 5%Z) (fun _ => list_prod (seq 0 9) (seq 0 9)) [[8]; [3]; [7; 5; 6]].
Definition cube_source : source pt := Source (of_faces PropPpmc.cut_cube) (fun v => gpQ PropPpmcLevels.ex_fv (0, 0, 0)%Z 1065353216%Z (PropPpmc.cube_pos v)) 0 1 (fun _ _ _ => true) (PropPpmcLevels.first_gate 8)
  9 PropPpmcLevels.cube_base (fun _ => 77%Z) 60 cube_machine [TileModel.VMeta (repeat 1%Z 12) (repeat 2%Z 12) (repeat 3%Z 12)].
Example cube_compressible : exists ms, compressible pt (qzQ PropPpmcLevels.ex_fv) (gpQ PropPpmcLevels.ex_fv) baryQ 100 Z.log2_up 5000 cube_source ms PropPpmcLevels.cube_rounds /\ length ms = 4.
Proof.
  destruct PropPpmc.cut_cube_good as (_ & W & C & _). destruct PropPpmcLevels.grid_rounds_codable_nonvacuous as (FV & GR & _). destruct PropPpmcLevels.cube_base_written as [WR (ms & rs & E & DS)].
  destruct PropPpmcLevels.compression_always_finishes_nonvacuous as [_ T]. apply (PropPpmcLevels.some_get _ _ _ E) in T. cbn [fst snd] in T. destruct T as (-> & T & _).
  destruct (compressAll_spec _ _ _ _ _ _ 0 1 _ _ _ PropPpmcLevels.cube_gate _ _ ms PropPpmcLevels.cube_rounds (fun v Hv => Hv) W C ltac:(vm_compute; discriminate) E) as (S1 & _ & _ & S4).
  assert (FX : forall v, qzQ PropPpmcLevels.ex_fv (0, 0, 0)%Z 1065353216%Z (gpQ PropPpmcLevels.ex_fv (0, 0, 0)%Z 1065353216%Z (PropPpmc.cube_pos v)) = PropPpmc.cube_pos v)
    by (intro v; apply (grid_fixed PropPpmcLevels.ex_fv _ _ 32768); [exact FV|apply GR]).
  exists ms. split; [|apply (f_equal (@length _)) in T; rewrite map_length in T; exact T].
  constructor; cbn [cube_source s_mesh s_pos s_d0 s_d1 s_convex s_gate s_rounds s_base s_junk s_size s_machine s_voxels PropPpmcLevels.cube_base m_box m_step].
  - exact W.
  - exact C.
  - vm_compute. discriminate.
  - exact PropPpmcLevels.cube_gate.
  - intros v _. rewrite FX. reflexivity.
  - exact E.
  - discriminate.
  - eapply steps_codable; [exact FV|exact S1|intros; apply GR|].
    intros x l Hx ND Hl. destruct (S4 x Hx) as (WX & _ & _ & VX). assert (LX := PropPpmcLevels.vertex_lt _ 8 PropPpmcLevels.cube_lt x VX).
    assert (B : length l <= length (list_prod (seq 0 8) (seq 0 8))).
    { apply NoDup_incl_length; [exact ND|]. intros [a b] Hd. specialize (Hl _ Hd). cbn [fst snd] in Hl. apply in_prod; apply in_seq; [apply LX in Hl; lia|]. apply (wf_sym x WX), LX in Hl. lia. }
    rewrite prod_length, !seq_length in B. change (2 ^ 32)%Z with 4294967296%Z. change (length l <= 64) in B. lia.
  - exists [0; 1; 4]. destruct DS as (D1 & D2 & D3 & D4 & D5 & D6). split; [exact D1|]. split; [exact D2|]. split; [|auto]. rewrite D3. apply map_ext. intro v. symmetry. apply FX.
  - exact WR.
  - split; [reflexivity|]. split; reflexivity.
  - vm_compute. discriminate.
  - cbn [length PropPpmcLevels.cube_rounds]. lia.
  - exists 9. split; [|split; [|split; [|split]]].
    + intros m Hm. cbn [cube_machine c_stor]. split.
      * assert (N : nodup PpmcEnc.dart_dec (list_prod (seq 0 9) (seq 0 9)) = list_prod (seq 0 9) (seq 0 9)) by (vm_compute; reflexivity). rewrite <- N. apply NoDup_nodup.
      * intros a b H. apply in_prod; apply in_seq; destruct (Hm a b H); lia.
    + cbn. lia.
    + repeat constructor.
    + repeat constructor; cbn; lia.
    + intros p Hp. cbn in Hp. cbn. lia.
  - repeat constructor; try lia.
Qed.
Lemma bytes_from P qz bary lim bpv fuel (s : source P) ms rs bytes : levels_of P qz bary lim fuel s = Some (ms, rs) -> bytes_of P qz bary lim bpv fuel s = Some bytes ->
  writeCompressedData bpv (s_junk s) (repeat 0%Z (s_size s)) (s_base s) rs = Some bytes.
Proof. intros E. unfold bytes_of. rewrite E. auto. Qed.
Lemma cube_record : length (record_of pt (qzQ PropPpmcLevels.ex_fv) (gpQ PropPpmcLevels.ex_fv) baryQ 100 Z.log2_up 5000 cube_source) = 126.
Proof.
  destruct cube_compressible as (ms & C & Lm). unfold record_of.
  destruct (kept_is _ _ _ _ _ _ _ _ _ _ C) as (bytes & B1 & E & _). rewrite E. clear E. pose proof (bytes_from _ _ _ _ _ _ _ _ _ _ (cp_levels _ _ _ _ _ _ _ _ _ _ C) B1) as B2. clear C B1.
  assert (G : match writeCompressedData Z.log2_up (s_junk cube_source) (repeat 0%Z (s_size cube_source)) (s_base cube_source) PropPpmcLevels.cube_rounds with Some b => length b = 74 | None => False end) by (vm_compute; reflexivity).
  rewrite B2 in G. clear B2. unfold TileModel.record_bytes. cbn [fst snd]. rewrite !app_length, G. reflexivity.
Qed.
(** Two cubes and a third line that is not wanted; two workers. *)
Example compressed_objects_come_back_applies : exists g : gstate (source pt) Z,
  csteps (record_of pt (qzQ PropPpmcLevels.ex_fv) (gpQ PropPpmcLevels.ex_fv) baryQ 100 Z.log2_up 5000) 1 2 (cinit [cube_source; cube_source; cube_source] 2) g /\ cfinal g /\
  exists order objs mt ms, Permutation order [cube_source; cube_source] /\ TileModel.open_tile (repeat 0%Z 12) 10 (g_out g) None = Some (objs, mt) /\ length objs = 2 /\
    exists w m' pos' more sg, nth_error objs 1 = Some w /\ decode_object pt (qzQ PropPpmcLevels.ex_fv) (gpQ PropPpmcLevels.ex_fv) baryQ 100 Z.log2_up 5000 cube_machine (g_out g) w [20; 50]%Z = Some (m', pos', more) /\
      same_mesh (nth 2 ms no_mesh) (s_pos cube_source) m' pos' sg.
Proof.
  set (rec := record_of pt (qzQ PropPpmcLevels.ex_fv) (gpQ PropPpmcLevels.ex_fv) baryQ 100 Z.log2_up 5000).
  destruct (PropCompress.compress_can_finish rec 1 2 2 [cube_source; cube_source; cube_source] (cinit [cube_source; cube_source; cube_source] 2) ltac:(lia) (cs_refl _ _ _ _)) as [g [R F]].
  exists g. split; [exact R|]. split; [exact F|]. destruct cube_compressible as (ms & C & Lm).
  assert (L : (Z.of_nat (length (g_out g)) < 2 ^ 63)%Z).
  { destruct (PropCompress.compress_complete _ _ _ _ _ _ R F) as (order & E & Pm & _).
    change (PropCompress.wanted 2 [cube_source; cube_source; cube_source]) with [cube_source; cube_source] in Pm. rewrite E. clear E.
    assert (K : order = [cube_source; cube_source]).
    { pose proof (Permutation_length Pm) as K. destruct order as [|a [|b [|? ?]]]; try discriminate K.
      assert (A : forall x, In x [a; b] -> x = cube_source) by (intros x Hx; apply (Permutation_in _ Pm) in Hx; destruct Hx as [<-|[<-|[]]]; reflexivity).
      rewrite (A a (or_introl eq_refl)), (A b (or_intror (or_introl eq_refl))). reflexivity. }
    rewrite K. cbn [map concat]. rewrite app_nil_r, app_length. unfold rec. rewrite cube_record. reflexivity. }
  destruct (compressed_objects_come_back pt (qzQ PropPpmcLevels.ex_fv) (gpQ PropPpmcLevels.ex_fv) baryQ 100 Z.log2_up 5000 _ 1 2 2 g 10 (repeat 0%Z 12) (repeat 1%Z 12) R F) as (order & objs & mt & Pm & O1 & _ & L1 & K).
  - repeat constructor; exists ms, PropPpmcLevels.cube_rounds; exact C.
  - exact L.
  - split; [reflexivity|repeat constructor; lia].
  - split; [reflexivity|repeat constructor; lia].
  - change (PropCompress.wanted 2 [cube_source; cube_source; cube_source]) with [cube_source; cube_source] in Pm. pose proof (Permutation_length Pm) as Lo. exists order, objs, mt, ms.
    split; [exact Pm|]. split; [exact O1|]. split; [rewrite L1, Lo; reflexivity|].
    assert (N : nth_error order 1 = Some cube_source).
    { destruct order as [|a [|b [|? ?]]]; try discriminate Lo. cbn [nth_error]. f_equal. assert (I : In b [cube_source; cube_source]) by (apply (Permutation_in _ Pm); right; left; reflexivity).
      destruct I as [<-|[<-|[]]]; reflexivity. }
    destruct (K 1 cube_source ms _ N C) as (w & W1 & _ & _ & D). destruct (D cube_machine [20; 50]%Z (cp_machine _ _ _ _ _ _ _ _ _ _ C) ltac:(repeat constructor; lia)) as (m' & pos' & more & sg & D1 & D2 & _).
    exists w, m', pos', more, sg. split; [exact W1|]. split; [exact D1|]. change (rounds_at (Z.to_nat (highest [20; 50]%Z)) (length PropPpmcLevels.cube_rounds)) with 2 in D2. exact D2.
Qed.
