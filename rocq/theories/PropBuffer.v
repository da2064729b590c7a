(** C171: whether the compressed object fits the buffer made for it. *)
From Coq Require Import String.
From Coq Require Import List ZArith QArith Bool Arith Lia Lqa Ascii.
From Verif Require Import Arr RangeCoderModel QsModel CodecModel CodecProofs BitsModel BaseProofs ObjectModel
  PpmcModel PpmcTopo PpmcRound PpmcCheck PpmcLevels PpmcLevelsProofs PpmcObject PpmcGrid CompressModel PipeModel BufferModel PpmcSyms PropPpmc PropPipe PropPpmcLevels.
From Verif Require PpmcEnc TileModel ConvexModel.
Import ListNotations.
Close Scope Q_scope.
Close Scope nat_scope.
Open Scope Z_scope.

Lemma Some_is {A} (a b : A) : Some a = Some b -> b = a.
Proof. congruence. Qed.
(** Bytes written or held back, and what the coder may do to them. *)
Definition held (e : enc) : Z := Z.of_nat (length (e_out e)) + e_help e.
Definition sane (e : enc) : Prop := 0 <= e_help e /\ 0 <= e_range e.
Lemma w32_le x : 0 <= x -> 0 <= w32 x <= x.
Proof. intro H. unfold w32. split; [apply Z.mod_pos_bound; reflexivity|apply Z.mod_le; [exact H|reflexivity]]. Qed.
Lemma w32_nn x : 0 <= w32 x.
Proof. unfold w32. apply Z.mod_pos_bound. reflexivity. Qed.
Lemma iter_held e : sane e -> sane (enc_norm_iter e) /\ held (enc_norm_iter e) <= held e + 1.
Proof.
  intros [H R]. unfold enc_norm_iter, sane, held. pose proof (w32_nn (Z.shiftl (e_range e) 8)).
  destruct (_ <? _); [|destruct (negb _)]; cbn [e_help e_range e_out];
    rewrite ?app_length; cbn [length]; rewrite ?repeat_length, ?Nat2Z.inj_add, ?Nat2Z.inj_succ, ?Z2Nat.id by exact H; try lia.
  pose proof (w32_le (e_help e + 1)). lia.
Qed.
Lemma iter_range e : 0 <= e_range e <= Bottom -> e_range (enc_norm_iter e) = e_range e * 256.
Proof.
  intros R. change Bottom with 8388608 in R. assert (E : w32 (Z.shiftl (e_range e) 8) = e_range e * 256).
  { rewrite Z.shiftl_mul_pow2 by lia. change (2 ^ 8) with 256. unfold w32. apply Z.mod_small. change (2 ^ 32) with 4294967296. lia. }
  unfold enc_norm_iter. destruct (_ <? _); [|destruct (negb _)]; exact E.
Qed.
Lemma loop_zero f : forall e, e_range e = 0 -> enc_normalize_loop f e = None.
Proof.
  induction f as [|f IH]; intros e E; cbn [enc_normalize_loop]; rewrite E; change (0 <=? Bottom) with true; [reflexivity|].
  apply IH. rewrite iter_range, E; [reflexivity|]. rewrite E. change Bottom with 8388608. lia.
Qed.
Lemma loop_held k : forall f e e', sane e -> Bottom < e_range e * 256 ^ Z.of_nat k -> enc_normalize_loop f e = Some e' -> sane e' /\ held e' <= held e + Z.of_nat k.
Proof.
  induction k as [|k IH]; intros f e e' S B E.
  - rewrite Z.mul_1_r in B. destruct f; cbn [enc_normalize_loop] in E; (destruct (Z.leb_spec (e_range e) Bottom); [lia|]); injection E as <-; split; [exact S|lia|exact S|lia].
  - destruct f; cbn [enc_normalize_loop] in E; destruct (Z.leb_spec (e_range e) Bottom) as [L|L]; try discriminate E; try (injection E as <-; split; [exact S|lia]).
    destruct (iter_held e S) as [S' H']. assert (R := iter_range e (conj (proj2 S) L)).
    assert (B' : Bottom < e_range (enc_norm_iter e) * 256 ^ Z.of_nat k). { rewrite R. rewrite Nat2Z.inj_succ, Z.pow_succ_r in B by lia. lia. }
    destruct (IH f _ _ S' B' E) as [A C]. split; [exact A|lia].
Qed.
Lemma normalize_held e e' : sane e -> enc_normalize e = Some e' -> sane e' /\ held e' <= held e + 3.
Proof.
  intros S E. unfold enc_normalize in E. destruct (Z.eq_dec (e_range e) 0) as [Z|N]; [rewrite loop_zero in E by exact Z; discriminate E|].
  apply (loop_held 3 _ _ _ S) in E; [exact E|]. destruct S as [_ R]. change (256 ^ Z.of_nat 3) with 16777216. change Bottom with 8388608. lia.
Qed.
Lemma shift_held e sy lt sh e' : sane e -> encode_shift e sy lt sh = Some e' -> sane e' /\ held e' <= held e + 3.
Proof.
  intros S E. unfold encode_shift in E. destruct (enc_normalize e) as [n|] eqn:N; [|discriminate E]. destruct (_ || _); [discriminate E|]. apply Some_is in E. subst e'.
  destruct (normalize_held _ _ S N) as [[A B] C]. unfold held, sane in *. cbn [e_help e_out e_range]. split; [|exact C]. split; [exact A|]. destruct (_ =? _); apply w32_nn.
Qed.
(** nothing is written for the first symbol *)
Lemma first_held e sy lt sh e' : e_range e = Top -> encode_shift e sy lt sh = Some e' -> held e' = held e /\ e_help e' = e_help e /\ 0 <= e_range e'.
Proof.
  intros R E. unfold encode_shift in E. assert (N : enc_normalize e = Some e). { unfold enc_normalize. cbn [enc_normalize_loop]. rewrite R. reflexivity. }
  rewrite N in E. destruct (_ || _); [discriminate E|]. apply Some_is in E. subst e'. unfold held. cbn [e_help e_out e_range]. split; [reflexivity|]. split; [reflexivity|]. destruct (_ =? _); apply w32_nn.
Qed.
Lemma done_held e out : sane e -> done_encoding e = Some out -> Z.of_nat (length out) <= held e + 8.
Proof.
  intros S E. unfold done_encoding in E. destruct (enc_normalize e) as [n|] eqn:N; [|discriminate E]. destruct (normalize_held _ _ S N) as [[A _] B]. cbv zeta in E. apply Some_is in E. subst out.
  unfold held in *. rewrite !app_length. cbn [length]. rewrite !Nat2Z.inj_add.
  destruct (255 <? _); cbn [length]; rewrite repeat_length, Nat2Z.inj_succ, Z2Nat.id by exact A; lia.
Qed.
Lemma sym_held e m sh s e' m' : sane e -> enc_sym e m sh s = Some (e', m') -> sane e' /\ held e' <= held e + 3.
Proof.
  intros S E. unfold enc_sym in E. destruct (qsgetfreq m s) as [[sy lt]|]; cbn [bind] in E; [|discriminate E].
  destruct (encode_shift e sy lt sh) as [e1|] eqn:F; cbn [bind] in E; [|discriminate E]. destruct (qsupdate m s); cbn [bind] in E; [|discriminate E]. injection E as <- <-.
  apply (shift_held _ _ _ _ _ S F).
Qed.
Lemma syms_held sh syms : forall e m e' m', sane e -> enc_syms e m sh syms = Some (e', m') -> sane e' /\ held e' <= held e + 3 * Z.of_nat (length syms).
Proof.
  induction syms as [|s r IH]; intros e m e' m' S E; cbn [enc_syms] in E.
  - injection E as <- <-. split; [exact S|cbn [length]; lia].
  - destruct (enc_sym e m sh s) as [[e1 m1]|] eqn:F; cbn [bind] in E; [|discriminate E]. destruct (sym_held _ _ _ _ _ _ S F) as [A B].
    destruct (IH _ _ _ _ A E) as [C D]. split; [exact C|]. cbn [length]. lia.
Qed.
Lemma start_sane c l out : sane (start_encoding c l out) /\ held (start_encoding c l out) = Z.of_nat (length out).
Proof. unfold sane, held, start_encoding. cbn [e_help e_range e_out]. change Top with 2147483648. lia. Qed.
Lemma edges_size junk b syms out : encodeInsertedEdges junk b syms = Some out -> Z.of_nat (length out) <= Z.of_nat (length b) + 3 * Z.of_nat (length syms) + 8.
Proof.
  intro E. unfold encodeInsertedEdges in E. cbv zeta in E. destruct (initqsmodel junk 2 10 512 None true) as [m|]; cbn [bind] in E; [|discriminate E].
  destruct (enc_syms _ m 10 syms) as [[e' m']|] eqn:F; cbn [bind] in E; [|discriminate E]. destruct (start_sane 0 0 b) as [S H].
  destruct (syms_held _ _ _ _ _ _ S F) as [A B]. apply (done_held _ _ A) in E. lia.
Qed.
Lemma records_held conn : forall e mA mC mn geom e', sane e -> enc_records e mA mC mn conn geom = Some e' ->
  sane e' /\ held e' <= held e + 3 * Z.of_nat (length conn) + 9 * Z.of_nat (length geom).
Proof.
  induction conn as [|s r IH]; intros e mA mC mn geom e' S E; cbn [enc_records] in E.
  - injection E as <-. split; [exact S|cbn [length]; lia].
  - destruct (enc_sym e mC 10 s) as [[e1 m1]|] eqn:F; cbn [bind] in E; [|discriminate E]. destruct (sym_held _ _ _ _ _ _ S F) as [A B].
    destruct (s =? 0).
    + destruct (IH _ _ _ _ _ _ A E) as [C D]. split; [exact C|]. cbn [length]. lia.
    + destruct geom as [|[[x y] z] g]; [discriminate E|].
      destruct (enc_sym e1 mA 18 (x - mn)) as [[e2 n1]|] eqn:F2; cbn [bind] in E; [|discriminate E]. destruct (sym_held _ _ _ _ _ _ A F2) as [A2 B2].
      destruct (enc_sym e2 n1 18 (y - mn)) as [[e3 n2]|] eqn:F3; cbn [bind] in E; [|discriminate E]. destruct (sym_held _ _ _ _ _ _ A2 F3) as [A3 B3].
      destruct (enc_sym e3 n2 18 (z - mn)) as [[e4 n3]|] eqn:F4; cbn [bind] in E; [|discriminate E]. destruct (sym_held _ _ _ _ _ _ A3 F4) as [A4 B4].
      destruct (IH _ _ _ _ _ _ A4 E) as [C D]. split; [exact C|]. cbn [length]. lia.
Qed.
Lemma removed_size junk b conn geom out : encodeRemovedVertices junk b conn geom = Some out ->
  Z.of_nat (length out) <= Z.of_nat (length b) + 3 * Z.of_nat (length conn) + 9 * Z.of_nat (length geom) + 11.
Proof.
  intro E. unfold encodeRemovedVertices in E. cbv zeta in E. destruct (scan geom) as [[mn mx]|]; cbn [bind] in E; [|discriminate E].
  destruct (encode_short _ (mn mod 65536)) as [e1|] eqn:F1; cbn [bind] in E; [|discriminate E].
  destruct (encode_short e1 _) as [e2|] eqn:F2; cbn [bind] in E; [|discriminate E].
  destruct (initqsmodel junk (Z.max _ 2) _ _ _ _) as [mA|]; cbn [bind] in E; [|discriminate E].
  destruct (initqsmodel junk 2 _ _ _ _) as [mC|]; cbn [bind] in E; [|discriminate E].
  destruct (enc_records e2 mA mC mn conn geom) as [e3|] eqn:F3; cbn [bind] in E; [|discriminate E].
  destruct (start_sane 0 0 b) as [S H]. unfold encode_short in F1, F2. destruct (first_held (start_encoding 0 0 b) _ _ _ _ eq_refl F1) as (A1 & A2 & A3).
  assert (S1 : sane e1). { split; [rewrite A2; apply S|exact A3]. }
  destruct (shift_held _ _ _ _ _ S1 F2) as [S2 B2]. destruct (records_held _ _ _ _ _ _ _ S2 F3) as [S3 B3]. apply (done_held _ _ S3) in E. lia.
Qed.
(** Three bytes for each symbol and 19 for each round. *)
Definition round_room (r : round) : nat := (19 + 3 * length (fst r) + 9 * length (residual_symbols (fst r)) + 3 * length (snd r))%nat.
Lemma rounds_size junk rs : forall b out, write_rounds junk b rs = Some out -> (length out <= length b + list_sum (map round_room rs))%nat.
Proof.
  induction rs as [|[faces edges] rs IH]; intros b out E; cbn [write_rounds] in E.
  - injection E as <-. cbn [map list_sum fold_right]. lia.
  - destruct (encodeRemovedVertices junk b _ _) as [b1|] eqn:F1; cbn [bind] in E; [|discriminate E].
    destruct (encodeInsertedEdges junk b1 edges) as [b2|] eqn:F2; cbn [bind] in E; [|discriminate E].
    apply removed_size in F1. apply edges_size in F2. apply IH in E. cbn [map]. change (list_sum (?a :: ?l)) with (a + list_sum l)%nat.
    unfold round_room at 1. cbn [fst snd]. unfold face_symbols in F1. rewrite map_length in F1. lia.
Qed.
(** What is written stays. *)
Lemma loop_grow f : forall e e', enc_normalize_loop f e = Some e' -> (length (e_out e) <= length (e_out e'))%nat.
Proof.
  induction f as [|f IH]; intros e e' E; cbn [enc_normalize_loop] in E; destruct (_ <=? _); try discriminate E; try (injection E as <-; apply le_n).
  apply IH in E. refine (Nat.le_trans _ _ _ _ E). unfold enc_norm_iter. destruct (_ <? _); [|destruct (negb _)]; cbn [e_out]; rewrite ?app_length; lia.
Qed.
Lemma shift_grow e sy lt sh e' : encode_shift e sy lt sh = Some e' -> (length (e_out e) <= length (e_out e'))%nat.
Proof.
  intro E. unfold encode_shift in E. destruct (enc_normalize e) as [n|] eqn:N; [|discriminate E]. destruct (_ || _); [discriminate E|]. apply Some_is in E. subst e'. exact (loop_grow _ _ _ N).
Qed.
Lemma done_grow e out : done_encoding e = Some out -> (length (e_out e) <= length out)%nat.
Proof.
  intro E. unfold done_encoding in E. destruct (enc_normalize e) as [n|] eqn:N; [|discriminate E]. cbv zeta in E. apply Some_is in E. subst out. apply loop_grow in N. rewrite !app_length. lia.
Qed.
Lemma sym_grow e m sh s e' m' : enc_sym e m sh s = Some (e', m') -> (length (e_out e) <= length (e_out e'))%nat.
Proof.
  intros E. unfold enc_sym in E. destruct (qsgetfreq m s) as [[sy lt]|]; cbn [bind] in E; [|discriminate E].
  destruct (encode_shift e sy lt sh) as [e1|] eqn:F; cbn [bind] in E; [|discriminate E]. destruct (qsupdate m s); cbn [bind] in E; [|discriminate E]. injection E as <- <-. exact (shift_grow _ _ _ _ _ F).
Qed.
Lemma syms_grow sh syms : forall e m e' m', enc_syms e m sh syms = Some (e', m') -> (length (e_out e) <= length (e_out e'))%nat.
Proof.
  induction syms as [|s r IH]; intros e m e' m' E; cbn [enc_syms] in E; [injection E as <- <-; apply le_n|].
  destruct (enc_sym e m sh s) as [[e1 m1]|] eqn:F; cbn [bind] in E; [|discriminate E]. apply sym_grow in F. apply IH in E. lia.
Qed.
Lemma records_grow conn : forall e mA mC mn geom e', enc_records e mA mC mn conn geom = Some e' -> (length (e_out e) <= length (e_out e'))%nat.
Proof.
  induction conn as [|s r IH]; intros e mA mC mn geom e' E; cbn [enc_records] in E; [injection E as <-; apply le_n|].
  destruct (enc_sym e mC 10 s) as [[e1 m1]|] eqn:F; cbn [bind] in E; [|discriminate E]. apply sym_grow in F.
  destruct (s =? 0); [apply IH in E; lia|]. destruct geom as [|[[x y] z] g]; [discriminate E|].
  destruct (enc_sym e1 mA 18 (x - mn)) as [[e2 n1]|] eqn:F2; cbn [bind] in E; [|discriminate E]. apply sym_grow in F2.
  destruct (enc_sym e2 n1 18 (y - mn)) as [[e3 n2]|] eqn:F3; cbn [bind] in E; [|discriminate E]. apply sym_grow in F3.
  destruct (enc_sym e3 n2 18 (z - mn)) as [[e4 n3]|] eqn:F4; cbn [bind] in E; [|discriminate E]. apply sym_grow in F4. apply IH in E. lia.
Qed.
Lemma rounds_grow junk rs : forall b out, write_rounds junk b rs = Some out -> (length b <= length out)%nat.
Proof.
  induction rs as [|[faces edges] rs IH]; intros b out E; cbn [write_rounds] in E; [injection E as <-; apply le_n|].
  destruct (encodeRemovedVertices junk b _ _) as [b1|] eqn:F1; cbn [bind] in E; [|discriminate E].
  destruct (encodeInsertedEdges junk b1 edges) as [b2|] eqn:F2; cbn [bind] in E; [|discriminate E]. apply IH in E.
  unfold encodeRemovedVertices in F1. cbv zeta in F1. destruct (scan _) as [[mn mx]|]; cbn [bind] in F1; [|discriminate F1].
  destruct (encode_short _ (mn mod 65536)) as [e1|] eqn:G1; cbn [bind] in F1; [|discriminate F1].
  destruct (encode_short e1 _) as [e2|] eqn:G2; cbn [bind] in F1; [|discriminate F1].
  destruct (initqsmodel junk (Z.max _ 2) _ _ _ _) as [mA|]; cbn [bind] in F1; [|discriminate F1].
  destruct (initqsmodel junk 2 _ _ _ _) as [mC|] eqn:M; cbn [bind] in F1; [|discriminate F1].
  destruct (enc_records e2 mA mC mn _ _) as [e3|] eqn:G3; cbn [bind] in F1; [|discriminate F1].
  unfold encodeInsertedEdges in F2. cbv zeta in F2. destruct (initqsmodel junk 2 _ _ _ _) as [mE|]; cbn [bind] in F2; [|discriminate F2].
  destruct (enc_syms _ mE 10 edges) as [[e4 m4]|] eqn:G4; cbn [bind] in F2; [|discriminate F2].
  unfold encode_short in G1, G2. apply shift_grow in G1, G2. apply records_grow in G3. apply syms_grow in G4. apply done_grow in F1, F2. cbn [start_encoding e_out] in G1, G4. lia.
Qed.

(** The base mesh as a number of bytes: four floats and the bit fields. *)
Definition base_room (bpv : Z -> Z) (m : base) : nat :=
  Z.to_nat ((128 + bits_of_header (bpv (Z.of_nat (length (m_pos m)))) (m_quant m - m_nquant m) (Z.of_nat (length (m_pos m))) (m_faces m) + 7) / 8).

(** C171, what holds: the base mesh takes exactly its bits, each round at most 19 bytes and three for
    each symbol; a buffer of that size is enough. *)
Theorem compressed_size_partial : forall bpv junk m K rs bytes, writable bpv m ->
  128 + bits_of_header (bpv (Z.of_nat (length (m_pos m)))) (m_quant m - m_nquant m) (Z.of_nat (length (m_pos m))) (m_faces m) + 32 <= 8 * Z.of_nat K ->
  writeCompressedData bpv junk (repeat 0 K) m rs = Some bytes ->
  (base_room bpv m <= length bytes <= base_room bpv m + list_sum (map round_room rs))%nat.
Proof.
  intros bpv junk m K rs bytes W H E. destruct (header_sized bpv m K W H) as (h & Eh & _ & L & _).
  unfold writeCompressedData in E. rewrite Eh in E. cbn [bind] in E. assert (Lh : length h = base_room bpv m). { unfold base_room. rewrite <- L, Nat2Z.id. reflexivity. }
  split; [|rewrite <- Lh; exact (rounds_size _ _ _ _ E)]. rewrite <- Lh. exact (rounds_grow _ _ _ _ E).
Qed.
Print Assumptions compressed_size_partial.
Example compressed_size_nonvacuous : writable Z.log2_up cube_base /\
  match writeCompressedData Z.log2_up (fun _ => 77) (repeat 0 60) cube_base cube_rounds with
  | Some b => length b = 74%nat | None => False end /\
  (base_room Z.log2_up cube_base = 29 /\ list_sum (map round_room cube_rounds) = 174)%nat.
Proof. split; [apply cube_base_written|]. split; vm_compute; [reflexivity|split; reflexivity]. Qed.

(** A prism of six corners: two triangles and three quadrilaterals, each with its corners in one plane. *)
Open Scope nat_scope.
Definition prism_line : string := "OFF|6 5 0|2 0 2|0 8 0|6 6 8|3 2 5|2 6 4|5 5 8|3 0 1 2|4 0 3 4 1|4 2 1 4 5|4 0 2 5 3|3 3 5 4|".
Definition prism_points : list (nat * nat * nat) := [(2, 0, 2); (0, 8, 0); (6, 6, 8); (3, 2, 5); (2, 6, 4); (5, 5, 8)].
Definition prism : list (list nat) := [[0; 1; 2]; [0; 3; 4; 1]; [2; 1; 4; 5]; [0; 2; 5; 3]; [3; 5; 4]].
(** The largest extent is 8, twelve bits: the step is 8 / 4096, whose pattern is 0x3b000000
    (mymesh.cpp:199-211); the last cell takes the upper end (mymesh.cpp:233-235). *)
Definition prism_step : Z := 989855744%Z.
Definition prism_fv (p : Z) : Q := if (p =? prism_step)%Z then 1 # 512 else 0.
Definition cell (c : nat) : Z := Z.min 4095 (Qround.Qfloor (inject_Z (Z.of_nat c) / prism_fv prism_step)).
Definition prism_cell (v : nat) : vec := let '(x, y, z) := nth v prism_points (0, 0, 0) in (cell x, cell y, cell z).
Definition prism_pos (v : nat) : pt := gpQ prism_fv (0, 0, 0)%Z prism_step (prism_cell v).
(** The convexity test does not depend on size and place (C111, C112), so it is given the numbers of the cells. *)
Definition prism_crd (v : nat) : ConvexModel.qvec := let '(x, y, z) := prism_cell v in AabModel.v3 (inject_Z x) (inject_Z y) (inject_Z z).
(** The half-edges as CGAL stores them, an edge with its opposite: in the order the facets of the
    line name the edges first; removing a vertex removes its edges from the list and adds the new
    ones at its end.  The first gate is the one in the middle (mymeshComp.cpp:58-64). *)
Definition prism_stored (k : nat) : list dart :=
  match k with
  | 7 => [(0,1);(1,0); (1,2);(2,1); (2,0);(0,2); (0,3);(3,0); (3,4);(4,3); (4,1);(1,4); (4,5);(5,4); (5,2);(2,5); (5,3);(3,5)]
  | 6 => [(0,1);(1,0); (1,2);(2,1); (2,0);(0,2); (0,3);(3,0); (3,4);(4,3); (4,1);(1,4); (2,3);(3,2); (4,2);(2,4)]
  | 5 => [(0,1);(1,0); (1,2);(2,1); (2,0);(0,2); (4,1);(1,4); (4,2);(2,4); (0,4);(4,0)]
  | _ => [(0,1);(1,0); (1,2);(2,1); (2,0);(0,2)]
  end.
Definition middle (l : list dart) : dart := nth (length l / 2) l (0, 1).
Definition prism_gate (k : nat) (m : mesh) : dart :=
  let d := middle (prism_stored k) in match m (fst d) (snd d) with Some _ => d | None => first_gate 6 k m end.
Definition prism_base : base := Base (0, 0, 0)%Z prism_step 12%Z 3%Z 0%Z 0%Z (map prism_cell [0; 1; 2]) (0, 1) [[0; 1; 2]; [0; 2; 1]].
Definition prism_rounds : list round :=
  [([None; Some (-341, 683, 342)], [0; 0; 0]);
   ([None; None; None; Some (-171, -1024, 171)], [0; 0; 1]);
   ([None; None; None; None; Some (683, 171, 1194)], [1; 1; 0])]%Z.
Definition prism_source : source pt := Source (of_faces prism) prism_pos 0 1 (fun _ => ConvexModel.ringConvex 6 100 prism_crd) prism_gate
  7 prism_base (fun _ => 0%Z) (buffer_size prism_line) (Machine (fun _ => 5%Z) (fun _ => list_prod (seq 0 6) (seq 0 6)) [[4]; [3]; [5]]) [].
Notation prism_all :=
  (compressAll pt (qzQ prism_fv (0, 0, 0)%Z prism_step) baryQ 100 (fun _ => ConvexModel.ringConvex 6 100 prism_crd) prism_gate 0 1 prism_pos (of_faces prism) 5000 7).
Lemma prism_good : wf (of_faces prism) /\ connected (of_faces prism).
Proof. assert (G : good prism = true) by (vm_compute; reflexivity). destruct (good_spec _ G). split; assumption. Qed.
Lemma prism_lt : forall p q, of_faces prism p q <> None -> p < 6.
Proof.
  intros p q H. apply of_faces_in in H. assert (F : forallb (fun d : dart => Nat.ltb (fst d) 6) (darts_of prism) = true) by (vm_compute; reflexivity).
  rewrite forallb_forall in F. apply F in H. apply Nat.ltb_lt in H. exact H.
Qed.
Lemma prism_gate_ok : forall k m, wf m -> (forall v, vertex m v -> vertex (of_faces prism) v) -> (exists a b, m a b <> None) ->
  m (fst (prism_gate k m)) (snd (prism_gate k m)) <> None.
Proof.
  intros k m W V (a & b & H). unfold prism_gate. cbv zeta. destruct (m (fst (middle _)) (snd (middle _))) eqn:D; [rewrite D; discriminate|]. clear D.
  assert (L := vertex_lt _ 6 prism_lt m V). assert (I := edge_list_in m 6 a b H (L a b H) (L b a (wf_sym m W _ _ H))).
  unfold first_gate. destruct (rev (map fst (edge_list m 6))) as [|d l] eqn:E.
  - apply (f_equal (@length _)) in E. rewrite rev_length, map_length in E. destruct (edge_list m 6); [destruct I|discriminate E].
  - assert (J : In d (map fst (edge_list m 6))) by (apply in_rev; rewrite E; left; auto).
    apply in_map_iff in J. destruct J as (x & <- & J). unfold edge_list in J. apply in_map_iff in J. destruct J as (y & <- & J). apply filter_In in J. destruct J as [_ J]. cbn [fst].
    destruct (m (fst y) (snd y)); [discriminate|discriminate J].
Qed.
Lemma prism_grid v : on_grid 32768 (prism_cell v).
Proof. do 6 (destruct v as [|v]; [vm_compute; intuition discriminate|]). replace (prism_cell (S (S (S (S (S (S v))))))) with (0, 0, 0)%Z; [cbn; lia|]. destruct v; reflexivity. Qed.
Lemma prism_fixed v : qzQ prism_fv (0, 0, 0)%Z prism_step (prism_pos v) = prism_cell v.
Proof. apply (grid_fixed prism_fv _ _ 32768); [reflexivity|apply prism_grid]. Qed.
(** The compression of the prism: every round removes one vertex, the gate being the middle of what is stored. *)
Lemma prism_levels : is_some prism_all = true /\
  match prism_all with
  | Some x => snd x = prism_rounds /\ map (fun m => length (edge_list m 6)) (fst x) = map (fun k => length (prism_stored k)) [4; 5; 6; 7] /\
      forallb (fun y => forallb (fun d : dart => is_some (fst y (fst d) (snd d))) (prism_stored (snd y))) (combine (fst x) [4; 5; 6; 7]) = true /\
      edge_list (hd no_mesh (fst x)) 6 = edge_list (of_faces [[0; 1; 2]; [0; 2; 1]]) 6
  | None => False
  end.
Proof. vm_compute. repeat split; reflexivity. Qed.
Lemma prism_described ms : prism_all = Some (ms, prism_rounds) ->
  edge_list (hd no_mesh ms) 6 = edge_list (of_faces [[0; 1; 2]; [0; 2; 1]]) 6 -> describes (hd no_mesh ms) prism_cell 0 1 [0; 1; 2] prism_base.
Proof.
  intros E T. destruct prism_good as [W C].
  destruct (compressAll_spec _ _ _ _ _ _ 0 1 _ _ _ prism_gate_ok _ _ ms prism_rounds (fun v Hv => Hv) W C ltac:(vm_compute; discriminate) E) as (_ & L & _ & S4).
  assert (Hhd : In (hd no_mesh ms) ms) by (destruct ms; [discriminate L|left; auto]).
  destruct (S4 _ Hhd) as (WY & _ & _ & VY). clear S4 Hhd L E. set (y := hd no_mesh ms) in *. clearbody y.
  assert (LY : forall a b, y a b <> None -> a < 6) by (apply (vertex_lt _ 6 prism_lt); auto).
  set (t := of_faces [[0; 1; 2]; [0; 2; 1]]) in *.
  assert (EQ : forall u v, y u v = t u v).
  { assert (D : forall u v, u < 6 -> v < 6 -> y u v = t u v).
    { intros u v Hu Hv. assert (OI : forall m m' : mesh, edge_list m 6 = edge_list m' 6 -> m u v <> None -> m u v = m' u v).
      { intros m m' Em Hm. assert (I := edge_list_in m 6 u v Hm Hu Hv). rewrite Em in I. unfold edge_list in I. apply in_map_iff in I. destruct I as (d & Ed & _). injection Ed as E1 E2. subst d. cbn [fst snd] in E2. auto. }
      destruct (y u v) eqn:E1; [rewrite <- E1; apply OI; [auto|congruence]|]. destruct (t u v) eqn:E2; [|auto]. rewrite <- E1, <- E2. symmetry. apply OI; [auto|congruence]. }
    intros u v. destruct (Nat.lt_ge_cases u 6) as [Hu|Hu]; [destruct (Nat.lt_ge_cases v 6) as [Hv|Hv]; [auto|]|].
    - assert (y u v = None). { destruct (y u v) eqn:K; [|auto]. exfalso. assert (K2 : y v u <> None) by (apply (wf_sym y WY); congruence). apply LY in K2. lia. }
      rewrite H. symmetry. do 6 (destruct v as [|v]; [lia|]). unfold t, of_faces. cbn. rewrite ?andb_false_r. auto.
    - assert (y u v = None). { destruct (y u v) eqn:K; [|auto]. exfalso. assert (K2 : y u v <> None) by congruence. apply LY in K2. lia. }
      rewrite H. symmetry. do 6 (destruct u as [|u]; [lia|]). unfold t, of_faces. cbn. auto. }
  split; [repeat constructor; cbn; lia|]. split; [|repeat (split; [reflexivity|]); exact EQ].
  intro v. split.
  + intro I. cbn [In] in I. destruct I as [<-|[<-|[<-|[]]]].
    * exists 1. rewrite EQ. vm_compute. discriminate.
    * exists 2. rewrite EQ. vm_compute. discriminate.
    * exists 0. rewrite EQ. vm_compute. discriminate.
  + intros (w & Hw). rewrite EQ in Hw. apply of_faces_in in Hw. cbn in Hw. cbn [In]. clear - Hw.
    repeat (destruct Hw as [Hw|Hw]; [injection Hw as <- _; auto|]). destruct Hw.
Qed.
Lemma prism_writable : writable Z.log2_up prism_base.
Proof.
  unfold writable, prism_base. cbn [m_box m_step m_quant m_rounds m_nquant m_notconvex m_pos m_dep m_faces length fst snd map].
  change (map prism_cell [0; 1; 2]) with [(1024, 0, 1024); (0, 4095, 0); (3072, 3072, 4095)]%Z. unfold prism_step.
  change (prism_cell 0) with (1024, 0, 1024)%Z. change (prism_cell 1) with (0, 4095, 0)%Z. change (prism_cell 2) with (3072, 3072, 4095)%Z.
  split; [repeat constructor; try lia; reflexivity|]. split; [lia|]. split; [lia|]. split; [lia|]. split; [lia|]. split; [reflexivity|]. split; [reflexivity|].
  split; [lia|]. split; [lia|]. split; [discriminate|]. split; [change (2 ^ (12 - 0))%Z with 4096%Z; repeat constructor; lia|].
  split; [repeat constructor; cbn [length]; lia|]. split; [vm_compute; split; discriminate|vm_compute; discriminate].
Qed.
Lemma prism_compressible : exists ms, compressible pt (qzQ prism_fv) (gpQ prism_fv) baryQ 100 Z.log2_up 5000 prism_source ms prism_rounds.
Proof.
  destruct prism_good as [W C]. destruct prism_levels as [S T]. destruct (some_ex _ S) as ([ms rs] & E). apply (some_get _ _ _ E) in T. cbn [fst snd] in T. destruct T as (-> & _ & _ & T).
  pose proof (prism_described ms E T) as DS.
  destruct (compressAll_spec _ _ _ _ _ _ 0 1 _ _ _ prism_gate_ok _ _ ms prism_rounds (fun v Hv => Hv) W C ltac:(vm_compute; discriminate) E) as (S1 & _ & _ & S4).
  exists ms. constructor; cbn [prism_source s_mesh s_pos s_d0 s_d1 s_convex s_gate s_rounds s_base s_junk s_size s_machine s_voxels prism_base m_box m_step].
  - exact W.
  - exact C.
  - vm_compute. discriminate.
  - exact prism_gate_ok.
  - intros v _. rewrite prism_fixed. reflexivity.
  - exact E.
  - discriminate.
  - assert (FV : (0 < prism_fv prism_step)%Q) by reflexivity. eapply steps_codable; [exact FV|exact S1|intros; apply prism_grid|].
    intros x l Hx ND Hl. destruct (S4 x Hx) as (WX & _ & _ & VX). assert (LX := vertex_lt _ 6 prism_lt x VX).
    assert (B : length l <= length (list_prod (seq 0 6) (seq 0 6))).
    { apply NoDup_incl_length; [exact ND|]. intros [a b] Hd. specialize (Hl _ Hd). cbn [fst snd] in Hl. apply in_prod; apply in_seq; [apply LX in Hl; lia|]. apply (wf_sym x WX), LX in Hl. lia. }
    rewrite prod_length, !seq_length in B. change (2 ^ 32)%Z with 4294967296%Z. change (length l <= 36) in B. lia.
  - exists [0; 1; 2]. destruct DS as (D1 & D2 & D3 & D4 & D5 & D6). split; [exact D1|]. split; [exact D2|]. split; [|auto]. rewrite D3. apply map_ext. intro v. symmetry. apply prism_fixed.
  - exact prism_writable.
  - split; [reflexivity|]. split; reflexivity.
  - vm_compute. discriminate.
  - cbn [length prism_rounds]. lia.
  - exists 6. split; [|split; [|split; [|split]]].
    + intros m Hm. cbn [c_stor]. split.
      * assert (N : nodup PpmcEnc.dart_dec (list_prod (seq 0 6) (seq 0 6)) = list_prod (seq 0 6) (seq 0 6)) by (vm_compute; reflexivity). rewrite <- N. apply NoDup_nodup.
      * intros a b H. apply in_prod; apply in_seq; destruct (Hm a b H); lia.
    + cbn. lia.
    + repeat constructor.
    + repeat constructor; cbn; lia.
    + intros p Hp. cbn in Hp. cbn. lia.
  - constructor.
Qed.

(** The bytes of the three rounds: 18 each, after the 39 of the base mesh. *)
Lemma prism_size : match writeCompressedData Z.log2_up (fun _ => 0%Z) (repeat 0%Z 92) prism_base prism_rounds with Some b => Nat.eqb (length b) 93 | None => false end = true.
Proof. vm_compute. reflexivity. Qed.
(** C171, refuted: the line of the prism has 92 characters, so 92 bytes are allocated; the prism is
    read, quantised and compressed without fault, and 93 bytes are written. *)
Theorem compressed_fits_refuted : exists line pts faces s ms rs bytes,
  read_off line = Some (pts, faces) /\ s_mesh s = of_faces faces /\
  (forall v, s_pos s v = gpQ prism_fv (m_box (s_base s)) (m_step (s_base s)) (let '(x, y, z) := nth v pts (0, 0, 0) in (cell x, cell y, cell z))) /\
  s_size s = buffer_size line /\
  compressible pt (qzQ prism_fv) (gpQ prism_fv) baryQ 100 Z.log2_up 5000 s ms rs /\
  bytes_of pt (qzQ prism_fv) baryQ 100 Z.log2_up 5000 s = Some bytes /\ buffer_size line < length bytes.
Proof.
  destruct prism_compressible as (ms & C). pose proof prism_size as Z.
  destruct (writeCompressedData _ _ (repeat 0%Z 92) prism_base prism_rounds) as [bytes|] eqn:E; [|discriminate Z]. apply Nat.eqb_eq in Z.
  exists prism_line, prism_points, prism, prism_source, ms, prism_rounds, bytes.
  split; [reflexivity|]. split; [reflexivity|]. split; [intro v; reflexivity|]. split; [reflexivity|]. split; [exact C|]. split.
  - unfold bytes_of. rewrite (cp_levels _ _ _ _ _ _ _ _ _ _ C). cbn [bind]. exact E.
  - rewrite Z. vm_compute. apply le_n.
Qed.
Print Assumptions compressed_fits_refuted.
