(** The progressive mesh coder as a whole: compression ends, its rounds fit the format, and every
    level of detail comes back from the bytes. *)
From Coq Require Import List ZArith QArith Bool Arith Lia.
From Verif Require Import Arr RangeCoderModel RangeCoderProofs QsModel CodecModel CodecProofs BitsModel BaseProofs ObjectModel
  PpmcModel PpmcTopo PpmcEnc PpmcTrav PpmcRound PpmcCheck PpmcTot PpmcLevels PpmcLevelsProofs PpmcObject PpmcSyms PpmcGrid QuantModel PropPpmc.
Import ListNotations.
Close Scope Q_scope.
Close Scope Z_scope.
Open Scope nat_scope.

(** A round of compression always finishes: with n vertices no walk round a vertex or a facet takes
    n*n steps and no queue n^4, whatever the convexity test says.  If it does not report the end of
    the compression, it has removed a vertex. *)
Theorem round_always_finishes : forall (P : Type) (qz : P -> vec) (bary : list P -> P) lim convex d0 d1 (pos : nat -> P) M h0 fuel vs,
  wf M -> connected M -> M (fst h0) (snd h0) <> None -> M d0 d1 <> None ->
  (forall p q, M p q <> None -> In p vs) ->
  length vs * length vs < lim -> length vs * length vs * (length vs * length vs) + 1 < fuel ->
  exists X r, compressRound P qz bary lim convex d0 d1 pos M h0 fuel = Some (X, r) /\
    (r <> None -> exists v, vertex M v /\ ~ vertex X v).
Proof. intros. eapply round_total; eauto. Qed.
Print Assumptions round_always_finishes.
Example round_always_finishes_nonvacuous :
  (wf (of_faces cut_cube) /\ connected (of_faces cut_cube) /\ of_faces cut_cube 7 6 <> None /\ of_faces cut_cube 0 1 <> None) /\
  (forall p q, of_faces cut_cube p q <> None -> In p (seq 0 8)) /\ length (seq 0 8) * length (seq 0 8) < 100.
Proof.
  destruct cut_cube_good as (_ & W & C & H). split; [split; [exact W|]; split; [exact C|]; split; [exact H|]; vm_compute; discriminate|]. split; [|cbn; lia].
  intros p q H0. apply of_faces_in in H0. revert H0. assert (K : forallb (fun d : dart => fst d <? 8) (darts_of cut_cube) = true) by (vm_compute; reflexivity).
  intro H0. rewrite forallb_forall in K. specialize (K _ H0). apply Nat.ltb_lt in K. apply in_seq. cbn [fst] in K. lia.
Qed.

Lemma vcount_le vs m : vcount vs m <= length vs.
Proof. unfold vcount. generalize (fun v => existsb (fun w => is_some (m v w)) vs) as f. intro f. induction vs as [|v l IH]; cbn [filter length]; [auto|]. destruct (f v); cbn [length]; lia. Qed.
Lemma nth_last {A} (d : A) : forall (ms : list A) n, length ms = S n -> nth n ms d = last ms d.
Proof.
  induction ms as [|x ms IH]; intros n S2; [discriminate|]. destruct ms as [|y ms]; destruct n as [|n]; cbn [length] in S2; try lia; [auto|].
  change (nth n (y :: ms) d = last (y :: ms) d). apply IH. cbn [length]. lia.
Qed.

(** A whole compression always finishes, with at most as many rounds as there are vertices to
    remove.  Every level is closed, in one piece, keeps the departure edge and has no new vertex;
    the finest is the mesh compressed. *)
Theorem compression_always_finishes : forall (P : Type) (qz : P -> vec) (bary : list P -> P) lim convex gate d0 d1 (pos : nat -> P) M fuel vs,
  (forall k m, wf m -> (forall v, vertex m v -> vertex M v) -> (exists a b, m a b <> None) -> m (fst (gate k m)) (snd (gate k m)) <> None) ->
  wf M -> connected M -> M d0 d1 <> None -> (forall p q, M p q <> None -> In p vs) ->
  length vs * length vs < lim -> length vs * length vs * (length vs * length vs) + 1 < fuel ->
  exists ms rs, compressAll P qz bary lim convex gate d0 d1 pos M fuel (S (length vs)) = Some (ms, rs) /\
    length ms = S (length rs) /\ length rs + vcount vs (hd no_mesh ms) <= vcount vs M /\
    (forall a b, last ms no_mesh a b = M a b) /\
    (forall m, In m ms -> wf m /\ connected m /\ m d0 d1 <> None /\ forall v, vertex m v -> vertex M v).
Proof.
  intros P qz bary lim convex gate d0 d1 pos M fuel vs GT W C HD HV HL HF.
  assert (VC := vcount_le vs M).
  destruct (compressAll_total P qz bary lim convex gate d0 d1 pos fuel (vertex M) GT vs HL HF (S (length vs)) M (fun v Hv => Hv) W C HD HV ltac:(lia)) as (ms & rs & E & L).
  destruct (compressAll_spec P qz bary lim convex gate d0 d1 pos fuel (vertex M) GT (S (length vs)) M ms rs (fun v Hv => Hv) W C HD E) as (S1 & S2 & S3 & S4).
  exists ms, rs. auto.
Qed.
Print Assumptions compression_always_finishes.

(** The compression of the cut cube in exact arithmetic, box corner 0 and step 1. *)
Definition ex_fv (p : Z) : Q := if (p =? 0)%Z then 0%Q else 1%Q.
Definition first_gate (n k : nat) (m : mesh) : dart := match rev (map fst (edge_list m n)) with d :: _ => d | [] => (0, 0) end.
Definition ex_pos (v : nat) : pt := gpQ ex_fv (0, 0, 0)%Z 1065353216%Z (cube_pos v).
Notation cube_all :=
  (compressAll pt (qzQ ex_fv (0, 0, 0)%Z 1065353216%Z) baryQ 100 (fun _ _ _ => true) (first_gate 8) 0 1 (fun v => gpQ ex_fv (0, 0, 0)%Z 1065353216%Z (cube_pos v)) (of_faces cut_cube) 5000 9).
Lemma some_ex {A} (o : option A) : is_some o = true -> exists x, o = Some x.
Proof. destruct o as [x|]; [exists x; auto|discriminate]. Qed.
Lemma some_get {A} (o : option A) (R : A -> Prop) x : o = Some x -> match o with Some y => R y | None => False end -> R x.
Proof. intros ->. auto. Qed.
Definition cube_rounds : list round :=
  [([Some (3, 4, 3); None], [0; 0; 0]);
   ([None; None; None; Some (-1, 3, -3)], [1; 0; 0]);
   ([Some (2, 2, -1); None; Some (1, -1, 1); Some (-1, 1, 1); None], [0; 1; 1; 1; 1; 1; 0])]%Z.
Example compression_always_finishes_nonvacuous : is_some cube_all = true /\
  match cube_all with
  | Some x => snd x = cube_rounds /\ map (fun m => length (edge_list m 8)) (fst x) = [6; 12; 16; 26] /\
      vcount (seq 0 8) (hd no_mesh (fst x)) = 3 /\ vcount (seq 0 8) (of_faces cut_cube) = 8 /\
      edge_list (hd no_mesh (fst x)) 8 = [((0,1), Some 4); ((0,4), Some 1); ((1,0), Some 4); ((1,4), Some 0); ((4,0), Some 1); ((4,1), Some 0)]
  | None => False
  end.
Proof. vm_compute. repeat split; reflexivity. Qed.

(** What a round writes: one symbol for each facet of the coarser mesh, one residual for each vertex
    removed, and at most one symbol, 0 or 1, for each of its edges. *)
Theorem round_symbols_counted : forall (P : Type) (qz : P -> vec) (bary : list P -> P) lim convex d0 d1 (pos : nat -> P) M h0 fuel X r,
  wf M -> connected M -> M (fst h0) (snd h0) <> None ->
  compressRound P qz bary lim convex d0 d1 pos M h0 fuel = Some (X, Some r) ->
  (exists facets, length (fst r) = length facets /\ (forall lp, In lp facets -> exists h, is_loop X h lp) /\
    (forall d, X (fst d) (snd d) <> None -> exists lp, In lp facets /\ In d lp) /\
    ForallOrdPairs (fun a b => forall d, In d a -> ~ In d b) facets) /\
  (exists gone, NoDup gone /\ length (residual_symbols (fst r)) = length gone /\ forall v, In v gone <-> vertex M v /\ ~ vertex X v) /\
  (exists edges : list dart, length (snd r) <= length edges /\ NoDup edges /\ (forall d, In d edges -> X (fst d) (snd d) <> None) /\ (forall d, In d edges -> ~ In (opp d) edges)) /\
  Forall (fun z => z = 0%Z \/ z = 1%Z) (snd r).
Proof.
  intros P qz bary lim convex d0 d1 pos M h0 fuel X r W C Hh E.
  destruct (round_parts P qz bary lim convex d0 d1 pos M h0 fuel X r W C Hh E) as (WX & PR & fl & tr & ad & te & F0 & F1 & F2 & F3 & F4 & F5 & F6 & F7 & F8).
  destruct (round_restores_mesh P qz (fun _ => pos 0) bary lim convex d0 d1 pos M h0 fuel X r W C Hh E) as (ns & N0 & N1 & NL & _).
  split; [|split; [|split]].
  - exists (map snd tr). split; [rewrite F1, !map_length; auto|]. split; [|split].
    + intros lp Hl. apply in_map_iff in Hl. destruct Hl as (x & <- & Hx). exists (fst x). apply F2; auto.
    + intros d Hd. destruct (F3 d Hd) as (x & Hx & Hi). exists (snd x). split; [apply in_map; auto|auto].
    + clear - F4. induction F4 as [|x l Hx _ IH]; cbn [map]; constructor; [|auto]. rewrite Forall_forall in *. intros lp Hl. apply in_map_iff in Hl. destruct Hl as (y & <- & Hy). apply Hx; auto.
  - exists ns. split; [auto|]. split; [auto|auto].
  - exists te. split; [|auto]. rewrite F5. clear. induction te as [|h te IH]; cbn [flat_map]; [auto|]. rewrite app_length. destruct (_ && _); cbn [length]; lia.
  - rewrite F5. apply Forall_forall. intros z Hz. apply in_flat_map in Hz. destruct Hz as (h & _ & Hz). destruct (_ && _); [destruct Hz|]. destruct Hz as [<-|[]]. destruct (ad h); auto.
Qed.
Print Assumptions round_symbols_counted.
Example round_symbols_nonvacuous :
  match cube_round with
  | Some (X, Some r) => length (fst r) = 5 /\ length (residual_symbols (fst r)) = 3 /\ length (snd r) = 7 /\ length (edge_list X 8) = 2 * 8
  | _ => False end.
Proof. vm_compute. auto. Qed.

(** Positions on a grid of at most 2^15 cells a side: every round fits the limits of the coder, in
    exact arithmetic, if the coarser mesh has fewer than 2^28 - 1 half-edges. *)
Theorem grid_rounds_codable : forall fv box step lim convex d0 d1 (grid : nat -> vec) M h0 fuel X r,
  (0 < fv step)%Q -> wf M -> connected M -> M (fst h0) (snd h0) <> None ->
  (forall v, vertex M v -> on_grid 32768 (grid v)) ->
  (forall l : list dart, NoDup l -> (forall d, In d l -> X (fst d) (snd d) <> None) -> Z.of_nat (length l) < 2 ^ 28 - 1)%Z ->
  compressRound pt (qzQ fv box step) baryQ lim convex d0 d1 (fun v => gpQ fv box step (grid v)) M h0 fuel = Some (X, Some r) ->
  codable_round r.
Proof.
  intros fv box step lim convex d0 d1 grid M h0 fuel X r Hs W C Hh HG HL E.
  eapply round_codable; [exact W|exact C|exact Hh|exact E| | | |].
  - intros v Hv. cbv beta. rewrite (grid_fixed fv box step 32768); auto.
  - intros l NE Hl. apply mean_on_grid; [auto|lia|auto|]. intros p Hp. destruct (Hl p Hp) as (v & Hv & ->). exists (grid v). split; auto.
  - apply (proj2 (proj2 (round_keeps_mesh_closed _ _ _ _ _ _ _ _ _ _ _ _ _ W C Hh E))).
  - intros l ND Hd. specialize (HL l ND Hd). change (2 ^ 28)%Z with 268435456%Z in HL. change (2 ^ 32)%Z with 4294967296%Z. lia.
Qed.
Print Assumptions grid_rounds_codable.
Example grid_rounds_codable_nonvacuous :
  (0 < ex_fv 1065353216)%Q /\ (forall v, on_grid 32768 (cube_pos v)) /\
  match compressRound pt (qzQ ex_fv (0, 0, 0)%Z 1065353216%Z) baryQ 100 (fun _ _ => true) 0 1 ex_pos (of_faces cut_cube) (7, 6) 5000 with
  | Some (X, Some r) => r = nth 2 cube_rounds ([], []) | _ => False end.
Proof.
  split; [reflexivity|]. split; [|vm_compute; reflexivity]. intro v. unfold cube_pos. do 8 (destruct v as [|v]; [cbn; lia|]). destruct v; cbn; lia.
Qed.

(** Every level of detail comes back from the bytes.  [m] is the base mesh as it is written, which
    must describe the coarsest level.  Whatever follows the bytes, whatever the machine's memory
    held, whatever handles [nss] the new vertices get and in whatever order [stor] the half-edges
    are stored, decoding j rounds gives level j: the same half-edges with the same successors, under
    an injective renaming [sg] of the vertices, every vertex at its position; and after the last
    round, the mesh compressed, with the cursor exactly at the end.  The arithmetic of positions is
    arbitrary: all that is asked is that the positions compressed are fixed by quantisation. *)
Theorem levels_restored_from_bytes : forall (P : Type) (qz : Z * Z * Z -> Z -> P -> vec) (gp : Z * Z * Z -> Z -> vec -> P) (bary : list P -> P)
    lim bpv junk K convex gate d0 d1 (pos : nat -> P) M fuel k ms rs m vl,
  wf M -> connected M -> M d0 d1 <> None ->
  (forall k m, wf m -> (forall v, vertex m v -> vertex M v) -> (exists a b, m a b <> None) -> m (fst (gate k m)) (snd (gate k m)) <> None) ->
  (forall v, vertex M v -> gp (m_box m) (m_step m) (qz (m_box m) (m_step m) (pos v)) = pos v) ->
  compressAll P (qz (m_box m) (m_step m)) bary lim convex gate d0 d1 pos M fuel k = Some (ms, rs) ->
  rs <> [] -> Forall codable_round rs ->
  describes (hd no_mesh ms) (fun v => qz (m_box m) (m_step m) (pos v)) d0 d1 vl m -> writable bpv m ->
  (128 + bits_of_header (bpv (Z.of_nat (length (m_pos m)))) (m_quant m - m_nquant m) (Z.of_nat (length (m_pos m))) (m_faces m) + 32 <= 8 * Z.of_nat K)%Z ->
  exists bytes, writeCompressedData bpv junk (repeat 0%Z K) m rs = Some bytes /\ Forall is_byte bytes /\
    forall rest junk' stor N nss j, Forall is_byte rest ->
      (forall m, (forall p q, m p q <> None -> p < N /\ q < N) -> NoDup (stor m) /\ forall a b, m a b <> None -> In (a, b) (stor m)) ->
      length (m_pos m) <= N ->
      Forall2 (fun ns r => length ns = length (residual_symbols (fst r))) nss rs -> NoDup (concat nss) ->
      (forall p, In p (concat nss) -> length (m_pos m) <= p < N) -> j <= length rs ->
      exists sg M' pos' more, decodeObject P qz gp bary lim bpv junk' stor (bytes ++ rest) nss fuel j = Some (M', pos', more) /\
        (forall u v, sg u = sg v -> u = v) /\
        (forall u v, M' (sg u) (sg v) = option_map sg (nth j ms no_mesh u v)) /\
        (forall p q, M' p q <> None -> exists u v, p = sg u /\ q = sg v) /\
        (forall v, vertex (nth j ms no_mesh) v -> pos' (sg v) = pos v) /\
        (j = length rs -> more = rest /\ forall u v, M' (sg u) (sg v) = option_map sg (M u v)).
Proof.
  intros P qz gp bary lim bpv junk K convex gate d0 d1 pos M fuel k ms rs m vl W C HD GT HG E NE CR DS WR HK.
  destruct (object_levels P qz gp bary lim bpv junk K convex gate d0 d1 pos M fuel k ms rs m vl W C HD GT HG E NE CR DS WR HK) as (bytes & B1 & B2 & B3).
  destruct (compressAll_spec _ _ bary lim convex gate d0 d1 pos fuel _ GT k M ms rs (fun v Hv => Hv) W C HD E) as (S1 & S2 & S3 & S4).
  exists bytes. split; [auto|]. split; [auto|]. intros rest junk' stor N nss j H1 H2 H3 H4 H5 H6 H7.
  destruct (B3 rest junk' stor N nss j H1 H2 H3 H4 H5 H6 H7) as (sg & M' & pos' & more & D1 & D2 & D3 & D4 & D5 & D6).
  exists sg, M', pos', more. repeat (split; [assumption|]). intro Ej. split; [auto|]. intros u v. rewrite D3, Ej, (nth_last no_mesh ms _ S2), S3. auto.
Qed.
Print Assumptions levels_restored_from_bytes.

(** The same in exact arithmetic, from the mesh alone: the compression finishes, its rounds can be
    coded, and every level comes back.  [grid] are the grid positions of the vertices, which the
    compressor has moved to the centres of their cells. *)
Theorem levels_restored_exactly : forall fv box step lim convex gate d0 d1 (grid : nat -> vec) M fuel vs,
  (0 < fv step)%Q ->
  (forall k m, wf m -> (forall v, vertex m v -> vertex M v) -> (exists a b, m a b <> None) -> m (fst (gate k m)) (snd (gate k m)) <> None) ->
  wf M -> connected M -> M d0 d1 <> None -> (forall v, vertex M v -> on_grid 32768 (grid v) /\ In v vs) ->
  length vs * length vs < lim -> length vs * length vs * (length vs * length vs) + 1 < fuel ->
  exists ms rs,
    compressAll pt (qzQ fv box step) baryQ lim convex gate d0 d1 (fun v => gpQ fv box step (grid v)) M fuel (S (length vs)) = Some (ms, rs) /\
    length rs <= length vs /\ (forall a b, nth (length rs) ms no_mesh a b = M a b) /\
    forall m vl bpv junk K, rs <> [] ->
      (forall x (l : list dart), In x ms -> NoDup l -> (forall d, In d l -> x (fst d) (snd d) <> None) -> Z.of_nat (length l) < 2 ^ 28 - 1)%Z ->
      m_box m = box -> m_step m = step -> describes (hd no_mesh ms) grid d0 d1 vl m -> writable bpv m ->
      (128 + bits_of_header (bpv (Z.of_nat (length (m_pos m)))) (m_quant m - m_nquant m) (Z.of_nat (length (m_pos m))) (m_faces m) + 32 <= 8 * Z.of_nat K)%Z ->
      exists bytes, writeCompressedData bpv junk (repeat 0%Z K) m rs = Some bytes /\ Forall is_byte bytes /\
        forall rest junk' stor N nss j, Forall is_byte rest ->
          (forall m, (forall p q, m p q <> None -> p < N /\ q < N) -> NoDup (stor m) /\ forall a b, m a b <> None -> In (a, b) (stor m)) ->
          length (m_pos m) <= N ->
          Forall2 (fun ns r => length ns = length (residual_symbols (fst r))) nss rs -> NoDup (concat nss) ->
          (forall p, In p (concat nss) -> length (m_pos m) <= p < N) -> j <= length rs ->
          exists sg M' pos' more, decodeObject pt (qzQ fv) (gpQ fv) baryQ lim bpv junk' stor (bytes ++ rest) nss fuel j = Some (M', pos', more) /\
            (forall u v, sg u = sg v -> u = v) /\
            (forall u v, M' (sg u) (sg v) = option_map sg (nth j ms no_mesh u v)) /\
            (forall p q, M' p q <> None -> exists u v, p = sg u /\ q = sg v) /\
            (forall v, vertex (nth j ms no_mesh) v -> pos' (sg v) = gpQ fv box step (grid v)) /\
            (j = length rs -> more = rest).
Proof.
  intros fv box step lim convex gate d0 d1 grid M fuel vs Hs GT W C HD HV HL HF.
  destruct (compression_always_finishes pt (qzQ fv box step) baryQ lim convex gate d0 d1 (fun v => gpQ fv box step (grid v)) M fuel vs GT W C HD
    ltac:(intros p q Hp; apply HV; exists q; auto) HL HF) as (ms & rs & E & L1 & L2 & L3 & L4).
  assert (VC := vcount_le vs M).
  destruct (compressAll_spec _ _ _ lim convex gate d0 d1 _ fuel _ GT _ M ms rs (fun v Hv => Hv) W C HD E) as (S1 & _ & _ & _).
  assert (FX : forall v, vertex M v -> qzQ fv box step (gpQ fv box step (grid v)) = grid v) by (intros v Hv; apply (grid_fixed fv box step 32768); [auto|apply HV; auto]).
  exists ms, rs. split; [auto|]. split; [lia|]. split.
  { intros a b. rewrite (nth_last no_mesh ms _ L1). auto. }
  intros m vl bpv junk K NE HS EB ES DS WR HK. subst box step.
  assert (CR : Forall codable_round rs).
  { eapply steps_codable; [exact Hs|exact S1| |].
    - intros x v Hx Hv. destruct (L4 x Hx) as (_ & _ & _ & V). apply HV. auto.
    - intros x l Hx ND Hd. specialize (HS x l Hx ND Hd). change (2 ^ 28)%Z with 268435456%Z in HS. change (2 ^ 32)%Z with 4294967296%Z. lia. }
  assert (Hhd : In (hd no_mesh ms) ms) by (destruct ms; [discriminate L1|left; auto]).
  eapply object_levels with (vl := vl); [exact W|exact C|exact HD|exact GT| |exact E|exact NE|exact CR| |exact WR|exact HK].
  - intros v Hv. cbv beta. rewrite FX; auto.
  - destruct DS as (D1 & D2 & D3 & D4 & D5 & D6). split; [auto|]. split; [auto|]. split; [|auto]. rewrite D3. apply map_ext_in. intros v Hv. symmetry. apply FX.
    destruct (L4 _ Hhd) as (_ & _ & _ & V). apply V. apply D2. auto.
Qed.
Print Assumptions levels_restored_exactly.

(** The cut cube: its coarsest level as it is written, and the bytes decoded to each level. *)
Definition cube_base : base := Base (0, 0, 0)%Z 1065353216%Z 3%Z 3%Z 0%Z 0%Z [(0, 0, 0); (4, 0, 0); (0, 0, 4)]%Z (0, 1) [[0; 1; 2]; [0; 2; 1]].
Lemma vertex_lt M n : (forall p q, M p q <> None -> p < n) -> forall m : mesh, (forall v, vertex m v -> vertex M v) -> forall a b, m a b <> None -> a < n.
Proof. intros H m V a b K. destruct (V a) as (w & Hw); [exists b; auto|]. eapply H; eauto. Qed.
Lemma cube_lt : forall p q, of_faces cut_cube p q <> None -> p < 8.
Proof.
  intros p q H. destruct round_always_finishes_nonvacuous as (_ & K & _). specialize (K p q H). apply in_seq in K. lia.
Qed.
Lemma edge_list_in (m : mesh) n a b : m a b <> None -> a < n -> b < n -> In ((a, b), m a b) (edge_list m n).
Proof.
  intros H A B. unfold edge_list. apply in_map_iff. exists (a, b). split; [auto|]. apply filter_In. split; [apply in_prod; apply in_seq; lia|].
  cbn [fst snd]. destruct (m a b); [auto|congruence].
Qed.
(** a gate as the theorems ask for *)
Example cube_gate : forall k m, wf m -> (forall v, vertex m v -> vertex (of_faces cut_cube) v) -> (exists a b, m a b <> None) ->
  m (fst (first_gate 8 k m)) (snd (first_gate 8 k m)) <> None.
Proof.
  intros k m W V (a & b & H). assert (L := vertex_lt _ 8 cube_lt m V).
  assert (I := edge_list_in m 8 a b H (L a b H) (L b a (wf_sym m W _ _ H))).
  unfold first_gate. destruct (rev (map fst (edge_list m 8))) as [|d l] eqn:E.
  - apply (f_equal (@length _)) in E. rewrite rev_length, map_length in E. destruct (edge_list m 8); [destruct I|discriminate].
  - assert (J : In d (map fst (edge_list m 8))) by (apply in_rev; rewrite E; left; auto).
    apply in_map_iff in J. destruct J as (x & <- & J). unfold edge_list in J. apply in_map_iff in J. destruct J as (y & <- & J). apply filter_In in J. destruct J as [_ J]. cbn [fst].
    destruct (m (fst y) (snd y)); [discriminate|discriminate J].
Qed.

Lemma cube_described ms rs :
  cube_all = Some (ms, rs) ->
  edge_list (hd no_mesh ms) 8 = edge_list (of_faces [[0; 1; 4]; [0; 4; 1]]) 8 -> describes (hd no_mesh ms) cube_pos 0 1 [0; 1; 4] cube_base.
Proof.
    intros E T.
    destruct cut_cube_good as (_ & W & C & _).
    destruct (compressAll_spec _ _ _ _ _ _ 0 1 _ _ _ cube_gate _ _ ms rs (fun v Hv => Hv) W C ltac:(vm_compute; discriminate) E) as (_ & L & _ & S4).
    assert (Hhd : In (hd no_mesh ms) ms) by (destruct ms; [discriminate L|left; auto]).
    destruct (S4 _ Hhd) as (WY & _ & _ & VY). clear S4 Hhd L E. set (y := hd no_mesh ms) in *. clearbody y.
    assert (LY : forall a b, y a b <> None -> a < 8) by (apply (vertex_lt _ 8 cube_lt); auto).
    set (t := of_faces [[0; 1; 4]; [0; 4; 1]]) in *.
    assert (EQ : forall u v, y u v = t u v).
    { assert (D : forall u v, u < 8 -> v < 8 -> y u v = t u v).
      { intros u v Hu Hv. assert (OI : forall m m' : mesh, edge_list m 8 = edge_list m' 8 -> m u v <> None -> m u v = m' u v).
        { intros m m' Em Hm. assert (I := edge_list_in m 8 u v Hm Hu Hv). rewrite Em in I. unfold edge_list in I. apply in_map_iff in I. destruct I as (d & Ed & _). injection Ed as E1 E2. subst d. cbn [fst snd] in E2. auto. }
        destruct (y u v) eqn:E1; [rewrite <- E1; apply OI; [auto|congruence]|]. destruct (t u v) eqn:E2; [|auto]. rewrite <- E1, <- E2. symmetry. apply OI; [auto|congruence]. }
      intros u v. destruct (Nat.lt_ge_cases u 8) as [Hu|Hu]; [destruct (Nat.lt_ge_cases v 8) as [Hv|Hv]; [auto|]|].
      - assert (y u v = None). { destruct (y u v) eqn:K; [|auto]. exfalso. assert (K2 : y v u <> None) by (apply (wf_sym y WY); congruence). apply LY in K2. lia. }
        rewrite H. symmetry. do 8 (destruct v as [|v]; [lia|]). unfold t, of_faces. cbn. rewrite ?andb_false_r. auto.
      - assert (y u v = None). { destruct (y u v) eqn:K; [|auto]. exfalso. assert (K2 : y u v <> None) by congruence. apply LY in K2. lia. }
        rewrite H. symmetry. do 8 (destruct u as [|u]; [lia|]). unfold t, of_faces. cbn. auto. }
    split; [repeat constructor; cbn; lia|]. split; [|repeat (split; [reflexivity|]); exact EQ].
    intro v. split.
    + intro I. cbn [In] in I. destruct I as [<-|[<-|[<-|[]]]].
      * exists 1. rewrite EQ. vm_compute. discriminate.
      * exists 4. rewrite EQ. vm_compute. discriminate.
      * exists 0. rewrite EQ. vm_compute. discriminate.
    + intros (w & Hw). rewrite EQ in Hw. apply of_faces_in in Hw. cbn in Hw. cbn [In]. clear - Hw.
      repeat (destruct Hw as [Hw|Hw]; [injection Hw as <- _; auto|]). destruct Hw.
Qed.
Example cube_base_written : writable Z.log2_up cube_base /\
  exists ms rs, cube_all = Some (ms, rs) /\ describes (hd no_mesh ms) cube_pos 0 1 [0; 1; 4] cube_base.
Proof.
  split.
  - unfold writable, cube_base. cbn [m_box m_step m_quant m_rounds m_nquant m_notconvex m_pos m_dep m_faces length fst snd].
    split; [repeat constructor; try lia; reflexivity|].
    split; [lia|]. split; [lia|]. split; [lia|]. split; [lia|]. split; [reflexivity|]. split; [reflexivity|].
    split; [lia|]. split; [lia|]. split; [discriminate|].
    split; [change (2 ^ (3 - 0))%Z with 8%Z; repeat constructor; lia|].
    split; [repeat constructor; cbn [length]; lia|].
    split; [vm_compute; split; discriminate|vm_compute; discriminate].
  - destruct compression_always_finishes_nonvacuous as [S T]. destruct (some_ex _ S) as ([ms rs] & E). apply (some_get _ _ _ E) in T.
    exists ms, rs. split; [exact E|]. apply (cube_described ms rs E). destruct T as (_ & _ & _ & _ & T). cbn [fst] in T. rewrite T. vm_compute. reflexivity.
Qed.

Example levels_restored_nonvacuous :
  match writeCompressedData Z.log2_up (fun _ => 77%Z) (repeat 0%Z 60) cube_base cube_rounds with
  | Some bytes =>
    map (fun j => match decodeObject pt (qzQ ex_fv) (gpQ ex_fv) baryQ 100 Z.log2_up (fun _ => 5%Z) (fun m => map fst (edge_list m 9))
                          (bytes ++ [200; 1]%Z) [[8]; [3]; [7; 5; 6]] 5000 j with
                  | Some (M', pos', more) => (length (edge_list M' 9), map (fun v => qzQ ex_fv (0, 0, 0)%Z 1065353216%Z (pos' v)) (map (fun d => fst (fst d)) (firstn 1 (rev (edge_list M' 9)))))
                  | None => (0, []) end) [0; 1; 2; 3]
      = [(6, [(0, 0, 4)%Z]); (12, [(4, 4, 4)%Z]); (16, [(4, 4, 4)%Z]); (26, [(4, 4, 4)%Z])] /\
    match decodeObject pt (qzQ ex_fv) (gpQ ex_fv) baryQ 100 Z.log2_up (fun _ => 5%Z) (fun m => map fst (edge_list m 9)) (bytes ++ [200; 1]%Z) [[8]; [3]; [7; 5; 6]] 5000 3 with
    | Some (_, _, more) => more = [200; 1]%Z | None => False end
  | None => False
  end.
Proof. vm_compute. split; reflexivity. Qed.

(** The theorem applied to the cut cube. *)
Example levels_restored_exactly_applies : exists bytes,
  writeCompressedData Z.log2_up (fun _ => 77%Z) (repeat 0%Z 60) cube_base cube_rounds = Some bytes /\
  forall rest, Forall is_byte rest -> exists sg M' pos',
    decodeObject pt (qzQ ex_fv) (gpQ ex_fv) baryQ 100 Z.log2_up (fun _ => 5%Z) (fun _ => list_prod (seq 0 9) (seq 0 9)) (bytes ++ rest) [[8]; [3]; [7; 5; 6]] 5000 3 = Some (M', pos', rest) /\
    (forall u v, sg u = sg v -> u = v) /\ (forall u v, M' (sg u) (sg v) = option_map sg (of_faces cut_cube u v)) /\
    (forall v, v < 8 -> pos' (sg v) = ex_pos v).
Proof.
  destruct cut_cube_good as (_ & W & C & _). destruct grid_rounds_codable_nonvacuous as (FV & GR & _). destruct cube_base_written as [WR DS].
  destruct (levels_restored_exactly ex_fv (0, 0, 0)%Z 1065353216%Z 100 (fun _ _ _ => true) (first_gate 8) 0 1 cube_pos (of_faces cut_cube) 5000 (seq 0 8)
    FV cube_gate W C) as (ms & rs & E & _ & EM & D).
  - vm_compute. discriminate.
  - intros v (w & Hw). split; [auto|]. apply in_seq. apply cube_lt in Hw. lia.
  - cbn. lia.
  - rewrite seq_length. lia.
  - destruct compression_always_finishes_nonvacuous as [_ T]. apply (some_get _ _ _ E) in T. cbn [fst snd] in T. destruct T as (-> & T & _).
    destruct DS as (ms' & rs' & E' & DS). assert (X : Some (ms, cube_rounds) = Some (ms', rs')) by (rewrite <- E, <- E'; reflexivity). injection X as <- <-.
    destruct (compressAll_spec _ _ _ _ _ _ 0 1 _ _ _ cube_gate _ _ ms cube_rounds (fun v Hv => Hv) W C ltac:(vm_compute; discriminate) E) as (_ & _ & _ & S4).
    destruct (D cube_base [0; 1; 4] Z.log2_up (fun _ => 77%Z) 60) as (bytes & B1 & _ & B3); [discriminate| |reflexivity|reflexivity|exact DS|exact WR|vm_compute; discriminate|].
    { intros x l Hx ND Hl. destruct (S4 x Hx) as (WX & _ & _ & VX). assert (LX := vertex_lt _ 8 cube_lt x VX).
      assert (B : length l <= length (list_prod (seq 0 8) (seq 0 8))).
      { apply NoDup_incl_length; [auto|]. intros [a b] Hd. specialize (Hl _ Hd). cbn [fst snd] in Hl. apply in_prod; apply in_seq; [apply LX in Hl; lia|]. apply (wf_sym x WX), LX in Hl. lia. }
      rewrite prod_length, !seq_length in B. change (2 ^ 28)%Z with 268435456%Z. change (length l <= 64) in B. lia. }
    exists bytes. split; [auto|]. intros rest HR.
    destruct (B3 rest (fun _ => 5%Z) (fun _ => list_prod (seq 0 9) (seq 0 9)) 9 [[8]; [3]; [7; 5; 6]] 3 HR) as (sg & M' & pos' & more & D1 & D2 & D3 & _ & D5 & D6).
    + intros m Hm. split.
      * assert (N : nodup dart_dec (list_prod (seq 0 9) (seq 0 9)) = list_prod (seq 0 9) (seq 0 9)) by (vm_compute; reflexivity). rewrite <- N. apply NoDup_nodup.
      * intros a b H. apply in_prod; apply in_seq; destruct (Hm a b H); lia.
    + cbn. lia.
    + repeat constructor.
    + repeat constructor; cbn; lia.
    + intros p Hp. cbn in Hp. cbn. lia.
    + cbn. lia.
    + exists sg, M', pos'. rewrite (D6 eq_refl) in D1. split; [auto|]. split; [auto|]. change (length cube_rounds) with 3 in EM. split.
      * intros u v. rewrite D3, EM. auto.
      * intros v Hv. apply D5. exists (nth v [1; 0; 0; 0; 0; 1; 2; 3] 0). rewrite EM.
        do 8 (destruct v as [|v]; [vm_compute; discriminate|]). lia.
Qed.
