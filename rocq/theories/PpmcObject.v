(** A whole object: all rounds, base mesh and bytes. *)
From Coq Require Import List ZArith Bool Arith Lia.
From Verif Require Import Arr RangeCoderModel RangeCoderProofs QsModel CodecModel CodecProofs BitsModel BitsProofs BaseProofs ObjectModel
  PpmcModel PpmcTopo PpmcRound PpmcCheck PpmcTot PpmcRen PpmcLevels PpmcLevelsProofs PropPpmc.
Import ListNotations.
Close Scope Z_scope.
Open Scope nat_scope.

Definition no_mesh : mesh := fun _ _ => None.

Section All.
  Variables (P : Type) (qz : P -> vec) (bary : list P -> P) (lim : nat) (convex : nat -> mesh -> nat -> bool) (gate : nat -> mesh -> dart).
  Variables (d0 d1 : nat) (pos : nat -> P) (fuel : nat).
  Variable V : nat -> Prop.
  Hypothesis GT : forall k m, wf m -> (forall v, vertex m v -> V v) -> (exists a b, m a b <> None) -> m (fst (gate k m)) (snd (gate k m)) <> None.

  Lemma compressAll_spec : forall k M ms rs, (forall v, vertex M v -> V v) -> wf M -> connected M -> M d0 d1 <> None ->
    compressAll P qz bary lim convex gate d0 d1 pos M fuel k = Some (ms, rs) ->
    steps P qz bary lim d0 d1 pos fuel ms rs /\ length ms = S (length rs) /\ (forall a b, last ms no_mesh a b = M a b) /\
    (forall m, In m ms -> wf m /\ connected m /\ m d0 d1 <> None /\ forall v, vertex m v -> vertex M v).
  Proof.
    induction k as [|k IH]; intros M ms rs HVV W C HD H; cbn [compressAll] in H; [discriminate|].
    assert (Hg : M (fst (gate (S k) M)) (snd (gate (S k) M)) <> None) by (apply GT; eauto).
    destruct (compressRound P qz bary lim (convex (S k)) d0 d1 pos M (gate (S k) M) fuel) as [[x r]|] eqn:E; cbn [bind] in H; [|discriminate].
    destruct (round_keeps_mesh_closed P qz bary lim _ d0 d1 pos M _ fuel x r W C Hg E) as (WX & CX & VX).
    destruct (round_removes_independent_vertices P qz bary lim _ d0 d1 pos M _ fuel x r W C Hg E) as [_ DX].
    destruct r as [r|].
    - destruct (compressAll _ _ _ _ _ _ _ _ _ x fuel k) as [[ms' rs']|] eqn:E2; cbn [bind] in H; [|discriminate]. injection H as <- <-.
      destruct (IH x ms' rs' (fun v Kv => HVV v (VX v Kv)) WX CX (DX HD) E2) as (S1 & S2 & S3 & S4). split; [|split; [|split]].
      + apply (steps_snoc P qz bary lim d0 d1 pos fuel no_mesh); [auto|]. exists x. split; [|auto]. split; [auto|]. split; [auto|]. eauto.
      + rewrite !app_length. cbn [length]. lia.
      + intros a b. rewrite last_last. auto.
      + intros m Hm. apply in_app_or in Hm. destruct Hm as [Hm|[<-|[]]]; [|auto]. destruct (S4 m Hm) as (A1 & A2 & A3 & A4). split; [auto|]. split; [auto|]. split; auto.
    - injection H as <- <-. cbn [steps length last]. split; [auto|]. split; [auto|]. split.
      + eapply round_without_removal_changes_nothing; eauto.
      + intros m [<-|[]]. auto.
  Qed.

  (** how many of [vs] are vertices *)
  Definition vcount (vs : list nat) (m : mesh) : nat := length (filter (fun v => existsb (fun w => is_some (m v w)) vs) vs).
  Lemma vcount_less vs m x : (forall p q, m p q <> None -> In p vs /\ In q vs) -> (forall v, vertex x v -> vertex m v) -> (exists v, vertex m v /\ ~ vertex x v) ->
    vcount vs x < vcount vs m.
  Proof.
    intros B S (v & Hv & Nv). unfold vcount.
    assert (V1 : forall u, existsb (fun w => is_some (x u w)) vs = true -> existsb (fun w => is_some (m u w)) vs = true).
    { intros u K. apply existsb_exists in K. destruct K as (w & _ & K). destruct (S u) as (w' & K'); [exists w; destruct (x u w); [discriminate|discriminate K]|].
      apply existsb_exists. exists w'. split; [apply (B _ _ K')|]. destruct (m u w'); [auto|congruence]. }
    destruct Hv as (w & Hw). destruct (B _ _ Hw) as [Iv Iw].
    assert (V2 : existsb (fun w => is_some (m v w)) vs = true) by (apply existsb_exists; exists w; split; [auto|]; destruct (m v w); [auto|congruence]).
    assert (V3 : existsb (fun w => is_some (x v w)) vs = false).
    { destruct (existsb (fun w => is_some (x v w)) vs) eqn:K; [|auto]. exfalso. apply Nv. apply existsb_exists in K. destruct K as (w' & _ & K). exists w'. destruct (x v w'); [discriminate|discriminate K]. }
    clear - V1 V2 V3 Iv.
    assert (G : forall l, length (filter (fun u => existsb (fun w => is_some (x u w)) vs) l) <= length (filter (fun u => existsb (fun w => is_some (m u w)) vs) l)).
    { induction l as [|u l IH]; cbn [filter]; [auto|]. specialize (V1 u). destruct (existsb (fun w => is_some (x u w)) vs); [rewrite (V1 eq_refl); cbn [length]; lia|].
      destruct (existsb (fun w => is_some (m u w)) vs); cbn [length]; lia. }
    assert (G2 : forall l, In v l -> length (filter (fun u => existsb (fun w => is_some (x u w)) vs) l) < length (filter (fun u => existsb (fun w => is_some (m u w)) vs) l)).
    { induction l as [|u l IH]; intro I; [destruct I|]. cbn [filter]. destruct I as [->|I].
      - rewrite V2, V3. cbn [length]. specialize (G l). lia.
      - specialize (IH I). specialize (V1 u). destruct (existsb (fun w => is_some (x u w)) vs); [rewrite (V1 eq_refl); cbn [length]; lia|].
        destruct (existsb (fun w => is_some (m u w)) vs); cbn [length]; lia. }
    apply G2. auto.
  Qed.

  Lemma compressAll_total vs : length vs * length vs < lim -> length vs * length vs * (length vs * length vs) + 1 < fuel ->
    forall k M, (forall v, vertex M v -> V v) -> wf M -> connected M -> M d0 d1 <> None -> (forall p q, M p q <> None -> In p vs) -> vcount vs M < k ->
    exists ms rs, compressAll P qz bary lim convex gate d0 d1 pos M fuel k = Some (ms, rs) /\ length rs + vcount vs (hd no_mesh ms) <= vcount vs M.
  Proof.
    intros HL HF. induction k as [|k IH]; intros M HVV W C HD HV HK; [lia|]. cbn [compressAll].
    assert (Hg : M (fst (gate (S k) M)) (snd (gate (S k) M)) <> None) by (apply GT; eauto).
    destruct (round_total P qz bary lim (convex (S k)) d0 d1 pos M (gate (S k) M) fuel vs W C Hg HD HV HL HF) as (x & r & E & PR). rewrite E. cbn [bind].
    destruct (round_keeps_mesh_closed P qz bary lim _ d0 d1 pos M _ fuel x r W C Hg E) as (WX & CX & VX).
    destruct (round_removes_independent_vertices P qz bary lim _ d0 d1 pos M _ fuel x r W C Hg E) as [_ DX].
    destruct r as [r|].
    - assert (LT : vcount vs x < vcount vs M).
      { apply vcount_less; [|auto|apply PR; discriminate]. intros p q K. split; [eapply HV; eauto|]. apply (HV q p). apply (wf_sym M W). auto. }
      destruct (IH x (fun v Kv => HVV v (VX v Kv)) WX CX (DX HD)) as (ms & rs & E2 & L2); [|lia|].
      { intros p q K. destruct (VX p) as (q' & K'); [exists q; auto|]. eapply HV; eauto. }
      rewrite E2. cbn [bind]. exists (ms ++ [M]), (rs ++ [r]). split; [auto|]. rewrite app_length. cbn [length].
      assert (N : ms <> []). { intro K. subst ms. destruct (compressAll_spec _ _ _ _ (fun v Kv => HVV v (VX v Kv)) WX CX (DX HD) E2) as (_ & K & _). discriminate K. }
      destruct ms as [|y ms]; [congruence|]. cbn [app hd] in *. lia.
    - exists [x], []. split; [auto|]. cbn [length hd].
      assert (EQ := round_without_removal_changes_nothing P qz bary lim _ d0 d1 pos M _ fuel x W C Hg E).
      replace (vcount vs x) with (vcount vs M); [auto|]. unfold vcount. f_equal. apply filter_ext. intro v. clear - EQ. induction vs as [|w l IH]; cbn [existsb]; [auto|]. rewrite EQ, IH. auto.
  Qed.
End All.

(** ** The base mesh *)
(** [m] describes the mesh [y]: [vl] are its vertices in the order of the iterator, with the grid
    positions [gpos]; the facets are those of [y], given by the numbers of their vertices. *)
Definition describes (y : mesh) (gpos : nat -> vec) (d0 d1 : nat) (vl : list nat) (m : base) : Prop :=
  NoDup vl /\ (forall v, In v vl <-> vertex y v) /\ m_pos m = map gpos vl /\
  nth_error vl (fst (m_dep m)) = Some d0 /\ nth_error vl (snd (m_dep m)) = Some d1 /\
  forall u v, y u v = of_faces (map (map (fun i => nth i vl 0)) (m_faces m)) u v.

Lemma triples_map (f : nat -> nat) : forall l, triples (map f l) = map (fun c => (f (fst (fst c)), f (snd (fst c)), f (snd c))) (triples l).
Proof.
  induction l as [|a l IH]; [auto|]. destruct l as [|b l]; [auto|]. destruct l as [|c l]; [auto|].
  cbn [map triples fst snd] in *. rewrite IH. auto.
Qed.
Lemma corners_map (f : nat -> nat) l : corners (map f l) = map (fun c => (f (fst (fst c)), f (snd (fst c)), f (snd c))) (corners l).
Proof. unfold corners. rewrite firstn_map, <- map_app. apply triples_map. Qed.

Lemma of_faces_ren sg tu fs : (forall v, tu (sg v) = v) -> ren sg tu (of_faces fs) (of_faces (map (map sg) fs)).
Proof.
  intro TS. set (g := fun c : nat * nat * nat => (sg (fst (fst c)), sg (snd (fst c)), sg (snd c))).
  assert (EC : flat_map corners (map (map sg) fs) = map g (flat_map corners fs)).
  { induction fs as [|f fs IH]; cbn [map flat_map]; [auto|]. rewrite IH, map_app, corners_map. auto. }
  constructor.
  - intros u v. unfold of_faces. rewrite EC. generalize (flat_map corners fs) as cs. induction cs as [|c cs IH]; cbn [map find]; [auto|].
    unfold g at 1 2. cbn [fst snd]. rewrite !(sg_eqb sg tu TS). destruct (_ && _); [|exact IH]. auto.
  - intros p q. unfold of_faces. rewrite EC. destruct (find _ (map g (flat_map corners fs))) as [c|] eqn:E; [|congruence]. intros _.
    apply find_some in E. destruct E as [E1 E2]. apply in_map_iff in E1. destruct E1 as (c0 & <- & _). unfold g in E2. cbn [fst snd] in E2.
    apply andb_true_iff in E2. destruct E2 as [E2 E3]. apply Nat.eqb_eq in E2, E3. subst. split; apply im_sg; auto.
Qed.

Fixpoint idx (v : nat) (l : list nat) : option nat :=
  match l with [] => None | x :: r => if x =? v then Some 0 else match idx v r with Some i => Some (S i) | None => None end end.
Lemma idx_some v : forall l i, idx v l = Some i -> nth_error l i = Some v.
Proof.
  induction l as [|x l IH]; intros i H; cbn [idx] in H; [discriminate|]. destruct (Nat.eqb_spec x v) as [->|]; [injection H as <-; auto|].
  destruct (idx v l) as [j|]; [|discriminate]. injection H as <-. cbn [nth_error]. auto.
Qed.
Lemma idx_in v : forall l, In v l -> exists i, idx v l = Some i.
Proof.
  induction l as [|x l IH]; intro H; [destruct H|]. cbn [idx]. destruct (Nat.eqb_spec x v); [eauto|]. destruct H as [H|H]; [congruence|].
  destruct (IH H) as [i E]. rewrite E. eauto.
Qed.
Lemma idx_nth l i v : NoDup l -> nth_error l i = Some v -> idx v l = Some i.
Proof.
  intros N H. destruct (idx_in v l (nth_error_In _ _ H)) as [j E]. rewrite E. f_equal. assert (K := idx_some _ _ _ E).
  apply (proj1 (NoDup_nth_error l) N); [|congruence]. apply nth_error_Some. congruence.
Qed.

Lemma base_shows P (gp : vec -> P) pos y gpos d0 d1 vl m r N bpv : wf y -> describes y gpos d0 d1 vl m -> writable bpv m -> same_object m r ->
  (forall v, vertex y v -> gp (gpos v) = pos v) -> length (m_pos m) <= N ->
  exists sg tu, sg d0 = 0 /\ sg d1 = 1 /\
    shows P pos N sg tu y (of_faces (base_faces r)) (fun i => gp (nth i (r_pos r) (0, 0, 0)%Z)).
Proof.
  intros W (NV & IV & EP & D0 & D1 & EY) WR (_ & _ & _ & _ & _ & _ & _ & rn & R1 & R2 & R3 & R4 & R5) HG HN.
  assert (LV : length vl = length (m_pos m)) by (rewrite EP, map_length; auto).
  set (n := length (m_pos m)) in *.
  set (sg := fun v => match idx v vl with Some i => rn i | None => n + v end).
  set (tu := fun p => if p <? n then match find (fun v => sg v =? p) vl with Some v => v | None => 0 end else p - n).
  assert (SN : forall i v, nth_error vl i = Some v -> sg v = rn i).
  { intros i v H. unfold sg. rewrite (idx_nth vl i v NV H). auto. }
  assert (SV : forall v, In v vl -> exists i, nth_error vl i = Some v /\ i < n /\ sg v = rn i /\ sg v < n).
  { intros v Hv. destruct (In_nth_error _ _ Hv) as [i Hi]. exists i. assert (L : i < n) by (rewrite <- LV; apply nth_error_Some; congruence).
    split; [auto|]. split; [auto|]. rewrite (SN i v Hi). split; [auto|]. apply R1. auto. }
  assert (TS : forall v, tu (sg v) = v).
  { intro v. unfold tu. destruct (in_dec Nat.eq_dec v vl) as [I|I].
    - destruct (SV v I) as (i & E1 & L & E2 & L2). destruct (Nat.ltb_spec (sg v) n); [|lia].
      destruct (find (fun v0 => sg v0 =? sg v) vl) as [v'|] eqn:F.
      + apply find_some in F. destruct F as [F1 F2]. apply Nat.eqb_eq in F2. destruct (SV v' F1) as (i' & E1' & L' & E2' & _).
        assert (i' = i) by (apply R2; auto; congruence). subst i'. congruence.
      + exfalso. apply (find_none _ _ F) in I. rewrite Nat.eqb_refl in I. discriminate.
    - assert (E : sg v = n + v). { unfold sg. destruct (idx v vl) as [i|] eqn:K; [|auto]. exfalso. apply I. eapply nth_error_In. eapply idx_some; eauto. }
      rewrite E. destruct (Nat.ltb_spec (n + v) n); lia. }
  assert (BF : base_faces r = map (map sg) (map (map (fun i => nth i vl 0)) (m_faces m))).
  { unfold base_faces. rewrite R5, !map_map. apply map_ext_in. intros f Hf. cbn [tl]. rewrite !map_map. apply map_ext_in. intros i Hi.
    rewrite Nat2Z.id. unfold writable in WR. destruct (m_box m) as [[? ?] ?]. destruct WR as (_ & _ & _ & _ & _ & _ & _ & _ & _ & _ & _ & WF & _).
    rewrite Forall_forall in WF. destruct (WF f Hf) as [_ WF']. rewrite Forall_forall in WF'. specialize (WF' i Hi).
    symmetry. apply SN. apply nth_error_nth'. rewrite LV. auto. }
  assert (R : ren sg tu y (of_faces (base_faces r))).
  { rewrite BF. destruct (of_faces_ren sg tu (map (map (fun i => nth i vl 0)) (m_faces m)) TS) as [A B]. constructor; [|auto]. intros u v. rewrite A, EY. auto. }
  exists sg, tu. split; [rewrite (SN _ _ D0); auto|]. split; [rewrite (SN _ _ D1); auto|]. split; [exact TS|]. split; [exact R|]. split.
  - intros v Hv. destruct (SV v (proj2 (IV v) Hv)) as (i & E1 & L & E2 & L2). rewrite <- (HG v Hv). f_equal. destruct (R1 i L) as [_ E3].
    rewrite E2. apply nth_error_nth. rewrite E3, EP. apply map_nth_error. auto.
  - intros p q K. destruct (rn_im _ _ _ _ R p q K) as [I1 I2]. unfold im in *. rewrite <- I1, <- I2, (rn_at _ _ _ _ R) in K.
    assert (K' : y (tu p) (tu q) <> None) by (destruct (y (tu p) (tu q)); [discriminate|auto]).
    destruct (SV (tu p)) as (_ & _ & _ & _ & L1); [apply IV; exists (tu q); auto|]. destruct (SV (tu q)) as (_ & _ & _ & _ & L2); [apply IV; exists (tu p); apply (wf_sym y W); auto|].
    rewrite I1 in L1. rewrite I2 in L2. lia.
Qed.

Lemma hd_in {A} (d : A) l n : length l = S n -> In (hd d l) l.
Proof. destruct l; [discriminate|left; auto]. Qed.

Lemma object_levels (P : Type) (qz : Z * Z * Z -> Z -> P -> vec) (gp : Z * Z * Z -> Z -> vec -> P) (bary : list P -> P) lim bpv junk K convex gate d0 d1 (pos : nat -> P) M fuel k ms rs m vl :
  wf M -> connected M -> M d0 d1 <> None ->
  (forall k m, wf m -> (forall v, vertex m v -> vertex M v) -> (exists a b, m a b <> None) -> m (fst (gate k m)) (snd (gate k m)) <> None) ->
  (forall v, vertex M v -> gp (m_box m) (m_step m) (qz (m_box m) (m_step m) (pos v)) = pos v) ->
  compressAll P (qz (m_box m) (m_step m)) bary lim convex gate d0 d1 pos M fuel k = Some (ms, rs) ->
  rs <> [] -> Forall codable_round rs ->
  describes (hd no_mesh ms) (fun v => qz (m_box m) (m_step m) (pos v)) d0 d1 vl m -> writable bpv m ->
  (128 + bits_of_header (bpv (Z.of_nat (length (m_pos m)))) (m_quant m - m_nquant m) (Z.of_nat (length (m_pos m))) (m_faces m) + 32 <= 8 * Z.of_nat K)%Z ->
  exists bytes, writeCompressedData bpv junk (repeat 0%Z K) m rs = Some bytes /\ Forall is_byte bytes /\
    forall rest junk' stor N nss j, Forall is_byte rest ->
      (forall m, (forall p q, m p q <> None -> p < N /\ q < N) -> NoDup (stor m) /\ forall a b, m a b <> None -> In (a, b) (stor m)) ->
      length (m_pos m) <= N ->
      Forall2 (fun ns r => length ns = length (residual_symbols (fst r))) nss rs -> NoDup (concat nss) ->
      (forall p, In p (concat nss) -> length (m_pos m) <= p < N) -> j <= length rs ->
      exists sg M' pos' more, decodeObject P qz gp bary lim bpv junk' stor (bytes ++ rest) nss fuel j = Some (M', pos', more) /\
        (forall u v, sg u = sg v -> u = v) /\
        (forall u v, M' (sg u) (sg v) = option_map sg (nth j ms no_mesh u v)) /\
        (forall p q, M' p q <> None -> exists u v, p = sg u /\ q = sg v) /\
        (forall v, vertex (nth j ms no_mesh) v -> pos' (sg v) = pos v) /\
        (j = length rs -> more = rest).
Proof.
  intros W C HD GT HG E NE CR DS WR HK. set (q := qz (m_box m) (m_step m)) in *. set (g := gp (m_box m) (m_step m)) in *.
  destruct (compressAll_spec P q bary lim convex gate d0 d1 pos fuel (vertex M) GT k M ms rs (fun v Hv => Hv) W C HD E) as (S1 & S2 & S3 & S4).
  destruct (header_round_trip bpv m K WR HK) as (h & EH & BH & DH).
  assert (HW : forall m0, In m0 ms -> wf m0 /\ (forall v, vertex m0 v -> g (q (pos v)) = pos v)).
  { intros m0 Hm. destruct (S4 m0 Hm) as (A1 & _ & _ & A4). split; [auto|]. intros v Hv. apply HG. auto. }
  assert (Hhd := hd_in no_mesh ms _ S2). destruct (HW _ Hhd) as [WY GY].
  destruct (decode_levels P q g bary lim d0 d1 pos fuel (fun _ => []) 0 ltac:(intros m0 Hm0; split; [constructor|]; intros a b K0; destruct (Hm0 a b K0); lia) junk rs ms S1 HW CR h) as (body & EB & BB & LB & _).
  exists (h ++ body). split; [unfold writeCompressedData; rewrite EH; cbn [bind]; auto|]. split; [rewrite Forall_app; auto|].
  intros rest junk' stor N nss j HR HST HN FN ND FR Hj.
  destruct (decode_levels P q g bary lim d0 d1 pos fuel stor N HST junk rs ms S1 HW CR h) as (body' & EB' & _ & _ & DL).
  assert (body' = body) by (rewrite EB in EB'; injection EB' as K0; apply app_inv_head in K0; auto). subst body'.
  destruct (DH (body ++ rest)) as (r & ER & SO).
  { rewrite Forall_app. auto. }
  { rewrite app_length. destruct rs; [congruence|]. cbn [length] in LB. lia. }
  destruct (base_shows P g pos (hd no_mesh ms) (fun v => q (pos v)) d0 d1 vl m r N bpv WY DS WR SO GY HN) as (sg & tu & Z0 & Z1 & SH).
  assert (SO' := SO). destruct SO' as (EBx & EST & _).
  destruct (DL junk' rest nss sg tu _ _ j SH FN ND) as (sg' & tu' & M1 & pos1 & more & ED & (T1 & [T2 T3] & T4 & T5) & MR); [|auto|].
  { intros p Hp. split; [apply (FR p Hp)|]. intros (q0 & Hq).
    assert (LE : length (m_pos m) <= length (m_pos m)) by auto.
    destruct (base_shows P g pos (hd no_mesh ms) (fun v => q (pos v)) d0 d1 vl m r _ bpv WY DS WR SO GY LE) as (_ & _ & _ & _ & (_ & _ & _ & B0)).
    destruct (B0 p q0 Hq). specialize (FR p Hp). lia. }
  exists sg', M1, pos1, more. unfold decodeObject. rewrite <- app_assoc, ER. cbn [bind]. rewrite EBx, EST. fold q g.
  rewrite Nat2Z.id, skipn_app, skipn_all, Nat.sub_diag. cbn [app skipn]. rewrite Z0, Z1 in ED.
  split; [exact ED|]. split; [intros u v K0; rewrite <- (T1 u), <- (T1 v), K0; auto|]. split; [exact T2|]. split.
  { intros p q0 K0. destruct (T3 p q0 K0) as [I1 I2]. unfold im in *. eauto. }
  split; [exact T4|exact MR].
Qed.
