(** What symbols a round produces. *)
From Coq Require Import List ZArith Bool Arith Lia.
From Verif Require Import Arr RangeCoderModel RangeCoderProofs QsModel CodecModel CodecProofs BitsModel
  PpmcModel PpmcTopo PpmcStar PpmcEnc PpmcTrav PpmcRound PpmcCheck PpmcTot PpmcRen PpmcLevels PpmcLevelsProofs.
Import ListNotations.
Close Scope Z_scope.
Open Scope nat_scope.

(** What compressRound returns, taken apart. *)
Lemma round_parts (P : Type) (qz : P -> vec) (bary : list P -> P) lim convex d0 d1 (pos : nat -> P) M h0 fuel X r :
  wf M -> connected M -> M (fst h0) (snd h0) <> None -> compressRound P qz bary lim convex d0 d1 pos M h0 fuel = Some (X, Some r) ->
  wf X /\ (exists v, vertex M v /\ ~ vertex X v) /\
  exists fl tr added te,
    (forall d v, X (fst d) (snd d) <> None -> fl d = Splittable v -> vertex M v) /\
    (* one symbol for each facet *)
    fst r = map (sym P qz bary fl pos) tr /\ (forall x, In x tr -> is_loop X (fst x) (snd x)) /\
    (forall d, X (fst d) (snd d) <> None -> exists x, In x tr /\ In d (snd x)) /\
    ForallOrdPairs (fun x y => forall d, In d (snd x) -> ~ In d (snd y)) tr /\
    (* at most one for each edge *)
    snd r = flat_map (fun h => if isUnsplittable (fl h) && isUnsplittable (fl (opp h)) then [] else [if added h : bool then 1%Z else 0%Z]) te /\
    NoDup te /\ (forall d, In d te -> X (fst d) (snd d) <> None) /\ (forall h, In h te -> ~ In (opp h) te).
Proof.
  intros W C Hh H. unfold compressRound in H.
  destruct (decimate lim convex d0 d1 (beginDecimation M h0) fuel) as [s|] eqn:ED; cbn [bind] in H; [|discriminate].
  destruct (Nat.eqb_spec (e_n s) 0) as [|Hn]; [discriminate|].
  destruct (decimation_spec _ _ _ _ _ _ _ _ W C Hh ED) as (U & R & A & DCs & D0 & D1 & _ & N1).
  unfold pushHehInit in H. destruct (e_m s d0 d1) as [dw|] eqn:Edep; cbn [bind] in H; [|discriminate].
  destruct (determineResiduals P qz bary lim (e_m s) (e_f s) pos [(d0, d1)] (fun _ => false) (fun _ => (0, 0, 0)%Z) fuel) as [res|] eqn:ER; cbn [bind] in H; [|discriminate].
  destruct (RemovedVertexCoding lim (e_m s) (e_f s) res [(d0, d1)] (fun _ => false) fuel) as [faces|] eqn:EF; cbn [bind] in H; [|discriminate].
  destruct (InsertedEdgeCoding lim (e_m s) (e_f s) (e_a s) [(d0, d1)] (fun _ => false) fuel) as [edges|] eqn:EE; cbn [bind] in H; [|discriminate].
  injection H as <- <-. set (X := e_m s) in *. set (fl := e_f s) in *.
  destruct DCs as [WX WU CX ST TRI NB UN ADD ND NO AD SP FLAG FC ALL VX].
  assert (XD : forall p q, X p q <> None <-> R p = false /\ R q = false /\ U p q <> None) by (intros p q; rewrite (ST p q); apply star_dart; auto).
  split; [exact WX|]. split.
  { destruct (N1 Hn) as (w & p & Rw & Hw). exists w. split; [apply (VX w p Hw)|]. intros (w' & K). apply XD in K. destruct K. congruence. }
  destruct (residuals_trace _ _ _ _ _ _ _ _ _ _ _ _ ER) as (tr & ET & _).
  assert (FC0 : fclosed X (fun _ => false)) by (intros ? ? ?; reflexivity).
  assert (EFs : faces = map (sym P qz bary fl pos) tr) by (eapply faces_sym with (m := X); [exact WX|exact FC0|exact ER|exact EF|exact ET]).
  destruct (edges_trace _ _ _ _ _ _ _ _ EE) as (te & ETe & EEs).
  destruct (fconq_spec lim X WX _ _ _ _ FC0 ET) as (A1 & A2 & _ & _ & A5).
  assert (DE : X (fst (d0, d1)) (snd (d0, d1)) <> None) by (cbn [fst snd]; congruence).
  assert (FA := fconq_all lim X (d0, d1) fuel tr WX CX DE ET).
  assert (LP0 : exists lp, is_loop X (d0, d1) lp).
  { clear - ET. destruct fuel as [|n]; cbn [fconq] in ET; [discriminate|]. destruct (loop lim X (d0, d1)) as [lp|] eqn:EL; cbn [bind] in ET; [|discriminate].
    exists lp. eapply loop_is_loop; eauto. }
  destruct LP0 as [lp0 LP0]. assert (DE' : X d0 d1 <> None) by congruence.
  destruct (econq_all lim X d0 d1 fuel te lp0 WX CX LP0 DE' ETe) as (TE1 & TE2 & TE3 & TE4).
  exists fl, tr, (e_a s), te. cbn [fst snd]. split.
  { intros [p q] v Hd Ef. cbn [fst snd] in Hd. apply (FLAG p q v Hd) in Ef. destruct Ef as [Ef1 Ef2]. apply (VX v q). apply (wf_sym U WU). eapply (wf_nxt U WU); eauto. }
  split; [exact EFs|]. split; [exact A1|]. split; [exact FA|]. split; [exact A5|]. split; [exact EEs|]. split; [exact TE1|]. split; [exact TE4|exact TE2].
Qed.

(** The coordinates of grid positions. *)
Definition on_grid (B : Z) (p : vec) : Prop := (let '(x, y, z) := p in 0 <= x < B /\ 0 <= y < B /\ 0 <= z < B)%Z.

Lemma tr_heads X (tr : list (dart * list dart)) : (forall x, In x tr -> is_loop X (fst x) (snd x)) ->
  ForallOrdPairs (fun x y => forall d, In d (snd x) -> ~ In d (snd y)) tr -> NoDup (map fst tr).
Proof.
  intros HL HP. induction HP as [|x l Hx HP IH]; cbn [map]; [constructor|]. constructor; [|apply IH; intros; apply HL; right; auto].
  intro K. apply in_map_iff in K. destruct K as (y & Ey & Hy). rewrite Forall_forall in Hx. apply (Hx y Hy (fst x)).
  - apply (il_in X). apply HL. left; auto.
  - rewrite <- Ey. apply (il_in X). apply HL. right; auto.
Qed.

Lemma round_codable (P : Type) (qz : P -> vec) (bary : list P -> P) lim convex d0 d1 (pos : nat -> P) M h0 fuel X r :
  wf M -> connected M -> M (fst h0) (snd h0) <> None -> compressRound P qz bary lim convex d0 d1 pos M h0 fuel = Some (X, Some r) ->
  (forall v, vertex M v -> on_grid 32768 (qz (pos v))) ->
  (forall l, l <> [] -> (forall p, In p l -> exists v, vertex M v /\ p = pos v) -> on_grid 32768 (qz (bary l))) ->
  (forall v, vertex X v -> vertex M v) ->
  (forall l : list dart, NoDup l -> (forall d, In d l -> X (fst d) (snd d) <> None) -> 16 * Z.of_nat (length l) + 16 < 2 ^ 32)%Z ->
  codable_round r.
Proof.
  intros W C Hh E HG HB HV HS. destruct (round_parts P qz bary lim convex d0 d1 pos M h0 fuel X r W C Hh E) as (WX & PR & fl & tr & ad & te & F0 & F1 & F2 & F3 & F4 & F5 & F6 & F7 & F8).
  destruct (round_trip P qz (fun v => pos 0) bary lim convex d0 d1 pos M h0 fuel X r W C Hh E) as (ns & _ & N1 & NL & _).
  assert (HC : forall c, In c (coords (fst r)) -> (-32768 < c < 32768)%Z).
  { intros c Hc. unfold coords in Hc. apply in_flat_map in Hc. destruct Hc as (o & Ho & Hc). rewrite F1 in Ho. apply in_map_iff in Ho. destruct Ho as (x & <- & Hx).
    assert (LX := F2 x Hx). assert (DX : X (fst (fst x)) (snd (fst x)) <> None) by (eapply il_dart; [eauto|eapply il_in; eauto]).
    unfold sym in Hc. destruct (fl (fst x)) as [| |v] eqn:Ef; [destruct Hc|destruct Hc|]. unfold resid, vsub in Hc.
    assert (G1 := HG v (F0 _ _ DX Ef)).
    assert (G2 : on_grid 32768 (qz (bary (map (fun d : dart => pos (snd d)) (snd x))))).
    { apply HB.
      - assert (K := il_in X _ _ LX). destruct (snd x); [destruct K|discriminate].
      - intros p Hp. apply in_map_iff in Hp. destruct Hp as (d & <- & Hd). exists (snd d). split; [|auto]. apply HV. exists (fst d). apply (wf_sym X WX). eapply il_dart; eauto. }
    destruct (qz (pos v)) as [[x1 y1] z1]. destruct (qz (bary _)) as [[x2 y2] z2]. unfold on_grid in G1, G2. cbn [In] in Hc. destruct Hc as [<-|[<-|[<-|[]]]]; lia. }
  split; [|split].
  - split; [|split; [|split]].
    + rewrite coords_residuals. destruct PR as (v & Hv). apply N1 in Hv. destruct (residual_symbols (fst r)) as [|[[a b] c] l] eqn:K; [|discriminate].
      exfalso. cbn [length] in NL. destruct ns; [destruct Hv|discriminate].
    + intros c Hc. specialize (HC c Hc). lia.
    + intros c c' Hc Hc'. assert (K := HC c Hc). assert (K' := HC c' Hc'). lia.
    + rewrite F1, map_length, <- (map_length fst). apply HS; [eapply tr_heads; eauto|]. intros d Hd. apply in_map_iff in Hd. destruct Hd as (x & <- & Hx).
      eapply il_dart; [eauto|eapply il_in; eauto].
  - rewrite F5. apply Forall_forall. intros z Hz. apply in_flat_map in Hz. destruct Hz as (h & _ & Hz).
    destruct (_ && _); [destruct Hz|]. destruct Hz as [<-|[]]. destruct (ad h); lia.
  - assert (K : length (snd r) <= @length dart te).
    { rewrite F5. clear. induction te as [|h te IH]; cbn [flat_map]; [auto|]. rewrite app_length. destruct (_ && _); cbn [length]; lia. }
    specialize (HS te F6 F7). change (2 ^ 32)%Z with 4294967296%Z in *. lia.
Qed.
