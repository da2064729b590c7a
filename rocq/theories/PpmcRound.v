(** One compression round followed by the decompression round. *)
From Coq Require Import List ZArith Bool Arith Lia Relations Permutation.
From Verif Require Import Arr CodecModel PpmcModel PpmcTopo PpmcOps PpmcStar PpmcEnc PpmcTrav PpmcDec.
Import ListNotations.
Close Scope Z_scope.
Open Scope nat_scope.

Definition vertex (m : mesh) (v : nat) : Prop := exists w, m v w <> None.

Lemma dels_none A : forall m p q, m p q = None -> dels A m p q = None.
Proof. induction A as [|d A IH]; intros m p q H; cbn [dels fold_left]; [auto|]. apply IH. apply del_none. auto. Qed.

(** What the decimation leaves behind. *)
Record decimated (M X U : mesh) (R : nat -> bool) (A : list dart) (a : dart -> bool) (f : dart -> fflag nat) : Prop := DC {
  dc_wX : wf X; dc_wU : wf U; dc_cn : connected X;
  dc_st : meq X (star R U);
  dc_tri : forall w p q, R w = true -> U w p = Some q -> U p q = Some w /\ U q w = Some p;
  dc_nb : forall w p, R w = true -> U w p <> None -> R p = false;
  dc_un : meq (dels A U) M;
  dc_add : forall d, a d = true <-> In d A \/ In (opp d) A;
  dc_nd : NoDup A;
  dc_no : forall d, In d A -> ~ In (opp d) A;
  dc_ad : forall d, In d A -> X (fst d) (snd d) <> None;
  dc_sp : forall d, In d A -> isSplittable (f d) || isSplittable (f (opp d)) = true;
  dc_flag : forall p q w, X p q <> None -> (f (p, q) = Splittable w <-> U p q = Some w /\ R w = true);
  dc_fc : forall p q w, X p q = Some w -> f (p, q) = f (q, w);
  dc_all : forall d, X (fst d) (snd d) <> None -> isConquered (f d) = true;
  dc_vx : forall p q, U p q <> None -> exists w, M p w <> None }.

Lemma decimation_spec lim convex d0 d1 M h0 fuel s : wf M -> connected M -> M (fst h0) (snd h0) <> None ->
  decimate lim convex d0 d1 (beginDecimation M h0) fuel = Some s ->
  exists U R A, decimated M (e_m s) U R A (e_a s) (e_f s) /\ R d0 = false /\ R d1 = false /\
    (e_n s = 0 -> meq (e_m s) M) /\ (e_n s <> 0 -> exists w p, R w = true /\ U w p <> None).
Proof.
  intros W C Hd H. destruct (decimation_inv lim convex d0 d1 M h0 fuel s W C Hd H) as (U & R & A & I & CV & EX).
  exists U, R, A. assert (AC := all_conquered lim convex d0 d1 M U R A s I CV EX). destruct I as [I SP _ [D0 D1] N0 P0].
  split; [|split; [auto|split; [auto|split; [|auto]]]].
  - destruct I as [H1 H2 H3 H4 H5 H6 H7 H8 H9 H10 H11 H12 H13 H14 H15 H16]. constructor; auto.
    intros w p Hw Hp. apply (H6 w p Hw Hp).
  - intro E. destruct (N0 E) as [-> Rf]. assert (UN := mi_un _ _ _ _ _ _ _ _ I). cbn [dels fold_left] in UN.
    intros p q. rewrite (mi_st _ _ _ _ _ _ _ _ I), <- UN. unfold star. rewrite !Rf. cbn [orb]. destruct (U p q); [rewrite Rf|]; auto.
Qed.

Section Round.
  Variables (P : Type) (qz : P -> vec) (gp : vec -> P) (bary : list P -> P) (lim : nat).
  Theorem round_trip convex d0 d1 (pos : nat -> P) M h0 fuel X r :
    wf M -> connected M -> M (fst h0) (snd h0) <> None ->
    compressRound P qz bary lim convex d0 d1 pos M h0 fuel = Some (X, Some r) ->
    exists ns, NoDup ns /\ (forall v, In v ns <-> vertex M v /\ ~ vertex X v) /\ length ns = length (residual_symbols (fst r)) /\
      forall pos' hs extra, (forall v, vertex X v -> pos' v = pos v) -> NoDup hs -> (forall a b, X a b <> None -> In (a, b) hs) ->
      exists M' pos2, decompressRound P qz gp bary lim d0 d1 X pos' (fst r ++ fst extra, snd r ++ snd extra) ns hs fuel = Some (M', pos2, extra) /\
        meq M' M /\ (forall v, vertex X v -> pos2 v = pos v) /\ (forall v, In v ns -> pos2 v = gp (qz (pos v))).
  Proof.
    intros W C Hh H. unfold compressRound in H.
    destruct (decimate lim convex d0 d1 (beginDecimation M h0) fuel) as [s|] eqn:ED; cbn [bind] in H; [|discriminate].
    destruct (Nat.eqb_spec (e_n s) 0) as [|Hn]; [discriminate|].
    destruct (decimation_spec _ _ _ _ _ _ _ _ W C Hh ED) as (U & R & A & DCs & D0 & D1 & _).
    unfold pushHehInit in H. destruct (e_m s d0 d1) as [dw|] eqn:Edep; cbn [bind] in H; [|discriminate].
    destruct (determineResiduals P qz bary lim (e_m s) (e_f s) pos [(d0, d1)] (fun _ => false) (fun _ => (0, 0, 0)%Z) fuel) as [res|] eqn:ER; cbn [bind] in H; [|discriminate].
    destruct (RemovedVertexCoding lim (e_m s) (e_f s) res [(d0, d1)] (fun _ => false) fuel) as [faces|] eqn:EF; cbn [bind] in H; [|discriminate].
    destruct (InsertedEdgeCoding lim (e_m s) (e_f s) (e_a s) [(d0, d1)] (fun _ => false) fuel) as [edges|] eqn:EE; cbn [bind] in H; [|discriminate].
    injection H as <- <-. set (X := e_m s) in *. set (fl := e_f s) in *.
    destruct DCs as [WX WU CX ST TRI NB UN ADD ND NO AD SP FLAG FC ALL VX].
    (* the traces *)
    destruct (residuals_trace _ _ _ _ _ _ _ _ _ _ _ _ ER) as (tr & ET & _).
    assert (FC0 : fclosed X (fun _ => false)) by (intros ? ? ?; reflexivity).
    assert (EFs : faces = map (sym P qz bary fl pos) tr) by (eapply faces_sym with (m := X); [exact WX|exact FC0|exact ER|exact EF|exact ET]).
    destruct (edges_trace _ _ _ _ _ _ _ _ EE) as (te & ETe & EEs).
    destruct (fconq_spec lim X WX _ _ _ _ FC0 ET) as (A1 & A2 & _ & _ & A5).
    assert (DE : X (fst (d0, d1)) (snd (d0, d1)) <> None) by (cbn [fst snd]; congruence).
    assert (FA := fconq_all lim X (d0, d1) fuel tr WX CX DE ET).
    assert (LP0 : exists lp, is_loop X (d0, d1) lp).
    { clear - ET. destruct fuel as [|n]; cbn [fconq] in ET; [discriminate|]. destruct (loop lim X (d0, d1)) as [lp|] eqn:EL; cbn [bind] in ET; [|discriminate].
      exists lp. eapply loop_is_loop; eauto. }
    destruct LP0 as [lp0 LP0].
    assert (DE' : X d0 d1 <> None) by congruence.
    destruct (econq_all lim X d0 d1 fuel te lp0 WX CX LP0 DE' ETe) as (TE1 & TE2 & TE3 & TE4).
    assert (XD : forall p q, X p q <> None <-> R p = false /\ R q = false /\ U p q <> None) by (intros p q; rewrite (ST p q); apply star_dart; auto).
    (* names *)
    set (ns := names fl tr).
    assert (NS1 : forall v, In v ns <-> R v = true /\ exists w, U v w <> None).
    { intro v. unfold ns, names. rewrite in_flat_map. split.
      - intros (x & Hx & Hv). destruct (fl (fst x)) as [| |v'] eqn:Ef; [destruct Hv|destruct Hv|destruct Hv as [<-|[]]].
        assert (Hxd : X (fst (fst x)) (snd (fst x)) <> None) by (eapply il_dart; [apply A1; eauto|eapply il_in; apply A1; auto]).
        destruct (fst x) as [p q]. cbn [fst snd] in Hxd. apply (FLAG p q v' Hxd) in Ef. destruct Ef as [Ef1 Ef2]. split; [auto|].
        exists q. apply (wf_sym U WU). eapply (wf_nxt U WU); eauto.
      - intros (Rv & w & Hw). destruct (U v w) as [b|] eqn:E; [|congruence]. destruct (TRI _ _ _ Rv E) as [E1 E2].
        assert (Hd : X w b <> None) by (eapply (hole_dart X U R); eauto).
        destruct (FA (w, b) Hd) as (x & Hx & Hi). exists x. split; [auto|].
        assert (fl (fst x) = Splittable v); [|rewrite H; left; auto].
        transitivity (fl (w, b)); [|apply FLAG; auto]. eapply (fl_forb fl X FC). apply (loop_forb X _ _ _ (A1 x Hx) Hi). }
    assert (MU : forall p q, M p q <> None -> U p q <> None).
    { intros p q Hm K. apply Hm. rewrite <- (UN p q). apply dels_none. auto. }
    assert (NS2 : forall v, In v ns <-> vertex M v /\ ~ vertex X v).
    { intro v. rewrite NS1. split.
      - intros (Rv & w & Hw). split; [apply (VX v w Hw)|]. intros (w' & Hw'). apply XD in Hw'. destruct Hw' as [K _]. congruence.
      - intros ((w & Hw) & Hx). apply MU in Hw. split; [|eauto]. destruct (R v) eqn:Rv; [auto|]. exfalso. apply Hx.
        destruct (R w) eqn:Rw; [|exists w; apply XD; auto].
        assert (Hw' : U w v <> None) by (apply (wf_sym U WU); auto). destruct (U w v) as [b|] eqn:E; [|congruence]. destruct (TRI _ _ _ Rw E) as [E1 E2].
        exists b. apply XD. split; [auto|]. split; [|congruence]. apply (NB w b Rw). apply (wf_sym U WU). congruence. }
    (* the flags the decoder gets *)
    assert (UD := fun extra => undec_trace lim X WX fuel [(d0, d1)] (fun _ => Unknown) tr ET FC0 faces extra).
    assert (Hlen : length faces = length tr) by (rewrite EFs, map_length; auto).
    set (g := flagf (combine tr faces) (fun _ => Unknown)) in *.
    assert (G1 : forall x d, In x tr -> In d (snd x) -> g d = toflag (sym P qz bary fl pos x)).
    { intros x d Hx Hd. unfold g. rewrite EFs. apply flagf_in; auto. }
    assert (G2 : forall d, X (fst d) (snd d) <> None -> isSplittable (g d) = negb (isUnsplittable (fl d))).
    { intros d Hd. destruct (FA d Hd) as (x & Hx & Hi). rewrite (G1 x d Hx Hi).
      assert (E : fl (fst x) = fl d) by (eapply (fl_forb fl X FC); apply (loop_forb X _ _ _ (A1 x Hx) Hi)).
      unfold sym. rewrite E. assert (K := ALL d Hd). destruct (fl d); auto; discriminate. }
    (* insertion *)
    destruct (insert_spec P qz gp bary lim fl pos X U R WU WX ST TRI NB FLAG FC g fuel [(d0, d1)] (fun _ => false) tr X (fun _ => false) R pos ET) as (Y0 & p0 & _ & _ & _ & NSD & _); auto.
    { intros d [<-|[]]. auto. }
    { intros x Hx. apply G1; auto. apply (il_in X). apply A1. auto. }
    { intros. congruence. }
    clear Y0 p0. exists ns. split; [exact NSD|]. split; [exact NS2|]. split.
    { cbn [fst]. rewrite EFs. unfold ns, names, residual_symbols, sym. clear. induction tr as [|x tr IH]; cbn [flat_map map]; [auto|].
      rewrite !app_length, IH. f_equal. destruct (fl (fst x)); auto. }
    intros pos' hs extra Hpos Hhs Hcov. unfold decompressRound, pushHehInit. rewrite Edep. cbn [bind fst snd]. rewrite (UD (fst extra) Hlen). cbn [bind].
    destruct (edges_decoded lim X fl g (e_a s) (snd extra) WX G2 fuel _ _ _ (fun _ => false) ETe) as (a' & EA & HA); [intros d [<-|[]]; auto|].
    rewrite EEs, EA. cbn [bind].
    (* the decoder starts from its own positions, equal on X *)
    assert (BX : forall x, In x tr -> sym P qz bary fl pos x = sym P qz bary fl (fun u => if existsb (Nat.eqb u) ns then pos u else pos' u) x).
    { intros x Hx. unfold sym. destruct (fl (fst x)) as [| |v] eqn:Ef; auto. unfold resid. f_equal. f_equal.
      - assert (Hv : In v ns). { unfold ns, names. apply in_flat_map. exists x. split; [auto|]. rewrite Ef. left; auto. }
        assert (K : existsb (Nat.eqb v) ns = true) by (apply existsb_exists; exists v; split; [auto|apply Nat.eqb_refl]). rewrite K. auto.
      - f_equal. f_equal. apply map_ext_in. intros d Hd. destruct (existsb (Nat.eqb (snd d)) ns); [auto|]. symmetry. apply Hpos.
        assert (K : X (fst d) (snd d) <> None) by (eapply il_dart; [apply A1; eauto|auto]). exists (fst d). apply (wf_sym X WX). auto. }
    destruct (insert_spec P qz gp bary lim fl (fun u => if existsb (Nat.eqb u) ns then pos u else pos' u) X U R WU WX ST TRI NB FLAG FC g fuel [(d0, d1)] (fun _ => false) tr X (fun _ : dart => false) R pos' ET)
      as (Y & pos2 & EI & EY & EP & _ & _); auto.
    { intros d [<-|[]]. auto. }
    { intros x Hx. rewrite <- BX by auto. apply G1; auto. apply (il_in X). apply A1. auto. }
    { intros. congruence. }
    { intros u Hu. destruct (existsb (Nat.eqb u) ns) eqn:K; [|auto]. exfalso. apply existsb_exists in K. destruct K as (u' & K1 & K2). apply Nat.eqb_eq in K2. subst u'. apply NS1 in K1. destruct K1. congruence. }
    fold ns in EI, EY, EP. match goal with |- context [insertRemovedVertices P qz gp bary lim X g pos' ns ?q ?p fuel] => replace (insertRemovedVertices P qz gp bary lim X g pos' ns q p fuel) with (Some (Y, pos2)) by (symmetry; exact EI) end. cbn [bind].
    assert (YU : meq Y U).
    { intros p q. rewrite EY. assert (K : forall u w, U u w <> None -> R u && negb (existsb (Nat.eqb u) ns) = false).
      { intros u w Hw. destruct (R u) eqn:Ru; [|auto]. assert (Hi : In u ns) by (apply NS1; eauto).
        assert (K : existsb (Nat.eqb u) ns = true) by (apply existsb_exists; exists u; split; [auto|apply Nat.eqb_refl]). rewrite K. auto. }
      unfold star. destruct (U p q) as [w|] eqn:E.
      - rewrite (K p q) by congruence. rewrite (K q w) by (eapply (wf_nxt U WU); eauto). cbn [orb].
        assert (Uw : U w q <> None) by (apply (wf_sym U WU); eapply (wf_nxt U WU); eauto). rewrite (K w q Uw). auto.
      - destruct (_ || _); auto. }
    assert (HA' : forall d, a' d = true <-> In d te /\ e_a s d = true).
    { intro d. rewrite HA. split; [intros [K|(K1 & K2 & _)]; [discriminate|auto]|]. intros [K1 K2]. right. split; [auto|]. split; [auto|].
      assert (K : isSplittable (fl d) || isSplittable (fl (opp d)) = true).
      { apply ADD in K2. destruct K2 as [K2|K2]; [apply SP; auto|]. apply SP in K2. rewrite opp_opp, orb_comm in K2. auto. }
      destruct (fl d), (fl (opp d)); cbn in *; auto; discriminate. }
    unfold removeInsertedEdges.
    assert (LI : forall d, In d (filter a' hs) <-> In d te /\ e_a s d = true).
    { intro d. rewrite filter_In, HA'. split; [tauto|]. intros [K1 K2]. split; [|auto]. destruct d as [p q]. apply Hcov. apply (TE4 _ K1). }
    destruct (removal Y U (filter a' hs) WU YU) as (M' & EM & EM').
    { apply NoDup_filter. auto. }
    { intros d Hd Ho. apply LI in Hd. apply LI in Ho. apply (TE2 d); tauto. }
    { intros d Hd. apply LI in Hd. destruct Hd as [Hd _]. apply TE4 in Hd. apply XD in Hd. tauto. }
    rewrite EM. cbn [bind]. exists M', pos2. split; [destruct extra; reflexivity|]. split; [|split].
    - eapply meq_trans; [exact EM'|]. eapply meq_trans; [|exact UN]. apply dels_same; auto.
      + apply NoDup_filter. auto.
      + intros d Hd Ho. apply LI in Hd. apply LI in Ho. apply (TE2 d); tauto.
      + intros d Hd K. apply AD in Hd. rewrite K in Hd. apply Hd, (wf_irr X WX).
      + intro d. rewrite !LI. split.
        * intros [[_ K]|[_ K]]; apply ADD in K; [auto|]. rewrite opp_opp in K. tauto.
        * intro K. assert (Ka : e_a s d = true) by (apply ADD; auto). assert (Kb : e_a s (opp d) = true) by (apply ADD; rewrite opp_opp; tauto).
          assert (Kd : X (fst d) (snd d) <> None). { destruct K as [K|K]; apply AD in K; [auto|]. unfold opp in K; cbn [fst snd] in K. apply (wf_sym X WX); auto. }
          destruct (TE3 d Kd); tauto.
    - intros v Hv. rewrite EP. destruct (existsb (Nat.eqb v) ns) eqn:K; [|apply Hpos; auto]. exfalso.
      apply existsb_exists in K. destruct K as (u' & K1 & K2). apply Nat.eqb_eq in K2. subst u'. apply NS2 in K1. tauto.
    - intros v Hv. rewrite EP. assert (K : existsb (Nat.eqb v) ns = true) by (apply existsb_exists; exists v; split; [auto|apply Nat.eqb_refl]). rewrite K. auto.
  Qed.
End Round.
