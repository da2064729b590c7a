(** Decoding level by level from the bytes. *)
From Coq Require Import List ZArith Bool Arith Lia.
From Verif Require Import Arr RangeCoderModel RangeCoderProofs QsModel CodecModel CodecProofs BitsModel PpmcModel PpmcTopo PpmcRound PpmcCheck PpmcRen PpmcLevels.
Import ListNotations.
Close Scope Z_scope.
Open Scope nat_scope.

(** ** Reading symbols one by one *)
Fixpoint reads {A T} (rd : T -> option (A * T)) (st : T) (n : nat) : option (list A * T) :=
  match n with
  | O => Some ([], st)
  | S n' => do (a, st') <- rd st; do (r, st'') <- reads rd st' n'; Some (a :: r, st'')
  end.

Lemma records_reads mn : forall n d mA mC recs d', dec_records d mA mC mn n = Some (recs, d') ->
  exists mA' mC', reads (read_face mn) (d, mA, mC) n = Some (recs, (d', mA', mC')).
Proof.
  induction n as [|n IH]; intros d mA mC recs d' H; cbn [dec_records reads] in *; [injection H as <- <-; eauto|].
  unfold read_face. destruct (dec_sym d mC 10) as [[[s d1] mC']|]; cbn [bind] in *; [|discriminate].
  destruct (s =? 1)%Z.
  - destruct (dec_sym d1 mA 18) as [[[x d2] mA1]|]; cbn [bind] in *; [|discriminate].
    destruct (dec_sym d2 mA1 18) as [[[y d3] mA2]|]; cbn [bind] in *; [|discriminate].
    destruct (dec_sym d3 mA2 18) as [[[z d4] mA3]|]; cbn [bind] in *; [|discriminate].
    destruct (dec_records d4 mA3 mC' mn n) as [[r d5]|] eqn:E; cbn [bind] in H; [|discriminate]. injection H as <- <-.
    destruct (IH _ _ _ _ _ E) as (a & c & E'). fold (read_face mn). rewrite E'. cbn [bind]. eauto.
  - destruct (dec_records d1 mA mC' mn n) as [[r d5]|] eqn:E; cbn [bind] in H; [|discriminate]. injection H as <- <-.
    destruct (IH _ _ _ _ _ E) as (a & c & E'). fold (read_face mn). cbn [bind]. rewrite E'. cbn [bind]. eauto.
Qed.
Lemma syms_reads : forall n d m l d' m', dec_syms d m 10 n = Some (l, d', m') -> reads read_edge (d, m) n = Some (l, (d', m')).
Proof.
  induction n as [|n IH]; intros d m l d' m' H; cbn [dec_syms reads] in *; [injection H as <- <- <-; auto|].
  unfold read_edge. cbn [fst snd]. destruct (dec_sym d m 10) as [[[s d1] m1]|]; cbn [bind] in *; [|discriminate].
  destruct (dec_syms d1 m1 10 n) as [[[r d2] m2]|] eqn:E; cbn [bind] in H; [|discriminate]. injection H as <- <- <-.
  fold read_edge. rewrite (IH _ _ _ _ _ E). auto.
Qed.
Lemma undec_stream lim T rd m : forall n fl q syms g (st st' : T), undecimation lim m fl q syms n = Some (g, []) ->
  reads rd st (length syms) = Some (syms, st') -> undecimationB lim T rd m fl q st n = Some (g, st').
Proof.
  induction n as [|n IH]; intros fl q syms g st st' H R; cbn [undecimation undecimationB] in *; [discriminate|].
  destruct q as [|h q].
  - injection H as <- ->. cbn [length reads] in R. injection R as <-. auto.
  - destruct (isConquered (fl h)); [eauto|]. destruct syms as [|s syms]; [discriminate|]. cbn [length reads] in R.
    destruct (rd st) as [[a st1]|]; cbn [bind] in *; [|discriminate]. destruct (reads rd st1 (length syms)) as [[r st2]|] eqn:E; cbn [bind] in R; [|discriminate].
    injection R as -> -> ->. destruct (loop lim m h); cbn [bind] in *; [|discriminate]. eapply IH; eauto.
Qed.
Lemma edges_stream lim T rd m fl : forall n added q proc syms g (st st' : T), InsertedEdgeDecoding lim m fl added q proc syms n = Some (g, []) ->
  reads rd st (length syms) = Some (syms, st') -> InsertedEdgeDecodingB lim T rd m fl added q proc st n = Some (g, st').
Proof.
  induction n as [|n IH]; intros added q proc syms g st st' H R; cbn [InsertedEdgeDecoding InsertedEdgeDecodingB] in *; [discriminate|].
  destruct q as [|h q].
  - injection H as <- ->. cbn [length reads] in R. injection R as <-. auto.
  - destruct (proc h); [eauto|]. destruct (nxt m h); cbn [bind] in *; [|discriminate]. destruct (around m h _ lim); cbn [bind] in *; [|discriminate].
    destruct (isSplittable (fl h) || isSplittable (fl (opp h))); [|eauto]. destruct syms as [|s syms]; [discriminate|]. cbn [length reads] in R.
    destruct (rd st) as [[a st1]|]; cbn [bind] in *; [|discriminate]. destruct (reads rd st1 (length syms)) as [[r st2]|] eqn:E; cbn [bind] in R; [|discriminate].
    injection R as -> -> ->. eapply IH; eauto.
Qed.

Lemma decodeRound_bytes P qz gp bary lim junk d0 d1 m pos (r : round) names hs fuel M' pos' inp inp1 rest :
  decompressRound P qz gp bary lim d0 d1 m pos r names hs fuel = Some (M', pos', ([], [])) ->
  decodeRemovedVertices junk inp (length (fst r)) = Some (fst r, inp1) ->
  decodeInsertedEdges junk inp1 (length (snd r)) = Some (snd r, rest) ->
  decodeRound P qz gp bary lim junk d0 d1 m pos inp names hs fuel = Some (M', pos', rest).
Proof.
  intros H HF HE. unfold decompressRound in H.
  destruct (pushHehInit m d0 d1) as [q|] eqn:EQ; cbn [bind] in H; [|discriminate H].
  destruct (undecimation lim m _ q (fst r) fuel) as [[fl l1]|] eqn:EU; cbn [bind] in H; [|discriminate H].
  destruct (InsertedEdgeDecoding lim m fl _ q _ (snd r) fuel) as [[ad l2]|] eqn:EE; cbn [bind] in H; [|discriminate H].
  destruct (insertRemovedVertices P qz gp bary lim m fl pos names q _ fuel) as [[m1 pos1]|] eqn:EI; cbn [bind] in H; [|discriminate H].
  destruct (removeInsertedEdges m1 ad hs) as [m2|] eqn:EJ; cbn [bind] in H; [|discriminate H]. injection H as -> -> -> ->.
  unfold decodeRemovedVertices in HF. destruct (start_decoding inp) as [[z c0]|] eqn:G1; cbn [bind] in HF; [|discriminate HF].
  destruct (decode_short c0) as [[u c1]|] eqn:G2; cbn [bind] in HF; [|discriminate HF].
  destruct (decode_short c1) as [[range c2]|] eqn:G3; cbn [bind] in HF; [|discriminate HF].
  destruct (initqsmodel junk range 18 131072 None false) as [mA|] eqn:G4; cbn [bind] in HF; [|discriminate HF].
  destruct (initqsmodel junk 2 10 512 None false) as [mC|] eqn:G5; cbn [bind] in HF; [|discriminate HF].
  destruct (dec_records c2 mA mC (as_int16 u) (length (fst r))) as [[recs d3]|] eqn:ER; cbn [bind] in HF; [|discriminate HF].
  destruct (done_decoding d3) as [rs|] eqn:ED; cbn [bind] in HF; [|discriminate HF]. injection HF as -> ->.
  destruct (records_reads _ _ _ _ _ _ _ ER) as (a & c & RR).
  unfold decodeInsertedEdges in HE. rewrite G5 in HE. cbn [bind] in HE.
  destruct (start_decoding inp1) as [[z' e0]|] eqn:G6; cbn [bind] in HE; [|discriminate HE].
  destruct (dec_syms e0 mC 10 (length (snd r))) as [[[es e1] mE']|] eqn:ES; cbn [bind] in HE; [|discriminate HE].
  destruct (done_decoding e1) as [rs'|] eqn:ED'; cbn [bind] in HE; [|discriminate HE]. injection HE as -> ->.
  assert (X1 := undec_stream _ _ _ _ _ _ _ _ _ _ _ EU RR). assert (X2 := edges_stream _ _ _ _ _ _ _ _ _ _ _ _ _ EE (syms_reads _ _ _ _ _ _ ES)).
  unfold decodeRound. cbv beta iota delta [bind]. rewrite G1, EQ, G2, G3, G4, G5, X1. cbn [fst]. rewrite ED, G6, X2. cbn [fst]. rewrite ED', EI, EJ. auto.
Qed.

(** ** Moving handles *)
Definition swap (a b x : nat) : nat := if x =? a then b else if x =? b then a else x.
Lemma swap_swap a b x : swap a b (swap a b x) = x.
Proof.
  unfold swap. destruct (Nat.eqb_spec x a) as [->|Ha].
  - rewrite Nat.eqb_refl. destruct (Nat.eqb_spec b a); auto.
  - destruct (Nat.eqb_spec x b) as [->|Hb]; [rewrite Nat.eqb_refl; auto|].
    destruct (Nat.eqb_spec x a); [congruence|]. destruct (Nat.eqb_spec x b); [congruence|auto].
Qed.
Lemma move_names (V : nat -> Prop) : forall l l', length l = length l' -> NoDup l -> NoDup l' ->
  (forall x, In x l -> ~ V x) -> (forall x, In x l' -> ~ V x) ->
  exists f g : nat -> nat, (forall x, g (f x) = x) /\ map f l = l' /\ (forall x, V x -> f x = x).
Proof.
  induction l as [|a l IH]; intros [|b l'] HL N N' H H'; try discriminate.
  - exists (fun x => x), (fun x => x). auto.
  - inversion N as [|? ? Na N1]; subst. inversion N' as [|? ? Nb N1']; subst.
    destruct (IH l') as (f & g & GF & EM & FV); auto; [intros x Hx; apply H; right; auto|intros x Hx; apply H'; right; auto|].
    assert (FI : forall x y, f x = f y -> x = y) by (intros x y E; rewrite <- (GF x), <- (GF y), E; auto).
    exists (fun x => swap (f a) b (f x)), (fun x => g (swap (f a) b x)). split; [intro x; rewrite swap_swap; auto|]. split.
    + cbn [map]. f_equal.
      * unfold swap. rewrite Nat.eqb_refl. auto.
      * rewrite <- EM. apply map_ext_in. intros x Hx. unfold swap. destruct (Nat.eqb_spec (f x) (f a)) as [E|_].
        { apply FI in E. subst x. tauto. }
        destruct (Nat.eqb_spec (f x) b) as [E|_]; [|auto]. exfalso. apply Nb. rewrite <- EM, <- E. apply in_map. auto.
    + intros x Hx. rewrite (FV x Hx). unfold swap. destruct (Nat.eqb_spec x (f a)) as [E|_].
      * exfalso. apply (H a); [left; auto|]. assert (E2 : f x = f a) by (rewrite (FV x Hx); auto). apply FI in E2. rewrite <- E2. auto.
      * destruct (Nat.eqb_spec x b) as [->|_]; [|auto]. exfalso. apply (H' b); [left; auto|auto].
Qed.

Lemma ren_move sg tu f g m m' : (forall x, g (f x) = x) -> ren sg tu m m' -> (forall p q, m' p q <> None -> f p = p /\ f q = q) ->
  (forall v, tu (sg v) = v) -> (forall u v w, m u v = Some w -> m v w <> None) ->
  ren (fun v => f (sg v)) (fun p => tu (g p)) m m'.
Proof.
  intros GF [A B] FX TS NX. constructor.
  - intros u v. destruct (m u v) as [w|] eqn:E; cbn [option_map].
    + assert (E1 : m' (sg u) (sg v) = Some (sg w)) by (rewrite A, E; auto). destruct (FX (sg u) (sg v)) as [F1 F2]; [congruence|]. rewrite F1, F2, E1.
      f_equal. assert (K : m' (sg v) (sg w) <> None). { rewrite A. assert (K := NX _ _ _ E). destruct (m v w); [discriminate|congruence]. } destruct (FX _ _ K). auto.
    + destruct (m' (f (sg u)) (f (sg v))) as [z|] eqn:E1; [|auto]. exfalso.
      assert (K : m' (f (sg u)) (f (sg v)) <> None) by congruence. destruct (FX _ _ K) as [F1 F2].
      assert (G1 : f (sg u) = sg u) by (rewrite <- (GF (f (sg u))), F1; rewrite GF; auto).
      assert (G2 : f (sg v) = sg v) by (rewrite <- (GF (f (sg v))), F2; rewrite GF; auto).
      rewrite G1, G2, A, E in K. apply K. auto.
  - intros p q K. destruct (FX p q K) as [F1 F2]. destruct (B p q K) as [I1 I2]. unfold im in *.
    assert (Gp : g p = p) by (rewrite <- F1 at 1; apply GF). assert (Gq : g q = q) by (rewrite <- F2 at 1; apply GF). rewrite Gp, Gq, I1, I2. auto.
Qed.

Lemma nodup_split {A} (a b : list A) : NoDup (a ++ b) -> NoDup a /\ NoDup b /\ forall p, In p a -> ~ In p b.
Proof.
  induction a as [|x a IH]; cbn [app]; intro H.
  - split; [constructor|]. split; [auto|]. intros p [].
  - inversion H as [|? ? Hx H']; subst. destruct (IH H') as (A1 & A2 & A3). split; [constructor; [|auto]; intro K; apply Hx; apply in_or_app; auto|].
    split; [auto|]. intros p [<-|Hp]; [|auto]. intro K. apply Hx. apply in_or_app; auto.
Qed.

Section Decode.
  Variables (P : Type) (qz : P -> vec) (gp : vec -> P) (bary : list P -> P) (lim : nat).
  Variables (d0 d1 : nat) (pos : nat -> P) (fuel : nat) (stor : mesh -> list dart) (N : nat).
  Hypothesis ST : forall m, (forall p q, m p q <> None -> p < N /\ q < N) -> NoDup (stor m) /\ forall a b, m a b <> None -> In (a, b) (stor m).

  (** x is what a round makes of m, with the symbols r *)
  Definition step_of (m x : mesh) (r : round) : Prop :=
    wf m /\ connected m /\ exists convex h0, m (fst h0) (snd h0) <> None /\ compressRound P qz bary lim convex d0 d1 pos m h0 fuel = Some (x, Some r).
  Definition step_to (m x : mesh) (r : round) : Prop := exists x0, step_of m x0 r /\ forall a b, x a b = x0 a b.
  Fixpoint steps (ms : list mesh) (rs : list round) : Prop :=
    match ms, rs with
    | [_], [] => True
    | x :: ((m :: _) as ms'), r :: rs' => step_to m x r /\ steps ms' rs'
    | _, _ => False
    end.
  Lemma steps_snoc d m r : forall ms rs, steps ms rs -> step_to m (last ms d) r -> steps (ms ++ [m]) (rs ++ [r]).
  Proof.
    induction ms as [|x ms IH]; intros rs H HS; [destruct H|]. destruct ms as [|y ms].
    - cbn [steps] in H. destruct rs; [|destruct H]. cbn [app steps last] in *. auto.
    - destruct rs as [|r' rs]; [destruct H|]. destruct H as [H1 H2]. change (last (x :: y :: ms) d) with (last (y :: ms) d) in HS.
      specialize (IH rs H2 HS). cbn [app steps] in *. auto.
  Qed.

  Lemma step_departure m x r : step_of m x r -> x d0 d1 <> None.
  Proof.
    intros (W & C & convex & h0 & Hh & E). unfold compressRound in E. destruct (decimate _ _ _ _ _ _) as [s|]; cbn [bind] in E; [|discriminate]. destruct (e_n s =? 0); [discriminate|].
      unfold pushHehInit in E. destruct (e_m s d0 d1) eqn:K; cbn [bind] in E; [|discriminate].
      repeat (match type of E with bind ?o _ = _ => destruct o; cbn [bind] in E; [|discriminate] end). injection E as <- _. congruence.
  Qed.

  (** the decoder's mesh m' and positions pos' are those of m with other handles *)
  Definition shows (sg tu : nat -> nat) (m m' : mesh) (pos' : nat -> P) : Prop :=
    (forall v, tu (sg v) = v) /\ ren sg tu m m' /\ (forall v, vertex m v -> pos' (sg v) = pos v) /\ (forall p q, m' p q <> None -> p < N /\ q < N).

  Lemma shows_vertex sg tu m m' pos' p q : wf m -> shows sg tu m m' pos' -> m' p q <> None -> exists u v, p = sg u /\ q = sg v /\ m u v <> None.
  Proof.
    intros W (TS & [A B] & _) H. destruct (B p q H) as [I1 I2]. unfold im in *. exists (tu p), (tu q). split; [auto|]. split; [auto|].
    intro K. apply H. rewrite <- I1, <- I2, A, K. auto.
  Qed.

  Lemma decode_step sg tu m x r m' pos' ns : step_of m x r -> (forall v, vertex m v -> gp (qz (pos v)) = pos v) -> wf x ->
    shows sg tu x m' pos' -> length ns = length (residual_symbols (fst r)) -> NoDup ns -> (forall p, In p ns -> p < N /\ ~ vertex m' p) ->
    exists sg' tu' M1 pos1, decompressRound P qz gp bary lim (sg d0) (sg d1) m' pos' r ns (stor m') fuel = Some (M1, pos1, ([], [])) /\
      shows sg' tu' m M1 pos1 /\ (forall p, vertex M1 p -> vertex m' p \/ In p ns) /\ (forall v, vertex x v -> sg' v = sg v).
  Proof.
    intros (W & C & convex & h0 & Hh & E) HG WX SH HL ND HF.
    assert (DE : x d0 d1 <> None) by (apply (step_departure m x r); split; [auto|]; split; [auto|]; exists convex, h0; auto).
    destruct (round_trip P qz gp bary lim convex d0 d1 pos m h0 fuel x r W C Hh E) as (n0 & N0 & N1 & NL & RT).
    destruct SH as (TS & R & HP & HB). assert (SH : shows sg tu x m' pos') by exact (conj TS (conj R (conj HP HB))).
    (* put the new handles in place *)
    destruct (move_names (vertex m') (map sg n0) ns) as (f & g & GF & EM & FV).
    { rewrite map_length. congruence. }
    { apply FinFun.Injective_map_NoDup; [|auto]. intros a b K. rewrite <- (TS a), <- (TS b), K. auto. }
    { auto. }
    { intros p Hp (q & Hq). apply in_map_iff in Hp. destruct Hp as (u & <- & Hu). destruct (shows_vertex sg tu x m' pos' _ q WX SH Hq) as (u' & v' & E1 & _ & K).
      assert (u = u') by (rewrite <- (TS u), <- (TS u'), E1; auto). subst u'. apply N1 in Hu. destruct Hu as [_ Hu]. apply Hu. exists v'. auto. }
    { intros p Hp. apply HF. auto. }
    assert (FX : forall p q, m' p q <> None -> f p = p /\ f q = q).
    { intros p q K. split; apply FV; [exists q; auto|]. destruct (shows_vertex sg tu x m' pos' p q WX SH K) as (u & v & -> & -> & K').
      exists (sg u). rewrite (rn_at _ _ _ _ R). assert (K2 := wf_sym x WX _ _ K'). destruct (x v u); [discriminate|congruence]. }
    set (sg' := fun v => f (sg v)). set (tu' := fun p => tu (g p)).
    assert (TS' : forall v, tu' (sg' v) = v) by (intro v; unfold tu', sg'; rewrite GF; auto).
    assert (R' : ren sg' tu' x m') by exact (ren_move sg tu f g x m' GF R FX TS (wf_nxt x WX)).
    assert (SX : forall v, vertex x v -> sg' v = sg v).
    { intros v (w & Hw). unfold sg'. apply FV. exists (sg w). rewrite (rn_at _ _ _ _ R). destruct (x v w); [discriminate|congruence]. }
    (* the half-edges in storage order *)
    destruct (ST m' HB) as [SN SC].
    set (okd := fun d : dart => (sg' (tu' (fst d)) =? fst d) && (sg' (tu' (snd d)) =? snd d)).
    set (hs := map (fun d : dart => (tu' (fst d), tu' (snd d))) (filter okd (stor m'))).
    assert (HH : filter okd (stor m') = map (s2 sg') hs).
    { unfold hs. rewrite map_map. rewrite <- (map_id (filter okd (stor m'))) at 1. apply map_ext_in. intros [a b] Hd. apply filter_In in Hd. destruct Hd as [_ Hd].
      unfold okd in Hd. cbn [fst snd] in Hd. apply andb_true_iff in Hd. destruct Hd as [H1 H2]. apply Nat.eqb_eq in H1, H2. unfold s2. cbn [fst snd]. congruence. }
    assert (HN : NoDup hs).
    { apply (NoDup_map_inv (s2 sg')). rewrite <- HH. apply NoDup_filter. auto. }
    assert (HC : forall a b, x a b <> None -> In (a, b) hs).
    { intros a b K. assert (K' : In (sg' a, sg' b) (stor m')). { apply SC. rewrite (rn_at _ _ _ _ R'). destruct (x a b); [discriminate|congruence]. }
      assert (K2 : In (sg' a, sg' b) (filter okd (stor m'))). { apply filter_In. split; [auto|]. unfold okd. cbn [fst snd]. rewrite !TS', !Nat.eqb_refl. auto. }
      rewrite HH in K2. apply in_map_iff in K2. destruct K2 as ([a' b'] & K2 & K3). unfold s2 in K2. cbn [fst snd] in K2. injection K2 as K4 K5.
      assert (a' = a) by (rewrite <- (TS' a'), <- (TS' a), K4; auto). assert (b' = b) by (rewrite <- (TS' b'), <- (TS' b), K5; auto). subst. auto. }
    destruct (RT (fun v => pos' (sg' v)) hs ([], [])) as (M' & pos2 & ED & EQ & P1 & P2); auto.
    { intros v Hv. rewrite (SX v Hv). apply HP. auto. }
    cbn [fst snd] in ED. rewrite !app_nil_r in ED. rewrite <- surjective_pairing in ED.
    destruct (ren_decompress sg' tu' TS' P qz gp bary lim d0 d1 x m' (fun v => pos' (sg' v)) pos' r n0 hs (stor m') fuel M' pos2 ([], []) R') as (M1 & pos1 & ED1 & R1 & HP1); auto.
    assert (EN : map sg' n0 = ns) by (rewrite <- EM, map_map; auto).
    assert (V0 : sg' d0 = sg d0) by (apply SX; exists d1; auto).
    assert (V1 : sg' d1 = sg d1) by (apply SX; exists d0; apply (wf_sym x WX); auto).
    rewrite EN, V0, V1 in ED1. exists sg', tu', M1, pos1. split; [exact ED1|].
    assert (RM : ren sg' tu' m M1).
    { destruct R1 as [A1 B1]. constructor; [|auto]. intros u v. rewrite A1, EQ. auto. }
    assert (VM : forall u, vertex m u -> (vertex x u /\ sg' u = sg u) \/ In (sg' u) ns).
    { intros u Hu. destruct (in_dec Nat.eq_dec u n0) as [I|I]; [right; rewrite <- EN; apply in_map; auto|].
      left. assert (K : vertex x u).
      { (* not among the removed ones *)
        destruct Hu as (w & Hw). destruct (in_dec Nat.eq_dec (sg' u) (map fst (stor m'))) as [J|J].
        - destruct (existsb (fun d : dart => is_some (m' (fst d) (snd d)) && (fst d =? sg' u)) (stor m')) eqn:EX.
          + apply existsb_exists in EX. destruct EX as ([a b] & _ & EX). cbn [fst snd] in EX. apply andb_true_iff in EX. destruct EX as [EX1 EX2]. apply Nat.eqb_eq in EX2. subst a.
            assert (K : m' (sg' u) b <> None) by (destruct (m' (sg' u) b); [discriminate|discriminate EX1]).
            destruct (rn_im _ _ _ _ R' _ _ K) as [_ K2]. unfold im in K2. exists (tu' b). rewrite <- K2, (rn_at _ _ _ _ R') in K. destruct (x u (tu' b)); [discriminate|auto].
          + exfalso. apply I. apply N1. split; [exists w; auto|]. intros (w' & Hw'). assert (K : m' (sg' u) (sg' w') <> None) by (rewrite (rn_at _ _ _ _ R'); destruct (x u w'); [discriminate|congruence]).
            assert (K2 := existsb_exists (fun d : dart => is_some (m' (fst d) (snd d)) && (fst d =? sg' u)) (stor m')). rewrite EX in K2. destruct K2 as [_ K2].
            discriminate K2. exists (sg' u, sg' w'). split; [apply SC; auto|]. cbn [fst snd]. rewrite Nat.eqb_refl. destruct (m' (sg' u) (sg' w')); [auto|congruence].
        - exfalso. apply I. apply N1. split; [exists w; auto|]. intros (w' & Hw'). apply J. apply in_map_iff. exists (sg' u, sg' w'). split; [auto|]. apply SC.
          rewrite (rn_at _ _ _ _ R'). destruct (x u w'); [discriminate|congruence]. }
      split; [auto|apply SX; auto]. }
    assert (VN : forall u, vertex m u -> sg' u < N).
    { intros u Hu. destruct (VM u Hu) as [[(w & Hw) Eu]|I]; [|apply HF; auto]. rewrite Eu.
      apply (HB (sg u) (sg w)). rewrite (rn_at _ _ _ _ R). destruct (x u w); [discriminate|congruence]. }
    assert (MU : forall p q, M1 p q <> None -> exists u v, p = sg' u /\ q = sg' v /\ m u v <> None).
    { intros p q K. destruct (rn_im _ _ _ _ RM p q K) as [I1 I2]. unfold im in *. exists (tu' p), (tu' q). split; [auto|]. split; [auto|].
      intro K2. apply K. rewrite <- I1, <- I2, (rn_at _ _ _ _ RM), K2. auto. }
    split; [|split; [|exact SX]].
    - split; [exact TS'|]. split; [exact RM|]. split.
      + intros v Hv. rewrite HP1. destruct (in_dec Nat.eq_dec v n0) as [I|I]; [rewrite (P2 v I); auto|].
        destruct (VM v Hv) as [[K _]|K]; [apply P1; auto|]. exfalso. apply I. rewrite <- EN in K. apply in_map_iff in K. destruct K as (v' & K1 & K2).
        assert (v' = v) by (rewrite <- (TS' v'), <- (TS' v), K1; auto). subst. auto.
      + intros p q K. destruct (MU p q K) as (u & v & -> & -> & K2). split; apply VN; [exists v; auto|exists u; apply (wf_sym m W); auto].
    - intros p (q & K). destruct (MU p q K) as (u & v & -> & -> & K2). destruct (VM u) as [[(w & Hw) Eu]|I]; [exists v; auto| |auto].
      left. rewrite Eu. exists (sg w). rewrite (rn_at _ _ _ _ R). destruct (x u w); [discriminate|congruence].
  Qed.

  Lemma shows_ext sg tu x x0 m' pos' : (forall a b, x a b = x0 a b) -> shows sg tu x m' pos' -> shows sg tu x0 m' pos'.
  Proof.
    intros E (TS & [A B] & HP & HB). split; [auto|]. split; [constructor; [intros u v; rewrite A, E; auto|auto]|]. split; [|auto].
    intros v (w & Hw). apply HP. exists w. rewrite E. auto.
  Qed.

  Lemma decode_levels junk : forall rs ms, steps ms rs -> (forall m, In m ms -> wf m /\ forall v, vertex m v -> gp (qz (pos v)) = pos v) -> Forall codable_round rs ->
    forall buffer, exists body, write_rounds junk buffer rs = Some (buffer ++ body) /\ Forall is_byte body /\ (10 * length rs <= length body) /\
    forall junk' rest nss sg tu m' pos' j, shows sg tu (hd (fun _ _ => None) ms) m' pos' ->
      Forall2 (fun ns r => length ns = length (residual_symbols (fst r))) nss rs -> NoDup (concat nss) -> (forall p, In p (concat nss) -> p < N /\ ~ vertex m' p) ->
      j <= length rs ->
      exists sg' tu' M1 pos1 more, decodeRounds P qz gp bary lim junk' stor (sg d0) (sg d1) m' pos' (body ++ rest) nss fuel j = Some (M1, pos1, more) /\
        shows sg' tu' (nth j ms (fun _ _ => None)) M1 pos1 /\ (j = length rs -> more = rest).
  Proof.
    induction rs as [|[faces edges] rs IH]; intros ms HS HW HC buffer.
    - exists []. cbn [write_rounds]. rewrite app_nil_r. repeat split; auto. intros junk' rest nss sg tu m' pos' j SH _ _ _ Hj.
      cbn [length] in Hj. assert (j = 0) by lia. subst j. exists sg, tu, m', pos', rest. cbn [decodeRounds app]. split; [auto|]. split; [|auto]. destruct ms; auto.
    - destruct ms as [|x ms]; [destruct HS|]. destruct ms as [|m ms]; [destruct HS|]. destruct HS as [H1 H2].
      inversion HC as [|? ? (Hf & He & Hl) HC']; subst. cbn [fst snd] in *.
      destruct (removed_round_trip junk buffer faces Hf) as (s1 & E1 & B1 & L1 & D1).
      destruct (edges_round_trip junk (buffer ++ s1) edges He Hl) as (s2 & E2 & B2 & L2 & D2).
      destruct (IH (m :: ms) H2 ltac:(intros m0 Hm0; apply HW; right; auto) HC' ((buffer ++ s1) ++ s2)) as (s3 & E3 & B3 & L3 & D3).
      exists (s1 ++ s2 ++ s3). split; [|split; [|split]].
      + cbn [write_rounds]. rewrite E1. cbn [bind]. rewrite E2. cbn [bind]. rewrite E3. now rewrite <- !app_assoc.
      + rewrite !Forall_app. auto.
      + rewrite !app_length. cbn [length]. lia.
      + intros junk' rest nss sg tu m' pos' j SH FN ND HF Hj. destruct j as [|j].
        { exists sg, tu, m', pos', ((s1 ++ s2 ++ s3) ++ rest). cbn [decodeRounds nth]. split; [auto|]. split; [exact SH|]. cbn [length]. discriminate. }
        inversion FN as [|ns ? nss' ? Hns FN']; subst. cbn [concat] in ND, HF. cbn [fst] in Hns.
        assert (ND1 : NoDup ns /\ NoDup (concat nss') /\ forall p, In p ns -> ~ In p (concat nss')) by (apply nodup_split; auto). destruct ND1 as (NA & NB & NC).
        destruct H1 as (x0 & H1 & EX).
        destruct (decode_step sg tu m x0 (faces, edges) m' pos' ns H1) as (sg1 & tu1 & M1 & pos1 & ED & SH1 & V1 & X1); auto.
        { apply HW. right. left. auto. }
        { apply (wf_ext x); [auto|]. apply HW. left. auto. }
        { eapply shows_ext; eauto. }
        { intros p Hp. apply HF. apply in_or_app. auto. }
        assert (EB := decodeRound_bytes P qz gp bary lim junk' (sg d0) (sg d1) m' pos' (faces, edges) ns (stor m') fuel M1 pos1 ((s1 ++ s2 ++ s3) ++ rest) (s2 ++ s3 ++ rest) (s3 ++ rest) ED).
        cbn [decodeRounds]. rewrite EB; [|rewrite <- !app_assoc; apply D1|apply D2]. cbn [bind].
        assert (DE : x0 d0 d1 <> None) by (eapply step_departure; eauto). destruct (HW x (or_introl eq_refl)) as [WX _].
        assert (V0 : sg1 d0 = sg d0) by (apply X1; exists d1; auto).
        assert (V0' : sg1 d1 = sg d1) by (apply X1; exists d0; rewrite <- EX in *; apply (wf_sym x WX); auto).
        rewrite <- V0, <- V0'.
        destruct (D3 junk' rest nss' sg1 tu1 M1 pos1 j) as (sg2 & tu2 & M2 & pos2 & more & E4 & S4 & L4); auto.
        { intros p Hp. split; [apply HF; apply in_or_app; auto|]. intro K. destruct (V1 p K) as [K1|K1]; [|apply (NC p); auto]. apply (proj2 (HF p (in_or_app _ _ _ (or_intror Hp)))). auto. }
        { cbn [length] in Hj. lia. }
        exists sg2, tu2, M2, pos2, more. split; [exact E4|]. split; [exact S4|]. cbn [length]. intro K. apply L4. lia.
  Qed.
End Decode.
