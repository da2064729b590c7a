(** Invariants of the adaptive frequency model. *)
From Coq Require Import List ZArith Lia.
From Verif Require Import Arr QsModel.
Import ListNotations.
Open Scope Z_scope.

Definition nz (l : list Z) (i : Z) : Z := nth (Z.to_nat i) l 0.

Lemma nz_nth l (i : nat) : nz l (Z.of_nat i) = nth i l 0.
Proof. unfold nz. rewrite Nat2Z.id. reflexivity. Qed.

(** Sum of the entries [i .. i+k-1]. *)
Fixpoint sumr (l : list Z) (i : Z) (k : nat) : Z :=
  match k with O => 0 | S k' => nz l i + sumr l (i + 1) k' end.

Lemma sumr_snoc l k : forall i, sumr l i (S k) = sumr l i k + nz l (i + Z.of_nat k).
Proof.
  induction k as [|k IH]; intro i.
  - cbn [sumr]. replace (i + Z.of_nat 0) with i by lia. lia.
  - change (sumr l i (S (S k))) with (nz l i + sumr l (i + 1) (S k)).
    rewrite IH. change (sumr l i (S k)) with (nz l i + sumr l (i + 1) k).
    replace (i + Z.of_nat (S k)) with (i + 1 + Z.of_nat k) by lia. lia.
Qed.

Lemma sumr_ext l l' k : forall i, (forall j, i <= j < i + Z.of_nat k -> nz l j = nz l' j) -> sumr l i k = sumr l' i k.
Proof.
  induction k as [|k IH]; intros i H; cbn [sumr]; [reflexivity|].
  rewrite (H i) by lia. rewrite (IH (i + 1)); [reflexivity|]. intros j Hj. apply H. lia.
Qed.

Lemma nz_upd_eq l i v : 0 <= i < Z.of_nat (length l) -> nz (upd l (Z.to_nat i) v) i = v.
Proof. intro H. unfold nz. apply nth_upd_eq. lia. Qed.
Lemma nz_upd_ne l i j v : 0 <= i -> 0 <= j -> i <> j -> nz (upd l (Z.to_nat i) v) j = nz l j.
Proof. intros. unfold nz. apply nth_upd_ne. lia. Qed.

Lemma sumr_upd l j v k : forall i, 0 <= i -> i <= j < i + Z.of_nat k -> j < Z.of_nat (length l) ->
  sumr (upd l (Z.to_nat j) v) i k = sumr l i k + (v - nz l j).
Proof.
  induction k as [|k IH]; intros i Hi Hj Hl; [lia|]. cbn [sumr].
  destruct (Z.eq_dec i j) as [->|E].
  - rewrite nz_upd_eq by lia. rewrite (sumr_ext _ l).
    + lia.
    + intros q Hq. apply nz_upd_ne; lia.
  - rewrite nz_upd_ne by lia. rewrite IH by lia. lia.
Qed.

Lemma sumr_le l l' k : forall i, (forall j, i <= j < i + Z.of_nat k -> nz l j <= nz l' j) -> sumr l i k <= sumr l' i k.
Proof.
  induction k as [|k IH]; intros i H; cbn [sumr]; [lia|].
  pose proof (H i ltac:(lia)). pose proof (IH (i + 1) ltac:(intros; apply H; lia)). lia.
Qed.

Definition halve (x : Z) : Z := Z.lor (Z.shiftr x 1) 1.
Lemma halve_bound x : 1 <= x -> 1 <= halve x <= x.
Proof.
  intro H. unfold halve. rewrite Z.shiftr_div_pow2 by lia. change (2 ^ 1) with 2.
  assert (Hp : 0 <= x / 2) by (apply Z.div_pos; lia).
  set (y := x / 2) in *.
  assert (Hy : Z.lor y 1 = 2 * (y / 2) + 1).
  { apply Z.bits_inj'. intros n Hn. rewrite Z.lor_spec.
    destruct (Z.eq_dec n 0) as [->|Hn0].
    - rewrite Z.testbit_odd_0. cbn. now rewrite Bool.orb_true_r.
    - replace n with (Z.succ (n - 1)) by lia. rewrite Z.testbit_odd_succ by lia.
      change 1 with (2 * 0 + 1) at 2. rewrite Z.testbit_odd_succ by lia.
      rewrite Z.bits_0, Bool.orb_false_r. rewrite <- Z.div2_div. rewrite Z.div2_spec.
      rewrite Z.shiftr_spec by lia. f_equal. }
  rewrite Hy. split; [assert (0 <= y / 2) by (apply Z.div_pos; lia); lia|].
  unfold y in *.
  Z.div_mod_to_equations. lia.
Qed.

Definition strictly_inc (cf : list Z) (n : Z) : Prop := forall i, 0 <= i < n -> nz cf i < nz cf (i + 1).

(** The state reached by the loop at qsmodel.c:61-68. *)
Lemma rescale_loop_spec i : forall cf missing cfa newf,
  Z.of_nat i < Z.of_nat (length cfa) -> Z.of_nat i < Z.of_nat (length newf) ->
  exists cfa' newf',
    rescale_loop i cf missing cfa newf
    = Some (cf - sumr newf 1 i, missing - sumr newf' 1 i, cfa', newf')
    /\ length cfa' = length cfa /\ length newf' = length newf
    /\ (forall j, 0 <= j -> j = 0 \/ Z.of_nat i < j -> nz cfa' j = nz cfa j /\ nz newf' j = nz newf j)
    /\ (forall j, 1 <= j <= Z.of_nat i -> nz newf' j = halve (nz newf j)
        /\ nz cfa' j = cf - sumr newf j (Z.to_nat (Z.of_nat i + 1 - j))).
Proof.
  induction i as [|i IH]; intros cf missing cfa newf Hc Hn.
  - exists cfa, newf. cbn [rescale_loop sumr]. rewrite !Z.sub_0_r. repeat split; auto; lia.
  - cbn [rescale_loop]. rewrite (aget_nth _ _ 0) by lia. cbn [bind].
    fold (nz newf (Z.of_nat (S i))). set (I := Z.of_nat (S i)) in *.
    rewrite aset_upd by lia. cbn [bind]. rewrite aset_upd by lia. cbn [bind].
    fold (halve (nz newf I)).
    destruct (IH (cf - nz newf I) (missing - halve (nz newf I))
                 (upd cfa (Z.to_nat I) (cf - nz newf I)) (upd newf (Z.to_nat I) (halve (nz newf I))))
      as (cfa' & newf' & E & L1 & L2 & K & M); rewrite ?upd_length; try lia.
    rewrite upd_length in L1, L2.
    assert (Hs : forall j, 1 <= j <= I -> sumr (upd newf (Z.to_nat I) (halve (nz newf I))) j (Z.to_nat (I - j)) = sumr newf j (Z.to_nat (I - j))).
    { intros j Hj. apply sumr_ext. intros q Hq. apply nz_upd_ne; lia. }
    exists cfa', newf'. split; [|split; [auto|split; [auto|split]]].
    + rewrite E. rewrite !sumr_snoc. replace (1 + Z.of_nat i) with I by lia.
      specialize (Hs 1 ltac:(lia)). replace (Z.to_nat (I - 1)) with i in Hs by lia. rewrite Hs.
      destruct (K I ltac:(lia) ltac:(lia)) as [_ K2]. rewrite K2, nz_upd_eq by lia.
      rewrite !Z.sub_add_distr. f_equal. f_equal. f_equal. f_equal; lia.
    + intros j Hj0 Hj. destruct (K j Hj0 ltac:(lia)) as [K1 K2]. rewrite K1, K2.
      rewrite !nz_upd_ne by lia. auto.
    + intros j Hj. destruct (Z.eq_dec j I) as [->|E1].
      * destruct (K I ltac:(lia) ltac:(lia)) as [K1 K2]. rewrite K1, K2, !nz_upd_eq by lia.
        split; [reflexivity|]. replace (Z.to_nat (I + 1 - I)) with 1%nat by lia. cbn [sumr]. lia.
      * destruct (M j ltac:(lia)) as [M1 M2]. rewrite M1, M2. rewrite nz_upd_ne by lia. split; [reflexivity|].
        replace (Z.to_nat (I + 1 - j)) with (S (Z.to_nat (I - j))) by lia. rewrite sumr_snoc.
        replace (j + Z.of_nat (Z.to_nat (I - j))) with I by lia.
        replace (Z.to_nat (Z.of_nat i + 1 - j)) with (Z.to_nat (I - j)) by lia.
        rewrite Hs by lia. lia.
Qed.

(** ** The search table *)
Lemma fill_spec k : forall s v search, 0 <= s -> s + Z.of_nat k <= Z.of_nat (length search) ->
  exists search', fill k s v search = Some search' /\ length search' = length search
    /\ (forall j, s <= j < s + Z.of_nat k -> nz search' j = v)
    /\ (forall j, 0 <= j -> j < s \/ s + Z.of_nat k <= j -> nz search' j = nz search j).
Proof.
  induction k as [|k IH]; intros s v search Hs Hl; cbn [fill].
  - exists search. repeat split; auto; lia.
  - rewrite aset_upd by lia. cbn [bind].
    destruct (IH (s + 1) v (upd search (Z.to_nat s) v)) as (q & E & L & A & B); rewrite ?upd_length; try lia.
    rewrite upd_length in L. exists q. split; [auto|]. split; [auto|]. split.
    + intros j Hj. destruct (Z.eq_dec j s) as [->|N].
      * rewrite B by lia. apply nz_upd_eq; lia.
      * apply A; lia.
    + intros j Hj0 Hj. rewrite B by lia. apply nz_upd_ne; lia.
Qed.

Definition search_ok (n lg shift : Z) (cf search : list Z) : Prop :=
  length search = 129%nat /\ nz search 128 = n - 1 /\
  forall t, 0 <= t -> t * 2 ^ shift < 2 ^ lg ->
    0 <= nz search t < n /\ nz cf (nz search t) <= t * 2 ^ shift < nz cf (nz search t + 1).

Definition shift_of (lg : Z) : Z := if lg - TBLSHIFT <? 0 then 0 else lg - TBLSHIFT.

Lemma shift_bound lg : 0 <= lg -> 0 <= shift_of lg /\ 2 ^ lg <= 128 * 2 ^ shift_of lg.
Proof.
  intro H. unfold shift_of, TBLSHIFT. destruct (Z.ltb_spec (lg - 7) 0).
  - split; [lia|]. change (128 * 2 ^ 0) with (2 ^ 7). apply Z.pow_le_mono_r; lia.
  - split; [lia|]. change 128 with (2 ^ 7). rewrite <- Z.pow_add_r by lia. apply Z.pow_le_mono_r; lia.
Qed.

Lemma inc_le cf n : strictly_inc cf n -> forall i j, 0 <= i -> i <= j <= n -> nz cf i <= nz cf j.
Proof.
  intros H i j Hi Hj. replace j with (i + Z.of_nat (Z.to_nat (j - i))) by lia.
  assert (Hb : i + Z.of_nat (Z.to_nat (j - i)) <= n) by lia. revert Hb.
  generalize (Z.to_nat (j - i)) as k. induction k as [|k IH]; intro Hb.
  - rewrite Z.add_0_r. lia.
  - specialize (H (i + Z.of_nat k) ltac:(lia)).
    replace (i + Z.of_nat (S k)) with (i + Z.of_nat k + 1) by lia. specialize (IH ltac:(lia)). lia.
Qed.

Lemma fill_search_spec lg shift cf n :
  0 <= shift -> 2 ^ lg <= 128 * 2 ^ shift -> strictly_inc cf n -> nz cf 0 = 0 -> nz cf n = 2 ^ lg ->
  Z.of_nat (length cf) = n + 1 ->
  forall i search, Z.of_nat i <= n -> length search = 129%nat -> nz search 128 = n - 1 ->
  (forall t, nz cf (Z.of_nat i) <= t * 2 ^ shift < 2 ^ lg ->
     0 <= nz search t < n /\ nz cf (nz search t) <= t * 2 ^ shift < nz cf (nz search t + 1)) ->
  exists search', fill_search i shift cf search = Some search' /\ search_ok n lg shift cf search'.
Proof.
  intros Hsh Htot Hinc H0 Hn Hlen.
  assert (Hp : 0 < 2 ^ shift) by (apply Z.pow_pos_nonneg; lia).
  induction i as [|i IH]; intros search Hi Hl H128 Hok; cbn [fill_search].
  - exists search. split; [reflexivity|]. split; [auto|]. split; [auto|].
    intros t Ht Hlt. apply Hok. change (Z.of_nat 0) with 0. rewrite H0. nia.
  - rewrite (aget_nth _ _ 0) by lia. cbn [bind]. fold (nz cf (Z.of_nat (S i))).
    rewrite (aget_nth _ _ 0) by lia. cbn [bind]. fold (nz cf (Z.of_nat i)).
    set (c1 := nz cf (Z.of_nat (S i))) in *. set (c0 := nz cf (Z.of_nat i)) in *.
    assert (Hc : c0 < c1). { unfold c0, c1. replace (Z.of_nat (S i)) with (Z.of_nat i + 1) by lia. apply Hinc. lia. }
    assert (Hc0 : 0 <= c0). { unfold c0. rewrite <- H0. apply (inc_le cf n); lia || auto. }
    assert (Hc1 : c1 <= 2 ^ lg). { unfold c1. rewrite <- Hn. apply (inc_le cf n); lia || auto. }
    rewrite !Z.shiftr_div_pow2 by lia. set (P := 2 ^ shift) in *.
    assert (He : (c1 - 1) / P < 128) by (apply Z.div_lt_upper_bound; lia).
    assert (Hs : 0 <= c0 / P) by (apply Z.div_pos; lia).
    assert (Hse : c0 / P <= (c1 - 1) / P) by (apply Z.div_le_mono; lia).
    destruct (fill_spec (Z.to_nat ((c1 - 1) / P - c0 / P + 1)) (c0 / P) (Z.of_nat i) search) as (s' & E & L & A & B); try lia.
    rewrite E. cbn [bind]. apply IH; try lia.
    + rewrite B by lia. lia.
    + intros t Ht. fold c0 in Ht.
      assert (Ht1 : c0 / P <= t) by (apply Z.lt_succ_r; apply Z.div_lt_upper_bound; nia).
      destruct (Z.lt_ge_cases (t * P) c1) as [Hlt|Hge].
      * rewrite A.
        -- replace (Z.of_nat i + 1) with (Z.of_nat (S i)) by lia. fold c0 c1. lia.
        -- assert (t <= (c1 - 1) / P) by (apply Z.div_le_lower_bound; lia). lia.
      * rewrite B.
        -- apply Hok. lia.
        -- nia.
        -- right. assert ((c1 - 1) / P < t) by (apply Z.div_lt_upper_bound; nia). lia.
Qed.

(** ** The invariant *)
Record qinv (n lg : Z) (m : qsmodel) : Prop := {
  qi_n : q_n m = n; qi_shift : q_shift m = shift_of lg;
  qi_lcf : Z.of_nat (length (q_cf m)) = n + 1; qi_lnf : Z.of_nat (length (q_newf m)) = n + 1;
  qi_0 : nz (q_cf m) 0 = 0; qi_tot : nz (q_cf m) n = 2 ^ lg;
  qi_inc : strictly_inc (q_cf m) n;
  qi_pos : forall i, 0 <= i < n -> 1 <= nz (q_newf m) i;
  qi_left : 0 <= q_left m; qi_next : 0 <= q_nextleft m; qi_incr : 0 <= q_incr m; qi_resc : 2 <= q_rescale m;
  qi_sum : sumr (q_newf m) 0 (Z.to_nat n) + q_left m * q_incr m + q_nextleft m * (q_incr m + 1) = 2 ^ lg;
  qi_search : match q_search m with None => True | Some s => search_ok n lg (shift_of lg) (q_cf m) s end }.

Lemma sumr_app l k1 : forall i k2, sumr l i (k1 + k2) = sumr l i k1 + sumr l (i + Z.of_nat k1) k2.
Proof.
  induction k1 as [|k1 IH]; intros i k2; cbn [sumr Nat.add].
  - rewrite Z.add_0_r. lia.
  - rewrite IH. replace (i + Z.of_nat (S k1)) with (i + 1 + Z.of_nat k1) by lia. lia.
Qed.

Lemma sumr_pos l k : forall i, (forall j, i <= j < i + Z.of_nat k -> 1 <= nz l j) -> Z.of_nat k <= sumr l i k.
Proof.
  induction k as [|k IH]; intros i H; cbn [sumr]; [lia|].
  pose proof (H i ltac:(lia)). pose proof (IH (i + 1) ltac:(intros; apply H; lia)). lia.
Qed.

Definition grown (r target : Z) : Z :=
  if r <? target then (let r2 := Z.shiftl r 1 in if target <? r2 then target else r2) else r.

(** A real rescaling from any consistent set of counts. *)
Lemma dorescale_full n lg m :
  q_nextleft m = 0 -> 1 <= n -> 0 <= lg -> q_n m = n -> q_shift m = shift_of lg ->
  Z.of_nat (length (q_cf m)) = n + 1 -> Z.of_nat (length (q_newf m)) = n + 1 ->
  nz (q_cf m) 0 = 0 -> nz (q_cf m) n = 2 ^ lg ->
  (forall i, 0 <= i < n -> 1 <= nz (q_newf m) i) ->
  sumr (q_newf m) 0 (Z.to_nat n) = 2 ^ lg -> 2 <= q_rescale m ->
  match q_search m with None => True | Some s => length s = 129%nat /\ nz s 128 = n - 1 end ->
  exists m', dorescale m = Some m' /\ qinv n lg m' /\ 1 <= q_left m'
    /\ (q_search m' = None <-> q_search m = None)
    /\ (forall i, 0 <= i <= n -> nz (q_cf m') i = sumr (q_newf m) 0 (Z.to_nat i))
    /\ (forall i, 0 <= i < n -> nz (q_newf m') i = halve (nz (q_newf m) i))
    /\ q_target m' = q_target m
    /\ q_rescale m' = grown (q_rescale m) (q_target m)
    /\ q_incr m' = (2 ^ lg - sumr (q_newf m') 0 (Z.to_nat n)) / q_rescale m'
    /\ q_nextleft m' = (2 ^ lg - sumr (q_newf m') 0 (Z.to_nat n)) mod q_rescale m'
    /\ q_left m' = q_rescale m' - q_nextleft m'.
Proof.
  intros Hnl Hn Hlg En Esh Lc Ln C0 Ct Hpos Hsum Hr Hs.
  unfold dorescale. rewrite Hnl, En, Esh. cbn [Z.eqb negb].
  destruct (Z.leb_spec n 0); [lia|].
  rewrite (aget_nth _ _ 0) by lia. cbn [bind]. fold (nz (q_cf m) n). rewrite Ct.
  change (if q_rescale m <? q_target m then _ else _) with (grown (q_rescale m) (q_target m)).
  set (R := grown (q_rescale m) (q_target m)).
  assert (HR : 2 <= R).
  { unfold R, grown. destruct (Z.ltb_spec (q_rescale m) (q_target m)); [|lia].
    rewrite Z.shiftl_mul_pow2 by lia. change (2 ^ 1) with 2.
    destruct (Z.ltb_spec (q_target m) (q_rescale m * 2)); lia. }
  clearbody R.
  destruct (rescale_loop_spec (Z.to_nat (n - 1)) (2 ^ lg) (2 ^ lg) (q_cf m) (q_newf m))
    as (cfa & nf & E & L1 & L2 & K & M); try lia.
  rewrite E. cbn [bind]. rewrite (aget_nth nf 0 0) by lia. cbn [bind]. fold (nz nf 0).
  destruct (K 0 ltac:(lia) ltac:(lia)) as [K0 K0'].
  assert (HS1 : sumr (q_newf m) 0 (Z.to_nat n) = nz (q_newf m) 0 + sumr (q_newf m) 1 (Z.to_nat (n - 1))).
  { replace (Z.to_nat n) with (S (Z.to_nat (n - 1))) by lia. reflexivity. }
  destruct (Z.eqb_spec (2 ^ lg - sumr (q_newf m) 1 (Z.to_nat (n - 1))) (nz nf 0)) as [_|Hne]; [|lia].
  cbn [negb]. rewrite aset_upd by lia. cbn [bind]. fold (halve (nz nf 0)).
  set (nf' := upd nf (Z.to_nat 0) (halve (nz nf 0))).
  assert (Hnf' : forall i, 0 <= i < n -> nz nf' i = halve (nz (q_newf m) i)).
  { intros i Hi. unfold nf'. destruct (Z.eq_dec i 0) as [->|Ne].
    - rewrite nz_upd_eq by lia. rewrite K0'. reflexivity.
    - rewrite nz_upd_ne by lia. destruct (M i ltac:(lia)) as [M1 _]. exact M1. }
  set (miss := 2 ^ lg - sumr nf 1 (Z.to_nat (n - 1)) - halve (nz nf 0)).
  assert (Hmiss : miss = 2 ^ lg - sumr nf' 0 (Z.to_nat n)).
  { unfold miss. replace (Z.to_nat n) with (S (Z.to_nat (n - 1))) by lia. cbn [sumr].
    rewrite Z.add_0_l. rewrite (sumr_ext nf' nf _ 1).
    - unfold nf'. rewrite nz_upd_eq by lia. lia.
    - intros j Hj. apply nz_upd_ne; lia. }
  assert (Hmp : 0 <= miss).
  { rewrite Hmiss, <- Hsum. enough (sumr nf' 0 (Z.to_nat n) <= sumr (q_newf m) 0 (Z.to_nat n)) by lia.
    apply sumr_le. intros j Hj. rewrite Hnf' by lia. apply halve_bound. apply Hpos. lia. }
  rewrite Z.quot_div_nonneg, Z.rem_mod_nonneg by lia.
  assert (Hcf : forall i, 0 <= i <= n -> nz cfa i = sumr (q_newf m) 0 (Z.to_nat i)).
  { intros i Hi. destruct (Z.eq_dec i 0) as [->|N0]; [rewrite K0, C0; reflexivity|].
    destruct (Z.eq_dec i n) as [->|Nn].
    - destruct (K n ltac:(lia) ltac:(lia)) as [Kn _]. rewrite Kn, Ct. auto.
    - destruct (M i ltac:(lia)) as [_ M2]. rewrite M2. rewrite <- Hsum.
      replace (Z.to_nat n) with (Z.to_nat i + Z.to_nat (n - i))%nat by lia. rewrite sumr_app.
      replace (Z.to_nat (Z.of_nat (Z.to_nat (n - 1)) + 1 - i)) with (Z.to_nat (n - i)) by lia.
      replace (0 + Z.of_nat (Z.to_nat i)) with i by lia. lia. }
  assert (Hinc : strictly_inc cfa n).
  { intros i Hi. rewrite !Hcf by lia. replace (Z.to_nat (i + 1)) with (S (Z.to_nat i)) by lia.
    rewrite sumr_snoc. replace (0 + Z.of_nat (Z.to_nat i)) with i by lia. pose proof (Hpos i Hi). lia. }
  assert (Hcn : nz cfa n = 2 ^ lg) by (rewrite Hcf by lia; auto).
  destruct (shift_bound lg Hlg) as [Hsb1 Hsb2].
  assert (Hse : exists so, (match q_search m with
                 | None => Some None
                 | Some s => do s' <- fill_search (Z.to_nat n) (shift_of lg) cfa s; Some (Some s')
                 end = Some so) /\ (so = None <-> q_search m = None) /\
                 match so with None => True | Some s => search_ok n lg (shift_of lg) cfa s end).
  { destruct (q_search m) as [s|].
    - destruct Hs as [Hs1 Hs2].
      destruct (fill_search_spec lg (shift_of lg) cfa n Hsb1 Hsb2 Hinc ltac:(rewrite K0; auto) Hcn ltac:(lia) (Z.to_nat n) s)
        as (s' & E' & Ok); try lia; auto.
      + rewrite Z2Nat.id by lia. intros t Ht. rewrite Hcn in Ht. lia.
      + exists (Some s'). rewrite E'. cbn [bind]. split; [reflexivity|]. split; [split; discriminate|auto].
    - exists None. split; [reflexivity|]. split; [tauto|exact I]. }
  destruct Hse as (so & Eso & Hso1 & Hso2). rewrite Eso. cbn [bind].
  pose proof (Z.mod_pos_bound miss R ltac:(lia)) as Hmb.
  assert (Hd0 : 0 <= miss / R) by (apply Z.div_pos; lia).
  eexists. split; [reflexivity|]. cbn [q_left q_search q_cf q_newf q_target q_rescale q_incr q_nextleft].
  split; [|rewrite <- Hmiss; repeat split; auto; try lia; apply Hso1].
  constructor; cbn [q_n q_left q_nextleft q_rescale q_target q_incr q_shift q_cf q_newf q_search]; auto; try lia.
  - unfold nf'; rewrite upd_length. lia.
  - intros i Hi. rewrite Hnf' by lia. apply halve_bound. apply Hpos. lia.
  - pose proof (Z.div_mod miss R ltac:(lia)) as Hdm. nia.
Qed.

Lemma qinv_tot_pos n lg m : qinv n lg m -> 1 <= n -> 0 <= lg.
Proof.
  intros I Hn. destruct (Z.lt_ge_cases lg 0) as [H|H]; [|lia].
  pose proof (qi_tot _ _ _ I) as T. rewrite Z.pow_neg_r in T by lia.
  pose proof (inc_le _ _ (qi_inc _ _ _ I) 1 n ltac:(lia) ltac:(lia)).
  pose proof (qi_inc _ _ _ I 0 ltac:(lia)). rewrite (qi_0 _ _ _ I) in *. change (0 + 1) with 1 in *. lia.
Qed.

Lemma dorescale_inv n lg m : 1 <= n -> qinv n lg m -> q_left m = 0 ->
  exists m', dorescale m = Some m' /\ qinv n lg m' /\ 1 <= q_left m' /\ (q_search m' = None <-> q_search m = None).
Proof.
  intros Hn I Hl. pose proof (qinv_tot_pos _ _ _ I Hn) as Hlg.
  destruct (Z.eq_dec (q_nextleft m) 0) as [E|E].
  - destruct (dorescale_full n lg m E Hn Hlg) as (m' & H1 & H2 & H3 & H4 & _ & _); try (apply I; auto).
    + pose proof (qi_sum _ _ _ I) as S. rewrite Hl, E in S. lia.
    + pose proof (qi_search _ _ _ I) as S. destruct (q_search m); auto. destruct S as (S1 & S2 & _). auto.
    + exists m'. auto.
  - unfold dorescale. destruct (Z.eqb_spec (q_nextleft m) 0); [lia|]. cbn [negb].
    pose proof (qi_next _ _ _ I). pose proof (qi_incr _ _ _ I). pose proof (qi_sum _ _ _ I) as S.
    eexists. split; [reflexivity|]. split; [|cbn; split; [lia|tauto]].
    destruct I. constructor; cbn [q_n q_left q_nextleft q_rescale q_target q_incr q_shift q_cf q_newf q_search]; auto; try lia.
Qed.

Lemma qsupdate_inv n lg m s : 1 <= n -> qinv n lg m -> 0 <= s < n ->
  exists m', qsupdate m s = Some m' /\ qinv n lg m' /\ (q_search m' = None <-> q_search m = None).
Proof.
  intros Hn I Hs. unfold qsupdate.
  assert (H1 : exists m1, (if q_left m <=? 0 then dorescale m else Some m) = Some m1 /\ qinv n lg m1 /\ 1 <= q_left m1
     /\ (q_search m1 = None <-> q_search m = None)).
  { destruct (Z.leb_spec (q_left m) 0).
    - apply dorescale_inv; auto. pose proof (qi_left _ _ _ I). lia.
    - exists m. split; [reflexivity|]. split; [auto|]. split; [lia|tauto]. }
  destruct H1 as (m1 & -> & I1 & Hl & Hse). cbn [bind].
  pose proof (qi_lnf _ _ _ I1). rewrite (aget_nth _ _ 0) by lia. cbn [bind]. fold (nz (q_newf m1) s).
  rewrite aset_upd by lia. cbn [bind]. eexists. split; [reflexivity|]. split; [|exact Hse].
  pose proof (qi_incr _ _ _ I1) as Hi. pose proof (qi_sum _ _ _ I1) as S. pose proof (qi_pos _ _ _ I1) as P.
  destruct I1. constructor; cbn [q_n q_left q_nextleft q_rescale q_target q_incr q_shift q_cf q_newf q_search]; auto; try lia.
  - rewrite upd_length. lia.
  - intros i Hi'. destruct (Z.eq_dec i s) as [->|Ne].
    + rewrite nz_upd_eq by lia. specialize (P s Hs). lia.
    + rewrite nz_upd_ne by lia. auto.
  - rewrite sumr_upd by lia. nia.
Qed.

(** ** Initialisation *)
Lemma nz_map_seq (f : nat -> Z) n tl (i : Z) : 0 <= i < n -> nz (map f (seq 0 (Z.to_nat n)) ++ tl) i = f (Z.to_nat i).
Proof.
  intro H. unfold nz. rewrite app_nth1 by (rewrite map_length, seq_length; lia).
  rewrite nth_indep with (d' := f 0%nat) by (rewrite map_length, seq_length; lia).
  rewrite map_nth, seq_nth by lia. reflexivity.
Qed.

Lemma sumr_even l n e v : (forall i, 0 <= i < n -> nz l i = if i <? e then v + 1 else v) -> 0 <= e <= n ->
  forall k, Z.of_nat k <= n -> sumr l 0 k = Z.of_nat k * v + Z.min e (Z.of_nat k).
Proof.
  intros H He. induction k as [|k IH]; intro Hk; [cbn; lia|].
  rewrite sumr_snoc, IH by lia. rewrite H by lia. destruct (Z.ltb_spec (0 + Z.of_nat k) e); lia.
Qed.

(** Admissible initial counts: enough of them, all positive, adding up to the total. *)
Definition init_ok (n lg : Z) (init : option (list Z)) : Prop :=
  match init with
  | None => True
  | Some l => n <= Z.of_nat (length l) /\ (forall i, 0 <= i < n -> 1 <= nz l i) /\ sumr l 0 (Z.to_nat n) = 2 ^ lg
  end.

Lemma nz_firstn_app l n tl i : 0 <= i < n -> n <= Z.of_nat (length l) -> nz (firstn (Z.to_nat n) l ++ tl) i = nz l i.
Proof.
  intros H Hl. unfold nz. rewrite app_nth1 by (rewrite firstn_length; lia).
  rewrite <- (firstn_skipn (Z.to_nat n) l) at 2. rewrite app_nth1 by (rewrite firstn_length; lia). reflexivity.
Qed.

Definition want (n lg : Z) (init : option (list Z)) (i : Z) : Z :=
  match init with Some l => nz l i | None => 2 ^ lg / n + (if i <? 2 ^ lg mod n then 1 else 0) end.

Lemma init_inv junk n lg rescale init (compress : bool) :
  1 <= n <= 2 ^ lg -> init_ok n lg init ->
  exists m, initqsmodel junk n lg rescale init compress = Some m /\ qinv n lg m
    /\ (q_search m = None <-> compress = true)
    /\ (forall i, 0 <= i < n -> nz (q_cf m) (i + 1) - nz (q_cf m) i = want n lg init i)
    /\ (forall i, 0 <= i < n -> nz (q_newf m) i = halve (want n lg init i))
    /\ q_target m = rescale /\ q_rescale m = grown (Z.lor (Z.shiftr n 4) 2) rescale
    /\ q_incr m = (2 ^ lg - sumr (q_newf m) 0 (Z.to_nat n)) / q_rescale m
    /\ q_nextleft m = (2 ^ lg - sumr (q_newf m) 0 (Z.to_nat n)) mod q_rescale m
    /\ q_left m = q_rescale m - q_nextleft m.
Proof.
  intros Hn Hi.
  assert (Hlg : 0 <= lg). { destruct (Z.lt_ge_cases lg 0); [|lia]. rewrite Z.pow_neg_r in Hn; lia. }
  unfold initqsmodel. fold (shift_of lg).
  set (mem := map junk (seq 0 (Z.to_nat (n + 1)))).
  assert (Lm : Z.of_nat (length mem) = n + 1) by (unfold mem; rewrite map_length, seq_length; lia).
  rewrite aset_upd by lia. cbn [bind]. rewrite aset_upd by (rewrite upd_length; lia). cbn [bind].
  rewrite (Z.shiftl_mul_pow2 1 lg), Z.mul_1_l by lia.
  set (cf := upd (upd mem (Z.to_nat n) (2 ^ lg)) (Z.to_nat 0) 0).
  assert (Lc : Z.of_nat (length cf) = n + 1) by (unfold cf; rewrite !upd_length; lia).
  set (table := map junk (seq 0 (Z.to_nat (Z.shiftl 1 TBLSHIFT + 1)))).
  assert (Lt : length table = 129%nat) by (unfold table; rewrite map_length, seq_length; reflexivity).
  assert (Hse : exists so, (if compress then Some None else do s <- aset table (Z.shiftl 1 TBLSHIFT) (n - 1); Some (Some s)) = Some so
     /\ (so = None <-> compress = true)
     /\ match so with None => True | Some s => length s = 129%nat /\ nz s 128 = n - 1 end).
  { destruct compress.
    - exists None. repeat split; auto.
    - rewrite aset_upd by (rewrite Lt; change (Z.shiftl 1 TBLSHIFT) with 128; lia). cbn [bind].
      eexists. split; [reflexivity|]. split; [split; discriminate|].
      change (Z.shiftl 1 TBLSHIFT) with 128. rewrite upd_length, Lt. split; [reflexivity|].
      apply nz_upd_eq. rewrite Lt. lia. }
  destruct Hse as (so & -> & Hso & Hok). cbn [bind].
  assert (C0 : nz cf 0 = 0) by (unfold cf; apply nz_upd_eq; rewrite upd_length; lia).
  assert (Cn : nz cf n = 2 ^ lg) by (unfold cf; rewrite nz_upd_ne by lia; apply nz_upd_eq; lia).
  unfold resetqsmodel. cbn [q_n q_cf q_newf q_left q_target q_incr q_shift q_search].
  rewrite (aget_nth _ _ 0) by lia. cbn [bind]. fold (nz cf n). rewrite Cn.
  destruct (Z.leb_spec n 0); [lia|].
  assert (Hnf : exists nf, init_newf n (2 ^ lg) init mem = Some nf /\ Z.of_nat (length nf) = n + 1
     /\ (forall i, 0 <= i < n -> nz nf i = want n lg init i) /\ (forall i, 0 <= i < n -> 1 <= nz nf i)
     /\ sumr nf 0 (Z.to_nat n) = 2 ^ lg).
  { unfold init_newf, want. destruct init as [l|].
    - destruct Hi as (Hi1 & Hi2 & Hi3). destruct (Z.ltb_spec (Z.of_nat (length l)) n); [lia|].
      eexists. split; [reflexivity|]. split; [rewrite app_length, firstn_length, skipn_length; lia|].
      split; [intros i Hi; apply nz_firstn_app; lia|].
      split; [intros i Hi; rewrite nz_firstn_app by lia; auto|].
      rewrite <- Hi3. apply sumr_ext. intros j Hj. apply nz_firstn_app; lia.
    - eexists. split; [reflexivity|]. split; [rewrite app_length, map_length, seq_length, skipn_length; lia|].
      pose proof (Z.mod_pos_bound (2 ^ lg) n ltac:(lia)) as Hm.
      assert (Hq : 1 <= 2 ^ lg / n) by (apply Z.div_le_lower_bound; lia).
      assert (Hv : forall i, 0 <= i < n -> nz (map (fun i : nat => if Z.of_nat i <? 2 ^ lg mod n then 2 ^ lg / n + 1 else 2 ^ lg / n)
         (seq 0 (Z.to_nat n)) ++ skipn (Z.to_nat n) mem) i = if i <? 2 ^ lg mod n then 2 ^ lg / n + 1 else 2 ^ lg / n).
      { intros i Hi'. rewrite nz_map_seq by lia. rewrite Z2Nat.id by lia. reflexivity. }
      split; [intros i Hi'; rewrite Hv by lia; destruct (i <? 2 ^ lg mod n); lia|].
      split; [intros i Hi'; rewrite Hv by lia; destruct (i <? 2 ^ lg mod n); lia|].
      rewrite (sumr_even _ n (2 ^ lg mod n) (2 ^ lg / n)); auto; try lia.
      pose proof (Z.div_mod (2 ^ lg) n ltac:(lia)). lia. }
  destruct Hnf as (nf & -> & Lnf & Hw & Hp & Hsum). cbn [bind].
  match goal with |- context [dorescale ?M] => set (m0 := M) end.
  destruct (dorescale_full n lg m0) as (m' & E & I & _ & Hs' & Hcf & D1 & D2 & D3 & D4 & D5 & D6); cbn; auto; try lia.
  { assert (HL : 2 <= Z.lor (Z.shiftr n 4) 2).
    { assert (Hx : 0 <= Z.shiftr n 4) by (apply Z.shiftr_nonneg; lia).
      destruct (Z.lt_ge_cases (Z.lor (Z.shiftr n 4) 2) 2) as [Hlt|]; [|lia].
      assert (Hnn : 0 <= Z.lor (Z.shiftr n 4) 2) by (apply Z.lor_nonneg; lia).
      assert (Hb : Z.testbit (Z.lor (Z.shiftr n 4) 2) 1 = true) by (rewrite Z.lor_spec; apply Bool.orb_true_r).
      assert (Hc : Z.lor (Z.shiftr n 4) 2 = 0 \/ Z.lor (Z.shiftr n 4) 2 = 1) by lia.
      destruct Hc as [Hc|Hc]; rewrite Hc in Hb; discriminate. }
    exact HL. }
  exists m'. split; [auto|]. split; [auto|]. split.
  - rewrite Hs'. exact Hso.
  - cbn [q_newf q_rescale q_target m0] in D1, D2, D3.
    split; [|split; [intros i Hi'; rewrite D1, Hw by lia; reflexivity|auto 10]].
    intros i Hi'. rewrite !Hcf by lia. replace (Z.to_nat (i + 1)) with (S (Z.to_nat i)) by lia.
    rewrite sumr_snoc. replace (0 + Z.of_nat (Z.to_nat i)) with i by lia. cbn [q_newf m0]. rewrite Hw by lia. lia.
Qed.

Lemma qsupdates_inv n lg syms : forall m, 1 <= n -> qinv n lg m -> Forall (fun s => 0 <= s < n) syms ->
  exists m', qsupdates m syms = Some m' /\ qinv n lg m' /\ (q_search m' = None <-> q_search m = None).
Proof.
  induction syms as [|s r IH]; intros m Hn I H; cbn [qsupdates].
  - exists m. auto with *.
  - inversion H; subst. destruct (qsupdate_inv n lg m s Hn I) as (m1 & -> & I1 & S1); auto. cbn [bind].
    destruct (IH m1 Hn I1) as (m2 & E & I2 & S2); auto. exists m2. rewrite S2, S1. auto with *.
Qed.

(** ** Lookup *)
Lemma bsearch_spec n lg cf lt : Z.of_nat (length cf) = n + 1 -> strictly_inc cf n -> nz cf n = 2 ^ lg ->
  forall fuel lo hi, 0 <= lo < hi -> hi <= n -> hi - lo <= Z.of_nat fuel -> nz cf lo <= lt < nz cf hi ->
  exists s, bsearch fuel cf lt lo hi = Some s /\ 0 <= s < n /\ nz cf s <= lt < nz cf (s + 1).
Proof.
  intros Hl Hinc Ht. induction fuel as [|f IH]; intros lo hi Hlo Hhi Hf Hb; [lia|].
  cbn [bsearch]. destruct (Z.ltb_spec (lo + 1) hi).
  - rewrite Z.shiftr_div_pow2 by lia. change (2 ^ 1) with 2.
    assert (Hm : lo < (lo + hi) / 2 < hi) by (Z.div_mod_to_equations; lia).
    rewrite (aget_nth _ _ 0) by lia. cbn [bind]. fold (nz cf ((lo + hi) / 2)).
    destruct (Z.ltb_spec lt (nz cf ((lo + hi) / 2))); apply IH; lia.
  - exists lo. split; [reflexivity|]. split; [lia|]. replace (lo + 1) with hi by lia. auto.
Qed.

Lemma qsgetsym_spec n lg m lt : 1 <= n -> 7 <= lg -> qinv n lg m -> q_search m <> None -> 0 <= lt < 2 ^ lg ->
  exists s, qsgetsym m lt = Some s /\ 0 <= s < n /\ nz (q_cf m) s <= lt < nz (q_cf m) (s + 1).
Proof.
  intros Hn Hlg I Hs Hlt. unfold qsgetsym. destruct I as [In Ish Ilc Iln I0 It Iinc _ _ _ _ _ _ Ise].
  rewrite Ish. destruct (q_search m) as [se|]; [|congruence]. destruct Ise as (Ls & H128 & Hok).
  assert (Esh : shift_of lg = lg - 7).
  { unfold shift_of, TBLSHIFT. destruct (Z.ltb_spec (lg - 7) 0); lia. }
  rewrite Esh in *. rewrite !Z.shiftr_div_pow2 by lia. set (P := 2 ^ (lg - 7)) in *.
  assert (HP : 2 ^ lg = 128 * P). { unfold P. change 128 with (2 ^ 7). rewrite <- Z.pow_add_r by lia. f_equal. lia. }
  assert (HPp : 0 < P) by (unfold P; apply Z.pow_pos_nonneg; lia).
  assert (Hb : 0 <= lt / P < 128) by (split; [apply Z.div_pos; lia|apply Z.div_lt_upper_bound; lia]).
  rewrite (aget_nth _ _ 0) by lia. cbn [bind]. fold (nz se (lt / P)).
  rewrite (aget_nth _ _ 0) by lia. cbn [bind]. fold (nz se (lt / P + 1)).
  pose proof (Z.div_mod lt P ltac:(lia)) as Hdm. pose proof (Z.mod_pos_bound lt P ltac:(lia)) as Hmb.
  set (t := lt / P) in *.
  destruct (Hok t ltac:(lia)) as [A1 A2]; [nia|].
  assert (Hhi : 0 <= nz se (t + 1) < n /\ lt < nz (q_cf m) (nz se (t + 1) + 1)).
  { destruct (Z.eq_dec t 127) as [->|Nt].
    - change (127 + 1) with 128. rewrite H128. split; [lia|]. replace (n - 1 + 1) with n by lia. lia.
    - destruct (Hok (t + 1) ltac:(lia)) as [B1 B2]; [nia|]. split; [lia|]. nia. }
  destruct Hhi as [B1 B2].
  assert (Hlo : nz (q_cf m) (nz se t) <= lt) by nia.
  assert (Hlh : nz se t < nz se (t + 1) + 1).
  { destruct (Z.lt_ge_cases (nz se t) (nz se (t + 1) + 1)); [lia|].
    pose proof (inc_le _ _ Iinc (nz se (t + 1) + 1) (nz se t) ltac:(lia) ltac:(lia)). lia. }
  apply (bsearch_spec n lg); auto; lia.
Qed.

Lemma qsgetfreq_spec n lg m s : qinv n lg m -> 0 <= s < n ->
  qsgetfreq m s = Some (nz (q_cf m) (s + 1) - nz (q_cf m) s, nz (q_cf m) s).
Proof.
  intros I Hs. unfold qsgetfreq. pose proof (qi_lcf _ _ _ I).
  rewrite (aget_nth _ s 0) by lia. cbn [bind]. rewrite (aget_nth _ (s + 1) 0) by lia. reflexivity.
Qed.

Lemma slice_unique n cf s s' lt : strictly_inc cf n -> 0 <= s < n -> 0 <= s' < n ->
  nz cf s <= lt < nz cf (s + 1) -> nz cf s' <= lt < nz cf (s' + 1) -> s = s'.
Proof.
  intros Hinc Hs Hs' H H'. destruct (Z.lt_trichotomy s s') as [L|[E|L]]; auto.
  - pose proof (inc_le _ _ Hinc (s + 1) s' ltac:(lia) ltac:(lia)). lia.
  - pose proof (inc_le _ _ Hinc (s' + 1) s ltac:(lia) ltac:(lia)). lia.
Qed.

(** ** Encoder and decoder models stay in step *)
Record same (n : Z) (a b : qsmodel) : Prop := {
  sm_left : q_left a = q_left b; sm_next : q_nextleft a = q_nextleft b;
  sm_resc : q_rescale a = q_rescale b; sm_tgt : q_target a = q_target b; sm_incr : q_incr a = q_incr b;
  sm_cf : forall i, 0 <= i <= n -> nz (q_cf a) i = nz (q_cf b) i;
  sm_newf : forall i, 0 <= i < n -> nz (q_newf a) i = nz (q_newf b) i }.

Lemma dorescale_same n lg a b a' b' : 1 <= n -> qinv n lg a -> qinv n lg b -> q_left a = 0 -> same n a b ->
  dorescale a = Some a' -> dorescale b = Some b' -> same n a' b'.
Proof.
  intros Hn Ia Ib Hl S Ea Eb. pose proof (qinv_tot_pos _ _ _ Ia Hn) as Hlg.
  assert (Hlb : q_left b = 0) by (rewrite <- (sm_left _ _ _ S); auto).
  destruct (Z.eq_dec (q_nextleft a) 0) as [E|E].
  - assert (E' : q_nextleft b = 0) by (rewrite <- (sm_next _ _ _ S); auto).
    assert (Sa : sumr (q_newf a) 0 (Z.to_nat n) = 2 ^ lg) by (pose proof (qi_sum _ _ _ Ia) as X; rewrite Hl, E in X; lia).
    assert (Sb : sumr (q_newf b) 0 (Z.to_nat n) = 2 ^ lg) by (pose proof (qi_sum _ _ _ Ib) as X; rewrite Hlb, E' in X; lia).
    assert (Xa : match q_search a with None => True | Some s => length s = 129%nat /\ nz s 128 = n - 1 end).
    { pose proof (qi_search _ _ _ Ia) as X. destruct (q_search a); auto. destruct X as (X1 & X2 & _). auto. }
    assert (Xb : match q_search b with None => True | Some s => length s = 129%nat /\ nz s 128 = n - 1 end).
    { pose proof (qi_search _ _ _ Ib) as X. destruct (q_search b); auto. destruct X as (X1 & X2 & _). auto. }
    destruct (dorescale_full n lg a E Hn Hlg) as (a1 & A1 & _ & _ & _ & A2 & A3 & A4 & A5 & A6 & A7 & A8); try (apply Ia; auto); auto.
    destruct (dorescale_full n lg b E' Hn Hlg) as (b1 & B1 & _ & _ & _ & B2 & B3 & B4 & B5 & B6 & B7 & B8); try (apply Ib; auto); auto.
    rewrite Ea in A1. injection A1 as <-. rewrite Eb in B1. injection B1 as <-.
    assert (Hnf : forall i, 0 <= i < n -> nz (q_newf a') i = nz (q_newf b') i).
    { intros i Hi. rewrite A3, B3 by lia. now rewrite (sm_newf _ _ _ S) by lia. }
    assert (Hsum : sumr (q_newf a') 0 (Z.to_nat n) = sumr (q_newf b') 0 (Z.to_nat n)).
    { apply sumr_ext. intros j Hj. apply Hnf. lia. }
    assert (Hr : q_rescale a' = q_rescale b') by (rewrite A5, B5, (sm_resc _ _ _ S), (sm_tgt _ _ _ S); reflexivity).
    assert (Hnx : q_nextleft a' = q_nextleft b') by (rewrite A7, B7, Hsum, Hr; reflexivity).
    constructor; auto.
    + rewrite A8, B8, Hr, Hnx. reflexivity.
    + rewrite A4, B4. apply S.
    + rewrite A6, B6, Hsum, Hr. reflexivity.
    + intros i Hi. rewrite A2, B2 by lia. apply sumr_ext. intros j Hj. apply S. lia.
  - assert (E' : q_nextleft b <> 0) by (rewrite <- (sm_next _ _ _ S); auto).
    unfold dorescale in Ea, Eb.
    destruct (Z.eqb_spec (q_nextleft a) 0); [lia|]. destruct (Z.eqb_spec (q_nextleft b) 0); [lia|].
    cbn [negb] in Ea, Eb. injection Ea as <-. injection Eb as <-.
    destruct S. constructor; cbn [q_n q_left q_nextleft q_rescale q_target q_incr q_shift q_cf q_newf q_search]; auto. lia.
Qed.

Lemma qsupdate_same n lg a b a' b' s : 1 <= n -> qinv n lg a -> qinv n lg b -> 0 <= s < n -> same n a b ->
  qsupdate a s = Some a' -> qsupdate b s = Some b' -> same n a' b'.
Proof.
  intros Hn Ia Ib Hs S Ea Eb. unfold qsupdate in Ea, Eb. rewrite <- (sm_left _ _ _ S) in Eb.
  assert (H : exists a1 b1, (if q_left a <=? 0 then dorescale a else Some a) = Some a1
     /\ (if q_left a <=? 0 then dorescale b else Some b) = Some b1 /\ same n a1 b1
     /\ Z.of_nat (length (q_newf a1)) = n + 1 /\ Z.of_nat (length (q_newf b1)) = n + 1).
  { destruct (Z.leb_spec (q_left a) 0) as [L|L].
    - assert (La : q_left a = 0) by (pose proof (qi_left _ _ _ Ia); lia).
      destruct (dorescale_inv n lg a Hn Ia La) as (a1 & A & Ia1 & _).
      destruct (dorescale_inv n lg b Hn Ib) as (b1 & B & Ib1 & _); [rewrite <- (sm_left _ _ _ S); auto|].
      exists a1, b1. repeat split; auto; try apply Ia1; try apply Ib1;
      apply (dorescale_same n lg a b a1 b1 Hn Ia Ib La S A B).
    - exists a, b. repeat split; auto; try apply Ia; try apply Ib; apply S. }
  destruct H as (a1 & b1 & A & B & S1 & La & Lb). rewrite A in Ea. rewrite B in Eb. cbn [bind] in Ea, Eb.
  rewrite (aget_nth _ _ 0) in Ea by lia. rewrite (aget_nth _ _ 0) in Eb by lia. cbn [bind] in Ea, Eb.
  rewrite aset_upd in Ea by lia. rewrite aset_upd in Eb by lia. cbn [bind] in Ea, Eb.
  fold (nz (q_newf a1) s) in Ea. fold (nz (q_newf b1) s) in Eb.
  injection Ea as <-. injection Eb as <-.
  destruct S1 as [S1 S2 S3 S4 S5 S6 S7].
  constructor; cbn [q_n q_left q_nextleft q_rescale q_target q_incr q_shift q_cf q_newf q_search]; auto; try lia.
  intros i Hi. destruct (Z.eq_dec i s) as [->|Ne].
  - rewrite !nz_upd_eq by lia. rewrite S5, S7 by lia. reflexivity.
  - rewrite !nz_upd_ne by lia. auto.
Qed.

Lemma init_same ja jb n lg rescale init ca cb a b : 1 <= n <= 2 ^ lg -> init_ok n lg init ->
  initqsmodel ja n lg rescale init ca = Some a -> initqsmodel jb n lg rescale init cb = Some b -> same n a b.
Proof.
  intros Hn Hi Ea Eb.
  destruct (init_inv ja n lg rescale init ca Hn Hi) as (a' & A & Ia & _ & A1 & A2 & A3 & A4 & A5 & A6 & A7).
  destruct (init_inv jb n lg rescale init cb Hn Hi) as (b' & B & Ib & _ & B1 & B2 & B3 & B4 & B5 & B6 & B7).
  rewrite Ea in A. injection A as <-. rewrite Eb in B. injection B as <-.
  assert (Hnf : forall i, 0 <= i < n -> nz (q_newf a) i = nz (q_newf b) i) by (intros; rewrite A2, B2 by lia; reflexivity).
  assert (Hs : sumr (q_newf a) 0 (Z.to_nat n) = sumr (q_newf b) 0 (Z.to_nat n)) by (apply sumr_ext; intros; apply Hnf; lia).
  assert (Hr : q_rescale a = q_rescale b) by congruence.
  constructor; auto; try congruence.
  assert (G : forall k : nat, Z.of_nat k <= n -> nz (q_cf a) (Z.of_nat k) = nz (q_cf b) (Z.of_nat k)).
  { induction k as [|k IH]; intro Hk.
    - change (Z.of_nat 0) with 0. rewrite (qi_0 _ _ _ Ia), (qi_0 _ _ _ Ib). reflexivity.
    - specialize (IH ltac:(lia)). specialize (A1 (Z.of_nat k) ltac:(lia)). specialize (B1 (Z.of_nat k) ltac:(lia)).
      replace (Z.of_nat (S k)) with (Z.of_nat k + 1) by lia. lia. }
  intros i Hi'. specialize (G (Z.to_nat i) ltac:(lia)). rewrite Z2Nat.id in G by lia. exact G.
Qed.
