(** How often the adaptive model refreshes its frequencies. *)
From Coq Require Import List ZArith Lia.
From Verif Require Import Arr QsModel QsModelProofs RangeCoderSpec QsSpecProofs.
Import ListNotations.
Open Scope Z_scope.

(** Updates left before the frequencies change. *)
Definition due (m : qsmodel) : Z := q_left m + q_nextleft m.
Definition slowest (n rescale : Z) : Z := Z.max rescale (Z.lor (Z.shiftr n 4) 2).
Definition paced (n rescale : Z) (m : qsmodel) : Prop :=
  q_target m = rescale /\ due m <= q_rescale m <= slowest n rescale.

Lemma grown_bound n rescale r : 0 <= r -> r <= slowest n rescale -> grown r rescale <= slowest n rescale /\ r <= grown r rescale.
Proof.
  intros H0 H. unfold grown. destruct (Z.ltb_spec r rescale); [|lia]. rewrite Z.shiftl_mul_pow2 by lia. change (2 ^ 1) with 2.
  unfold slowest in *. destruct (Z.ltb_spec rescale (r * 2)); lia.
Qed.

Lemma update_paced n lg rescale m s : 1 <= n -> qinv n lg m -> 0 <= s < n -> paced n rescale m ->
  exists m', qsupdate m s = Some m' /\ qinv n lg m' /\ paced n rescale m' /\
    (0 < due m -> q_cf m' = q_cf m /\ due m' = due m - 1) /\ (due m = 0 -> due m' = q_rescale m' - 1 /\ q_rescale m' = grown (q_rescale m) rescale) /\
    0 <= due m'.
Proof.
  intros Hn I Hs (T & D & R). pose proof (qi_left _ _ _ I) as L0. pose proof (qi_next _ _ _ I) as N0. pose proof (qi_resc _ _ _ I) as R0.
  destruct (qsupdate_inv n lg m s Hn I Hs) as (m' & E & I' & _). exists m'. split; [exact E|]. split; [exact I'|].
  pose proof (qi_left _ _ _ I') as L1. pose proof (qi_next _ _ _ I') as N1. unfold qsupdate in E.
  assert (X : exists m1, (if q_left m <=? 0 then dorescale m else Some m) = Some m1 /\ q_target m1 = q_target m /\
     (0 < due m -> q_cf m1 = q_cf m /\ due m1 = due m /\ q_rescale m1 = q_rescale m) /\
     (due m = 0 -> due m1 = q_rescale m1 /\ q_rescale m1 = grown (q_rescale m) rescale)).
  { unfold due. destruct (Z.leb_spec (q_left m) 0).
    - destruct (Z.eq_dec (q_nextleft m) 0) as [Z0|Z0].
      + destruct (dorescale_full n lg m Z0 Hn (qinv_tot_pos _ _ _ I Hn)) as (m1 & H1 & _ & _ & _ & _ & _ & H2 & H3 & _ & H4 & H5); try (apply I; auto).
        * pose proof (qi_sum _ _ _ I) as S. rewrite Z0 in S. replace (q_left m) with 0 in S by lia. lia.
        * pose proof (qi_search _ _ _ I) as S. destruct (q_search m); auto. destruct S as (S1 & S2 & _). auto.
        * exists m1. split; [exact H1|]. split; [exact H2|]. split; [lia|]. rewrite T in H3. split; [lia|exact H3].
      + unfold dorescale. destruct (Z.eqb_spec (q_nextleft m) 0); [lia|]. cbn [negb]. eexists. split; [reflexivity|].
        cbn [q_target q_cf q_left q_nextleft q_rescale]. split; [reflexivity|]. split; [intro; split; [reflexivity|lia]|lia].
    - exists m. split; [reflexivity|]. split; [reflexivity|]. split; [auto|lia]. }
  destruct X as (m1 & X & T1 & Y1 & Y2). rewrite X in E. cbn [bind] in E.
  destruct (aget (q_newf m1) s) as [v|]; [|discriminate]. cbn [bind] in E. destruct (aset (q_newf m1) s _) as [nf|]; [|discriminate].
  cbn [bind] in E. injection E as <-. unfold paced, due in *. cbn [q_left q_nextleft q_target q_rescale q_cf] in *.
  destruct (Z.eq_dec (q_left m + q_nextleft m) 0) as [Z0|Z0].
  - destruct (Y2 Z0) as [A B]. destruct (grown_bound n rescale (q_rescale m) ltac:(lia) R). split; [split; [congruence|lia]|]. split; [lia|]. split; lia.
  - destruct (Y1 ltac:(lia)) as (A & B & C). split; [split; [congruence|lia]|]. split; [intros _; split; [exact A|lia]|]. split; [lia|lia].
Qed.

Lemma init_paced junk n lg rescale init compress : 1 <= n <= 2 ^ lg -> init_ok n lg init ->
  exists m, initqsmodel junk n lg rescale init compress = Some m /\ qinv n lg m /\ paced n rescale m.
Proof.
  intros Hn Hi. destruct (init_inv junk n lg rescale init compress Hn Hi) as (m & E & I & _ & _ & _ & T & R & _ & N & L).
  exists m. split; [exact E|]. split; [exact I|]. split; [exact T|]. unfold due.
  assert (P : 0 <= Z.lor (Z.shiftr n 4) 2). { apply Z.lor_nonneg. split; [apply Z.shiftr_nonneg; lia|lia]. }
  destruct (grown_bound n rescale (Z.lor (Z.shiftr n 4) 2) P ltac:(unfold slowest; lia)). lia.
Qed.

Lemma updates_paced n lg rescale hist : forall m, 1 <= n -> qinv n lg m -> Forall (fun s => 0 <= s < n) hist -> paced n rescale m ->
  exists m', qsupdates m hist = Some m' /\ qinv n lg m' /\ paced n rescale m'.
Proof.
  induction hist as [|s r IH]; intros m Hn I H P; cbn [qsupdates]; [exists m; auto|]. inversion H; subst.
  destruct (update_paced n lg rescale m s Hn I) as (m1 & -> & I1 & P1 & _); auto. cbn [bind]. apply IH; auto.
Qed.

Lemma updates_stable n lg rescale more : forall m, 1 <= n -> qinv n lg m -> Forall (fun s => 0 <= s < n) more -> paced n rescale m ->
  Z.of_nat (length more) <= due m -> exists m', qsupdates m more = Some m' /\ q_cf m' = q_cf m /\ due m' = due m - Z.of_nat (length more).
Proof.
  induction more as [|s r IH]; intros m Hn I H P L; cbn [qsupdates length] in *; [exists m; split; [reflexivity|split; [reflexivity|lia]]|].
  inversion H; subst. destruct (update_paced n lg rescale m s Hn I) as (m1 & -> & I1 & P1 & X & _); auto. cbn [bind].
  destruct (X ltac:(lia)) as [C D]. destruct (IH m1 Hn I1) as (m' & E & C' & D'); auto; [lia|]. exists m'. split; [exact E|]. split; [congruence|lia].
Qed.

(** C81 *)
Lemma pace_proof junk n lg rescale init compress hist : 1 <= n <= 2 ^ lg -> good_counts n lg init -> Forall (fun s => 0 <= s < n) hist ->
  exists m0 m k, initqsmodel junk n lg rescale init compress = Some m0 /\ qsupdates m0 hist = Some m /\
    (k <= Z.to_nat (Z.max rescale (Z.lor (Z.shiftr n 4) 2)))%nat /\
    (forall more, Forall (fun s => 0 <= s < n) more -> (length more <= k)%nat ->
       exists m', qsupdates m more = Some m' /\ forall s, 0 <= s < n -> qsgetfreq m' s = qsgetfreq m s) /\
    (forall more s, Forall (fun s => 0 <= s < n) more -> length more = k -> 0 <= s < n ->
       exists m1 m2, qsupdates m more = Some m1 /\ qsupdate m1 s = Some m2 /\
         forall i, 0 <= i < n -> exists lt, qsgetfreq m2 i = Some (nth (Z.to_nat i) (q_newf m1) 0, lt)).
Proof.
  intros Hn Hi Hh. destruct (init_paced junk n lg rescale init compress Hn (good_init _ _ _ Hi)) as (m0 & E0 & I0 & P0).
  destruct (updates_paced n lg rescale hist m0 ltac:(lia) I0 Hh P0) as (m & E & I & P). exists m0, m, (Z.to_nat (due m)).
  split; [exact E0|]. split; [exact E|]. destruct P as (T & D & R). pose proof (qi_left _ _ _ I) as L0. pose proof (qi_next _ _ _ I) as N0.
  split; [unfold slowest in R; lia|]. assert (D0 : 0 <= due m) by (unfold due; lia). split.
  - intros more Hm Hl. destruct (updates_stable n lg rescale more m ltac:(lia) I Hm (conj T (conj D R)) ltac:(lia)) as (m' & E' & C & _).
    exists m'. split; [exact E'|]. intros s Hs. unfold qsgetfreq. rewrite C. reflexivity.
  - intros more s Hm Hl Hs.
    destruct (updates_stable n lg rescale more m ltac:(lia) I Hm (conj T (conj D R)) ltac:(lia)) as (m1 & E1 & C & D1).
    destruct (updates_paced n lg rescale more m ltac:(lia) I Hm (conj T (conj D R))) as (m1' & E1' & I1 & P1). rewrite E1 in E1'. injection E1' as <-.
    pose proof (qi_left _ _ _ I1) as L1. pose proof (qi_next _ _ _ I1) as N1. unfold due in D1, D0, Hl. rewrite Hl in D1.
    assert (Z1 : q_nextleft m1 = 0 /\ q_left m1 = 0) by lia. destruct Z1 as [Z1 Z2].
    destruct (dorescale_full n lg m1 Z1 ltac:(lia) (qinv_tot_pos _ _ _ I1 ltac:(lia))) as (m2 & H1 & H2 & _ & _ & H3 & _); try (apply I1; auto).
    { pose proof (qi_sum _ _ _ I1) as S. rewrite Z1, Z2 in S. lia. }
    { pose proof (qi_search _ _ _ I1) as S. destruct (q_search m1); auto. destruct S as (S1 & S2 & _). auto. }
    destruct (qsupdate_inv n lg m1 s ltac:(lia) I1 Hs) as (m3 & E3 & I3 & _). exists m1, m3. split; [exact E1|]. split; [exact E3|].
    assert (C3 : q_cf m3 = q_cf m2).
    { unfold qsupdate in E3. rewrite Z2 in E3. cbn [Z.leb Z.compare] in E3. rewrite H1 in E3. cbn [bind] in E3.
      destruct (aget (q_newf m2) s) as [v|]; [|discriminate]. cbn [bind] in E3. destruct (aset (q_newf m2) s _) as [nf|]; [|discriminate].
      cbn [bind] in E3. injection E3 as <-. reflexivity. }
    intros i Hi'. unfold qsgetfreq. rewrite C3. pose proof (qi_lcf _ _ _ H2).
    rewrite !(aget_nth _ _ 0) by lia. cbn [bind]. fold (nz (q_cf m2) (i + 1)). fold (nz (q_cf m2) i). rewrite !H3 by lia.
    replace (Z.to_nat (i + 1)) with (S (Z.to_nat i)) by lia. rewrite sumr_snoc. eexists. f_equal. f_equal. unfold nz. replace (Z.to_nat (0 + Z.of_nat (Z.to_nat i))) with (Z.to_nat i) by lia. lia.
Qed.
