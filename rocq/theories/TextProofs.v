(** Printed numbers are the nearest ones with the digits of the stream; WKT reads back. *)
From Coq Require Import String Ascii List ZArith QArith Qabs Qround Qpower Bool Lia Lqa.
From Verif Require Import Arr TextModel TextSpec.
Import ListNotations.
Open Scope char_scope.
Open Scope list_scope.
Open Scope Z_scope.

(** * Powers of ten *)
Lemma ten_pos x : (0 < ten x)%Q.
Proof. apply Qpower_0_lt. reflexivity. Qed.
Lemma ten_plus x y : (ten (x + y) == ten x * ten y)%Q.
Proof. apply Qpower_plus. intros H. discriminate H. Qed.
Lemma ten_le x y : x <= y -> (ten x <= ten y)%Q.
Proof. intros H. apply Qpower_le_compat_l; [exact H | discriminate]. Qed.
Lemma ten_Z x : 0 <= x -> (ten x == inject_Z (10 ^ x))%Q.
Proof. intros H. rewrite Zpower_Qpower by exact H. reflexivity. Qed.
Lemma ten_0 : (ten 0 == 1)%Q.
Proof. reflexivity. Qed.
Lemma ten_inv x : (ten x * ten (- x) == 1)%Q.
Proof. rewrite <- ten_plus. replace (x + - x) with 0 by lia. reflexivity. Qed.

(** * The exponent *)
Lemma lead_spec fuel : forall v x, (v < ten (x + 1))%Q -> (ten (x + 1 - Z.of_nat fuel) <= v)%Q ->
  (ten (lead fuel v x) <= v)%Q /\ (v < ten (lead fuel v x + 1))%Q.
Proof.
  induction fuel as [|k IH]; intros v x Hlt Hle; cbn [lead].
  - exfalso. replace (x + 1 - Z.of_nat 0) with (x + 1) in Hle by lia. lra.
  - destruct (Qle_bool (ten x) v) eqn:E.
    + apply Qle_bool_iff in E. split; assumption.
    + assert (N : (v < ten x)%Q).
      { apply Qnot_le_lt. intros C. apply Qle_bool_iff in C. rewrite C in E. discriminate E. }
      apply IH.
      * replace (x - 1 + 1) with x by lia. exact N.
      * replace (x - 1 + 1 - Z.of_nat k) with (x + 1 - Z.of_nat (S k)) by lia. exact Hle.
Qed.
Lemma pow2_ten n : 0 <= n -> (2 ^ n <= 10 ^ n).
Proof. intros H. apply Z.pow_le_mono_l. lia. Qed.
Lemma exponent_spec v : (0 < v)%Q -> (ten (exponent v) <= v)%Q /\ (v < ten (exponent v + 1))%Q.
Proof.
  intros Hv. destruct v as [n d]. unfold exponent. cbn [Qnum Qden].
  assert (Hn : 0 < n) by (unfold Qlt in Hv; cbn in Hv; lia).
  pose proof (Z.log2_nonneg n) as L1. pose proof (Z.log2_nonneg (Zpos d)) as L2.
  apply lead_spec.
  - apply Qlt_le_trans with (inject_Z (2 ^ (Z.log2 n + 1))).
    + pose proof (proj2 (Z.log2_spec n Hn)) as B.
      unfold Qlt, inject_Z. cbn [Qnum Qden]. replace (Z.log2 n + 1) with (Z.succ (Z.log2 n)) by lia. nia.
    + rewrite ten_Z by lia. rewrite <- Zle_Qle.
      apply Z.le_trans with (2 ^ (Z.log2 n + 1 + 1)); [apply Z.pow_le_mono_r; lia | apply pow2_ten; lia].
  - set (k := Z.log2 (Z.pos d)) in *.
    apply Qle_trans with (ten (- (k + 1))).
    + apply ten_le. rewrite Z2Nat.id by lia. lia.
    + assert (B : Z.pos d < 2 ^ (k + 1)) by (apply (Z.log2_spec (Z.pos d)); lia).
      pose proof (pow2_ten (k + 1) ltac:(lia)) as T.
      pose proof (ten_inv (k + 1)) as I. pose proof (ten_Z (k + 1) ltac:(lia)) as Z1. rewrite Z1 in I.
      pose proof (ten_pos (- (k + 1))) as P.
      (* t * 10^(k+1) = 1, v * 10^(k+1) >= 1 *)
      assert (V : (1 <= (n # d) * inject_Z (10 ^ (k + 1)))%Q).
      { unfold Qle, Qmult, inject_Z. cbn [Qnum Qden]. nia. }
      assert (P10 : (0 < inject_Z (10 ^ (k + 1)))%Q) by (rewrite <- Z1; apply ten_pos).
      apply (Qmult_le_r _ _ _ P10). rewrite Qmult_comm, I. exact V.
Qed.

(** * Rounding *)
Lemma round_even_half q : (Qabs (inject_Z (round_even q) - q) <= 1 # 2)%Q.
Proof.
  unfold round_even. pose proof (Qfloor_le q) as L. pose proof (Qlt_floor q) as U.
  rewrite inject_Z_plus in U. set (f := inject_Z (Qfloor q)) in *.
  apply Qabs_Qle_condition.
  destruct (Qcompare_spec (q - f) (1 # 2)) as [E|E|E].
  - destruct (Z.even (Qfloor q)); fold f; [lra|]. rewrite inject_Z_plus. fold f. change (inject_Z 1) with 1%Q. lra.
  - fold f. lra.
  - rewrite inject_Z_plus. fold f. change (inject_Z 1) with 1%Q in *. lra.
Qed.
Lemma round_even_near q k : (Qabs (inject_Z (round_even q) - q) <= Qabs (inject_Z k - q))%Q.
Proof.
  pose proof (round_even_half q) as H. set (r := round_even q) in *.
  destruct (Z.eq_dec k r) as [->|N]; [apply Qle_refl|].
  apply Qle_trans with (1 # 2)%Q; [exact H|].
  apply Qabs_Qle_condition in H.
  assert (D : k <= r - 1 \/ r + 1 <= k) by lia.
  destruct D as [D|D].
  - assert (Q : (inject_Z k <= inject_Z r - 1)%Q).
    { assert (L : k + 1 <= r) by lia. rewrite Zle_Qle in L. rewrite inject_Z_plus in L. change (inject_Z 1) with 1%Q in L. lra. }
    rewrite Qabs_neg by lra. lra.
  - assert (Q : (inject_Z r + 1 <= inject_Z k)%Q).
    { pose proof D as L. rewrite Zle_Qle in L. rewrite inject_Z_plus in L.
      change (inject_Z 1) with 1%Q in L. lra. }
    rewrite Qabs_pos by lra. lra.
Qed.
Lemma round_even_ge q z : (inject_Z z <= q)%Q -> z <= round_even q.
Proof.
  intros H. pose proof (round_even_half q) as R. apply Qabs_Qle_condition in R.
  destruct (Z_lt_le_dec (round_even q) z) as [C|C]; [|exact C]. exfalso.
  assert (L : round_even q + 1 <= z) by lia. rewrite Zle_Qle in L. rewrite inject_Z_plus in L.
  change (inject_Z 1) with 1%Q in L. lra.
Qed.
Lemma round_even_le q z : (q <= inject_Z z)%Q -> round_even q <= z.
Proof.
  intros H. pose proof (round_even_half q) as R. apply Qabs_Qle_condition in R.
  destruct (Z_lt_le_dec z (round_even q)) as [C|C]; [|exact C]. exfalso.
  assert (L : z + 1 <= round_even q) by lia. rewrite Zle_Qle in L. rewrite inject_Z_plus in L.
  change (inject_Z 1) with 1%Q in L. lra.
Qed.

(** * The digits kept *)
Lemma nearest_scaled p v e : (1 <= p)%nat -> (0 < v)%Q -> (ten e <= v)%Q -> (v < ten (e + 1))%Q ->
  forall u, few_digits p u ->
  (Qabs (inject_Z (round_even (v * ten (Z.of_nat p - 1 - e))) * ten (e - (Z.of_nat p - 1)) - v) <= Qabs (u - v))%Q.
Proof.
  intros Hp Hv Hlo Hhi u (m & e' & Hm & Hu).
  set (a := (Z.of_nat p - 1)) in *. set (s := (v * ten (a - e))%Q).
  assert (Es : (v == s * ten (e - a))%Q).
  { unfold s. pose proof (ten_inv (a - e)) as I. replace (- (a - e)) with (e - a) in I by lia.
    rewrite <- Qmult_assoc, I. ring. }
  pose proof (ten_pos (e - a)) as TP.
  assert (K : forall k : Z, (Qabs (inject_Z (round_even s) * ten (e - a) - v) <= Qabs (inject_Z k * ten (e - a) - v))%Q).
  { intros k.
    assert (F : forall z : Z, (Qabs (inject_Z z * ten (e - a) - v) == Qabs (inject_Z z - s) * ten (e - a))%Q).
    { intros z. rewrite <- (Qabs_pos (ten (e - a))) at 2 by lra. rewrite <- Qabs_Qmult.
      apply Qabs_wd. rewrite Es at 1. ring. }
    rewrite !F. apply Qmult_le_compat_r; [apply round_even_near | lra]. }
  destruct (Z_lt_le_dec e' (e - a)) as [C|C].
  - assert (Hs : (u <= ten e)%Q).
    { rewrite Hu. apply Qle_trans with (inject_Z (10 ^ Z.of_nat p) * ten e')%Q.
      - apply Qmult_le_compat_r; [rewrite <- Zle_Qle; lia | apply Qlt_le_weak, ten_pos].
      - rewrite <- ten_Z by lia. rewrite <- ten_plus. apply ten_le. lia. }
    apply Qle_trans with (Qabs (inject_Z (10 ^ a) * ten (e - a) - v)); [apply K|].
    assert (E : (inject_Z (10 ^ a) * ten (e - a) == ten e)%Q).
    { rewrite <- ten_Z by (unfold a; lia). rewrite <- ten_plus. replace (a + (e - a)) with e by lia. reflexivity. }
    rewrite E. rewrite !Qabs_neg by lra. lra.
  - apply Qle_trans with (Qabs (inject_Z (m * 10 ^ (e' - (e - a))) * ten (e - a) - v)); [apply K|].
    apply Qle_lteq. right. apply Qabs_wd. rewrite Hu, inject_Z_mult, <- ten_Z by lia.
    replace (10 ^ e')%Q with (ten e') by reflexivity.
    replace (ten e') with (ten ((e' - (e - a)) + (e - a))) by (f_equal; lia).
    rewrite ten_plus. ring.
Qed.
Lemma significand_spec p v m x : (1 <= p)%nat -> (0 < v)%Q -> significand p v = (m, x) ->
  10 ^ (Z.of_nat p - 1) <= m < 10 ^ Z.of_nat p /\ exponent v <= x <= exponent v + 1 /\
  nearest p v (inject_Z m * ten (x - (Z.of_nat p - 1))).
Proof.
  intros Hp Hv. unfold significand. destruct (exponent_spec v Hv) as [Hlo Hhi].
  set (e := exponent v) in *. set (a := Z.of_nat p - 1).
  pose proof (nearest_scaled p v e Hp Hv Hlo Hhi) as N. fold a in N.
  set (r := round_even (v * ten (a - e))) in *.
  assert (S1 : (inject_Z (10 ^ a) <= v * ten (a - e))%Q).
  { rewrite <- ten_Z by (unfold a; lia). apply Qle_trans with (ten e * ten (a - e))%Q.
    - rewrite <- ten_plus. apply ten_le. lia.
    - apply Qmult_le_compat_r; [exact Hlo | apply Qlt_le_weak, ten_pos]. }
  assert (S2 : (v * ten (a - e) <= inject_Z (10 ^ Z.of_nat p))%Q).
  { rewrite <- ten_Z by lia. apply Qle_trans with (ten (e + 1) * ten (a - e))%Q.
    - apply Qmult_le_compat_r; [lra | apply Qlt_le_weak, ten_pos].
    - rewrite <- ten_plus. apply ten_le. unfold a. lia. }
  pose proof (round_even_ge _ _ S1) as R1. pose proof (round_even_le _ _ S2) as R2. fold r in R1, R2.
  assert (P10 : 10 ^ Z.of_nat p = 10 * 10 ^ a).
  { replace (Z.of_nat p) with (Z.succ a) by (unfold a; lia). apply Z.pow_succ_r. unfold a. lia. }
  assert (PA : 0 < 10 ^ a) by (apply Z.pow_pos_nonneg; unfold a; lia).
  destruct (r =? 10 ^ Z.of_nat p) eqn:E; intros Eq; injection Eq as <- <-.
  - apply Z.eqb_eq in E. split; [lia|]. split; [lia|].
    assert (EW : (inject_Z (10 ^ a) * ten (e + 1 - a) == inject_Z r * ten (e - a))%Q).
    { rewrite E. rewrite <- !ten_Z by (unfold a; lia). rewrite <- !ten_plus.
      replace (a + (e + 1 - a)) with (Z.of_nat p + (e - a)) by (unfold a; lia). reflexivity. }
    split.
    + exists (10 ^ a), (e + 1 - a). split; [rewrite Z.abs_eq; lia | reflexivity].
    + intros u Hu. apply Qle_trans with (Qabs (inject_Z r * ten (e - a) - v)); [|apply N, Hu].
      apply Qle_lteq. right. apply Qabs_wd. rewrite EW. reflexivity.
  - apply Z.eqb_neq in E. split; [lia|]. split; [lia|]. split.
    + exists r, (e - a). split; [rewrite Z.abs_eq; lia | reflexivity].
    + exact N.
Qed.

(** * Digits *)
Definition digit_ok (d : Z) : Prop := 0 <= d < 10.
Lemma number_snoc l d : number (l ++ [d]) = 10 * number l + d.
Proof. unfold number. rewrite fold_left_app. reflexivity. Qed.
Lemma number_zeros k l : number (l ++ repeat 0 k) = number l * 10 ^ Z.of_nat k.
Proof.
  induction k as [|k IH]; [rewrite app_nil_r; cbn; lia|].
  replace (repeat 0 (S k)) with (repeat 0 k ++ [0]) by (symmetry; apply repeat_cons).
  rewrite app_assoc, number_snoc, IH. rewrite Nat2Z.inj_succ, Z.pow_succ_r by lia. lia.
Qed.
Lemma number_lead0 k l : number (repeat 0 k ++ l) = number l.
Proof.
  induction l as [|d l IH] using rev_ind.
  - rewrite app_nil_r. pose proof (number_zeros k []) as H. cbn [app] in H. rewrite H. reflexivity.
  - rewrite app_assoc, !number_snoc, IH. reflexivity.
Qed.
Lemma digits_ok n : forall m, Forall digit_ok (digits n m).
Proof.
  induction n as [|n IH]; intros m; cbn [digits]; [constructor|].
  apply Forall_app. split; [apply IH|]. constructor; [|constructor]. apply Z.mod_pos_bound. lia.
Qed.
Lemma digits_length n : forall m, length (digits n m) = n.
Proof. induction n as [|n IH]; intros m; cbn [digits]; [reflexivity|]. rewrite app_length, IH. cbn. lia. Qed.
Lemma digits_number n : forall m, 0 <= m < 10 ^ Z.of_nat n -> number (digits n m) = m.
Proof.
  induction n as [|n IH]; intros m Hm; cbn [digits].
  - cbn in Hm. cbn. lia.
  - rewrite number_snoc, IH.
    + pose proof (Z.div_mod m 10). lia.
    + rewrite Nat2Z.inj_succ, Z.pow_succ_r in Hm by lia.
      split; [apply Z.div_pos; lia | apply Z.div_lt_upper_bound; lia].
Qed.
Lemma drop0_spec l : exists k, l = repeat 0 k ++ drop0 l.
Proof.
  induction l as [|d l [k IH]]; [exists 0%nat; reflexivity|]. cbn [drop0].
  destruct (d =? 0) eqn:E.
  - apply Z.eqb_eq in E. subst. exists (S k). cbn [repeat app]. f_equal. exact IH.
  - exists 0%nat. reflexivity.
Qed.
Lemma rev_repeat0 k : rev (repeat 0 k) = repeat 0 k.
Proof. induction k as [|k IH]; [reflexivity|]. cbn [repeat rev]. rewrite IH. symmetry. apply repeat_cons. Qed.
Lemma strip_spec l : exists k, l = strip l ++ repeat 0 k.
Proof.
  unfold strip. destruct (drop0_spec (rev l)) as [k E]. exists k.
  apply (f_equal (@rev Z)) in E. rewrite rev_involutive, rev_app_distr, rev_repeat0 in E. exact E.
Qed.
Lemma digit_is d : digit_ok d -> is_digit (digit d) = true /\ digit_value (digit d) = d.
Proof.
  intros H. unfold digit_ok in H.
  assert (C : d = 0 \/ d = 1 \/ d = 2 \/ d = 3 \/ d = 4 \/ d = 5 \/ d = 6 \/ d = 7 \/ d = 8 \/ d = 9) by lia.
  repeat (destruct C as [->|C]; [split; reflexivity|]). subst d. split; reflexivity.
Qed.
Definition stops (t : list ascii) : Prop := match t with [] => True | c :: _ => is_digit c = false end.
Lemma take_digits_map ds t : Forall digit_ok ds -> stops t -> take_digits (map digit ds ++ t) = (ds, t).
Proof.
  intros Hd Ht. induction Hd as [|d ds Hd _ IH]; cbn [map app].
  - destruct t as [|c t]; [reflexivity|]. cbn [take_digits]. cbn [stops] in Ht. rewrite Ht. reflexivity.
  - cbn [take_digits]. destruct (digit_is d Hd) as [-> ->]. rewrite IH. reflexivity.
Qed.

(** * Reading what was printed *)
Definition tail_value (sg : bool) (ep : list Z) : Z := if sg then - number ep else number ep.
Lemma fraction_value ip l : exists fp : list Z,
  fraction l = match fp with [] => [] | _ => "."%char :: map digit fp end /\
  (Forall digit_ok l -> Forall digit_ok fp) /\
  forall e, (inject_Z (number (ip ++ fp)) * ten (e - Z.of_nat (length fp)) == inject_Z (number (ip ++ l)) * ten (e - Z.of_nat (length l)))%Q.
Proof.
  destruct (strip_spec l) as [k E]. exists (strip l). split; [|split].
  - unfold fraction. destruct (strip l); reflexivity.
  - intros H. rewrite E in H. apply Forall_app in H. apply H.
  - intros e. set (s := strip l) in *. rewrite E, app_assoc, number_zeros, inject_Z_mult, app_length, repeat_length, <- ten_Z by lia.
    rewrite <- Qmult_assoc, <- ten_plus.
    replace (Z.of_nat k + (e - Z.of_nat (length s + k))) with (e - Z.of_nat (length s)) by lia. reflexivity.
Qed.
Lemma read_plain ip l : ip <> [] -> Forall digit_ok ip -> Forall digit_ok l ->
  exists w, read_unsigned (map digit ip ++ fraction l) = Some w /\ (w == inject_Z (number (ip ++ l)) * ten (- Z.of_nat (length l)))%Q.
Proof.
  intros Hn Hi Hl. destruct (fraction_value ip l) as (fp & -> & Hf & Hv). specialize (Hf Hl). specialize (Hv 0).
  rewrite !Z.sub_0_l in Hv.
  exists (inject_Z (number (ip ++ fp)) * ten (- Z.of_nat (length fp)))%Q. split; [|exact Hv].
  unfold read_unsigned. destruct fp as [|d fp].
  - rewrite take_digits_map by (auto; exact I). cbn [is_char]. destruct ip; [contradiction|]. reflexivity.
  - rewrite take_digits_map by (auto; reflexivity). cbn [is_char]. cbn [tl].
    change (Ascii.eqb "."%char "."%char) with true. cbv iota.
    pose proof (take_digits_map (d :: fp) [] Hf I) as T. rewrite app_nil_r in T. rewrite T.
    destruct ip; [contradiction|]. reflexivity.
Qed.
Lemma read_exp ip l (sg : bool) ep : ip <> [] -> Forall digit_ok ip -> Forall digit_ok l -> ep <> [] -> Forall digit_ok ep ->
  exists w, read_unsigned (map digit ip ++ fraction l ++ lit "e" ++ lit (if sg then "-"%string else "+"%string) ++ map digit ep) = Some w
    /\ (w == inject_Z (number (ip ++ l)) * ten (tail_value sg ep - Z.of_nat (length l)))%Q.
Proof.
  intros Hn Hi Hl Hne He. destruct (fraction_value ip l) as (fp & -> & Hf & Hv). specialize (Hf Hl). specialize (Hv (tail_value sg ep)).
  exists (inject_Z (number (ip ++ fp)) * ten (tail_value sg ep - Z.of_nat (length fp)))%Q. split; [|exact Hv].
  pose proof (take_digits_map ep [] He I) as TE. rewrite app_nil_r in TE.
  assert (NE : negb (length ep =? 0)%nat = true) by (destruct ep; [contradiction|reflexivity]).
  set (tl0 := lit "e" ++ lit (if sg then "-"%string else "+"%string) ++ map digit ep).
  assert (ST : stops tl0) by reflexivity.
  assert (X : forall ip', ip' <> [] -> forall r', r' = tl0 ->
     (let (ep0, rest) := take_digits (tl (tl r')) in
     if is_char "e"%char r' && (is_char "+"%char (tl r') || is_char "-"%char (tl r')) && negb (length ep0 =? 0)%nat && (length rest =? 0)%nat
     then Some (inject_Z (number (ip' ++ fp)) * 10 ^ ((if is_char "-"%char (tl r') then - number ep0 else number ep0) - Z.of_nat (length fp)))%Q
     else None) = Some (inject_Z (number (ip' ++ fp)) * ten (tail_value sg ep - Z.of_nat (length fp)))%Q).
  { intros ip' _ r' ->. unfold tl0. destruct sg; unfold lit; cbn [list_ascii_of_string app tl is_char]; rewrite TE, NE; reflexivity. }
  unfold read_unsigned. destruct fp as [|d fp].
  - cbn [app]. rewrite take_digits_map by (auto). change (is_char "."%char tl0) with false. cbv iota.
    destruct ip as [|i ip]; [contradiction|].
    change (match tl0 with [] => Some (inject_Z (number ((i :: ip) ++ [])) * 10 ^ (- Z.of_nat (length (@nil Z))))%Q | _ :: _ =>
      let (ep0, rest) := take_digits (tl (tl tl0)) in
     if is_char "e"%char tl0 && (is_char "+"%char (tl tl0) || is_char "-"%char (tl tl0)) && negb (length ep0 =? 0)%nat && (length rest =? 0)%nat
     then Some (inject_Z (number ((i :: ip) ++ [])) * 10 ^ ((if is_char "-"%char (tl tl0) then - number ep0 else number ep0) - Z.of_nat (length (@nil Z))))%Q
     else None end = Some (inject_Z (number ((i :: ip) ++ [])) * ten (tail_value sg ep - Z.of_nat (length (@nil Z))))%Q).
    etransitivity; [|apply (X (i :: ip) Hn tl0 eq_refl)]. unfold tl0 at 1. destruct sg; reflexivity.
  - rewrite take_digits_map by (auto; reflexivity). cbn [app is_char tl].
    change (Ascii.eqb "."%char "."%char) with true. cbv iota.
    rewrite take_digits_map by auto.
    destruct ip as [|i ip]; [contradiction|].
    etransitivity; [|apply (X (i :: ip) Hn tl0 eq_refl)]. unfold tl0 at 1. destruct sg; reflexivity.
Qed.

Lemma few_digits_eq p w w' : (w == w')%Q -> few_digits p w -> few_digits p w'.
Proof. intros E (m & e & Hm & H). exists m, e. split; [exact Hm|]. rewrite <- E. exact H. Qed.
Lemma nearest_eq p v v' w w' : (v == v')%Q -> (w == w')%Q -> nearest p v w -> nearest p v' w'.
Proof.
  intros Ev E [H N]. split; [apply (few_digits_eq _ _ _ E H)|]. intros u Hu.
  rewrite <- E, <- Ev. apply N, Hu.
Qed.
Lemma few_digits_opp p w : few_digits p w -> few_digits p (- w).
Proof.
  intros (m & e & Hm & H). exists (- m), e. split; [rewrite Z.abs_opp; exact Hm|].
  rewrite H, inject_Z_opp. ring.
Qed.
Lemma nearest_opp p v w : nearest p v w -> nearest p (- v) (- w).
Proof.
  intros [H N]. split; [apply few_digits_opp, H|]. intros u Hu.
  specialize (N (- u)%Q (few_digits_opp _ _ Hu)).
  assert (F : forall a, (Qabs (- a - - v) == Qabs (a - v))%Q).
  { intros a. rewrite <- Qabs_opp. apply Qabs_wd. ring. }
  rewrite F. apply Qle_trans with (Qabs (- u - v)); [exact N|].
  apply Qle_lteq. right. rewrite <- Qabs_opp. apply Qabs_wd. ring.
Qed.
Lemma nearest_0 p : (1 <= p)%nat -> nearest p 0 0.
Proof.
  intros Hp. split.
  - exists 0, 0. split; [|reflexivity]. change (Z.abs 0) with 0. apply Z.pow_pos_nonneg; lia.
  - intros u _. change (Qabs (0 - 0)) with 0%Q. apply Qabs_nonneg.
Qed.
Lemma Forall_firstn {A} (P : A -> Prop) n l : Forall P l -> Forall P (firstn n l).
Proof. intros H. rewrite <- (firstn_skipn n l) in H. apply Forall_app in H. apply H. Qed.
Lemma Forall_skipn {A} (P : A -> Prop) n l : Forall P l -> Forall P (skipn n l).
Proof. intros H. rewrite <- (firstn_skipn n l) in H. apply Forall_app in H. apply H. Qed.
Lemma tail_digits x : Z.abs x <= 99 -> tail_value (x <? 0) (digits 2 (Z.abs x)) = x.
Proof.
  intros H. unfold tail_value. rewrite digits_number by (change (10 ^ Z.of_nat 2) with 100; lia).
  destruct (Z.ltb_spec x 0); lia.
Qed.
Lemma general_pos_read p v : (1 <= p)%nat -> (ten (-99) <= v)%Q -> (v < ten 99)%Q ->
  exists w, read_unsigned (general_pos p v) = Some w /\ nearest p v w /\
    (w == (let (m, x) := significand p v in inject_Z m * ten (x - (Z.of_nat p - 1))))%Q.
Proof.
  intros Hp H1 H2.
  assert (Hv : (0 < v)%Q) by (pose proof (ten_pos (-99)); lra).
  unfold general_pos. destruct (significand p v) as [m x] eqn:E.
  destruct (significand_spec p v m x Hp Hv E) as (Hm & Hx & N).
  destruct (exponent_spec v Hv) as [E1 E2].
  assert (B1 : -99 <= exponent v).
  { assert (L : -99 < exponent v + 1); [|lia].
    apply (Qpower_lt_compat_l_inv 10); [|reflexivity]. fold (ten (-99)). fold (ten (exponent v + 1)). lra. }
  assert (B2 : exponent v < 99).
  { apply (Qpower_lt_compat_l_inv 10); [|reflexivity]. fold (ten 99). fold (ten (exponent v)). lra. }
  pose proof (digits_number p m) as ND. pose proof (digits_ok p m) as DO. pose proof (digits_length p m) as DL.
  assert (PA : 0 < 10 ^ (Z.of_nat p - 1)) by (apply Z.pow_pos_nonneg; lia).
  specialize (ND ltac:(lia)). set (ds := digits p m) in *.
  assert (NE : forall n, (1 <= n)%nat -> firstn n ds <> []).
  { intros n Hn C. apply (f_equal (@length Z)) in C. rewrite firstn_length in C. cbn [length] in C. lia. }
  destruct ((x <? -4) || (Z.of_nat p <=? x)) eqn:C.
  - destruct (read_exp (firstn 1 ds) (skipn 1 ds) (x <? 0) (digits 2 (Z.abs x))) as (w & R & W).
    + apply NE. lia.
    + apply Forall_firstn, DO.
    + apply Forall_skipn, DO.
    + intros Y. apply (f_equal (@length Z)) in Y. rewrite digits_length in Y. discriminate Y.
    + apply digits_ok.
    + exists w. split; [exact R|]. rewrite firstn_skipn, ND, tail_digits, skipn_length, DL in W by lia.
      cut (w == inject_Z m * ten (x - (Z.of_nat p - 1)))%Q; [intros EW; split; [eapply nearest_eq; [reflexivity|symmetry; exact EW|exact N] | exact EW]|]. rewrite W.
      replace (x - Z.of_nat (p - 1)) with (x - (Z.of_nat p - 1)) by lia. reflexivity.
  - apply Bool.orb_false_iff in C. destruct C as [C1 C2]. apply Z.ltb_ge in C1. apply Z.leb_gt in C2.
    destruct (Z.ltb_spec x 0) as [C|C].
    + destruct (read_plain [0] (repeat 0 (Z.to_nat (- x - 1)) ++ ds)) as (w & R & W).
      * discriminate.
      * constructor; [unfold digit_ok; lia | constructor].
      * apply Forall_app. split; [|exact DO]. apply Forall_forall. intros d Hd. apply repeat_spec in Hd. unfold digit_ok. lia.
      * exists w. split; [exact R|].
        pose proof (number_lead0 1 (repeat 0 (Z.to_nat (- x - 1)) ++ ds)) as L. cbn [repeat] in L.
        rewrite L, number_lead0, ND, app_length, repeat_length, DL in W.
        cut (w == inject_Z m * ten (x - (Z.of_nat p - 1)))%Q; [intros EW; split; [eapply nearest_eq; [reflexivity|symmetry; exact EW|exact N] | exact EW]|]. rewrite W.
        replace (- Z.of_nat (Z.to_nat (- x - 1) + p)) with (x - (Z.of_nat p - 1)) by lia. reflexivity.
    + destruct (read_plain (firstn (Z.to_nat (x + 1)) ds) (skipn (Z.to_nat (x + 1)) ds)) as (w & R & W).
      * apply NE. lia.
      * apply Forall_firstn, DO.
      * apply Forall_skipn, DO.
      * exists w. split; [exact R|]. rewrite firstn_skipn, ND, skipn_length, DL in W.
        cut (w == inject_Z m * ten (x - (Z.of_nat p - 1)))%Q; [intros EW; split; [eapply nearest_eq; [reflexivity|symmetry; exact EW|exact N] | exact EW]|]. rewrite W.
        replace (- Z.of_nat (p - Z.to_nat (x + 1))) with (x - (Z.of_nat p - 1)) by lia. reflexivity.
Qed.

(** * The characters of a number *)
Definition num_char (c : ascii) : bool :=
  is_digit c || Ascii.eqb c "." || Ascii.eqb c "e" || Ascii.eqb c "+" || Ascii.eqb c "-".
Lemma digits_chars l : Forall digit_ok l -> forallb num_char (map digit l) = true.
Proof.
  intros H. induction H as [|d l Hd _ IH]; [reflexivity|]. cbn [map forallb]. rewrite IH.
  unfold num_char. destruct (digit_is d Hd) as [-> _]. reflexivity.
Qed.
Lemma fraction_chars l : Forall digit_ok l -> forallb num_char (fraction l) = true.
Proof.
  intros H. destruct (fraction_value [] l) as (fp & -> & Hf & _). destruct fp as [|d fp]; [reflexivity|].
  cbn [forallb]. rewrite (digits_chars (d :: fp) (Hf H)). reflexivity.
Qed.
Lemma general_pos_chars p v : forallb num_char (general_pos p v) = true.
Proof.
  unfold general_pos. destruct (significand p v) as [m x]. pose proof (digits_ok p m) as DO.
  destruct ((x <? -4) || (Z.of_nat p <=? x)); [|destruct (x <? 0)]; rewrite ?forallb_app.
  - rewrite digits_chars by apply Forall_firstn, DO. rewrite fraction_chars by apply Forall_skipn, DO.
    rewrite digits_chars by apply digits_ok. destruct (x <? 0); reflexivity.
  - rewrite fraction_chars; [reflexivity|]. apply Forall_app. split; [|exact DO].
    apply Forall_forall. intros d Hd. apply repeat_spec in Hd. unfold digit_ok. lia.
  - rewrite digits_chars by apply Forall_firstn, DO. rewrite fraction_chars by apply Forall_skipn, DO. reflexivity.
Qed.
Lemma general_chars p v : forallb num_char (general p v) = true.
Proof.
  unfold general. destruct (v ?= 0)%Q; [reflexivity| |apply general_pos_chars].
  rewrite forallb_app, general_pos_chars. reflexivity.
Qed.
Lemma read_unsigned_head t w : read_unsigned t = Some w -> is_char "-" t = false.
Proof.
  destruct t as [|c t]; [reflexivity|]. cbn [is_char]. intros H.
  destruct (Ascii.eqb_spec "-" c) as [<-|N]; [|reflexivity]. exfalso.
  unfold read_unsigned in H. change (take_digits ("-"%char :: t)) with (@nil Z, "-"%char :: t) in H. cbv iota beta in H.
  destruct (if is_char "." ("-"%char :: t) then take_digits (tl ("-"%char :: t)) else ([], "-"%char :: t)) in H.
  discriminate H.
Qed.
Lemma general_shown p v : (1 <= p)%nat -> ordinary v -> exists w, read_number (general p v) = Some w /\ nearest p v w /\ (w == shown p v)%Q.
Proof.
  intros Hp Ho. unfold general, shown. destruct (Qcompare_spec v 0) as [E|E|E].
  - exists 0%Q. split; [reflexivity|]. split; [|reflexivity]. apply (nearest_eq p 0 v 0 0); [symmetry; exact E|reflexivity|apply nearest_0, Hp].
  - destruct Ho as [Ho|[O1 O2]]; [lra|]. rewrite Qabs_neg in O1, O2 by lra.
    destruct (general_pos_read p (- v) Hp O1 O2) as (w & R & N & S).
    exists (- w)%Q. split; [|split].
    + unfold read_number. change (is_char "-" (lit "-" ++ general_pos p (- v))) with true. cbv iota.
      change (tl (lit "-" ++ general_pos p (- v))) with (general_pos p (- v)). rewrite R. reflexivity.
    + apply nearest_opp in N. eapply nearest_eq; [|reflexivity|exact N]. ring.
    + rewrite S. reflexivity.
  - destruct Ho as [Ho|[O1 O2]]; [lra|]. rewrite Qabs_pos in O1, O2 by lra.
    destruct (general_pos_read p v Hp O1 O2) as (w & R & N & S). exists w. split; [|split; [exact N|exact S]].
    unfold read_number. rewrite (read_unsigned_head _ _ R). exact R.
Qed.
Lemma general_read p v : (1 <= p)%nat -> ordinary v -> exists w, read_number (general p v) = Some w /\ nearest p v w.
Proof. intros Hp Ho. destruct (general_shown p v Hp Ho) as (w & R & N & _). exists w. split; assumption. Qed.

(** * How far off a printed number is *)
Lemma shown_pos_error p v : (1 <= p)%nat -> (0 < v)%Q -> exists u, few_digits p u /\ (Qabs (u - v) <= (1 # 2) * ten (1 - Z.of_nat p) * v)%Q.
Proof.
  intros Hp Hv. destruct (exponent_spec v Hv) as [E1 E2]. set (e := exponent v) in *. set (a := Z.of_nat p - 1).
  set (s := (v * ten (a - e))%Q). exists (inject_Z (round_even s) * ten (e - a))%Q. split.
  - assert (S1 : (inject_Z 0 <= s)%Q) by (unfold s; change (inject_Z 0) with 0%Q; apply Qmult_le_0_compat; [lra | apply Qlt_le_weak, ten_pos]).
    assert (S2 : (s <= inject_Z (10 ^ Z.of_nat p))%Q).
    { unfold s. rewrite <- ten_Z by lia. apply Qle_trans with (ten (e + 1) * ten (a - e))%Q.
      - apply Qmult_le_compat_r; [lra | apply Qlt_le_weak, ten_pos].
      - rewrite <- ten_plus. apply ten_le. unfold a. lia. }
    pose proof (round_even_ge _ _ S1) as R1. pose proof (round_even_le _ _ S2) as R2.
    destruct (Z.eq_dec (round_even s) (10 ^ Z.of_nat p)) as [E|E].
    + assert (P1 : 1 < 10 ^ Z.of_nat p) by (apply Z.pow_gt_1; lia).
      exists 1, (Z.of_nat p + (e - a)). split; [exact P1|].
      rewrite E. change (10 ^ (Z.of_nat p + (e - a)))%Q with (ten (Z.of_nat p + (e - a))). rewrite ten_plus, (ten_Z (Z.of_nat p)) by lia. change (inject_Z 1) with 1%Q. ring.
    + exists (round_even s), (e - a). split; [rewrite Z.abs_eq; lia | reflexivity].
  - assert (Es : (v == s * ten (e - a))%Q).
    { unfold s. pose proof (ten_inv (a - e)) as I. replace (- (a - e)) with (e - a) in I by lia.
      rewrite <- Qmult_assoc, I. ring. }
    pose proof (ten_pos (e - a)) as TP.
    apply Qle_trans with ((1 # 2) * ten (e - a))%Q.
    + apply Qle_trans with (Qabs (inject_Z (round_even s) - s) * ten (e - a))%Q.
      * apply Qle_lteq. right. rewrite <- (Qabs_pos (ten (e - a))) at 2 by lra. rewrite <- Qabs_Qmult.
        apply Qabs_wd. rewrite Es at 1. ring.
      * apply Qmult_le_compat_r; [apply round_even_half | lra].
    + replace (e - a) with ((1 - Z.of_nat p) + e) by (unfold a; lia). rewrite ten_plus.
      pose proof (ten_pos (1 - Z.of_nat p)) as TQ.
      rewrite Qmult_assoc. apply (Qmult_le_l _ _ ((1 # 2) * ten (1 - Z.of_nat p))); [lra | exact E1].
Qed.
Lemma nearest_error p v w : (1 <= p)%nat -> nearest p v w -> (Qabs (w - v) <= (1 # 2) * ten (1 - Z.of_nat p) * Qabs v)%Q.
Proof.
  intros Hp [_ N]. destruct (Qlt_le_dec 0 v) as [H|H].
  - destruct (shown_pos_error p v Hp H) as (u & F & B). specialize (N u F). rewrite (Qabs_pos v) by lra. lra.
  - destruct (Qeq_dec v 0) as [E|E].
    + assert (F0 : few_digits p 0) by (apply (nearest_0 p Hp)). specialize (N 0%Q F0).
      assert (A : (Qabs (0 - v) == 0)%Q) by (rewrite E; reflexivity).
      assert (B : (Qabs v == 0)%Q) by (rewrite E; reflexivity). rewrite B. lra.
    + destruct (shown_pos_error p (- v) Hp ltac:(lra)) as (u & F & B). specialize (N (- u)%Q (few_digits_opp _ _ F)).
      rewrite (Qabs_neg v) by lra.
      assert (A : (Qabs (- u - v) == Qabs (u - - v))%Q) by (rewrite <- Qabs_opp; apply Qabs_wd; ring). lra.
Qed.

(** * WKT *)
Definition lacks (c : ascii) (t : list ascii) : Prop := forallb (fun d => negb (Ascii.eqb c d)) t = true.
Lemma lacks_app c a b : lacks c a -> lacks c b -> lacks c (a ++ b).
Proof. unfold lacks. rewrite forallb_app. intros -> ->. reflexivity. Qed.
Lemma num_lacks c t : num_char c = false -> forallb num_char t = true -> lacks c t.
Proof.
  intros Hc. unfold lacks. induction t as [|d t IH]; [reflexivity|]. cbn [forallb]. intros H.
  apply andb_prop in H. destruct H as [H1 H2]. rewrite (IH H2). rewrite andb_true_r.
  destruct (Ascii.eqb_spec c d) as [<-|N]; [|reflexivity]. rewrite Hc in H1. discriminate H1.
Qed.
Lemma split_on_lacks c a : lacks c a -> split_on c a = [a].
Proof.
  unfold lacks. induction a as [|d a IH]; [reflexivity|]. cbn [forallb split_on]. intros H.
  apply andb_prop in H. destruct H as [H1 H2]. rewrite (IH H2).
  destruct (Ascii.eqb c d); [discriminate H1|reflexivity].
Qed.
Lemma split_on_app c a b : lacks c a -> split_on c (a ++ c :: b) = a :: split_on c b.
Proof.
  unfold lacks. induction a as [|d a IH]; cbn [app forallb split_on]; intros H.
  - rewrite Ascii.eqb_refl. reflexivity.
  - apply andb_prop in H. destruct H as [H1 H2]. rewrite (IH H2).
    destruct (Ascii.eqb c d); [discriminate H1|reflexivity].
Qed.
Lemma until_app c a b : lacks c a -> until c (a ++ c :: b) = (a, c :: b).
Proof.
  unfold lacks. induction a as [|d a IH]; cbn [app forallb until]; intros H.
  - rewrite Ascii.eqb_refl. reflexivity.
  - apply andb_prop in H. destruct H as [H1 H2]. rewrite (IH H2).
    destruct (Ascii.eqb c d); [discriminate H1|reflexivity].
Qed.
Lemma after_app s t : after s (s ++ t) = Some t.
Proof. induction s as [|c s IH]; [destruct t; reflexivity|]. cbn [app after]. rewrite Ascii.eqb_refl. exact IH. Qed.

Lemma put_point_lacks c p v : num_char c = false -> Ascii.eqb c " " = false -> lacks c (put_point p v).
Proof.
  intros H1 H2. destruct v as [[x y] z]. unfold put_point.
  assert (S : lacks c (lit " ")) by (unfold lacks, lit; cbn; rewrite H2; reflexivity).
  repeat apply lacks_app; auto using num_lacks, general_chars.
Qed.
Lemma read_put_point p v : (1 <= p)%nat -> ordinary_point v -> exists w, read_point (put_point p v) = Some w /\ nearest_point p v w.
Proof.
  intros Hp. destruct v as [[x y] z]. intros (Hx & Hy & Hz).
  destruct (general_read p x Hp Hx) as (x' & Rx & Nx). destruct (general_read p y Hp Hy) as (y' & Ry & Ny).
  destruct (general_read p z Hp Hz) as (z' & Rz & Nz).
  exists (x', y', z'). split; [|repeat split; assumption || apply Nx || apply Ny || apply Nz].
  unfold read_point, put_point.
  assert (L : forall v, lacks " " (general p v)) by (intros v; apply num_lacks; [reflexivity | apply general_chars]).
  change (lit " ") with [" "%char]. cbn [app].
  rewrite (split_on_app " " (general p x) _ (L x)), (split_on_app " " (general p y) _ (L y)), (split_on_lacks " " (general p z) (L z)).
  rewrite Rx. cbn [bind]. rewrite Ry. cbn [bind]. rewrite Rz. reflexivity.
Qed.
Lemma ring_split p h : forall r v, split_on "," (put_point p v ++ put_ring p false r ++ "," :: put_point p h) = map (put_point p) (v :: r ++ [h]).
Proof.
  induction r as [|u r IH]; intros v; cbn [put_ring app].
  - rewrite split_on_app by (apply put_point_lacks; reflexivity).
    rewrite split_on_lacks by (apply put_point_lacks; reflexivity). reflexivity.
  - change (lit ",") with [","%char]. cbn [app]. rewrite <- app_assoc.
    rewrite split_on_app by (apply put_point_lacks; reflexivity). rewrite IH. reflexivity.
Qed.
Lemma all_put_point p l : (1 <= p)%nat -> Forall ordinary_point l ->
  exists ws, all read_point (map (put_point p) l) = Some ws /\ Forall2 (nearest_point p) l ws.
Proof.
  intros Hp H. induction H as [|v l Hv _ (ws & R & N)]; [exists []; split; [reflexivity|constructor]|].
  destruct (read_put_point p v Hp Hv) as (w & Rw & Nw).
  exists (w :: ws). cbn [map all]. rewrite Rw. cbn [bind]. rewrite R. split; [reflexivity|constructor; assumption].
Qed.
Definition ring_text (p : nat) (f : list point) : text := put_ring p true f ++ lit "," ++ put_point p (hd (0, 0, 0)%Q f).
Lemma ring_read p f : (1 <= p)%nat -> face_ok f -> exists ring, read_ring (ring_text p f) = Some ring /\ ring_of p f ring.
Proof.
  intros Hp [Hn Ho]. destruct f as [|v r]; [contradiction|].
  unfold read_ring, ring_text. cbn [put_ring hd app]. change (lit ",") with [","%char]. cbn [app].
  rewrite <- app_assoc. cbn [app]. rewrite ring_split.
  apply all_put_point; [exact Hp|]. inversion Ho as [|? ? Hv Hr]; subst. constructor; [exact Hv|].
  apply Forall_app. split; [exact Hr|]. constructor; [exact Hv|constructor].
Qed.
Lemma put_ring_lacks c p : num_char c = false -> Ascii.eqb c " " = false -> Ascii.eqb c "," = false ->
  forall f b, lacks c (put_ring p b f).
Proof.
  intros H1 H2 H3 f. induction f as [|v f IH]; intros b; cbn [put_ring]; [reflexivity|].
  repeat apply lacks_app; [|apply put_point_lacks; assumption | apply IH].
  destruct b; [reflexivity|]. unfold lacks, lit. cbn. rewrite H3. reflexivity.
Qed.
Lemma ring_text_lacks c p f : num_char c = false -> Ascii.eqb c " " = false -> Ascii.eqb c "," = false -> lacks c (ring_text p f).
Proof.
  intros H1 H2 H3. unfold ring_text. repeat apply lacks_app; [apply put_ring_lacks; assumption | | apply put_point_lacks; assumption].
  unfold lacks, lit. cbn. rewrite H3. reflexivity.
Qed.
Lemma put_faces_cons p b f r :
  put_faces p b (f :: r) = (if b then [] else lit ",") ++ "(" :: "(" :: ring_text p f ++ ")" :: ")" :: put_faces p false r.
Proof.
  cbn [put_faces]. unfold ring_text. f_equal. change (lit "((") with ["("; "("]%char. cbn [app].
  do 2 f_equal. rewrite <- !app_assoc. reflexivity.
Qed.
Lemma faces_read p : (1 <= p)%nat -> forall fs, Forall face_ok fs -> fs <> [] -> forall fuel, (length fs <= fuel)%nat ->
  exists rings, read_faces fuel (put_faces p true fs) = Some rings /\ Forall2 (ring_of p) fs rings.
Proof.
  intros Hp fs H. induction H as [|f fs Hf Hfs IH]; intros Hn fuel Hfu; [contradiction|].
  destruct fuel as [|k]; [cbn in Hfu; lia|]. cbn [length] in Hfu.
  destruct (ring_read p f Hp Hf) as (ring & R & N).
  rewrite put_faces_cons. cbn [app read_faces]. cbn [after]. rewrite !Ascii.eqb_refl. cbn [bind].
  rewrite until_app by (apply ring_text_lacks; reflexivity). cbn [after]. rewrite !Ascii.eqb_refl. cbn [bind].
  assert (A0 : forall t : list ascii, after [] t = Some t) by (intros []; reflexivity). 
  rewrite R. cbn [bind]. destruct fs as [|g fs].
  - exists [ring]. split; [reflexivity | constructor; [exact N|constructor]].
  - destruct (IH ltac:(discriminate) k ltac:(lia)) as (rings & RR & NN).
    exists (ring :: rings). split; [|constructor; assumption].
    rewrite put_faces_cons in RR |- *. change (lit ",") with [","%char]. cbn [app] in RR |- *.
    cbn [after]. rewrite Ascii.eqb_refl. cbn [bind]. rewrite RR. reflexivity.
Qed.
Lemma put_faces_length p : forall fs b, (length fs <= length (put_faces p b fs))%nat.
Proof.
  induction fs as [|f fs IH]; intros b; [cbn; lia|]. rewrite put_faces_cons.
  rewrite app_length. cbn [length]. rewrite app_length. cbn [length]. specialize (IH false). lia.
Qed.
Definition wkt_text (p : nat) (fs : list (list point)) : text := lit "POLYHEDRALSURFACE Z (" ++ put_faces p true fs ++ lit ")".
Lemma wkt_read p fs : (1 <= p)%nat -> Forall face_ok fs -> exists rings, read_wkt (wkt_text p fs) = Some rings /\ Forall2 (ring_of p) fs rings.
Proof.
  intros Hp H. unfold read_wkt, wkt_text. unfold lit at 1. rewrite after_app. cbn [bind].
  change (lit ")") with [")"%char]. rewrite rev_app_distr. cbn [rev app is_char]. rewrite Ascii.eqb_refl, removelast_last.
  destruct fs as [|f fs]; [exists []; split; [reflexivity|constructor]|].
  destruct (faces_read p Hp (f :: fs) H ltac:(discriminate) (length (put_faces p true (f :: fs))) (put_faces_length p _ _)) as (rings & R & N).
  exists rings. split; [|exact N]. rewrite put_faces_cons in R |- *. cbn [app] in R |- *. exact R.
Qed.

(** * The lines of towkt *)
Lemma put_nat_spec fuel : forall n, (1 <= fuel)%nat -> 0 <= n < 2 ^ Z.of_nat fuel -> exists ds, put_nat fuel n = map digit ds /\ ds <> [] /\ Forall digit_ok ds /\ number ds = n.
Proof.
  induction fuel as [|k IH]; intros n Hf Hn; [lia|]. cbn [put_nat].
  assert (M : digit_ok (n mod 10)) by (apply Z.mod_pos_bound; lia).
  destruct (Z.ltb_spec n 10) as [L|L].
  - exists [n mod 10]. split; [reflexivity|]. split; [discriminate|]. split; [constructor; [exact M|constructor]|].
    unfold number. cbn [fold_left]. rewrite Z.mod_small; lia.
  - destruct k as [|k]; [cbn in Hn; lia|].
    destruct (IH (n / 10)) as (ds & E & N0 & D & V); [lia| |].
    { rewrite Nat2Z.inj_succ, Z.pow_succ_r in Hn by lia.
      split; [apply Z.div_pos; lia | apply Z.div_lt_upper_bound; lia]. }
    exists (ds ++ [n mod 10]). rewrite E, map_app. split; [reflexivity|].
    split; [intros C; destruct ds; discriminate C|]. split; [apply Forall_app; auto|].
    rewrite number_snoc, V. pose proof (Z.div_mod n 10). lia.
Qed.
Lemma put_int_spec n : 0 <= n -> exists ds, put_int n = map digit ds /\ ds <> [] /\ Forall digit_ok ds /\ number ds = n.
Proof.
  intros H. unfold put_int. apply put_nat_spec; [lia|]. split; [exact H|].
  pose proof (Z.log2_nonneg n). replace (Z.of_nat (Z.to_nat (Z.log2 n) + 1)) with (Z.succ (Z.log2 n)) by lia.
  destruct (Z.eq_dec n 0) as [->|N]; [reflexivity|]. apply Z.log2_spec. lia.
Qed.
Lemma put_faces_lacks p c : num_char c = false -> Ascii.eqb c " " = false -> Ascii.eqb c "," = false ->
  Ascii.eqb c "(" = false -> Ascii.eqb c ")" = false -> forall fs b, lacks c (put_faces p b fs).
Proof.
  intros H1 H2 H3 H4 H5. induction fs as [|f fs IH]; intros b; [reflexivity|]. rewrite put_faces_cons.
  apply lacks_app; [destruct b; [reflexivity|]; unfold lacks, lit; cbn; rewrite H3; reflexivity|].
  unfold lacks. cbn [forallb]. rewrite H4. cbn [negb andb]. rewrite forallb_app. cbn [forallb]. rewrite H5.
  pose proof (ring_text_lacks c p f H1 H2 H3) as R. unfold lacks in R. rewrite R.
  specialize (IH false). unfold lacks in IH. rewrite IH. reflexivity.
Qed.
Definition row (i : Z) (o : list (list point)) : text := put_int i ++ "|" :: to_wkt o.
Lemma row_lacks i o : 0 <= i -> lacks newline (row i o).
Proof.
  intros Hi. unfold row. apply lacks_app.
  - destruct (put_int_spec i Hi) as (ds & -> & _ & D & _). apply num_lacks; [reflexivity|apply digits_chars, D].
  - change ("|" :: to_wkt o) with (lit "|POLYHEDRALSURFACE Z (" ++ put_faces 6 true o ++ lit ")").
    apply lacks_app; [reflexivity|]. apply lacks_app; [|reflexivity]. apply put_faces_lacks; reflexivity.
Qed.
Lemma row_read i o : 0 <= i -> Forall face_ok o -> exists rings, read_line (row i o) = Some (i, rings) /\ Forall2 (ring_of 6) o rings.
Proof.
  intros Hi Ho. unfold row, read_line. destruct (put_int_spec i Hi) as (ds & -> & N & D & V).
  rewrite until_app by (apply num_lacks; [reflexivity|apply digits_chars, D]).
  pose proof (take_digits_map ds [] D I) as T. rewrite app_nil_r in T. rewrite T.
  destruct ds as [|d ds]; [contradiction|]. cbn [length Nat.eqb negb andb tl].
  destruct (wkt_read 6 o ltac:(lia) Ho) as (rings & R & NN). exists rings. split; [|exact NN].
  change (to_wkt o) with (wkt_text 6 o). rewrite R, V. reflexivity.
Qed.
Lemma towkt_lines : forall os i, 0 <= i -> exists ls, split_on newline (towkt i os) = ls ++ [[]] /\
  ls = map (fun io => row (fst io) (snd io)) (combine (map (fun k => i + Z.of_nat k) (seq 0 (length os))) os).
Proof.
  induction os as [|o os IH]; intros i Hi.
  - exists []. split; reflexivity.
  - destruct (IH (i + 1) ltac:(lia)) as (ls & E & EL). exists (row i o :: ls). split.
    + cbn [towkt]. replace (put_int i ++ lit "|" ++ to_wkt o ++ [newline] ++ towkt (i + 1) os) with (row i o ++ newline :: towkt (i + 1) os).
      * rewrite split_on_app by (apply row_lacks, Hi). rewrite E. reflexivity.
      * unfold row. rewrite <- app_assoc. reflexivity.
    + rewrite EL. cbn [length seq map combine fst snd]. f_equal; [f_equal; lia|]. f_equal. f_equal.
      rewrite <- seq_shift, map_map. apply map_ext. intros k. lia.
Qed.
Lemma towkt_read os : Forall (Forall face_ok) os -> exists rows, read_lines (towkt 0 os) = Some rows /\
  map fst rows = map Z.of_nat (seq 0 (length os)) /\ Forall2 row_of os rows.
Proof.
  intros H. unfold read_lines. destruct (towkt_lines os 0 ltac:(lia)) as (ls & E & ->). fold newline. rewrite E.
  rewrite last_last, removelast_last. cbn [length Nat.eqb].
  assert (G : forall ks, length ks = length os -> Forall (fun k => 0 <= k) ks -> exists rows,
    all read_line (map (fun io => row (fst io) (snd io)) (combine ks os)) = Some rows /\ map fst rows = ks /\ Forall2 row_of os rows).
  { clear E. induction H as [|o os Ho _ IH]; intros ks Hl Hk.
    - destruct ks; [|discriminate Hl]. exists []. repeat split; constructor.
    - destruct ks as [|k ks]; [discriminate Hl|]. inversion Hk as [|? ? K1 K2]; subst.
      destruct (IH ks ltac:(injection Hl; auto) K2) as (rows & R & F & N).
      destruct (row_read k o K1 Ho) as (rings & RR & NN).
      exists ((k, rings) :: rows). cbn [combine map all fst snd]. rewrite RR. cbn [bind]. rewrite R.
      split; [reflexivity|]. split; [cbn; f_equal; exact F|]. constructor; [exact NN|exact N]. }
  destruct (G (map (fun k => 0 + Z.of_nat k) (seq 0 (length os)))) as (rows & R & F & N).
  - rewrite map_length, seq_length. reflexivity.
  - apply Forall_forall. intros k Hk. apply in_map_iff in Hk. destruct Hk as (j & <- & _). lia.
  - exists rows. split; [exact R|]. split; [|exact N]. exact F.
Qed.
