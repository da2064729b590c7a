(** Bit field I/O: what one write and one read do, bit by bit; round trip of field sequences. *)
From Coq Require Import List ZArith Lia Bool.
From Verif Require Import Arr RangeCoderModel RangeCoderProofs QsModelProofs BitsModel.
Import ListNotations.
Open Scope Z_scope.

(** Bit number [q] of the buffer, most significant bit of each byte first. *)
Definition bit (mem : list Z) (q : Z) : bool := Z.testbit (nth (Z.to_nat (q / 8)) mem 0) (7 - q mod 8).

Lemma byte_high b i : is_byte b -> 8 <= i -> Z.testbit b i = false.
Proof.
  intros [H1 H2] Hi. destruct (Z.eq_dec b 0) as [->|]; [apply Z.bits_0|].
  apply Z.bits_above_log2; [lia|]. assert (Z.log2 b < 8) by (apply Z.log2_lt_pow2; [lia|change (2 ^ 8) with 256; lia]). lia.
Qed.

Lemma land255_bit x i : 0 <= i -> Z.testbit (Z.land x 255) i = (Z.testbit x i && (i <? 8))%bool.
Proof.
  intro Hi. change 255 with (Z.ones 8). rewrite Z.land_spec. destruct (Z.ltb_spec i 8).
  - rewrite Z.ones_spec_low by lia. reflexivity.
  - rewrite Z.ones_spec_high by lia. reflexivity.
Qed.

Lemma land255_byte x : is_byte (Z.land x 255).
Proof. change 255 with (Z.ones 8). rewrite Z.land_ones by lia. apply Z.mod_pos_bound. reflexivity. Qed.

Definition word (b0 b1 b2 b3 : Z) : Z := Z.lor b0 (Z.lor (Z.shiftl b1 8) (Z.lor (Z.shiftl b2 16) (Z.shiftl b3 24))).

Lemma word_bit b0 b1 b2 b3 i : is_byte b0 -> is_byte b1 -> is_byte b2 -> is_byte b3 -> 0 <= i ->
  Z.testbit (word b0 b1 b2 b3) i =
  if i <? 8 then Z.testbit b0 i else if i <? 16 then Z.testbit b1 (i - 8)
  else if i <? 24 then Z.testbit b2 (i - 16) else Z.testbit b3 (i - 24).
Proof.
  intros H0 H1 H2 H3 Hi. unfold word. rewrite !Z.lor_spec, !Z.shiftl_spec by lia.
  destruct (Z.ltb_spec i 8); [|destruct (Z.ltb_spec i 16); [|destruct (Z.ltb_spec i 24)]].
  - rewrite !(Z.testbit_neg_r _ (i - _)) by lia. now rewrite !orb_false_r.
  - rewrite (byte_high b0) by (auto; lia). rewrite (Z.testbit_neg_r b2), (Z.testbit_neg_r b3) by lia. now rewrite !orb_false_r.
  - rewrite (byte_high b0), (byte_high b1) by (auto; lia). rewrite (Z.testbit_neg_r b3) by lia. now rewrite !orb_false_r.
  - rewrite (byte_high b0), (byte_high b1), (byte_high b2) by (auto; lia). reflexivity.
Qed.

Lemma bswap_word x : bswap32 x = word (Z.land (Z.shiftr x 24) 255) (Z.land (Z.shiftr x 16) 255) (Z.land (Z.shiftr x 8) 255) (Z.land x 255).
Proof.
  unfold bswap32, word. rewrite !Z.lor_assoc. rewrite (Z.lor_comm (Z.lor (Z.lor (Z.shiftl (Z.land x 255) 24) _) _)).
  rewrite <- !Z.lor_assoc. f_equal. rewrite !Z.lor_assoc.
  rewrite (Z.lor_comm (Z.lor (Z.shiftl (Z.land x 255) 24) _)). rewrite <- !Z.lor_assoc. f_equal. apply Z.lor_comm.
Qed.

Lemma bswap_bit x i : 0 <= i < 32 -> Z.testbit (bswap32 x) i = Z.testbit x (8 * (3 - i / 8) + i mod 8).
Proof.
  intro Hi. rewrite bswap_word, word_bit; try apply land255_byte; [|lia].
  destruct (Z.ltb_spec i 8); [|destruct (Z.ltb_spec i 16); [|destruct (Z.ltb_spec i 24)]];
  rewrite land255_bit by lia; rewrite ?Z.shiftr_spec by lia;
  match goal with |- (Z.testbit _ ?a && (?c <? 8))%bool = Z.testbit _ ?b =>
    replace b with a by (Z.div_mod_to_equations; lia); destruct (Z.ltb_spec c 8); [apply andb_true_r|lia] end.
Qed.

Lemma land_byte_bit w k i : 0 <= i < 8 -> 0 <= k -> Z.testbit (Z.land (Z.shiftr w k) 255) i = Z.testbit w (i + k).
Proof.
  intros Hi Hk. rewrite land255_bit, Z.shiftr_spec by lia. destruct (Z.ltb_spec i 8); [apply andb_true_r|lia].
Qed.

Lemma load_word mem p : 0 <= p -> p + 4 <= Z.of_nat (length mem) ->
  load32 mem p = Some (word (nz mem p) (nz mem (p + 1)) (nz mem (p + 2)) (nz mem (p + 3))).
Proof.
  intros H H2. unfold load32. rewrite !(aget_nth _ _ 0) by lia. reflexivity.
Qed.

Lemma nz_byte mem p : Forall is_byte mem -> is_byte (nz mem p).
Proof.
  intro H. unfold nz. destruct (Nat.lt_ge_cases (Z.to_nat p) (length mem)) as [L|L].
  - rewrite Forall_forall in H. apply H. apply nth_In. lia.
  - rewrite nth_overflow by lia. split; [lia|reflexivity].
Qed.

Lemma upd_Forall {A} (P : A -> Prop) l i v : Forall P l -> P v -> Forall P (upd l i v).
Proof.
  intro H. revert i. induction H as [|x l Hx Hl IH]; intros [|i] Hv; cbn [upd]; auto.
Qed.

Lemma store_spec mem p w : 0 <= p -> p + 4 <= Z.of_nat (length mem) -> Forall is_byte mem ->
  exists mem', store32 mem p w = Some mem' /\ length mem' = length mem /\ Forall is_byte mem' /\
    (forall k, 0 <= k < 4 -> nz mem' (p + k) = Z.land (Z.shiftr w (8 * k)) 255) /\
    (forall j, 0 <= j -> j < p \/ p + 4 <= j -> nz mem' j = nz mem j).
Proof.
  intros H H2 HB. unfold store32.
  rewrite aset_upd by lia. cbn [bind]. rewrite aset_upd by (rewrite upd_length; lia). cbn [bind].
  rewrite aset_upd by (rewrite !upd_length; lia). cbn [bind]. rewrite aset_upd by (rewrite !upd_length; lia).
  eexists. split; [reflexivity|]. rewrite !upd_length. split; [reflexivity|]. split; [|split].
  - repeat apply upd_Forall; auto using land255_byte.
  - intros k Hk. assert (C : k = 0 \/ k = 1 \/ k = 2 \/ k = 3) by lia. destruct C as [->|[->|[->| ->]]].
    + rewrite !nz_upd_ne by lia. rewrite Z.add_0_r. rewrite nz_upd_eq by lia. reflexivity.
    + rewrite !nz_upd_ne by lia. rewrite nz_upd_eq by (rewrite ?upd_length; lia). reflexivity.
    + rewrite !nz_upd_ne by lia. rewrite nz_upd_eq by (rewrite ?upd_length; lia). reflexivity.
    + rewrite nz_upd_eq by (rewrite ?upd_length; lia). reflexivity.
  - intros j Hj0 Hj. rewrite !nz_upd_ne by lia. reflexivity.
Qed.

Lemma w32_bit x i : 0 <= i -> Z.testbit (w32 x) i = (Z.testbit x i && (i <? 32))%bool.
Proof.
  intro Hi. unfold w32. rewrite <- (Z.land_ones x 32), Z.land_spec by lia. destruct (Z.ltb_spec i 32).
  - rewrite Z.ones_spec_low by lia. reflexivity.
  - rewrite Z.ones_spec_high by lia. reflexivity.
Qed.

(** The cursor in bits: next field starts here. *)
Definition pos (st : bst) : Z := 8 * (b_off st - 1) + b_bit st.

Definition st_ok (st : bst) : Prop := 0 <= b_bit st < 8 /\ 1 <= b_off st /\ Forall is_byte (b_mem st).

Lemma bit_nz mem j r : 0 <= r < 8 -> bit mem (8 * j + r) = Z.testbit (nz mem j) (7 - r).
Proof.
  intro H. unfold bit, nz. replace ((8 * j + r) / 8) with j by (Z.div_mod_to_equations; lia).
  replace ((8 * j + r) mod 8) with r by (Z.div_mod_to_equations; lia). reflexivity.
Qed.

(** Any data, fitting or not: a field may spill to the left, up to the start of its first byte. *)
Lemma writeBits_raw st data nb : st_ok st -> 1 <= nb <= 25 -> 0 <= data < 2 ^ 32 -> b_off st + 3 <= Z.of_nat (length (b_mem st)) ->
  exists st', writeBits st data nb = Some st' /\ st_ok st' /\ pos st' = pos st + nb /\ length (b_mem st') = length (b_mem st) /\
    forall q, 0 <= q -> bit (b_mem st') q =
      (bit (b_mem st) q || ((pos st - b_bit st <=? q) && (q <? pos st + nb) && Z.testbit data (pos st + nb - 1 - q)))%bool.
Proof.
  intros (Hb & Ho & HB) Hnb Hd Hl. unfold writeBits. set (sh := 32 - nb - b_bit st).
  destruct (Z.ltb_spec sh 0); [unfold sh in *; lia|]. destruct (Z.leb_spec 32 sh); [unfold sh in *; lia|]. cbn [orb].
  set (p := b_off st - 1). rewrite load_word by (unfold p; lia). cbn [bind].
  match goal with |- context [Z.lor ?W ?X] => set (w := W); set (x := X) end.
  destruct (store_spec (b_mem st) p (Z.lor w x)) as (mem' & E & L & B & S1 & S2); try (unfold p; lia); auto.
  rewrite E. cbn [bind]. eexists. split; [reflexivity|]. split; [|split; [|split]].
  - split; [apply Z.mod_pos_bound; lia|]. split; [|exact B]. cbn [b_off]. assert (0 <= (b_bit st + nb) / 8) by (apply Z.div_pos; lia). lia.
  - unfold pos. cbn [b_off b_bit]. Z.div_mod_to_equations. lia.
  - exact L.
  - intros q Hq. cbn [b_mem].
    pose proof (Z.div_mod q 8 ltac:(lia)) as Hdm. pose proof (Z.mod_pos_bound q 8 ltac:(lia)) as Hm.
    assert (Hq8 : 0 <= q / 8) by (apply Z.div_pos; lia).
    set (j := q / 8) in *. set (r := q mod 8) in *. rewrite Hdm. rewrite !bit_nz by lia.
    assert (Hpos : pos st - b_bit st = 8 * p) by (unfold pos, p; lia).
    destruct (Z.lt_ge_cases j p) as [Lj|Lj]; [|destruct (Z.lt_ge_cases j (p + 4)) as [Lj2|Lj2]].
    + rewrite S2 by lia. destruct (Z.leb_spec (pos st - b_bit st) (8 * j + r)); [lia|]. cbn [andb]. now rewrite orb_false_r.
    + replace j with (p + (j - p)) at 1 by lia. rewrite S1 by lia.
      rewrite land_byte_bit by lia. rewrite Z.lor_spec.
      f_equal.
      * unfold w. rewrite word_bit by (try apply nz_byte; auto; lia).
        assert (C : j = p \/ j = p + 1 \/ j = p + 2 \/ j = p + 3) by lia. destruct C as [->|[->|[->| ->]]];
        repeat match goal with |- context [?a <? ?b] => destruct (Z.ltb_spec a b); try lia end; f_equal; lia.
      * destruct (Z.leb_spec (pos st - b_bit st) (8 * j + r)); [|lia]. cbn [andb].
        unfold x. rewrite bswap_bit by lia.
        set (i := 7 - r + 8 * (j - p)).
        assert (Hi : 8 * (3 - i / 8) + i mod 8 = 31 - r - 8 * (j - p)) by (unfold i; Z.div_mod_to_equations; lia).
        rewrite Hi. rewrite w32_bit, Z.shiftl_spec by lia. destruct (Z.ltb_spec (31 - r - 8 * (j - p)) 32); [|lia]. rewrite andb_true_r.
        replace (31 - r - 8 * (j - p) - sh) with (pos st + nb - 1 - (8 * j + r)) by (unfold sh; lia).
        destruct (Z.ltb_spec (8 * j + r) (pos st + nb)).
        -- cbn [andb]. rewrite w32_bit by lia. unfold w32. destruct (Z.ltb_spec (pos st + nb - 1 - (8 * j + r)) 32).
           ++ apply andb_true_r.
           ++ unfold pos, p in *. lia.
        -- cbn [andb]. apply Z.testbit_neg_r. lia.
    + rewrite S2 by lia. destruct (Z.ltb_spec (8 * j + r) (pos st + nb)); [unfold pos, p in *; lia|].
      rewrite andb_false_r. cbn [andb]. now rewrite orb_false_r.
Qed.

Lemma small_bits v nb i : 0 <= v < 2 ^ nb -> nb <= i -> Z.testbit v i = false.
Proof.
  intros H Hi. destruct (Z.eq_dec v 0) as [->|]; [apply Z.bits_0|].
  apply Z.bits_above_log2; [lia|]. assert (Z.log2 v < nb) by (apply Z.log2_lt_pow2; lia). lia.
Qed.

Lemma writeBits_spec st data nb : st_ok st -> 1 <= nb <= 25 -> 0 <= data < 2 ^ nb -> b_off st + 3 <= Z.of_nat (length (b_mem st)) ->
  exists st', writeBits st data nb = Some st' /\ st_ok st' /\ pos st' = pos st + nb /\ length (b_mem st') = length (b_mem st) /\
    forall q, 0 <= q -> bit (b_mem st') q =
      (bit (b_mem st) q || ((pos st <=? q) && (q <? pos st + nb) && Z.testbit data (pos st + nb - 1 - q)))%bool.
Proof.
  intros Hs Hnb Hd Hl.
  assert (Hd2 : 0 <= data < 2 ^ 32). { split; [lia|]. apply Z.lt_le_trans with (2 ^ nb); [lia|]. apply Z.pow_le_mono_r; lia. }
  destruct (writeBits_raw st data nb Hs Hnb Hd2 Hl) as (st' & E & H1 & H2 & H3 & H4).
  exists st'. repeat (split; [assumption|]). intros q Hq. rewrite H4 by lia. f_equal.
  destruct Hs as (Hb & _). destruct (Z.leb_spec (pos st - b_bit st) q), (Z.leb_spec (pos st) q); cbn [andb]; try reflexivity; try lia.
  destruct (q <? pos st + nb); cbn [andb]; [|reflexivity]. apply (small_bits _ nb); lia.
Qed.

Lemma mask_ones k : forall i m, m = Z.ones i -> 0 <= i -> mask_loop k i m = Z.ones (i + Z.of_nat k).
Proof.
  induction k as [|k IH]; intros i m Hm Hi; cbn [mask_loop].
  - rewrite Hm. f_equal. lia.
  - rewrite (IH (i + 1)); [f_equal; lia| |lia].
    rewrite Hm. apply Z.bits_inj'. intros n Hn. rewrite Z.lor_spec, Z.shiftl_spec by lia.
    destruct (Z.lt_trichotomy n i) as [L|[->|L]].
    + rewrite !Z.ones_spec_low by lia. reflexivity.
    + rewrite Z.ones_spec_high, Z.ones_spec_low by lia. rewrite Z.sub_diag. reflexivity.
    + rewrite !Z.ones_spec_high by lia. cbn [orb]. destruct (Z.eq_dec (n - i) 0); [lia|].
      change 1 with (2 ^ 0). apply Z.pow2_bits_false. lia.
Qed.

Lemma readBits_spec st nb : st_ok st -> 1 <= nb <= 25 -> b_off st + 3 <= Z.of_nat (length (b_mem st)) ->
  exists v, readBits st nb = Some (v, Bst (b_mem st) ((b_bit st + nb) mod 8) (b_off st + (b_bit st + nb) / 8)) /\
    0 <= v < 2 ^ nb /\ forall i, 0 <= i < nb -> Z.testbit v i = bit (b_mem st) (pos st + nb - 1 - i).
Proof.
  intros (Hb & Ho & HB) Hnb Hl. unfold readBits. set (sh := 32 - nb - b_bit st).
  destruct (Z.ltb_spec sh 0); [unfold sh in *; lia|]. destruct (Z.leb_spec 32 sh); [unfold sh in *; lia|]. cbn [orb].
  set (p := b_off st - 1). rewrite load_word by (unfold p; lia). cbn [bind].
  rewrite (mask_ones _ 0 0) by (reflexivity || lia). rewrite Z2Nat.id, Z.add_0_l by lia.
  set (w := word _ _ _ _). set (v := Z.shiftr _ sh).
  assert (Hv : forall i, 0 <= i -> Z.testbit v i = (bit (b_mem st) (pos st + nb - 1 - i) && (i <? nb))%bool).
  { intros i Hi. unfold v. rewrite Z.shiftr_spec by lia.
    destruct (Z.lt_ge_cases (i + sh) 32) as [L|L].
    - rewrite bswap_bit by lia. rewrite Z.land_spec.
      set (k := i + sh) in *. set (k' := 8 * (3 - k / 8) + k mod 8).
      assert (Hk' : 0 <= k' < 32) by (unfold k'; Z.div_mod_to_equations; lia).
      rewrite bswap_bit by lia.
      assert (Hkk : 8 * (3 - k' / 8) + k' mod 8 = k) by (unfold k'; Z.div_mod_to_equations; lia). rewrite Hkk.
      destruct (Z.ltb_spec i nb).
      + rewrite Z.ones_spec_low by (unfold k, sh; lia). f_equal.
        unfold w. rewrite word_bit by (try apply nz_byte; auto; lia).
        set (q := pos st + nb - 1 - i).
        assert (Hq : q = 8 * (p + (3 - k / 8)) + (7 - k mod 8)).
        { unfold q, pos, p. assert (k = 8 * (k / 8) + k mod 8) by (Z.div_mod_to_equations; lia). unfold k, sh in *. lia. }
        rewrite Hq. rewrite bit_nz by (Z.div_mod_to_equations; lia).
        assert (Hk8 : 0 <= k / 8 < 4) by (Z.div_mod_to_equations; lia).
        assert (Hkm : 0 <= k mod 8 < 8) by (apply Z.mod_pos_bound; lia).
        replace (7 - (7 - k mod 8)) with (k mod 8) by lia. unfold k'.
        assert (C : k / 8 = 0 \/ k / 8 = 1 \/ k / 8 = 2 \/ k / 8 = 3) by lia.
        destruct C as [->|[->|[->| ->]]];
        repeat match goal with |- context [?a <? ?b] => destruct (Z.ltb_spec a b); try lia end; f_equal; try lia; f_equal; lia.
      + rewrite Z.ones_spec_high by (unfold k, sh; lia). now rewrite !andb_false_r.
    - destruct (Z.ltb_spec i nb); [unfold sh in *; lia|]. rewrite andb_false_r.
      rewrite bswap_word, word_bit by (try apply land255_byte; lia).
      destruct (Z.ltb_spec (i + sh) 8); [lia|]. destruct (Z.ltb_spec (i + sh) 16); [lia|]. destruct (Z.ltb_spec (i + sh) 24); [lia|].
      apply byte_high; [apply land255_byte|lia]. }
  assert (Hvb : v = v mod 2 ^ nb).
  { apply Z.bits_inj'. intros i Hi. rewrite <- Z.land_ones, Z.land_spec by lia. rewrite Hv by lia.
    destruct (Z.ltb_spec i nb).
    - rewrite Z.ones_spec_low by lia. now rewrite !andb_true_r.
    - now rewrite !andb_false_r. }
  exists v. split; [reflexivity|]. split.
  - rewrite Hvb. apply Z.mod_pos_bound. apply Z.pow_pos_nonneg; lia.
  - intros i Hi. rewrite Hv by lia. destruct (Z.ltb_spec i nb); [apply andb_true_r|lia].
Qed.

(** ** Sequences *)
Definition width_ok (f : Z * Z) : Prop := 1 <= fst f <= 25.
Definition field_ok (f : Z * Z) : Prop := 1 <= fst f <= 25 /\ 0 <= snd f < 2 ^ fst f.
Definition total_bits (fs : list (Z * Z)) : Z := fold_right (fun f a => fst f + a) 0 fs.

Lemma total_nonneg fs : Forall field_ok fs -> 0 <= total_bits fs.
Proof. induction 1 as [|f fs (H & _) Hf IH]; cbn [total_bits fold_right]; [lia|]. unfold total_bits in IH. lia. Qed.

(** Does the buffer hold these fields from bit [q] on? *)
Fixpoint holds (mem : list Z) (q : Z) (fs : list (Z * Z)) : Prop :=
  match fs with
  | [] => True
  | (nb, v) :: r => (forall i, 0 <= i < nb -> bit mem (q + nb - 1 - i) = Z.testbit v i) /\ holds mem (q + nb) r
  end.

Lemma holds_ext mem mem' fs : forall q, Forall field_ok fs -> (forall q', q <= q' < q + total_bits fs -> bit mem' q' = bit mem q') ->
  holds mem q fs -> holds mem' q fs.
Proof.
  induction fs as [|[nb v] r IH]; intros q Hf H; cbn [holds]; [auto|].
  inversion Hf as [|? ? (H1 & H2) Hr]; subst. cbn [fst snd] in *. cbn [total_bits fold_right fst] in H. fold (total_bits r) in H.
  pose proof (total_nonneg r Hr). intros [A B]. split.
  - intros i Hi. rewrite H by lia. auto.
  - apply IH; auto. intros q' Hq'. apply H. lia.
Qed.

Lemma pos_off st : st_ok st -> 8 * b_off st <= pos st + 8 /\ pos st < 8 * b_off st.
Proof. intros (H & _). unfold pos. lia. Qed.

Lemma writeFields_spec fs : forall st, st_ok st -> Forall field_ok fs -> pos st + total_bits fs + 32 <= 8 * Z.of_nat (length (b_mem st)) ->
  (forall q, pos st <= q -> bit (b_mem st) q = false) ->
  exists st', writeFields st fs = Some st' /\ st_ok st' /\ pos st' = pos st + total_bits fs /\ length (b_mem st') = length (b_mem st) /\
    (forall q, 0 <= q -> q < pos st \/ pos st' <= q -> bit (b_mem st') q = bit (b_mem st) q) /\
    holds (b_mem st') (pos st) fs.
Proof.
  induction fs as [|[nb v] r IH]; intros st Hs Hf Hl Hz; cbn [writeFields].
  - exists st. cbn [total_bits fold_right holds]. rewrite Z.add_0_r. repeat split; auto; try apply Hs.
  - inversion Hf as [|? ? (H1 & H2) Hr]; subst. cbn [fst snd] in *. cbn [total_bits fold_right fst] in Hl. fold (total_bits r) in Hl.
    pose proof (total_nonneg r Hr). pose proof (pos_off st Hs).
    assert (Hp : 0 <= pos st) by (destruct Hs as (? & ? & _); unfold pos; lia).
    destruct (writeBits_spec st v nb Hs H1 H2 ltac:(lia)) as (s1 & E1 & Hs1 & P1 & L1 & B1).
    rewrite E1. cbn [bind].
    destruct (IH s1 Hs1 Hr) as (s2 & E2 & Hs2 & P2 & L2 & B2 & Hh).
    + rewrite P1, L1. lia.
    + intros q Hq. rewrite B1 by lia. rewrite Hz by lia. destruct (Z.ltb_spec q (pos st + nb)); [lia|]. now rewrite andb_false_r.
    + exists s2. cbn [total_bits fold_right fst]. fold (total_bits r).
      split; [auto|]. split; [auto|]. split; [lia|]. split; [congruence|]. split.
      * intros q Hq0 Hq. rewrite B2 by lia. rewrite B1 by lia.
        destruct (Z.leb_spec (pos st) q), (Z.ltb_spec q (pos st + nb)); try lia; cbn [andb]; apply orb_false_r.
      * cbn [holds]. split.
        -- intros i Hi. rewrite B2 by lia. rewrite B1 by lia. rewrite Hz by lia. cbn [orb].
           destruct (Z.leb_spec (pos st) (pos st + nb - 1 - i)); [|lia].
           destruct (Z.ltb_spec (pos st + nb - 1 - i) (pos st + nb)); [|lia]. cbn [andb]. f_equal. lia.
        -- rewrite <- P1. exact Hh.
Qed.

Lemma readFields_spec fs : forall st, st_ok st -> Forall field_ok fs -> pos st + total_bits fs + 32 <= 8 * Z.of_nat (length (b_mem st)) ->
  holds (b_mem st) (pos st) fs ->
  exists st', readFields st (map fst fs) = Some (map snd fs, st') /\ st_ok st' /\ pos st' = pos st + total_bits fs /\ b_mem st' = b_mem st.
Proof.
  induction fs as [|[nb v] r IH]; intros st Hs Hf Hl Hh; cbn [readFields map].
  - exists st. cbn [total_bits fold_right]. rewrite Z.add_0_r. repeat split; auto; try apply Hs.
  - inversion Hf as [|? ? (H1 & H2) Hr]; subst. cbn [fst snd] in *. cbn [total_bits fold_right fst] in Hl. fold (total_bits r) in Hl.
    pose proof (total_nonneg r Hr). pose proof (pos_off st Hs).
    destruct (readBits_spec st nb Hs H1 ltac:(lia)) as (v' & E & Hv' & Hb). rewrite E. cbn [bind].
    cbn [holds] in Hh. destruct Hh as [Hh1 Hh2].
    assert (v' = v).
    { apply Z.bits_inj'. intros i Hi. destruct (Z.lt_ge_cases i nb).
      - rewrite Hb by lia. apply Hh1. lia.
      - rewrite !(small_bits _ nb) by lia. reflexivity. }
    subst v'. set (s1 := Bst _ _ _).
    assert (Hs1 : st_ok s1).
    { destruct Hs as (A & B & C). split; [apply Z.mod_pos_bound; lia|]. split; [|exact C]. cbn [b_off s1].
      assert (0 <= (b_bit st + nb) / 8) by (apply Z.div_pos; lia). lia. }
    assert (P1 : pos s1 = pos st + nb) by (unfold pos; cbn [s1 b_off b_bit]; Z.div_mod_to_equations; lia).
    destruct (IH s1 Hs1 Hr) as (s2 & E2 & Hs2 & P2 & M2).
    + rewrite P1. cbn [s1 b_mem]. lia.
    + rewrite P1. exact Hh2.
    + rewrite E2. cbn [bind]. exists s2. split; [reflexivity|]. split; [auto|]. split; [|exact M2].
      cbn [total_bits fold_right fst]. fold (total_bits r). lia.
Qed.
