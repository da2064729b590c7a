(** The base mesh header is read back as written; limits of its format. *)
From Coq Require Import List ZArith Lia Bool.
From Verif Require Import Arr RangeCoderModel RangeCoderProofs QsModelProofs BitsModel BitsProofs.
Import ListNotations.
Open Scope Z_scope.

Lemma writeFields_app a : forall st b, writeFields st (a ++ b) = bind (writeFields st a) (fun s => writeFields s b).
Proof.
  induction a as [|[nb v] a IH]; intros st b; cbn [app writeFields bind]; [reflexivity|].
  destruct (writeBits st v nb); [|reflexivity]. cbn [bind]. apply IH.
Qed.

Definition p3 (nb : Z) (p : point) : list (Z * Z) := let '(x, y, z) := p in [(nb, x); (nb, y); (nb, z)].

Lemma bind_assoc {A B C} (x : option A) (f : A -> option B) (g : B -> option C) :
  bind (bind x f) g = bind x (fun a => bind (f a) g).
Proof. destruct x; reflexivity. Qed.

Lemma write3_fields st nb p : write3 st nb p = writeFields st (p3 nb p).
Proof.
  destruct p as [[x y] z]. unfold write3. cbn [p3 writeFields].
  destruct (writeBits st x nb) as [s|]; cbn [bind]; [|reflexivity].
  destruct (writeBits s y nb) as [s'|]; cbn [bind]; [|reflexivity].
  destruct (writeBits s' z nb); reflexivity.
Qed.

(** ** The order of the vertices in the file *)
Definition is_dep (dep : nat * nat) (i : nat) : bool := (Nat.eqb i (fst dep) || Nat.eqb i (snd dep))%bool.

Fixpoint others (ps : list point) (i : nat) (dep : nat * nat) : list (nat * point) :=
  match ps with
  | [] => []
  | p :: r => if is_dep dep i then others r (S i) dep else (i, p) :: others r (S i) dep
  end.
Fixpoint number (l : list (nat * point)) (id : Z) : list (nat * Z) :=
  match l with [] => [] | (i, _) :: r => (i, id) :: number r (id + 1) end.

Lemma write_others_fields nb dep ps : forall st i id,
  write_others st nb ps i dep id =
  bind (writeFields st (flat_map (p3 nb) (map snd (others ps i dep)))) (fun s => Some (s, number (others ps i dep) id)).
Proof.
  induction ps as [|p r IH]; intros st i id; cbn [write_others others].
  - reflexivity.
  - fold (is_dep dep i). destruct (is_dep dep i); [apply IH|].
    cbn [map snd flat_map number]. rewrite write3_fields, writeFields_app, bind_assoc.
    destruct (writeFields st (p3 nb p)) as [s|]; cbn [bind]; [|reflexivity].
    rewrite IH. destruct (writeFields s _); reflexivity.
Qed.

Lemma others_in ps : forall i dep k v p, nth_error (others ps i dep) k = Some (v, p) ->
  (i <= v < i + length ps)%nat /\ is_dep dep v = false /\ nth_error ps (v - i) = Some p.
Proof.
  induction ps as [|q r IH]; intros i dep k v p H; cbn [others] in H.
  - destruct k; discriminate.
  - assert (Hrec : forall k, nth_error (others r (S i) dep) k = Some (v, p) ->
        (i <= v < i + length (q :: r))%nat /\ is_dep dep v = false /\ nth_error (q :: r) (v - i) = Some p).
    { intros k' Hk. apply IH in Hk. destruct Hk as (A & B & C). cbn [length]. split; [lia|]. split; [auto|].
      replace (v - i)%nat with (S (v - S i)) by lia. exact C. }
    destruct (is_dep dep i) eqn:Ed; [eauto|]. destruct k; cbn [nth_error] in H; [|eauto].
    injection H as <- <-. cbn [length]. split; [lia|]. split; [auto|]. rewrite Nat.sub_diag. reflexivity.
Qed.

Lemma others_all ps : forall i dep v, (i <= v < i + length ps)%nat -> is_dep dep v = false ->
  exists k p, nth_error (others ps i dep) k = Some (v, p).
Proof.
  induction ps as [|q r IH]; intros i dep v H Hd; cbn [length] in H; [lia|]. cbn [others].
  destruct (Nat.eq_dec v i) as [->|].
  - rewrite Hd. exists 0%nat, q. reflexivity.
  - destruct (IH (S i) dep v ltac:(lia) Hd) as (k & p & E). destruct (is_dep dep i); [eauto|]. exists (S k), p. exact E.
Qed.

Lemma others_fst_lt ps : forall i dep k v p, nth_error (others ps i dep) k = Some (v, p) -> (i <= v)%nat.
Proof. intros. apply others_in in H. lia. Qed.

Lemma find_others ps : forall i dep id v k p, nth_error (others ps i dep) k = Some (v, p) ->
  find_id (number (others ps i dep) id) v = Some (id + Z.of_nat k).
Proof.
  induction ps as [|q r IH]; intros i dep id v k p H; cbn [others] in *.
  - destruct k; discriminate.
  - destruct (is_dep dep i); [eapply IH; eauto|]. cbn [number find_id].
    destruct k; cbn [nth_error] in H.
    + injection H as -> ->. rewrite Nat.eqb_refl. f_equal. lia.
    + pose proof (others_fst_lt _ _ _ _ _ _ H). destruct (Nat.eqb_spec i v); [lia|].
      rewrite (IH _ _ (id + 1) _ _ _ H). f_equal. lia.
Qed.

Lemma find_others_none ps : forall i dep id v, is_dep dep v = true -> find_id (number (others ps i dep) id) v = None.
Proof.
  induction ps as [|q r IH]; intros i dep id v H; cbn [others]; [reflexivity|].
  destruct (is_dep dep i) eqn:E; [auto|]. cbn [number find_id]. destruct (Nat.eqb_spec i v); [congruence|auto].
Qed.

Lemma find_id_app a b v : find_id (a ++ b) v = match find_id a v with Some x => Some x | None => find_id b v end.
Proof. induction a as [|[i x] a IH]; cbn [app find_id]; [reflexivity|]. destruct (Nat.eqb i v); auto. Qed.

Lemma others_length ps : forall i dep, (length (others ps i dep) + length (filter (is_dep dep) (seq i (length ps))) = length ps)%nat.
Proof.
  induction ps as [|q r IH]; intros i dep; cbn [others length seq filter]; [reflexivity|].
  specialize (IH (S i) dep). destruct (is_dep dep i); cbn [length]; lia.
Qed.

Lemma filter_dep n : forall i d0 d1, d0 <> d1 -> (i <= d0 < i + n)%nat -> (i <= d1 < i + n)%nat ->
  length (filter (is_dep (d0, d1)) (seq i n)) = 2%nat.
Proof.
  intros i d0 d1 Hne H0 H1.
  assert (One : forall n i d, length (filter (fun x => Nat.eqb x d) (seq i n)) = if ((i <=? d)%nat && (d <? i + n)%nat)%bool then 1%nat else 0%nat).
  { clear. induction n as [|n IH]; intros i d; cbn [seq filter].
    - destruct (Nat.leb_spec i d), (Nat.ltb_spec d (i + 0)); cbn [andb length]; try reflexivity; lia.
    - destruct (Nat.eqb_spec i d).
      + cbn [length]. rewrite IH. destruct (Nat.leb_spec (S i) d), (Nat.leb_spec i d), (Nat.ltb_spec d (i + S n)); cbn [andb]; try reflexivity; lia.
      + rewrite IH. destruct (Nat.leb_spec (S i) d), (Nat.leb_spec i d), (Nat.ltb_spec d (S i + n)), (Nat.ltb_spec d (i + S n)); cbn [andb]; try reflexivity; lia. }
  assert (Two : forall l, length (filter (is_dep (d0, d1)) l) = (length (filter (fun x => Nat.eqb x d0) l) + length (filter (fun x => Nat.eqb x d1) l))%nat).
  { induction l as [|x l IH]; cbn [filter]; [reflexivity|]. unfold is_dep at 1. cbn [fst snd].
    destruct (Nat.eqb_spec x d0), (Nat.eqb_spec x d1); cbn [orb length]; try congruence; lia. }
  rewrite Two, !One. destruct (Nat.leb_spec i d0), (Nat.ltb_spec d0 (i + n)), (Nat.leb_spec i d1), (Nat.ltb_spec d1 (i + n)); cbn [andb]; lia.
Qed.

(** ** Faces *)
Definition face_fields (nb : Z) (num : nat -> Z) (f : list nat) : list (Z * Z) :=
  (FACE_BITS, Z.of_nat (length f) - 3) :: map (fun v => (nb, num v)) f.

Lemma write_ids_fields t nb num vs : (forall v, In v vs -> find_id t v = Some (num v)) -> forall st,
  write_ids st t nb vs = writeFields st (map (fun v => (nb, num v)) vs).
Proof.
  induction vs as [|v r IH]; intros H st; cbn [write_ids map writeFields]; [reflexivity|].
  rewrite (H v) by (left; reflexivity). cbn [bind]. destruct (writeBits st (num v) nb); cbn [bind]; [|reflexivity].
  apply IH. intros v' Hv. apply H. right. exact Hv.
Qed.

Lemma write_faces_fields t nb num fs : (forall f v, In f fs -> In v f -> find_id t v = Some (num v)) -> forall st,
  write_faces st t nb fs = writeFields st (flat_map (face_fields nb num) fs).
Proof.
  induction fs as [|f r IH]; intros H st; cbn [write_faces flat_map]; [reflexivity|].
  rewrite writeFields_app. unfold face_fields at 1. cbn [writeFields]. rewrite bind_assoc.
  destruct (writeBits st _ FACE_BITS) as [s|]; cbn [bind]; [|reflexivity].
  rewrite (write_ids_fields t nb num) by (intros; apply (H f); [left; reflexivity|assumption]).
  destruct (writeFields s _); cbn [bind]; [|reflexivity]. apply IH. intros f' v Hf Hv. apply (H f'); [right|]; auto.
Qed.

(** ** Reading *)
Definition R (st : bst) (fs : list (Z * Z)) : Prop :=
  st_ok st /\ Forall field_ok fs /\
  (match fs with [] => True | _ => (pos st + total_bits fs + 31) / 8 <= Z.of_nat (length (b_mem st)) end) /\
  holds (b_mem st) (pos st) fs.

Lemma R_step st nb v fs : R st ((nb, v) :: fs) ->
  exists st', readBits st nb = Some (v, st') /\ R st' fs /\ b_mem st' = b_mem st /\ pos st' = pos st + nb.
Proof.
  intros (Hs & Hf & Hl2 & Hh). inversion Hf as [|? ? (H1 & H2) Hr]; subst. cbn [fst snd] in *.
  cbn [total_bits fold_right fst] in Hl2. fold (total_bits fs) in Hl2. pose proof (total_nonneg fs Hr). pose proof (pos_off st Hs).
  assert (Hw : b_off st + 3 <= Z.of_nat (length (b_mem st))).
  { assert (8 * (b_off st + 3) <= pos st + (nb + total_bits fs) + 31) by (unfold pos in *; destruct Hs as (? & _); lia).
    assert (b_off st + 3 <= (pos st + (nb + total_bits fs) + 31) / 8) by (apply Z.div_le_lower_bound; lia). lia. }
  destruct (readBits_spec st nb Hs H1 Hw) as (v' & E & Hv' & Hb).
  cbn [holds] in Hh. destruct Hh as [Hh1 Hh2].
  assert (v' = v).
  { apply Z.bits_inj'. intros i Hi. destruct (Z.lt_ge_cases i nb).
    - rewrite Hb by lia. apply Hh1. lia.
    - rewrite !(small_bits _ nb) by lia. reflexivity. }
  subst v'. eexists. split; [exact E|].
  set (s1 := Bst _ _ _).
  assert (Hs1 : st_ok s1).
  { destruct Hs as (A & B & C). split; [apply Z.mod_pos_bound; lia|]. split; [|exact C]. cbn [b_off s1].
    assert (0 <= (b_bit st + nb) / 8) by (apply Z.div_pos; lia). lia. }
  assert (P1 : pos s1 = pos st + nb) by (unfold pos; cbn [s1 b_off b_bit]; Z.div_mod_to_equations; lia).
  split; [|auto]. split; [auto|]. split; [auto|]. split.
  - destruct fs as [|g fs']; [exact I|]. rewrite P1. cbn [s1 b_mem].
    replace (pos st + nb + total_bits (g :: fs') + 31) with (pos st + (nb + total_bits (g :: fs')) + 31) by lia. exact Hl2.
  - rewrite P1. exact Hh2.
Qed.

Lemma R_read3 st nb p fs : R st (p3 nb p ++ fs) ->
  exists st', read3 st nb = Some (p, st') /\ R st' fs /\ b_mem st' = b_mem st /\ pos st' = pos st + total_bits (p3 nb p).
Proof.
  destruct p as [[x y] z]. cbn [p3 app]. intro H.
  destruct (R_step _ _ _ _ H) as (s1 & E1 & R1 & M1 & P1).
  destruct (R_step _ _ _ _ R1) as (s2 & E2 & R2 & M2 & P2).
  destruct (R_step _ _ _ _ R2) as (s3 & E3 & R3 & M3 & P3).
  exists s3. unfold read3. rewrite E1. cbn [bind]. rewrite E2. cbn [bind]. rewrite E3. cbn [bind].
  split; [reflexivity|]. split; [auto|]. split; [congruence|]. cbn [total_bits fold_right fst]. lia.
Qed.

Lemma total_app a b : total_bits (a ++ b) = total_bits a + total_bits b.
Proof. induction a as [|f a IH]; cbn [app total_bits fold_right]; [reflexivity|]. unfold total_bits in *. lia. Qed.

Lemma R_points nb ps : forall st fs, R st (flat_map (p3 nb) ps ++ fs) ->
  exists st', read_points st nb (length ps) = Some (ps, st') /\ R st' fs /\ b_mem st' = b_mem st /\ pos st' = pos st + total_bits (flat_map (p3 nb) ps).
Proof.
  induction ps as [|p r IH]; intros st fs H; cbn [flat_map length read_points] in *.
  - exists st. cbn [total_bits fold_right]. rewrite Z.add_0_r. auto.
  - rewrite <- app_assoc in H. destruct (R_read3 _ _ _ _ H) as (s1 & E1 & R1 & M1 & P1).
    destruct (IH _ _ R1) as (s2 & E2 & R2 & M2 & P2). rewrite E1. cbn [bind]. rewrite E2. cbn [bind].
    exists s2. split; [reflexivity|]. split; [auto|]. split; [congruence|]. rewrite total_app. lia.
Qed.

Lemma R_ids nb num vs : forall st fs, R st (map (fun v : nat => (nb, num v)) vs ++ fs) ->
  exists st', read_ids st nb (length vs) = Some (map num vs, st') /\ R st' fs /\ b_mem st' = b_mem st /\
    pos st' = pos st + total_bits (map (fun v => (nb, num v)) vs).
Proof.
  induction vs as [|v r IH]; intros st fs H; cbn [map length read_ids app] in *.
  - exists st. cbn [total_bits fold_right]. rewrite Z.add_0_r. auto.
  - destruct (R_step _ _ _ _ H) as (s1 & E1 & R1 & M1 & P1).
    destruct (IH _ _ R1) as (s2 & E2 & R2 & M2 & P2). rewrite E1. cbn [bind]. rewrite E2. cbn [bind].
    exists s2. split; [reflexivity|]. split; [auto|]. split; [congruence|]. cbn [total_bits fold_right fst]. fold (total_bits (map (fun v => (nb, num v)) r)). lia.
Qed.

Lemma R_faces nb num faces : (forall f, In f faces -> (3 <= length f)%nat) -> forall st fs, R st (flat_map (face_fields nb num) faces ++ fs) ->
  exists st', read_faces st nb (length faces) = Some (map (fun f => Z.of_nat (length f) :: map num f) faces, st') /\ R st' fs /\
    b_mem st' = b_mem st /\ pos st' = pos st + total_bits (flat_map (face_fields nb num) faces).
Proof.
  induction faces as [|f r IH]; intros Hd st fs H; cbn [flat_map length read_faces map] in *.
  - exists st. cbn [total_bits fold_right]. rewrite Z.add_0_r. auto.
  - unfold face_fields at 1 in H. rewrite <- app_assoc in H. cbn [app] in H.
    destruct (R_step _ _ _ _ H) as (s1 & E1 & R1 & M1 & P1). rewrite E1. cbn [bind].
    replace (Z.of_nat (length f) - 3 + 3) with (Z.of_nat (length f)) by lia. rewrite Nat2Z.id.
    destruct (R_ids _ _ _ _ _ R1) as (s2 & E2 & R2 & M2 & P2). rewrite E2. cbn [bind].
    destruct (IH ltac:(intros; apply Hd; right; assumption) _ _ R2) as (s3 & E3 & R3 & M3 & P3). rewrite E3. cbn [bind].
    exists s3. split; [reflexivity|]. split; [auto|]. split; [congruence|]. rewrite total_app. unfold face_fields at 1.
    cbn [total_bits fold_right fst]. fold (total_bits (map (fun v => (nb, num v)) f)). lia.
Qed.

(** ** Floats *)
Lemma load_store mem p w mem' : 0 <= p -> p + 4 <= Z.of_nat (length mem') -> 0 <= w < 2 ^ 32 ->
  (forall k, 0 <= k < 4 -> nz mem' (p + k) = Z.land (Z.shiftr w (8 * k)) 255) -> mem = mem' -> load32 mem p = Some w.
Proof.
  intros H1 H2 Hw H ->. rewrite load_word by lia. f_equal.
  rewrite <- (Z.add_0_r p) at 1. rewrite !H by lia.
  apply Z.bits_inj'. intros i Hi. rewrite word_bit by (try apply land255_byte; lia).
  destruct (Z.ltb_spec i 8); [|destruct (Z.ltb_spec i 16); [|destruct (Z.ltb_spec i 24)]].
  - rewrite land_byte_bit by lia. f_equal. lia.
  - rewrite land_byte_bit by lia. f_equal. lia.
  - rewrite land_byte_bit by lia. f_equal. lia.
  - destruct (Z.lt_ge_cases i 32).
    + rewrite land_byte_bit by lia. f_equal. lia.
    + rewrite (small_bits w 32) by lia. apply byte_high; [apply land255_byte|lia].
Qed.

Lemma load_ext a b p : 0 <= p -> p + 4 <= Z.of_nat (length a) -> p + 4 <= Z.of_nat (length b) ->
  (forall j, p <= j < p + 4 -> nz a j = nz b j) -> load32 a p = load32 b p.
Proof. intros. rewrite !load_word by lia. f_equal. rewrite !H2 by lia. reflexivity. Qed.

Lemma bits_byte mem mem' j : Forall is_byte mem -> Forall is_byte mem' -> (forall q, 8 * j <= q < 8 * j + 8 -> bit mem q = bit mem' q) -> nz mem j = nz mem' j.
Proof.
  intros B1 B2 H. apply Z.bits_inj'. intros i Hi. destruct (Z.lt_ge_cases i 8).
  - pose proof (H (8 * j + (7 - i)) ltac:(lia)) as X. rewrite !bit_nz in X by lia. replace (7 - (7 - i)) with i in X by lia. exact X.
  - rewrite !byte_high by (try apply nz_byte; auto). reflexivity.
Qed.

(** ** The whole header *)
Definition bits_of_header (nbv w n : Z) (faces : list (list nat)) : Z :=
  54 + 3 * w * n + fold_right (fun f a => 3 + nbv * Z.of_nat (length f) + a) 0 faces.

Definition writable (bpv : Z -> Z) (m : base) : Prop :=
  let n := Z.of_nat (length (m_pos m)) in
  let '(bx, by_, bz) := m_box m in
  (Forall (fun f => 0 <= f < 2 ^ 32) [bx; by_; bz; m_step m]) /\
  1 <= m_quant m <= 16 /\ 0 <= m_nquant m < m_quant m /\ 0 <= m_rounds m < 64 /\ 0 <= m_notconvex m <= m_rounds m /\
  n < 65536 /\ Z.of_nat (length (m_faces m)) < 65536 /\
  (fst (m_dep m) < length (m_pos m))%nat /\ (snd (m_dep m) < length (m_pos m))%nat /\ fst (m_dep m) <> snd (m_dep m) /\
  Forall (fun p => let '(x, y, z) := p in Forall (fun c => 0 <= c < 2 ^ (m_quant m - m_nquant m)) [x; y; z]) (m_pos m) /\
  Forall (fun f => (3 <= length f <= 10)%nat /\ Forall (fun v => (v < length (m_pos m))%nat) f) (m_faces m) /\
  1 <= bpv n <= 25 /\ n <= 2 ^ bpv n.

(** The object read is the object written up to a renumbering of the vertices that sends the
    departure vertices to 0 and 1. *)
Definition same_object (m : base) (r : rbase) : Prop :=
  r_box r = m_box m /\ r_step r = m_step m /\ r_quant r = m_quant m /\ r_rounds r = m_rounds m /\
  r_nquant r = m_nquant m /\ r_notconvex r = m_rounds m - m_notconvex m /\
  length (r_pos r) = length (m_pos m) /\
  exists ren : nat -> nat,
    (forall v, (v < length (m_pos m))%nat -> (ren v < length (m_pos m))%nat /\ nth_error (r_pos r) (ren v) = nth_error (m_pos m) v) /\
    (forall v v', (v < length (m_pos m))%nat -> (v' < length (m_pos m))%nat -> ren v = ren v' -> v = v') /\
    ren (fst (m_dep m)) = 0%nat /\ ren (snd (m_dep m)) = 1%nat /\
    r_faces r = map (fun f => Z.of_nat (length f) :: map (fun v => Z.of_nat (ren v)) f) (m_faces m).

Lemma pair_off (st : bst) : st_ok st -> (if b_bit st =? 0 then b_off st - 1 else b_off st) = (pos st + 7) / 8.
Proof.
  intros (Hb & Ho & _). unfold pos. destruct (Z.eqb_spec (b_bit st) 0) as [E|E].
  - rewrite E. apply (Z.div_unique _ _ _ 7); lia.
  - apply (Z.div_unique _ _ _ (b_bit st - 1)); lia.
Qed.

Lemma bit_app_l a b q : 0 <= q < 8 * Z.of_nat (length a) -> bit (a ++ b) q = bit a q.
Proof.
  intro H. unfold bit. rewrite app_nth1; [reflexivity|].
  assert (0 <= q / 8 < Z.of_nat (length a)) by (split; [apply Z.div_pos; lia|apply Z.div_lt_upper_bound; lia]). lia.
Qed.

Lemma firstn_Forall {A} (P : A -> Prop) n l : Forall P l -> Forall P (firstn n l).
Proof. intro H. revert n. induction H as [|x l Hx Hl IH]; intros [|n]; cbn [firstn]; auto. Qed.

Lemma nth_firstn {A} (l : list A) : forall n i d, (i < n)%nat -> nth i (firstn n l) d = nth i l d.
Proof.
  induction l as [|x l IH]; intros [|n] [|i] d H; cbn [firstn nth]; try reflexivity; try lia. apply IH. lia.
Qed.

Lemma bit_firstn a n q : 0 <= q < 8 * Z.of_nat n -> bit (firstn n a) q = bit a q.
Proof.
  intro H. unfold bit. rewrite nth_firstn; [reflexivity|].
  assert (0 <= q / 8 < Z.of_nat n) by (split; [apply Z.div_pos; lia|apply Z.div_lt_upper_bound; lia]). lia.
Qed.

Lemma writeFloat_spec mem o f : 0 <= o -> o + 4 <= Z.of_nat (length mem) -> Forall is_byte mem -> 0 <= f < 2 ^ 32 ->
  exists mem', writeFloat mem o f = Some (mem', o + 4) /\ length mem' = length mem /\ Forall is_byte mem' /\
    (forall j, 0 <= j -> j < o \/ o + 4 <= j -> nz mem' j = nz mem j) /\ load32 mem' o = Some f.
Proof.
  intros H1 H2 HB Hf. destruct (store_spec mem o f H1 H2 HB) as (mem' & E & L & B & S1 & S2).
  exists mem'. unfold writeFloat. rewrite E. cbn [bind]. repeat (split; [auto|]).
  eapply (load_store mem' o f mem'); auto. lia.
Qed.

Definition num_of (t : list (nat * Z)) (v : nat) : Z := match find_id t v with Some x => x | None => 0 end.

Lemma total_p3 w ps : total_bits (flat_map (p3 w) ps) = 3 * w * Z.of_nat (length ps).
Proof.
  induction ps as [|[[x y] z] r IH]; cbn [flat_map length]; [cbn; lia|].
  rewrite total_app, IH. cbn [p3 total_bits fold_right fst]. lia.
Qed.

Lemma total_faces nb num fs : total_bits (flat_map (face_fields nb num) fs) = fold_right (fun f a => 3 + nb * Z.of_nat (length f) + a) 0 fs.
Proof.
  induction fs as [|f r IH]; cbn [flat_map fold_right]; [reflexivity|]. rewrite total_app, IH.
  unfold face_fields. cbn [total_bits fold_right fst].
  assert (X : forall l : list nat, total_bits (map (fun v => (nb, num v)) l) = nb * Z.of_nat (length l)).
  { induction l as [|x l IHl]; cbn [map length]; [cbn; lia|]. cbn [total_bits fold_right fst]. unfold total_bits in IHl. rewrite IHl. lia. }
  unfold total_bits in X. rewrite X. unfold FACE_BITS. lia.
Qed.

Lemma p3_ok w ps : 1 <= w <= 25 -> Forall (fun p : point => let '(x, y, z) := p in Forall (fun c => 0 <= c < 2 ^ w) [x; y; z]) ps ->
  Forall field_ok (flat_map (p3 w) ps).
Proof.
  intros Hw H. induction H as [|[[x y] z] r Hp Hr IH]; cbn [flat_map]; [constructor|].
  rewrite Forall_app. split; [|auto]. inversion Hp as [|? ? A Hp1]; subst. inversion Hp1 as [|? ? B Hp2]; subst. inversion Hp2 as [|? ? C _]; subst.
  cbn [p3]. repeat constructor; cbn [fst snd]; lia.
Qed.

Lemma faces_ok nb num (n : nat) fs : 1 <= nb <= 25 -> (forall v, (v < n)%nat -> 0 <= num v < 2 ^ nb) ->
  Forall (fun f : list nat => (3 <= length f <= 10)%nat /\ Forall (fun v => (v < n)%nat) f) fs ->
  Forall field_ok (flat_map (face_fields nb num) fs).
Proof.
  intros Hnb Hn H. induction H as [|f r [Hl Hp] Hr IH]; cbn [flat_map]; [constructor|].
  rewrite Forall_app. split; [|auto]. unfold face_fields. constructor.
  - split; cbn [fst snd]; unfold FACE_BITS; [lia|]. change (2 ^ 3) with 8. lia.
  - clear Hl. induction Hp as [|v f Hv Hf IHf]; cbn [map]; constructor; auto. split; cbn [fst snd]; auto.
Qed.

Theorem header_sized bpv m K : writable bpv m ->
  128 + bits_of_header (bpv (Z.of_nat (length (m_pos m)))) (m_quant m - m_nquant m) (Z.of_nat (length (m_pos m))) (m_faces m) + 32 <= 8 * Z.of_nat K ->
  exists h, writeBaseMesh bpv (repeat 0 K) m = Some h /\ Forall is_byte h /\
    Z.of_nat (length h) = (128 + bits_of_header (bpv (Z.of_nat (length (m_pos m)))) (m_quant m - m_nquant m) (Z.of_nat (length (m_pos m))) (m_faces m) + 7) / 8 /\
    forall tail, Forall is_byte tail -> (3 <= length tail)%nat ->
      exists r, readBaseMesh bpv (h ++ tail) = Some (r, Z.of_nat (length h)) /\ same_object m r.
Proof.
  intros HW HK. unfold writable in HW. unfold writeBaseMesh, same_object.
  set (n := length (m_pos m)) in *. set (nbv := bpv (Z.of_nat n)) in *. set (w := m_quant m - m_nquant m) in *.
  destruct (m_box m) as [[bx by_] bz].
  destruct HW as (Hfl & Hq & Hnq & Hr & Hnc & Hn & Hnf & Hd0 & Hd1 & Hdd & Hpos & Hfaces & Hnbv & Hnp).
  inversion Hfl as [|? ? F1 Hfl1]; subst. inversion Hfl1 as [|? ? F2 Hfl2]; subst. inversion Hfl2 as [|? ? F3 Hfl3]; subst. inversion Hfl3 as [|? ? F4 _]; subst.
  destruct (m_dep m) as [d0 d1] eqn:Ed. cbn [fst snd] in *.
  assert (Hw : 1 <= w <= 16) by (unfold w; lia).
  assert (Hbits0 : 0 <= bits_of_header nbv w (Z.of_nat n) (m_faces m)).
  { unfold bits_of_header. assert (0 <= fold_right (fun (f : list nat) a => 3 + nbv * Z.of_nat (length f) + a) 0 (m_faces m)).
    { clear - Hnbv. induction (m_faces m); cbn [fold_right]; [lia|]. nia. } nia. }
  assert (L0 : Z.of_nat (length (repeat 0 K)) = Z.of_nat K) by (rewrite repeat_length; reflexivity).
  assert (Z0 : forall j, nz (repeat 0 K) j = 0) by (intro j; unfold nz; rewrite nth_repeat; reflexivity).
  assert (B0 : Forall is_byte (repeat 0 K)).
  { apply Forall_forall. intros x Hx. apply repeat_spec in Hx. subst. split; [lia|reflexivity]. }
  destruct (writeFloat_spec (repeat 0 K) 0 bx ltac:(lia) ltac:(lia) B0 F1) as (m1 & E1 & L1 & B1 & S1 & D1).
  destruct (writeFloat_spec m1 (0 + 4) by_ ltac:(lia) ltac:(lia) B1 F2) as (m2 & E2 & L2 & B2 & S2 & D2).
  destruct (writeFloat_spec m2 (0 + 4 + 4) bz ltac:(lia) ltac:(lia) B2 F3) as (m3 & E3 & L3 & B3 & S3 & D3).
  destruct (writeFloat_spec m3 (0 + 4 + 4 + 4) (m_step m) ltac:(lia) ltac:(lia) B3 F4) as (m4 & E4 & L4 & B4 & S4 & D4).
  rewrite E1. cbn [bind]. rewrite E2. cbn [bind]. rewrite E3. cbn [bind]. rewrite E4. cbn [bind].
  rewrite (load_ext m1 m4) in D1 by (try lia; intros; rewrite S4, S3, S2 by lia; reflexivity).
  rewrite (load_ext m2 m4) in D2 by (try lia; intros; rewrite S4, S3 by lia; reflexivity).
  rewrite (load_ext m3 m4) in D3 by (try lia; intros; rewrite S4 by lia; reflexivity).
  change (0 + 4 + 4 + 4 + 4 + 1) with 17. change (0 + 4) with 4 in *. change (4 + 4) with 8 in *. change (8 + 4) with 12 in *.
  set (st := Bst m4 0 17).
  assert (Hst : st_ok st) by (split; [cbn; lia|split; [cbn; lia|exact B4]]).
  assert (Pst : pos st = 128) by reflexivity.
  assert (Zst : forall q, pos st <= q -> bit (b_mem st) q = false).
  { intros q Hqq. rewrite Pst in Hqq. rewrite (Z.div_mod q 8) by lia. rewrite bit_nz by (apply Z.mod_pos_bound; lia). cbn [st b_mem].
    assert (16 <= q / 8) by (apply Z.div_le_lower_bound; lia). rewrite S4, S3, S2, S1, Z0 by lia. apply Z.bits_0. }
  destruct (nth_error (m_pos m) d0) as [p0|] eqn:Ep0; [|apply nth_error_None in Ep0; unfold n in *; lia].
  destruct (nth_error (m_pos m) d1) as [p1|] eqn:Ep1; [|apply nth_error_None in Ep1; unfold n in *; lia].
  set (oth := others (m_pos m) 0 (d0, d1)).
  set (t := number oth 2 ++ [(d1, 1); (d0, 0)]).
  (* the renumbering *)
  assert (Holen : (length oth + 2 = n)%nat).
  { pose proof (others_length (m_pos m) 0 (d0, d1)) as X. fold oth in X. rewrite filter_dep in X by (try assumption; fold n; lia). fold n in X. lia. }
  set (order := (p0 :: p1 :: map snd oth)).
  assert (Hnum : forall v, (v < n)%nat -> exists k, find_id t v = Some (Z.of_nat k) /\ (k < n)%nat /\ nth_error order k = nth_error (m_pos m) v /\
      (k = 0%nat -> v = d0) /\ (k = 1%nat -> v = d1) /\ (forall j, k = S (S j) -> exists p, nth_error oth j = Some (v, p))).
  { intros v Hv. unfold t. rewrite find_id_app. destruct (is_dep (d0, d1) v) eqn:Edep.
    - unfold oth; rewrite find_others_none by exact Edep. unfold is_dep in Edep. cbn [fst snd] in Edep. cbn [find_id].
      destruct (Nat.eqb_spec d1 v).
      + subst v. exists 1%nat. split; [reflexivity|]. split; [lia|]. split; [cbn [nth_error order]; congruence|].
        split; [lia|]. split; [auto|]. intros; lia.
      + destruct (Nat.eqb_spec d0 v).
        * subst v. exists 0%nat. split; [reflexivity|]. split; [lia|]. split; [cbn [nth_error order]; congruence|].
          split; [auto|]. split; [lia|]. intros; lia.
        * destruct (Nat.eqb_spec v d0); [congruence|]. destruct (Nat.eqb_spec v d1); [congruence|]. discriminate.
    - destruct (others_all (m_pos m) 0 (d0, d1) v ltac:(fold n; lia) Edep) as (k & p & Ek). fold oth in Ek.
      pose proof (find_others (m_pos m) 0 (d0, d1) 2 v k p Ek) as Ef. fold oth in Ef. rewrite Ef.
      exists (S (S k)). split; [f_equal; lia|].
      assert (k < length oth)%nat by (apply nth_error_Some; congruence). split; [lia|]. split.
      + cbn [nth_error order]. rewrite (map_nth_error snd _ _ Ek). cbn [snd]. pose proof (others_in _ _ _ _ _ _ Ek) as (_ & _ & X). rewrite Nat.sub_0_r in X. auto.
      + split; [lia|]. split; [lia|]. intros j Hj. injection Hj as <-. eauto. }
  set (num := num_of t).
  assert (Hnumf : forall v, (v < n)%nat -> find_id t v = Some (num v)).
  { intros v Hv. destruct (Hnum v Hv) as (k & E & _). unfold num, num_of. rewrite E. reflexivity. }
  assert (Hnumr : forall v, (v < n)%nat -> 0 <= num v < 2 ^ nbv).
  { intros v Hv. destruct (Hnum v Hv) as (k & E & Hk & _). unfold num, num_of. rewrite E. lia. }
  set (H0 := [(4, m_quant m - 1); (6, m_rounds m); (6, m_nquant m); (6, m_rounds m - m_notconvex m); (16, Z.of_nat n); (16, Z.of_nat (length (m_faces m)))]).
  set (F := H0 ++ flat_map (p3 w) order ++ flat_map (face_fields nbv num) (m_faces m)).
  match goal with |- context [bind (writeBits st (m_quant m - 1) 4) ?f] =>
    assert (HWF : bind (writeBits st (m_quant m - 1) 4) f = bind (writeFields st F) (fun s10 => Some (firstn (Z.to_nat ((if b_bit s10 =? 0 then b_off s10 - 1 else b_off s10))) (b_mem s10)))) end.
  { unfold F. rewrite writeFields_app. unfold H0. cbn [writeFields].
    destruct (writeBits st (m_quant m - 1) 4) as [s1|]; cbn [bind]; [|reflexivity].
    destruct (writeBits s1 _ 6) as [s2|]; cbn [bind]; [|reflexivity].
    destruct (writeBits s2 _ 6) as [s3|]; cbn [bind]; [|reflexivity].
    destruct (writeBits s3 _ 6) as [s4|]; cbn [bind]; [|reflexivity].
    destruct (writeBits s4 _ 16) as [s5|]; cbn [bind]; [|reflexivity].
    destruct (writeBits s5 _ 16) as [s6|]; cbn [bind]; [|reflexivity].
    rewrite writeFields_app. unfold order. cbn [flat_map]. rewrite !writeFields_app, !bind_assoc. rewrite write3_fields.
    destruct (writeFields s6 (p3 w p0)) as [s7|]; cbn [bind]; [|reflexivity]. rewrite writeFields_app, !bind_assoc, write3_fields.
    destruct (writeFields s7 (p3 w p1)) as [s8|]; cbn [bind]; [|reflexivity].
    rewrite write_others_fields. rewrite !bind_assoc. fold oth.
    destruct (writeFields s8 (flat_map (p3 w) (map snd oth))) as [s9|]; cbn [bind]; [|reflexivity].
    rewrite (write_faces_fields _ nbv num).
    - reflexivity.
    - intros f v Hf Hv. apply Hnumf. rewrite Forall_forall in Hfaces. destruct (Hfaces f Hf) as [_ X]. rewrite Forall_forall in X. auto. }
  rewrite HWF. clear HWF.
  assert (HtF : total_bits F = bits_of_header nbv w (Z.of_nat n) (m_faces m)).
  { unfold F. rewrite !total_app, total_p3, total_faces. unfold bits_of_header, order, H0. cbn [length total_bits fold_right fst]. rewrite map_length. rewrite <- Holen. lia. }
  assert (HFok : Forall field_ok F).
  { unfold F. rewrite !Forall_app. split; [|split].
    - unfold H0. repeat constructor; cbn [fst snd]; change (2 ^ 4) with 16; change (2 ^ 6) with 64; change (2 ^ 16) with 65536; lia.
    - apply p3_ok; [lia|]. apply Forall_forall. intros p Hp. rewrite Forall_forall in Hpos. apply Hpos.
      unfold order in Hp. destruct Hp as [<-|[<-|Hp]]; [eapply nth_error_In; eauto|eapply nth_error_In; eauto|].
      apply in_map_iff in Hp. destruct Hp as ([v p'] & E & Hin). cbn [snd] in E. subst p'.
      apply In_nth_error in Hin. destruct Hin as (k & Ek). apply others_in in Ek. destruct Ek as (_ & _ & X). eapply nth_error_In; eauto.
    - eapply faces_ok; eauto. }
  destruct (writeFields_spec F st Hst HFok) as (s10 & Ew & Hs10 & P10 & L10 & Bk & Hh).
  { cbn [st b_mem]. rewrite Pst, HtF. lia. }
  { exact Zst. }
  rewrite Ew. cbn [bind]. rewrite pair_off by assumption.
  set (off := (pos s10 + 7) / 8).
  assert (Hoff : pos s10 <= 8 * off /\ 8 * off <= pos s10 + 7) by (unfold off; Z.div_mod_to_equations; lia).
  assert (Hpos10 : 128 <= pos s10) by (rewrite P10, Pst, HtF; lia).
  assert (L10' : Z.of_nat (length (b_mem s10)) = Z.of_nat K) by (rewrite L10; cbn [st b_mem]; lia).
  eexists. split; [reflexivity|]. split.
  { apply firstn_Forall. apply Hs10. }
  split.
  { rewrite firstn_length_le by lia. rewrite Z2Nat.id by lia. unfold off. rewrite P10, Pst, HtF. reflexivity. }
  intros tail Btail Ltail. set (h := firstn (Z.to_nat off) (b_mem s10)).
  assert (Lh : Z.of_nat (length h) = off). { unfold h. rewrite firstn_length_le; lia. }
  rewrite Lh. set (rm := h ++ tail).
  assert (Hbit : forall q, 0 <= q < 8 * off -> bit rm q = bit (b_mem s10) q).
  { intros q Hqq. unfold rm. rewrite bit_app_l by lia. unfold h. rewrite bit_firstn by lia. reflexivity. }
  assert (Brm : Forall is_byte rm). { unfold rm. rewrite Forall_app. split; [apply firstn_Forall; apply Hs10|auto]. }
  assert (Hnzm : forall j, 0 <= j < 16 -> nz m4 j = nz rm j).
  { intros j Hj. apply bits_byte; auto. intros q Hqq. rewrite Hbit by lia. rewrite Bk by lia. reflexivity. }
  assert (Lrm : Z.of_nat (length rm) = off + Z.of_nat (length tail)) by (unfold rm; rewrite app_length; lia).
  rewrite (load_ext m4 rm) in D1, D2, D3, D4 by (try lia; intros; apply Hnzm; lia).
  unfold readBaseMesh, readFloat. rewrite D1. cbn [bind]. change (0 + 4) with 4. rewrite D2. cbn [bind]. change (4 + 4) with 8. rewrite D3. cbn [bind].
  change (8 + 4) with 12. rewrite D4. cbn [bind]. change (12 + 4 + 1) with 17.
  set (rst := Bst rm 0 17).
  assert (Hrst : st_ok rst) by (split; [cbn; lia|split; [cbn; lia|exact Brm]]).
  assert (Prst : pos rst = 128) by reflexivity.
  assert (HR : R rst F).
  { split; [auto|]. split; [auto|]. split.
    - assert (X : (pos rst + total_bits F + 31) / 8 <= Z.of_nat (length (b_mem rst))).
      { cbn [rst b_mem]. rewrite Lrm. rewrite Prst. unfold off. rewrite P10, Pst.
        apply Z.lt_succ_r. apply Z.div_lt_upper_bound; [lia|]. Z.div_mod_to_equations. lia. }
      destruct F; auto.
    - rewrite Prst. rewrite <- Pst. apply (holds_ext (b_mem s10)); auto. intros q Hqq. cbn [rst b_mem]. apply Hbit. lia. }
  unfold F in HR. unfold H0 in HR. cbn [app] in HR.
  destruct (R_step _ _ _ _ HR) as (r1 & X1 & R1 & M1 & P1). rewrite X1. cbn [bind].
  destruct (R_step _ _ _ _ R1) as (r2 & X2 & R2 & M2 & P2). rewrite X2. cbn [bind].
  destruct (R_step _ _ _ _ R2) as (r3 & X3 & R3 & M3 & P3). rewrite X3. cbn [bind].
  destruct (R_step _ _ _ _ R3) as (r4 & X4 & R4 & M4 & P4). rewrite X4. cbn [bind].
  destruct (R_step _ _ _ _ R4) as (r5 & X5 & R5 & M5 & P5). rewrite X5. cbn [bind].
  destruct (R_step _ _ _ _ R5) as (r6 & X6 & R6 & M6 & P6). rewrite X6. cbn [bind].
  destruct (R_points _ _ _ _ R6) as (r7 & X7 & R7 & M7 & P7).
  assert (Lo : length order = n) by (unfold order; cbn [length]; rewrite map_length; lia).
  replace (m_quant m - 1 + 1 - m_nquant m) with w by (unfold w; lia). replace (Z.to_nat (Z.of_nat n)) with (length order) by lia. rewrite X7. cbn [bind].
  rewrite <- (app_nil_r (flat_map (face_fields _ _) _)) in R7.
  destruct (R_faces nbv num (m_faces m)) with (st := r7) (fs := @nil (Z * Z)) as (r8 & X8 & R8 & M8 & P8).
  { intros f Hf. rewrite Forall_forall in Hfaces. destruct (Hfaces f Hf) as [? _]. lia. }
  { exact R7. }
  fold nbv. rewrite Nat2Z.id. rewrite X8. cbn [bind].
  rewrite pair_off by apply R8.
  assert (HP8 : pos r8 = pos s10).
  { rewrite P10, Pst. unfold F. rewrite !total_app. unfold H0. change (total_bits [_; _; _; _; _; _]) with 54. lia. }
  rewrite HP8. fold off.
  eexists. split; [reflexivity|]. cbn [r_box r_step r_quant r_rounds r_nquant r_notconvex r_pos r_faces].
  split; [reflexivity|]. split; [reflexivity|]. split; [lia|]. split; [reflexivity|]. split; [reflexivity|]. split; [reflexivity|].
  split; [exact Lo|]. exists (fun v => Z.to_nat (num v)).
  assert (Hk : forall v, (v < n)%nat -> forall k, find_id t v = Some (Z.of_nat k) -> Z.to_nat (num v) = k).
  { intros v Hv k Ek. unfold num, num_of. rewrite Ek. apply Nat2Z.id. }
  split; [|split; [|split; [|split]]].
  - intros v Hv. destruct (Hnum v Hv) as (k & Ek & Hkn & En & _). rewrite (Hk v Hv k Ek). auto.
  - intros v v' Hv Hv' E. destruct (Hnum v Hv) as (k & Ek & Hkn & _ & A0 & A1 & A2).
    destruct (Hnum v' Hv') as (k' & Ek' & Hkn' & _ & A0' & A1' & A2').
    rewrite (Hk v Hv k Ek), (Hk v' Hv' k' Ek') in E. subst k'. destruct k as [|[|j]].
    + rewrite A0, A0' by reflexivity. reflexivity.
    + rewrite A1, A1' by reflexivity. reflexivity.
    + destruct (A2 j eq_refl) as (p & Y). destruct (A2' j eq_refl) as (p' & Y'). congruence.
  - destruct (Hnum d0 Hd0) as (k & Ek & Hkn & _ & A0 & A1 & A2). rewrite (Hk d0 Hd0 k Ek).
    destruct k as [|[|j]]; [reflexivity|specialize (A1 eq_refl); congruence|].
    destruct (A2 j eq_refl) as (p & Y). apply others_in in Y. destruct Y as (_ & Y & _). unfold is_dep in Y. cbn [fst snd] in Y. rewrite Nat.eqb_refl in Y. discriminate.
  - destruct (Hnum d1 Hd1) as (k & Ek & Hkn & _ & A0 & A1 & A2). rewrite (Hk d1 Hd1 k Ek).
    destruct k as [|[|j]]; [specialize (A0 eq_refl); congruence|reflexivity|].
    destruct (A2 j eq_refl) as (p & Y). apply others_in in Y. destruct Y as (_ & Y & _). unfold is_dep in Y. cbn [fst snd] in Y. rewrite Nat.eqb_refl, orb_true_r in Y. discriminate.
  - apply map_ext_in. intros f Hf. f_equal. apply map_ext_in. intros v Hv.
    rewrite Forall_forall in Hfaces. destruct (Hfaces f Hf) as [_ X]. rewrite Forall_forall in X. specialize (X v Hv).
    rewrite Z2Nat.id; [reflexivity|]. apply Hnumr. exact X.
Qed.

Theorem header_round_trip bpv m K : writable bpv m ->
  128 + bits_of_header (bpv (Z.of_nat (length (m_pos m)))) (m_quant m - m_nquant m) (Z.of_nat (length (m_pos m))) (m_faces m) + 32 <= 8 * Z.of_nat K ->
  exists h, writeBaseMesh bpv (repeat 0 K) m = Some h /\ Forall is_byte h /\
    forall tail, Forall is_byte tail -> (3 <= length tail)%nat ->
      exists r, readBaseMesh bpv (h ++ tail) = Some (r, Z.of_nat (length h)) /\ same_object m r.
Proof.
  intros HW HK. destruct (header_sized bpv m K HW HK) as (h & E & B & _ & R). exists h. auto.
Qed.
