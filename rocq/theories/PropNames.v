(** C192, C193, C196: time stamps and names of files. *)
From Coq Require Import String Ascii List ZArith QArith Qabs Bool Lia Lqa.
From Verif Require Import TextModel TextSpec TextProofs LogModel.
Import ListNotations.
Open Scope list_scope.
Open Scope Z_scope.

(** ** Time stamps (C192) *)
(** The order of texts by their characters. *)
Fixpoint before (a b : text) : bool :=
  match a, b with
  | _, [] => false
  | [], _ :: _ => true
  | c :: a, d :: b => (nat_of_ascii c <? nat_of_ascii d)%nat || (Ascii.eqb c d && before a b)
  end.
(** The stamp of a moment, in microseconds after midnight. *)
Definition stamp (t : Z) : text := time_string (t / 3600000000) (t / 60000000 mod 60) (t / 1000000 mod 60) (t mod 1000000).
Definition day : Z := 24 * 3600 * 1000000.
Lemma before_refl a : before a a = false.
Proof. induction a as [|c a IH]; [reflexivity|]. cbn [before]. rewrite Nat.ltb_irrefl, Ascii.eqb_refl, IH. reflexivity. Qed.
Definition same (a b : text) : bool := if list_eq_dec ascii_dec a b then true else false.
Lemma before_app a : forall b x y, length a = length b -> before (a ++ x) (b ++ y) = before a b || (same a b && before x y).
Proof.
  induction a as [|c a IH]; intros [|d b] x y E; try discriminate E; [cbn; reflexivity|]. cbn [app before]. rewrite IH by (injection E; auto).
  unfold same. destruct (Ascii.eqb_spec c d) as [<-|N].
  - rewrite Nat.ltb_irrefl. cbn [orb andb]. destruct (list_eq_dec ascii_dec a b) as [->|N]; destruct (list_eq_dec ascii_dec (c :: _) (c :: b)) as [X|X]; try congruence; reflexivity.
  - destruct (list_eq_dec ascii_dec (c :: a) (d :: b)) as [X|X]; [congruence|]. cbn [andb]. rewrite !orb_false_r. reflexivity.
Qed.
Lemma digit_code d : digit_ok d -> nat_of_ascii (digit d) = (48 + Z.to_nat d)%nat.
Proof. intros H. unfold digit. apply nat_ascii_embedding. unfold digit_ok in H. lia. Qed.
Lemma digits_same n : forall x y, 0 <= x < 10 ^ Z.of_nat n -> 0 <= y < 10 ^ Z.of_nat n -> same (map digit (digits n x)) (map digit (digits n y)) = (x =? y).
Proof.
  intros x y X Y. unfold same. destruct (list_eq_dec ascii_dec _ _) as [E|E].
  - symmetry. apply Z.eqb_eq. rewrite <- (digits_number n x X), <- (digits_number n y Y). f_equal.
    pose proof (digits_ok n x) as Dx. pose proof (digits_ok n y) as Dy. revert E Dx Dy. generalize (digits n x) (digits n y).
    induction l as [|a l IH]; intros [|b l'] E Da Db; try discriminate E; [reflexivity|]. cbn [map] in E. injection E as E1 E2.
    f_equal; [|apply IH; [exact E2|exact (Forall_inv_tail Da)|exact (Forall_inv_tail Db)]].
    rewrite <- (proj2 (digit_is a (Forall_inv Da))), <- (proj2 (digit_is b (Forall_inv Db))). f_equal. unfold digit. exact E1.
  - symmetry. apply Z.eqb_neq. congruence.
Qed.
Lemma digits_before n : forall x y, 0 <= x < 10 ^ Z.of_nat n -> 0 <= y < 10 ^ Z.of_nat n -> before (map digit (digits n x)) (map digit (digits n y)) = (x <? y).
Proof.
  induction n as [|n IH]; intros x y X Y; [cbn in *; symmetry; apply Z.ltb_ge; lia|]. cbn [digits]. rewrite !map_app. rewrite before_app by (rewrite !map_length, !digits_length; reflexivity).
  rewrite Nat2Z.inj_succ, Z.pow_succ_r in X, Y by lia.
  assert (Xd : 0 <= x / 10 < 10 ^ Z.of_nat n) by (split; [apply Z.div_pos; lia|apply Z.div_lt_upper_bound; lia]).
  assert (Yd : 0 <= y / 10 < 10 ^ Z.of_nat n) by (split; [apply Z.div_pos; lia|apply Z.div_lt_upper_bound; lia]).
  rewrite IH, digits_same by assumption. cbn [map before]. rewrite !digit_code by (apply Z.mod_pos_bound; lia). rewrite andb_false_r, orb_false_r.
  pose proof (Z.div_mod x 10 ltac:(lia)) as Ex. pose proof (Z.div_mod y 10 ltac:(lia)) as Ey. pose proof (Z.mod_pos_bound x 10 ltac:(lia)). pose proof (Z.mod_pos_bound y 10 ltac:(lia)).
  destruct (Z.ltb_spec (x / 10) (y / 10)), (Z.eqb_spec (x / 10) (y / 10)), (Nat.ltb_spec (48 + Z.to_nat (x mod 10)) (48 + Z.to_nat (y mod 10))), (Z.ltb_spec x y); cbn [orb andb]; try reflexivity; lia.
Qed.
(** Two stamps of a day are ordered as the moments, to the millisecond. *)
Theorem stamps_ordered : forall t1 t2, 0 <= t1 < day -> 0 <= t2 < day -> before (stamp t1) (stamp t2) = (t1 / 1000 <? t2 / 1000).
Proof.
  intros t1 t2 H1 H2. unfold day in *. unfold stamp, time_string.
  assert (B : forall t, 0 <= t < 24 * 3600 * 1000000 -> 0 <= t / 3600000000 < 10 ^ Z.of_nat 2 /\ 0 <= t / 60000000 mod 60 < 10 ^ Z.of_nat 2 /\ 0 <= t / 1000000 mod 60 < 10 ^ Z.of_nat 2 /\ 0 <= t mod 1000000 / 1000 < 10 ^ Z.of_nat 4).
  { intros t H. split; [split; [apply Z.div_pos; lia|apply Z.div_lt_upper_bound; lia]|]. pose proof (Z.mod_pos_bound (t / 60000000) 60 ltac:(lia)). pose proof (Z.mod_pos_bound (t / 1000000) 60 ltac:(lia)). pose proof (Z.mod_pos_bound t 1000000 ltac:(lia)).
    split; [cbn; lia|]. split; [cbn; lia|]. split; [apply Z.div_pos; lia|apply Z.div_lt_upper_bound; cbn; lia]. }
  destruct (B t1 H1) as (a1 & b1 & c1 & d1). destruct (B t2 H2) as (a2 & b2 & c2 & d2). clear B.
  assert (P : forall t, 0 <= t -> t / 1000 = t / 3600000000 * 3600000 + t / 60000000 mod 60 * 60000 + t / 1000000 mod 60 * 1000 + t mod 1000000 / 1000).
  { intros t H. replace 3600000000 with (1000 * 1000 * 60 * 60) by reflexivity. replace 60000000 with (1000 * 1000 * 60) by reflexivity. replace 1000000 with (1000 * 1000) by reflexivity.
    rewrite <- !Z.div_div by lia. set (k := t / 1000). replace (t mod (1000 * 1000) / 1000) with (k mod 1000).
    - pose proof (Z.div_mod k 1000 ltac:(lia)). pose proof (Z.div_mod (k / 1000) 60 ltac:(lia)). pose proof (Z.div_mod (k / 1000 / 60) 60 ltac:(lia)). lia.
    - rewrite Z.rem_mul_r by lia. rewrite (Z.mul_comm 1000), Z.div_add by lia. rewrite (Z.div_small (t mod 1000)) by (apply Z.mod_pos_bound; lia). unfold k. lia. }
  rewrite !before_app by (rewrite ?map_length, ?digits_length; reflexivity).
  rewrite !digits_before, !digits_same by assumption. rewrite !before_refl.
  replace (same (lit ":") (lit ":")) with true by reflexivity. replace (same (lit ".") (lit ".")) with true by reflexivity. cbn [orb andb].
  rewrite (P t1), (P t2) by lia. cbn in a1, a2, b1, b2, c1, c2, d1, d2.
  assert (b1' : t1 / 60000000 mod 60 < 60) by (apply Z.mod_pos_bound; lia). assert (b2' : t2 / 60000000 mod 60 < 60) by (apply Z.mod_pos_bound; lia).
  assert (c1' : t1 / 1000000 mod 60 < 60) by (apply Z.mod_pos_bound; lia). assert (c2' : t2 / 1000000 mod 60 < 60) by (apply Z.mod_pos_bound; lia).
  assert (d1' : t1 mod 1000000 / 1000 < 1000) by (apply Z.div_lt_upper_bound; [lia|apply Z.mod_pos_bound; lia]).
  assert (d2' : t2 mod 1000000 / 1000 < 1000) by (apply Z.div_lt_upper_bound; [lia|apply Z.mod_pos_bound; lia]).
  clear P. revert a1 a2 b1 b2 c1 c2 d1 d2 b1' b2' c1' c2' d1' d2'.
  generalize (t1 / 3600000000) (t2 / 3600000000) (t1 / 60000000 mod 60) (t2 / 60000000 mod 60) (t1 / 1000000 mod 60) (t2 / 1000000 mod 60) (t1 mod 1000000 / 1000) (t2 mod 1000000 / 1000).
  intros a a' b b' c c' d d' A1 A2 B1 B2 C1 C2 D1 D2 B1' B2' C1' C2' D1' D2'.
  destruct (Z.ltb_spec (a * 3600000 + b * 60000 + c * 1000 + d) (a' * 3600000 + b' * 60000 + c' * 1000 + d')).
  - destruct (Z.ltb_spec a a'); [reflexivity|]. destruct (Z.eqb_spec a a'); [|lia]. cbn [orb andb]. destruct (Z.ltb_spec b b'); [reflexivity|]. destruct (Z.eqb_spec b b'); [|lia].
    cbn [orb andb]. destruct (Z.ltb_spec c c'); [reflexivity|]. destruct (Z.eqb_spec c c'); [|lia]. cbn [orb andb]. apply Z.ltb_lt. lia.
  - destruct (Z.ltb_spec a a'); [lia|]. destruct (Z.eqb_spec a a'); [|reflexivity]. cbn [orb andb]. destruct (Z.ltb_spec b b'); [lia|]. destruct (Z.eqb_spec b b'); [|reflexivity].
    cbn [orb andb]. destruct (Z.ltb_spec c c'); [lia|]. destruct (Z.eqb_spec c c'); [|reflexivity]. cbn [orb andb]. apply Z.ltb_ge. lia.
Qed.
Print Assumptions stamps_ordered.
(** What a reader makes of the digits behind the point: a part of a second. *)
Fixpoint behind_point (s : text) : text := match s with [] => [] | c :: r => if Ascii.eqb c "." then r else behind_point r end.
Definition read_fraction (s : text) : Q := let ds := map digit_value (behind_point s) in inject_Z (number ds) / inject_Z (10 ^ Z.of_nat (length ds)).
Lemma behind_digits l r : Forall digit_ok l -> behind_point (map digit l ++ r) = behind_point r.
Proof.
  induction 1 as [|d l D _ IH]; [reflexivity|]. cbn [map app behind_point]. unfold digit_ok in D.
  assert (C : d = 0 \/ d = 1 \/ d = 2 \/ d = 3 \/ d = 4 \/ d = 5 \/ d = 6 \/ d = 7 \/ d = 8 \/ d = 9) by lia.
  repeat (destruct C as [->|C]; [exact IH|]). subst d. exact IH.
Qed.
Lemma behind_colon r : behind_point (lit ":" ++ r) = behind_point r.
Proof. reflexivity. Qed.
Lemma behind_dot r : behind_point (lit "." ++ r) = r.
Proof. reflexivity. Qed.
(** C192 is false of the fraction: from two milliseconds on it is off by more than a millisecond, for
    what is printed is a tenth of it. *)
Theorem stamp_fraction_refuted : forall hour minute second usec, 0 <= usec < 1000000 ->
  (read_fraction (time_string hour minute second usec) == (usec / 1000)%Z # 10000)%Q /\
  (2000 <= usec -> ((usec # 1000000) - read_fraction (time_string hour minute second usec) > 1 # 1000)%Q).
Proof.
  intros hour minute second usec H.
  assert (E : (read_fraction (time_string hour minute second usec) == (usec / 1000)%Z # 10000)%Q).
  { unfold read_fraction, time_string. cbv zeta. rewrite behind_digits, behind_colon, behind_digits, behind_colon, behind_digits, behind_dot by apply digits_ok.
    replace (map digit_value (map digit (digits 4 (usec / 1000)))) with (digits 4 (usec / 1000)).
    - rewrite digits_length, digits_number by (split; [apply Z.div_pos; lia|apply Z.div_lt_upper_bound; cbn; lia]). unfold Qeq, Qdiv, Qmult, Qinv, inject_Z. cbn. lia.
    - rewrite map_map. rewrite <- (map_id (digits 4 (usec / 1000))) at 1. apply map_ext_in. intros d I. symmetry. apply digit_is. exact (proj1 (Forall_forall _ _) (digits_ok 4 _) d I). }
  split; [exact E|]. intros L. rewrite E. unfold Qlt, Qminus, Qplus, Qopp. cbn [Qnum Qden]. pose proof (Z.div_mod usec 1000 ltac:(lia)) as D. pose proof (Z.mod_pos_bound usec 1000 ltac:(lia)).
  assert (2 <= usec / 1000) by (apply Z.div_le_lower_bound; lia). lia.
Qed.
Print Assumptions stamp_fraction_refuted.
Example stamp_ex : stamp 43384050000 = lit "12:03:04.0050" /\ before (stamp 43384050000) (stamp 43384500000) = true /\ 43384500000 < day.
Proof. vm_compute. repeat split. Qed.

(** ** Names (C193, C196) *)
Lemma put_int_digits n : 0 <= n -> exists ds, put_int n = map digit ds /\ Forall digit_ok ds /\ number ds = n.
Proof. intros H. destruct (put_int_spec n H) as (ds & E & _ & D & V). exists ds. auto. Qed.
Lemma map_digit_inj : forall a b, Forall digit_ok a -> Forall digit_ok b -> map digit a = map digit b -> a = b.
Proof.
  induction a as [|x a IH]; intros [|y b] A B E; try discriminate E; [reflexivity|]. cbn [map] in E. injection E as E1 E2.
  f_equal; [|apply IH; [exact (Forall_inv_tail A)|exact (Forall_inv_tail B)|exact E2]].
  rewrite <- (proj2 (digit_is x (Forall_inv A))), <- (proj2 (digit_is y (Forall_inv B))). f_equal. unfold digit. exact E1.
Qed.
Lemma put_int_inj a b : 0 <= a -> 0 <= b -> put_int a = put_int b -> a = b.
Proof.
  intros A B E. destruct (put_int_digits a A) as (x & Ea & Da & Va). destruct (put_int_digits b B) as (y & Eb & Db & Vb).
  rewrite Ea, Eb in E. rewrite <- Va, <- Vb. f_equal. apply map_digit_inj; assumption.
Qed.
Lemma put_int_plain n c : 0 <= n -> In c (put_int n) -> (48 <= nat_of_ascii c <= 57)%nat.
Proof.
  intros H I. destruct (put_int_digits n H) as (ds & E & D & _). rewrite E in I. apply in_map_iff in I. destruct I as (d & <- & I).
  pose proof (proj1 (Forall_forall _ _) D d I) as Dd. rewrite (digit_code d Dd). unfold digit_ok in Dd. lia.
Qed.
Lemma put_d_plain n c : In c (put_d n) -> c <> "_"%char /\ c <> "."%char.
Proof.
  unfold put_d. destruct (Z.ltb_spec n 0) as [L|L]; intros I.
  - cbn in I. destruct I as [<-|I]; [split; discriminate|]. apply put_int_plain in I; [|lia]. split; intros ->; cbn in I; lia.
  - apply put_int_plain in I; [|lia]. split; intros ->; cbn in I; lia.
Qed.
Lemma put_int_minus n r : 0 <= n -> put_int n <> "-"%char :: r.
Proof. intros H E. assert (I : In "-"%char (put_int n)) by (rewrite E; left; reflexivity). apply put_int_plain in I; [|exact H]. cbn in I. lia. Qed.
Lemma put_d_inj a b : put_d a = put_d b -> a = b.
Proof.
  unfold put_d. destruct (Z.ltb_spec a 0) as [A|A], (Z.ltb_spec b 0) as [B|B]; intros E.
  - injection E as E. apply put_int_inj in E; lia.
  - symmetry in E. exfalso. exact (put_int_minus b _ B E).
  - exfalso. exact (put_int_minus a _ A E).
  - apply put_int_inj; assumption.
Qed.
(** What stands before the first separator, and behind it, is determined. *)
Lemma cut_unique (c : ascii) : forall a b x y, ~ In c a -> ~ In c b -> a ++ c :: x = b ++ c :: y -> a = b /\ x = y.
Proof.
  induction a as [|d a IH]; intros [|e b] x y A B E; cbn [app] in E.
  - injection E as E. auto.
  - injection E as E1 E2. exfalso. apply B. left. auto.
  - injection E as E1 E2. exfalso. apply A. left. auto.
  - injection E as E1 E2. destruct (IH b x y) as [-> ->]; [intros I; apply A; right; exact I|intros I; apply B; right; exact I|exact E2|]. subst. auto.
Qed.
Lemma put_d_cut c a b x y : c = "_"%char \/ c = "."%char -> put_d a ++ c :: x = put_d b ++ c :: y -> a = b /\ x = y.
Proof.
  intros C E. destruct (cut_unique c (put_d a) (put_d b) x y) as [E1 E2]; [| |exact E|split; [exact (put_d_inj a b E1)|exact E2]];
    intros I; apply put_d_plain in I; destruct C as [->| ->], I; congruence.
Qed.
(** The whole number that stands for the shrinking in the name. *)
Definition whole (q : Q) : Z := Z.quot (Qnum q) (Zpos (Qden q)).
Definition kinds : list string := ["n"; "n2"; "v"]%string.
(** A name tells which of the three files it is and all options but the fraction of shrink. *)
Theorem names_tell : forall k1 k2 path o1 o2, In k1 kinds -> In k2 kinds -> output_name k1 path o1 = output_name k2 path o2 ->
  k1 = k2 /\ num_vessel o1 = num_vessel o2 /\ num_nuclei o1 = num_nuclei o2 /\ whole (shrink o1) = whole (shrink o2) /\ voxel_size o1 = voxel_size o2 /\ shifted_range o1 = shifted_range o2.
Proof.
  intros k1 k2 path o1 o2 K1 K2 E. unfold output_name in E. apply app_inv_head in E. apply app_inv_head in E.
  assert (K : k1 = k2 /\ lit "nv" ++ put_d (num_vessel o1) ++ lit "_nu" ++ put_d (num_nuclei o1) ++ lit "_s" ++ put_d (whole (shrink o1)) ++ lit "_vs" ++ put_d (voxel_size o1) ++ lit "_r" ++ put_d (shifted_range o1) ++ lit ".dt"
    = lit "nv" ++ put_d (num_vessel o2) ++ lit "_nu" ++ put_d (num_nuclei o2) ++ lit "_s" ++ put_d (whole (shrink o2)) ++ lit "_vs" ++ put_d (voxel_size o2) ++ lit "_r" ++ put_d (shifted_range o2) ++ lit ".dt").
  { destruct (cut_unique "_" (lit k1) (lit k2) _ _ ltac:(destruct K1 as [<-|[<-|[<-|[]]]]; cbn; intuition discriminate) ltac:(destruct K2 as [<-|[<-|[<-|[]]]]; cbn; intuition discriminate) E) as [X Y].
    split; [|exact Y]. destruct K1 as [<-|[<-|[<-|[]]]], K2 as [<-|[<-|[<-|[]]]]; try reflexivity; discriminate X. }
  destruct K as [-> K]. split; [reflexivity|]. apply app_inv_head in K.
  apply (put_d_cut "_") in K; [|left; reflexivity]. destruct K as [-> K]. split; [reflexivity|]. injection K as K.
  apply (put_d_cut "_") in K; [|left; reflexivity]. destruct K as [-> K]. split; [reflexivity|]. injection K as K.
  apply (put_d_cut "_") in K; [|left; reflexivity]. destruct K as [-> K]. split; [reflexivity|]. injection K as K.
  apply (put_d_cut "_") in K; [|left; reflexivity]. destruct K as [-> K]. split; [reflexivity|]. injection K as K.
  apply (put_d_cut ".") in K; [|right; reflexivity]. destruct K as [-> K]. reflexivity.
Qed.
Print Assumptions names_tell.
(** The three files of a run are different, and different from those of a run with other whole options. *)
Theorem run_names_differ : forall path o1 o2,
  NoDup [nuclei_output path o1; nuclei_output2 path o1; vessel_output path o1] /\
  ((num_vessel o1, num_nuclei o1, whole (shrink o1), voxel_size o1, shifted_range o1) <> (num_vessel o2, num_nuclei o2, whole (shrink o2), voxel_size o2, shifted_range o2) ->
   forall x, In x [nuclei_output path o1; nuclei_output2 path o1; vessel_output path o1] -> ~ In x [nuclei_output path o2; nuclei_output2 path o2; vessel_output path o2]).
Proof.
  intros path o1 o2. unfold nuclei_output, nuclei_output2, vessel_output.
  assert (K : In "n"%string kinds /\ In "n2"%string kinds /\ In "v"%string kinds) by (cbn; tauto). destruct K as (K1 & K2 & K3). split.
  - repeat constructor; cbn [In]; intros I; repeat (destruct I as [I|I]); try exact I; apply names_tell in I; try assumption; destruct I as [I _]; discriminate I.
  - intros N x I J. change (In x (map (fun k => output_name k path o1) kinds)) in I. change (In x (map (fun k => output_name k path o2) kinds)) in J.
    apply in_map_iff in I. apply in_map_iff in J. destruct I as (k1 & <- & I). destruct J as (k2 & E & J). apply names_tell in E; try assumption. destruct E as (_ & E1 & E2 & E3 & E4 & E5). apply N. congruence.
Qed.
Print Assumptions run_names_differ.
(** C193 is false of runs that differ in the fraction of shrink only: they write the same files. *)
Theorem names_refuted : exists o1 o2, ~ (shrink o1 == shrink o2)%Q /\ forall path, nuclei_output path o1 = nuclei_output path o2 /\ nuclei_output2 path o1 = nuclei_output2 path o2 /\ vessel_output path o1 = vessel_output path o2.
Proof.
  exists {| num_vessel := 1; num_nuclei := 10000; shrink := 20; voxel_size := 400000; shifted_range := 100 |}, {| num_vessel := 1; num_nuclei := 10000; shrink := (41 # 2)%Q; voxel_size := 400000; shifted_range := 100 |}.
  split; [intros H; discriminate H|]. intros path. repeat split.
Qed.
Print Assumptions names_refuted.
Lemma put_nat_len fuel : forall k n, 0 <= n < 10 ^ Z.of_nat k -> (1 <= k)%nat -> (length (put_nat fuel n) <= k)%nat.
Proof.
  induction fuel as [|fuel IH]; intros k n H K; [cbn; lia|]. cbn [put_nat]. rewrite app_length. cbn [length]. destruct (Z.ltb_spec n 10) as [L|L]; [cbn [length]; lia|].
  destruct k as [|k]; [lia|]. rewrite Nat2Z.inj_succ, Z.pow_succ_r in H by lia. destruct k as [|k]; [cbn in H; lia|].
  specialize (IH (S k) (n / 10) ltac:(split; [apply Z.div_pos; lia|apply Z.div_lt_upper_bound; lia]) ltac:(lia)). lia.
Qed.
Lemma put_int_length n : 0 <= n < 10 ^ 10 -> (1 <= length (put_int n) <= 10)%nat.
Proof.
  intros H. split; [|apply (put_nat_len _ 10); [exact H|lia]]. destruct (put_int_spec n (proj1 H)) as (ds & -> & N & _). rewrite map_length. destruct ds; [contradiction|cbn; lia].
Qed.
Definition int32 (n : Z) : Prop := - 2 ^ 31 <= n < 2 ^ 31.
Lemma put_d_length n : int32 n -> (1 <= length (put_d n) <= 11)%nat.
Proof.
  unfold int32, put_d. intros H. destruct (Z.ltb_spec n 0).
  - rewrite app_length. change (length (lit "-")) with 1%nat. pose proof (put_int_length (- n) ltac:(lia)). lia.
  - pose proof (put_int_length n ltac:(lia)). lia.
Qed.
Definition int_options (o : options) : Prop := int32 (num_vessel o) /\ int32 (num_nuclei o) /\ int32 (whole (shrink o)) /\ int32 (voxel_size o) /\ int32 (shifted_range o).
Lemma output_name_length k path o : In k kinds -> int_options o -> (length path + 23 <= length (output_name k path o) <= length path + 74)%nat.
Proof.
  intros K (H1 & H2 & H3 & H4 & H5). unfold output_name. fold (whole (shrink o)). rewrite !app_length.
  pose proof (put_d_length _ H1). pose proof (put_d_length _ H2). pose proof (put_d_length _ H3). pose proof (put_d_length _ H4). pose proof (put_d_length _ H5).
  assert (L : (1 <= length (lit k) <= 2)%nat) by (destruct K as [<-|[<-|[<-|[]]]]; cbn; lia).
  change (length (lit "_")) with 1%nat. change (length (lit "_nv")) with 3%nat. change (length (lit "_nu")) with 3%nat. change (length (lit "_s")) with 2%nat. change (length (lit "_vs")) with 3%nat. change (length (lit "_r")) with 2%nat. change (length (lit ".dt")) with 3%nat. lia.
Qed.
(** The names fit their arrays for paths of up to 181 characters ... *)
Theorem names_fit_partial : forall k path o, In k kinds -> int_options o -> (length path <= 181)%nat -> fits_name (output_name k path o) = true.
Proof. intros k path o K H L. pose proof (output_name_length k path o K H). apply Nat.ltb_lt. lia. Qed.
Print Assumptions names_fit_partial.
(** ... and never from 233 characters on. *)
Theorem names_fit_refuted : forall k path o, In k kinds -> int_options o -> (233 <= length path)%nat -> fits_name (output_name k path o) = false.
Proof. intros k path o K H L. pose proof (output_name_length k path o K H). apply Nat.ltb_ge. lia. Qed.
Print Assumptions names_fit_refuted.
Example names_ex : let o := {| num_vessel := 1; num_nuclei := 10000; shrink := (41 # 2)%Q; voxel_size := 400000; shifted_range := 100 |} in
  nuclei_output2 (lit "/data/run") o = lit "/data/run_n2_nv1_nu10000_s20_vs400000_r100.dt" /\ int_options o.
Proof. split; [vm_compute; reflexivity|]. repeat split; vm_compute; congruence. Qed.
(** Tiles, and boxes with an id, get a file each. *)
Theorem tile_names_differ : forall prefix i j, 0 <= i -> 0 <= j -> tile_name prefix i = tile_name prefix j -> i = j.
Proof. intros prefix i j I J E. unfold tile_name in E. apply app_inv_head in E. apply app_inv_tail in E. apply put_int_inj; assumption. Qed.
Print Assumptions tile_names_differ.
Theorem box_names_differ : forall prefix i j, box_name prefix i = box_name prefix j -> i = j.
Proof. intros prefix i j E. unfold box_name in E. apply app_inv_head in E. apply app_inv_head in E. apply app_inv_tail in E. exact (put_d_inj i j E). Qed.
Print Assumptions box_names_differ.
(** Not so for different prefixes: a digit at the end of one moves into the number. *)
Theorem tile_names_refuted : exists p1 p2 i j, p1 <> p2 /\ tile_name p1 i = tile_name p2 j.
Proof. exists (lit "t"), (lit "t1"), 12, 2. split; [discriminate|reflexivity]. Qed.
Print Assumptions tile_names_refuted.
Example tile_names_ex : tile_name (lit "tile") 10 = lit "tile10.off" /\ box_name (lit "box") (-3) = lit "box.-3.off".
Proof. vm_compute. split; reflexivity. Qed.
