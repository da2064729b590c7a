(** C182, C183: what the converter from HDF5 to OFF writes, and where. *)
From Coq Require Import QArith Qround Qabs ZArith List Bool Lia Lqa.
From Verif Require Import Arr H5Model.
Import ListNotations.
Open Scope Z_scope.

(** The endings ".h5" and ".OFF", as character codes. *)
Definition ext_h5 : list Z := [46; 104; 53].
Definition ext_off : list Z := [46; 79; 70; 70].

Lemma c_string_app l r : ~ In 0 l -> c_string (l ++ 0 :: r) = l.
Proof.
  induction l as [|c l IH]; cbn [c_string app]; intros H; [reflexivity|].
  destruct (Z.eqb_spec c 0) as [->|_]; [exfalso; apply H; left; reflexivity|].
  rewrite IH; [reflexivity|intros K; apply H; right; exact K].
Qed.
Lemma put_app l c r x : put_at (l ++ c :: r) (length l) x = l ++ x :: r.
Proof.
  unfold put_at. rewrite firstn_app, firstn_all, Nat.sub_diag, firstn_O, app_nil_r.
  replace (S (length l)) with (length l + 1)%nat by lia.
  rewrite skipn_app, skipn_all2 by lia. replace (length l + 1 - length l)%nat with 1%nat by lia. reflexivity.
Qed.
Lemma put_end l x : put_at l (length l) x = l ++ [x].
Proof. unfold put_at. rewrite firstn_all, skipn_all2 by lia. reflexivity. Qed.

Lemma is_h5_ext base : base <> [] -> is_h5 (base ++ ext_h5) = true.
Proof.
  intros N. unfold is_h5, ext_h5. rewrite app_length. cbn [length].
  destruct base as [|c r]; [congruence|]. set (b := c :: r).
  assert (L : (1 <= length b)%nat) by (unfold b; cbn [length]; lia).
  replace (Nat.leb (length b + 3) 3) with false by (symmetry; apply Nat.leb_gt; lia).
  rewrite !app_nth2 by lia.
  replace (length b + 3 - 1 - length b)%nat with 2%nat by lia.
  replace (length b + 3 - 2 - length b)%nat with 1%nat by lia.
  replace (length b + 3 - 3 - length b)%nat with 0%nat by lia. reflexivity.
Qed.
Lemma nth_skip i n (l : list Z) : nth i (skipn n l) 0 = nth (n + i) l 0.
Proof. revert l. induction n as [|n IH]; intros [|c l]; cbn [skipn nth Nat.add]; try reflexivity; [destruct i; reflexivity|apply IH]. Qed.
Lemma is_h5_split path : is_h5 path = true -> exists base, base <> [] /\ path = base ++ ext_h5.
Proof.
  unfold is_h5. intros H. apply negb_true_iff in H.
  apply orb_false_iff in H. destruct H as [H H3]. apply orb_false_iff in H. destruct H as [H H2].
  apply orb_false_iff in H. destruct H as [H0 H1]. apply Nat.leb_gt in H0.
  apply negb_false_iff, Z.eqb_eq in H1. apply negb_false_iff, Z.eqb_eq in H2. apply negb_false_iff, Z.eqb_eq in H3.
  exists (firstn (length path - 3) path). split.
  - intros E. apply (f_equal (@length Z)) in E. rewrite firstn_length in E. cbn [length] in E. lia.
  - rewrite <- (firstn_skipn (length path - 3) path) at 1. f_equal.
    assert (K : length (skipn (length path - 3) path) = 3%nat) by (rewrite skipn_length; lia).
    assert (N : forall i, nth i (skipn (length path - 3) path) 0 = nth (length path - 3 + i) path 0).
    { intros i. apply nth_skip. }
    destruct (skipn (length path - 3) path) as [|a [|b [|c [|]]]]; cbn [length] in K; try lia.
    pose proof (N 0%nat) as A; pose proof (N 1%nat) as B; pose proof (N 2%nat) as C. cbn [nth] in A, B, C.
    replace (length path - 3 + 0)%nat with (length path - 3)%nat in A by lia.
    replace (length path - 3 + 1)%nat with (length path - 2)%nat in B by lia.
    replace (length path - 3 + 2)%nat with (length path - 1)%nat in C by lia.
    rewrite A, B, C, H1, H2, H3. reflexivity.
Qed.

(** C182, what holds: a path is taken exactly when it is a name followed by ".h5"; up to 254 characters the
    OFF file has the same name followed by ".OFF", whatever the buffer held before. *)
Theorem h5_name rest path : (length path <= 254)%nat -> ~ In 0 path ->
  (forall out, process_file rest path = WriteTo out <-> exists base, base <> [] /\ path = base ++ ext_h5 /\ out = base ++ ext_off)
  /\ (process_file rest path = NotHdf5 <-> ~ exists base, base <> [] /\ path = base ++ ext_h5).
Proof.
  intros L Z0.
  assert (W : forall base, base <> [] -> path = base ++ ext_h5 -> process_file rest path = WriteTo (base ++ ext_off)).
  { intros base N E. unfold process_file. rewrite E at 1. rewrite (is_h5_ext base N). cbn [negb].
    replace (Nat.ltb outpath_size (length path + 2)) with false by (symmetry; apply Nat.ltb_ge; unfold outpath_size; lia).
    subst path. unfold ext_h5, ext_off in *. rewrite app_length in *. cbn [length] in *. cbv zeta. f_equal.
    rewrite <- !app_assoc. cbn [app].
    assert (S1 : forall a b c (t : list Z) x, put_at (base ++ a :: b :: c :: t) (length base + 3 - 2) x = base ++ a :: x :: c :: t).
    { intros. replace (base ++ a :: b :: c :: t) with ((base ++ [a]) ++ b :: c :: t) by (rewrite <- app_assoc; reflexivity).
      replace (length base + 3 - 2)%nat with (length (base ++ [a])) by (rewrite app_length; cbn [length]; lia).
      rewrite put_app, <- app_assoc. reflexivity. }
    assert (S2 : forall a b c (t : list Z) x, put_at (base ++ a :: b :: c :: t) (length base + 3 - 1) x = base ++ a :: b :: x :: t).
    { intros. replace (base ++ a :: b :: c :: t) with ((base ++ [a; b]) ++ c :: t) by (rewrite <- app_assoc; reflexivity).
      replace (length base + 3 - 1)%nat with (length (base ++ [a; b])) by (rewrite app_length; cbn [length]; lia).
      rewrite put_app, <- app_assoc. reflexivity. }
    assert (S3 : forall a b c d (t : list Z) x, put_at (base ++ a :: b :: c :: d :: t) (length base + 3) x = base ++ a :: b :: c :: x :: t).
    { intros. replace (base ++ a :: b :: c :: d :: t) with ((base ++ [a; b; c]) ++ d :: t) by (rewrite <- app_assoc; reflexivity).
      replace (length base + 3)%nat with (length (base ++ [a; b; c])) by (rewrite app_length; cbn [length]; lia).
      rewrite put_app, <- app_assoc. reflexivity. }
    rewrite S1, S2, S3.
    replace (base ++ 46 :: chr_O :: chr_F :: chr_F :: rest) with ((base ++ [46; 79; 70; 70]) ++ rest) by (rewrite <- app_assoc; reflexivity).
    replace (length base + 3 + 1)%nat with (length (base ++ [46; 79; 70; 70])) by (rewrite app_length; cbn [length]; lia).
    assert (NI : ~ In 0 (base ++ [46; 79; 70; 70])).
    { intros K. apply in_app_or in K. destruct K as [K|K].
      - apply Z0. apply in_or_app. left. exact K.
      - cbn [In] in K. intuition discriminate. }
    destruct rest as [|c r].
    - rewrite app_nil_r, put_end. apply c_string_app. exact NI.
    - rewrite put_app. apply c_string_app. exact NI. }
  assert (D : (exists base, base <> [] /\ path = base ++ ext_h5) \/ process_file rest path = NotHdf5).
  { destruct (is_h5 path) eqn:E; [left; apply is_h5_split; exact E|right; unfold process_file; rewrite E; reflexivity]. }
  split.
  - intros out. split.
    + intros H. destruct D as [[base [N E]]|E]; [|rewrite E in H; discriminate H].
      exists base. rewrite (W base N E) in H. injection H as <-. auto.
    + intros [base [N [E ->]]]. apply W; assumption.
  - split.
    + intros H [base [N E]]. rewrite (W base N E) in H. discriminate H.
    + intros H. destruct D as [K|K]; [contradiction|exact K].
Qed.
Print Assumptions h5_name.
(** "ab.h5" becomes "ab.OFF"; "ab.h6" and ".h5" are refused. *)
Example h5_name_case :
  process_file [7; 7; 7] ([97; 98] ++ ext_h5) = WriteTo ([97; 98] ++ ext_off)
  /\ process_file [] [97; 98; 46; 104; 54] = NotHdf5 /\ process_file [] ext_h5 = NotHdf5
  /\ Nat.le (length ([97; 98] ++ ext_h5)) 254 /\ ~ In 0 ([97; 98] ++ ext_h5).
Proof. do 3 (split; [reflexivity|]). split; [cbn; lia|]. cbn [In app ext_h5]. intuition discriminate. Qed.

(** Two files are never converted to the same one. *)
Theorem h5_no_clash rest rest' p q out : (length p <= 254)%nat -> (length q <= 254)%nat -> ~ In 0 p -> ~ In 0 q ->
  process_file rest p = WriteTo out -> process_file rest' q = WriteTo out -> p = q.
Proof.
  intros Lp Lq Zp Zq Hp Hq.
  apply (proj1 (h5_name rest p Lp Zp)) in Hp. apply (proj1 (h5_name rest' q Lq Zq)) in Hq.
  destruct Hp as [b [_ [-> E]]]. destruct Hq as [b' [_ [-> E']]]. rewrite E in E'. apply app_inv_tail in E'. rewrite E'. reflexivity.
Qed.
Print Assumptions h5_no_clash.

(** C182 in full is false: a file with a long enough path is not converted, the name of the OFF file is
    written beyond the buffer. *)
Theorem h5_name_refuted : exists base, base <> [] /\ ~ In 0 base /\ (forall rest, process_file rest (base ++ ext_h5) = Overrun).
Proof.
  exists (repeat 97 252). split; [discriminate|]. split.
  - intros K. apply repeat_spec in K. discriminate K.
  - intros rest. reflexivity.
Qed.
Print Assumptions h5_name_refuted.

(** *** C183 *)
Lemma tenths_near x : (Qabs (x * inject_Z 10 - inject_Z (tenths x)) <= 1 # 2)%Q.
Proof.
  unfold tenths. set (y := (x * inject_Z 10)%Q). pose proof (Qfloor_le y) as A. pose proof (Qlt_floor y) as B.
  rewrite inject_Z_plus in B. change (inject_Z 1) with 1%Q in B. set (lo := inject_Z (Qfloor y)) in *.
  apply Qabs_Qle_condition.
  destruct (Qcompare_spec (y - lo) (1 # 2)) as [E|E|E].
  - destruct (Z.even (Qfloor y)); [|rewrite inject_Z_plus; change (inject_Z 1) with 1%Q]; fold lo; split; lra.
  - fold lo. split; lra.
  - rewrite inject_Z_plus; change (inject_Z 1) with 1%Q; fold lo. split; lra.
Qed.
Lemma tenths_int x n : (x * inject_Z 10 == inject_Z n)%Q -> tenths x = n.
Proof.
  intros E. unfold tenths. set (y := (x * inject_Z 10)%Q) in *.
  assert (F : Qfloor y = n) by (rewrite (Qfloor_comp _ _ E); apply Qfloor_Z).
  rewrite F. destruct (Qcompare_spec (y - inject_Z n) (1 # 2)) as [K|K|K]; [lra|reflexivity|lra].
Qed.
Lemma written_near x : (Qabs (x - written x) <= 1 # 20)%Q.
Proof.
  pose proof (tenths_near x) as H. apply Qabs_Qle_condition in H. apply Qabs_Qle_condition. unfold written, Qdiv.
  change (/ inject_Z 10)%Q with (1 # 10). change (inject_Z 10) with 10%Q in H. split; lra.
Qed.

(** The distance of two corners along each axis at most [e]. *)
Definition near3 (e : Q) (p q : Q * Q * Q) : Prop :=
  let '(x, y, z) := p in let '(x', y', z') := q in (Qabs (x - x') <= e /\ Qabs (y - y') <= e /\ Qabs (z - z') <= e)%Q.
(** A table of [length rows] rows of three values, row after row. *)
Definition flat3 {A} (rows : list (A * A * A)) : list A := flat_map (fun r => let '(x, y, z) := r in [x; y; z]) rows.
Definition table {A} (rows : list (A * A * A)) : dataset A := Dataset (length rows) 3 (flat3 rows).

Lemma flat3_at {A} (pre : list (A * A * A)) r post : row3 (table (pre ++ r :: post)) (length pre) = Some r.
Proof.
  unfold row3, at_row, table. cbn [d_values d_cols]. unfold flat3. rewrite flat_map_app.
  assert (L : length (flat_map (fun r : A * A * A => let '(x, y, z) := r in [x; y; z]) pre) = (length pre * 3)%nat).
  { clear. induction pre as [|[[x y] z] l IH]; [reflexivity|]. cbn [flat_map]. rewrite app_length, IH. cbn [length]. lia. }
  rewrite !nth_error_app2 by lia. rewrite L.
  replace (length pre * 3 + 0 - length pre * 3)%nat with 0%nat by lia.
  replace (length pre * 3 + 1 - length pre * 3)%nat with 1%nat by lia.
  replace (length pre * 3 + 2 - length pre * 3)%nat with 2%nat by lia.
  destruct r as [[x y] z]. reflexivity.
Qed.
Lemma rows_table {A} (pre post : list (A * A * A)) : rows_from (table (pre ++ post)) (length pre) (length post) = Some post.
Proof.
  revert pre. induction post as [|r post IH]; intros pre; [reflexivity|].
  cbn [length rows_from]. rewrite flat3_at. cbn [bind].
  replace (pre ++ r :: post) with ((pre ++ [r]) ++ post) by (rewrite <- app_assoc; reflexivity).
  replace (S (length pre)) with (length (pre ++ [r])) by (rewrite app_length; cbn [length]; lia).
  rewrite IH. reflexivity.
Qed.
Lemma convert_table (vs : list (Q * Q * Q)) (fs : list (Z * Z * Z)) : vs <> [] -> fs <> [] ->
  convert (table vs) (table fs) = Some (map written3 vs, fs).
Proof.
  intros V F. unfold convert.
  assert (E : (Nat.eqb (d_rows (table vs)) 0 || Nat.eqb (d_rows (table fs)) 0)%bool = false).
  { destruct vs; [congruence|]. destruct fs; [congruence|]. reflexivity. }
  rewrite E. change (d_rows (table vs)) with (length vs). change (d_rows (table fs)) with (length fs).
  rewrite (rows_table [] vs : rows_from (table vs) 0 (length vs) = Some vs). cbn [bind].
  rewrite (rows_table [] fs : rows_from (table fs) 0 (length fs) = Some fs). reflexivity.
Qed.

(** C183, what holds: tables of three columns give the faces as they are and every coordinate to within
    0.05; coordinates that are tenths are written exactly; corners more than 0.1 apart along an axis stay
    different. *)
Theorem h5_values (vs : list (Q * Q * Q)) (fs : list (Z * Z * Z)) : vs <> [] -> fs <> [] ->
  exists out, convert (table vs) (table fs) = Some (out, fs)
    /\ Forall2 (near3 (1 # 20)) vs out
    /\ (Forall (fun p => let '(x, y, z) := p in exists a b c, (x * 10 == inject_Z a /\ y * 10 == inject_Z b /\ z * 10 == inject_Z c)%Q) vs ->
        Forall2 (near3 0) vs out)
    /\ (forall i j p q p' q', nth_error vs i = Some p -> nth_error vs j = Some q -> ~ near3 (1 # 10) p q ->
        nth_error out i = Some p' -> nth_error out j = Some q' -> ~ near3 0 p' q').
Proof.
  intros V F. exists (map written3 vs). split; [apply convert_table; assumption|]. split; [|split].
  - clear. induction vs as [|[[x y] z] vs IH]; constructor; [|exact IH]. cbn [written3 near3]. repeat split; apply written_near.
  - clear. intros H. induction H as [|[[x y] z] vs P H IH]; constructor; [|exact IH].
    destruct P as (a & b & c & A & B & C). cbn [written3 near3].
    assert (K : forall t n, (t * 10 == inject_Z n)%Q -> (Qabs (t - written t) <= 0)%Q).
    { intros t n E. unfold written. rewrite (tenths_int t n) by exact E. rewrite <- E. apply Qabs_Qle_condition.
      unfold Qdiv. change (/ inject_Z 10)%Q with (1 # 10). split; lra. }
    split; [exact (K _ _ A)|]. split; [exact (K _ _ B)|exact (K _ _ C)].
  - intros i j p q p' q' P Q N P' Q' C. apply N.
    rewrite nth_error_map, P in P'. rewrite nth_error_map, Q in Q'. cbn [option_map] in P', Q'.
    destruct p as [[x y] z]. destruct q as [[a b] c]. cbn [written3] in P', Q'.
    injection P' as <-. injection Q' as <-. cbn [near3] in *. destruct C as (C1 & C2 & C3).
    assert (K : forall s t, (Qabs (written s - written t) <= 0)%Q -> (Qabs (s - t) <= 1 # 10)%Q).
    { intros s t E. pose proof (written_near s) as S. pose proof (written_near t) as T.
      apply Qabs_Qle_condition in E. apply Qabs_Qle_condition in S. apply Qabs_Qle_condition in T. apply Qabs_Qle_condition. split; lra. }
    repeat split; apply K; assumption.
Qed.
Print Assumptions h5_values.
Example h5_values_case :
  convert (table [(1 # 8, 3 # 10, -1 # 4); (0, 1, 2); (5, 1 # 2, 7 # 20)]%Q) (table [(0, 1, 2); (2, 1, 0)])
  = Some ([(1 # 10, 3 # 10, -2 # 10); (0 # 10, 10 # 10, 20 # 10); (50 # 10, 5 # 10, 4 # 10)]%Q, [(0, 1, 2); (2, 1, 0)]).
Proof. reflexivity. Qed.

(** C183 in full is false: two different corners are written as the same one. *)
Theorem h5_values_refuted : exists vs fs out, vs <> [] /\ fs <> [] /\ convert (table vs) (table fs) = Some (out, fs)
  /\ exists i j p q, i <> j /\ nth_error vs i = Some p /\ nth_error vs j = Some q /\ ~ near3 0 p q
     /\ nth_error out i = nth_error out j.
Proof.
  exists [(0, 0, 0); (0, 0, 1 # 25); (1, 0, 0)]%Q, [(0, 1, 2)], [(0 # 10, 0 # 10, 0 # 10); (0 # 10, 0 # 10, 0 # 10); (10 # 10, 0 # 10, 0 # 10)]%Q.
  split; [discriminate|]. split; [discriminate|]. split; [reflexivity|].
  exists 0%nat, 1%nat, (0, 0, 0)%Q, (0, 0, 1 # 25)%Q. split; [discriminate|]. split; [reflexivity|]. split; [reflexivity|]. split; [|reflexivity].
  cbn [near3]. intros [_ [_ H]]. revert H. cbv. intros H. apply H. reflexivity.
Qed.
Print Assumptions h5_values_refuted.

(** Faces with more than three corners lose the others; with fewer columns the last row is read beyond
    the memory of the table. *)
Theorem h5_columns_refuted :
  (exists fs : dataset Z, d_rows fs = 1%nat /\ length (d_values fs) = (d_rows fs * d_cols fs)%nat /\ d_cols fs = 4%nat
     /\ forall vs out faces, convert vs fs = Some (out, faces) -> faces = [(0, 1, 2)])
  /\ (forall (vs : dataset Q) (fs : dataset Z), (0 < d_rows fs)%nat -> (d_cols fs < 3)%nat ->
       length (d_values fs) = (d_rows fs * d_cols fs)%nat -> convert vs fs = None).
Proof.
  split.
  - exists (Dataset 1 4 [0; 1; 2; 3]). repeat split. intros vs out faces H. unfold convert in H.
    destruct (Nat.eqb (d_rows vs) 0 || _)%bool; [discriminate H|].
    destruct (rows_from vs 0 (d_rows vs)) as [v|]; cbn [bind] in H; [|discriminate H].
    cbn in H. injection H as _ <-. reflexivity.
  - intros vs fs R C L. unfold convert. destruct (Nat.eqb (d_rows vs) 0 || _)%bool; [reflexivity|].
    destruct (rows_from vs 0 (d_rows vs)) as [v|]; cbn [bind]; [|reflexivity].
    assert (K : forall n i, (0 < n)%nat -> (i + n = d_rows fs)%nat -> rows_from fs i n = None).
    { induction n as [|n IH]; intros i Hn E; [lia|]. cbn [rows_from].
      destruct n as [|n].
      - unfold row3. destruct (at_row fs i 0) as [a|]; [|reflexivity]. cbn [bind].
        destruct (at_row fs i 1) as [b|]; [|reflexivity]. cbn [bind].
        replace (at_row fs i 2) with (@None Z); [reflexivity|]. symmetry. apply nth_error_None. rewrite L.
        replace (d_rows fs) with (S i) by lia. nia.
      - destruct (row3 fs i) as [r|]; [|reflexivity]. cbn [bind]. rewrite IH by lia. reflexivity. }
    rewrite (K (d_rows fs) 0%nat) by lia. reflexivity.
Qed.
Print Assumptions h5_columns_refuted.
(** A table of two columns, and one of four. *)
Example h5_columns_case : convert (table [(0, 0, 0)]%Q) (Dataset 2 2 [0; 1; 1; 0]) = None
  /\ convert (table [(0, 0, 0)]%Q) (Dataset 1 4 [0; 1; 2; 3]) = Some ([(0 # 10, 0 # 10, 0 # 10)]%Q, [(0, 1, 2)]).
Proof. split; reflexivity. Qed.
