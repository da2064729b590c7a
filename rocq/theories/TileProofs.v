(** Proofs about tile files: reading back what was written, positions, prefixes. *)
From Coq Require Import QArith ZArith List Bool Lia.
From Verif Require Import Arr AabModel AabProofs TileModel.
Import ListNotations.
Open Scope Z_scope.

Definition byte (z : Z) : Prop := 0 <= z < 256.

Lemma le_length n : forall z, length (le n z) = n.
Proof. induction n; intros z; cbn; auto. Qed.
Lemma le_bytes n : forall z, Forall byte (le n z).
Proof. induction n; intros z; cbn; constructor; auto. unfold byte. apply Z.mod_pos_bound. lia. Qed.
Lemma le_val_le n : forall z, 0 <= z < 256 ^ Z.of_nat n -> le_val (le n z) = z.
Proof.
  induction n as [|n IH]; intros z H.
  - cbn in *. lia.
  - cbn [le le_val]. rewrite IH.
    + pose proof (Z.div_mod z 256 ltac:(lia)). lia.
    + rewrite Nat2Z.inj_succ, Z.pow_succ_r in H by lia. split; [apply Z.div_pos; lia|]. apply Z.div_lt_upper_bound; lia.
Qed.
Lemma le_val_bound b : Forall byte b -> 0 <= le_val b < 256 ^ Z.of_nat (length b).
Proof.
  induction 1 as [|x b H F IH]; [cbn; lia|]. cbn [le_val length]. rewrite Nat2Z.inj_succ, Z.pow_succ_r by lia. unfold byte in H. lia.
Qed.
Lemma word_256 : 256 ^ Z.of_nat 8 = word.
Proof. reflexivity. Qed.

Definition sized (z : Z) : Prop := 0 <= z < word.
Lemma le8 z : sized z -> le_val (le 8 z) = z.
Proof. intros H. apply le_val_le. rewrite word_256. exact H. Qed.

Lemma fread_full old b s : length b = length old -> fread old (b ++ s) = (b, true, s).
Proof.
  intros L. unfold fread. rewrite <- L, firstn_app, Nat.sub_diag, firstn_all, firstn_O, app_nil_r, skipn_app, Nat.sub_diag, skipn_all.
  rewrite L, Nat.eqb_refl, skipn_all, app_nil_r. reflexivity.
Qed.
Lemma fread_size_full old z s : sized z -> fread_size old (le 8 z ++ s) = (z, true, s).
Proof. intros H. unfold fread_size. rewrite fread_full by (rewrite !le_length; reflexivity). rewrite le8 by auto. reflexivity. Qed.
Lemma fread_spec old s b ok r : Forall byte old -> Forall byte s -> fread old s = (b, ok, r) ->
  length b = length old /\ Forall byte b /\ Forall byte r /\ (length r <= length s)%nat /\ (ok = true -> (length s = length old + length r)%nat) /\ (ok = false -> r = []).
Proof.
  intros Fo Fs E. unfold fread in E. inversion E; subst; clear E.
  set (k := length (firstn (length old) s)). assert (K : k = Nat.min (length old) (length s)) by apply firstn_length.
  split; [rewrite app_length, skipn_length; fold k; lia|].
  assert (Fn : forall n l, Forall byte l -> Forall byte (firstn n l) /\ Forall byte (skipn n l)).
  { intros n l F. rewrite <- (firstn_skipn n l) in F. apply Forall_app in F. exact F. }
  split; [apply Forall_app; split; apply Fn; auto|]. split; [apply Fn; auto|]. split; [rewrite skipn_length; lia|]. split.
  - intros H. apply Nat.eqb_eq in H. rewrite skipn_length. lia.
  - intros H. apply Nat.eqb_neq in H. apply skipn_all2. lia.
Qed.
Lemma fread_size_spec old s z ok r : Forall byte s -> fread_size old s = (z, ok, r) ->
  sized z /\ Forall byte r /\ (length r <= length s)%nat /\ (ok = true -> (length s = 8 + length r)%nat) /\ (ok = false -> r = []).
Proof.
  intros Fs E. unfold fread_size in E. destruct (fread (le 8 old) s) as [[b k] r'] eqn:F. inversion E; subst.
  destruct (fread_spec _ _ _ _ _ (le_bytes 8 old) Fs F) as [L [Fb [Fr [Lr [A B]]]]]. rewrite le_length in *.
  split; [unfold sized; rewrite <- word_256, <- L; apply le_val_bound; auto|]. auto.
Qed.

(** ** Well-formed wrappers and voxels *)
Definition vok (v : vmeta) : Prop := length (vm_min v) = 12%nat /\ length (vm_max v) = 12%nat /\ length (vm_core v) = 12%nat.
Definition wok (w : wrapper) : Prop := sized (w_offset w) /\ sized (w_data_size w) /\ sized (Z.of_nat (length (w_voxels w))) /\ Forall vok (w_voxels w).
Fixpoint numbered (i : Z) (l : list wrapper) : Prop := match l with [] => True | w :: r => w_id w = i /\ numbered (i + 1) r end.

Lemma voxel_bytes_len v : vok v -> length (voxel_bytes v) = 36%nat.
Proof. intros [A [B C]]. unfold voxel_bytes. rewrite !app_length, A, B, C. reflexivity. Qed.

Section Junk.
Variable junk : list Z.

Lemma read_voxel_full v s : length junk = 12%nat -> vok v -> forall n, read_voxels junk (S n) (voxel_bytes v ++ s) = let (vs, s) := read_voxels junk n s in (v :: vs, s).
Proof.
  intros J [A [B C]] n. cbn [read_voxels]. unfold voxel_bytes. rewrite <- !app_assoc.
  rewrite fread_full by (rewrite A; reflexivity). rewrite fread_full by (rewrite B; reflexivity).
  rewrite fread_full by (rewrite C; cbn; congruence). destruct v; reflexivity.
Qed.
Lemma read_voxels_full vs s : length junk = 12%nat -> Forall vok vs -> read_voxels junk (length vs) (flat_map voxel_bytes vs ++ s) = (vs, s).
Proof.
  intros J. induction 1 as [|v vs H F IH]; [reflexivity|]. cbn [flat_map length]. rewrite <- app_assoc, read_voxel_full by auto. rewrite IH. reflexivity.
Qed.
Lemma read_voxels_spec : length junk = 12%nat -> Forall byte junk -> forall n s vs r, Forall byte s -> read_voxels junk n s = (vs, r) ->
  length vs = n /\ Forall vok vs /\ Forall byte r /\ (length r <= length s)%nat /\ ((length s <= 36 * n)%nat -> r = []).
Proof.
  intros J Fj. induction n as [|n IH]; intros s vs r Fs E; cbn [read_voxels] in E.
  - inversion E; subst. split; [reflexivity|]. split; [constructor|]. split; [exact Fs|]. split; [lia|]. intros H. destruct r; [reflexivity|cbn in H; lia].
  - destruct (fread (vm_min (fresh_voxel junk)) s) as [[a k1] s1] eqn:E1. destruct (fread (vm_max (fresh_voxel junk)) s1) as [[b k2] s2] eqn:E2.
    destruct (fread (vm_core (fresh_voxel junk)) s2) as [[c k3] s3] eqn:E3. destruct (read_voxels junk n s3) as [vs' r'] eqn:E4. inversion E; subst.
    assert (F1 : Forall byte (vm_min (fresh_voxel junk))) by (repeat constructor; lia).
    assert (F2 : Forall byte (vm_max (fresh_voxel junk))) by (repeat constructor; lia).
    destruct (fread_spec _ _ _ _ _ F1 Fs E1) as [A1 [A2 [A3 [A4 [A5 A6]]]]].
    destruct (fread_spec _ _ _ _ _ F2 A3 E2) as [B1 [B2 [B3 [B4 [B5 B6]]]]].
    destruct (fread_spec _ _ _ _ _ Fj B3 E3) as [C1 [C2 [C3 [C4 [C5 C6]]]]].
    destruct (IH _ _ _ C3 E4) as [D1 [D2 [D3 [D4 D5]]]].
    split; [cbn; congruence|]. split; [constructor; [split; [exact A1|split; [exact B1|exact (eq_trans C1 J)]]|exact D2]|]. split; [exact D3|]. split; [lia|].
    intros H. apply D5. cbn in A1, B1, A5, B5. change (vm_core (fresh_voxel junk)) with junk in C5. rewrite J in C5.
    destruct k1; [|rewrite A6 in * by reflexivity; cbn in *; lia]. destruct k2; [|rewrite B6 in * by reflexivity; cbn in *; lia].
    destruct k3; [|rewrite C6 in * by reflexivity; cbn in *; lia]. lia.
Qed.

(** ** Loading what was saved *)
Lemma load_step f cap d i w s : length junk = 12%nat -> wok w -> w_id w = i -> i < cap ->
  load_loop junk (S f) cap d i (wrapper_bytes w ++ s) =
  do r <- load_loop junk f cap (Z.of_nat (length (w_voxels w))) (i + 1) s; Some (w :: r).
Proof.
  intros J [A [B [C D]]] N I. cbn [load_loop]. destruct (Z.ltb_spec i cap); [|lia]. unfold wrapper_bytes. rewrite <- !app_assoc.
  rewrite fread_size_full by auto. rewrite fread_size_full by auto. rewrite fread_size_full by auto.
  rewrite Nat2Z.id, read_voxels_full by auto. subst i. destruct w; reflexivity.
Qed.

Lemma load_persist cap : length junk = 12%nat -> forall objs fuel d i, Forall wok objs -> numbered i objs -> (length objs < fuel)%nat -> 0 <= i ->
  load_loop junk fuel cap d i (persist objs) = Some (firstn (Z.to_nat (cap - i)) objs).
Proof.
  intros J. induction objs as [|w objs IH]; intros fuel d i F N L I.
  - destruct fuel as [|f]; [cbn in L; lia|]. rewrite firstn_nil. cbn. destruct (i <? cap); reflexivity.
  - destruct fuel as [|f]; [cbn in L; lia|]. inversion F; subst. destruct N as [N1 N2]. cbn [persist flat_map]. fold (persist objs).
    destruct (Z.ltb_spec i cap).
    + rewrite load_step by auto. rewrite IH; auto; [|cbn in L; lia|lia]. cbn [bind].
      replace (Z.to_nat (cap - i)) with (S (Z.to_nat (cap - (i + 1)))) by lia. reflexivity.
    + cbn [load_loop]. destruct (Z.ltb_spec i cap); [lia|]. replace (Z.to_nat (cap - i)) with 0%nat by lia. reflexivity.
Qed.

Lemma persist_len objs : (length objs <= length (persist objs))%nat.
Proof. induction objs as [|w r IH]; [reflexivity|]. cbn [persist flat_map length]. rewrite app_length. fold (persist r). unfold wrapper_bytes at 1. rewrite app_length, le_length. lia. Qed.

(** ** Parsing any file gives well-formed wrappers *)
Lemma parse_spec : length junk = 12%nat -> Forall byte junk -> forall fuel d o i s, Forall byte s -> (length s < fuel)%nat ->
  exists objs, parse_loop junk fuel d o i s = Some objs /\ Forall wok objs /\ numbered i objs /\ (8 * length objs <= length s)%nat.
Proof.
  intros J Fj. induction fuel as [|f IH]; intros d o i s Fs L; [lia|]. cbn [parse_loop].
  destruct (fread_size d s) as [[z ok] s1] eqn:E1. destruct (fread_size_spec _ _ _ _ _ Fs E1) as [A1 [A2 [A3 [A4 A5]]]].
  destruct ok; [|exists []; split; [reflexivity|]; split; [constructor|]; split; [exact Logic.I|cbn; lia]].
  specialize (A4 eq_refl). set (s2 := skipn (Z.to_nat z) s1).
  assert (F2 : Forall byte s2 /\ (length s2 <= length s1)%nat). { split; [|unfold s2; rewrite skipn_length; lia]. rewrite <- (firstn_skipn (Z.to_nat z) s1) in A2. apply Forall_app in A2. apply A2. }
  destruct F2 as [F2 L2]. destruct (fread_size z s2) as [[k ok2] s3] eqn:E2. destruct (fread_size_spec _ _ _ _ _ F2 E2) as [B1 [B2 [B3 _]]].
  destruct (read_voxels junk (Z.to_nat k) s3) as [vs s4] eqn:E3. destruct (read_voxels_spec J Fj _ _ _ _ B2 E3) as [C1 [C2 [C3 [C4 _]]]].
  destruct (IH k (((o + 8) mod word + z + 8 + 36 * k) mod word) (i + 1) s4 C3) as [r [Er [Fr [Nr Lr]]]]; [lia|].
  rewrite Er. cbn [bind]. eexists. split; [reflexivity|]. split; [|split; [split; [reflexivity|exact Nr]|cbn; lia]].
  constructor; [|exact Fr]. split; [apply Z.mod_pos_bound; reflexivity|]. split; [exact A1|]. split; [cbn; rewrite C1; unfold sized in *; lia|exact C2].
Qed.

(** ** Positions *)
Definition record_ok (o : list Z * list vmeta) : Prop := sized (Z.of_nat (length (fst o))) /\ sized (Z.of_nat (length (snd o))) /\ Forall vok (snd o).
Fixpoint located (off i : Z) (recs : list (list Z * list vmeta)) : list wrapper :=
  match recs with
  | [] => []
  | (data, vs) :: r => Wrapper (off + 8) (Z.of_nat (length data)) i vs :: located (off + 8 + Z.of_nat (length data) + 8 + 36 * Z.of_nat (length vs)) (i + 1) r
  end.
Lemma voxels_len vs : Forall vok vs -> length (flat_map voxel_bytes vs) = (36 * length vs)%nat.
Proof. induction 1; cbn [flat_map length]; [reflexivity|]. rewrite app_length, IHForall, voxel_bytes_len by auto. lia. Qed.
Lemma record_len o : record_ok o -> length (record_bytes o) = (16 + length (fst o) + 36 * length (snd o))%nat.
Proof. intros [_ [_ F]]. unfold record_bytes. rewrite !app_length, !le_length, voxels_len by auto. lia. Qed.

Lemma parse_flush : length junk = 12%nat -> forall recs fuel d o i, Forall record_ok recs -> (length recs < fuel)%nat -> 0 <= o -> o + Z.of_nat (length (flush recs)) < word ->
  parse_loop junk fuel d o i (flush recs) = Some (located o i recs).
Proof.
  intros J. induction recs as [|[data vs] recs IH]; intros fuel d o i F L O B.
  - destruct fuel as [|f]; [cbn in L; lia|]. reflexivity.
  - destruct fuel as [|f]; [cbn in L; lia|]. inversion F as [|? ? H F']; subst. pose proof (record_len _ H) as RL. destruct H as [A [C D]]. cbn [fst snd] in *.
    cbn [flush flat_map] in B |- *. fold (flush recs) in *. rewrite app_length, RL in B. cbn [parse_loop]. unfold record_bytes. cbn [fst snd]. rewrite <- !app_assoc.
    rewrite fread_size_full by auto. rewrite Nat2Z.id, skipn_app, skipn_all, Nat.sub_diag. cbn [skipn app].
    rewrite fread_size_full by auto. rewrite Nat2Z.id, read_voxels_full by auto.
    rewrite (Z.mod_small (o + 8)) by lia. rewrite Z.mod_small by lia.
    rewrite IH; [reflexivity|auto|cbn in L; lia|lia|]. lia.
Qed.

Lemma located_nth recs : forall o i k data vs, nth_error recs k = Some (data, vs) -> Forall record_ok recs ->
  nth_error (located o i recs) k = Some (Wrapper (o + Z.of_nat (length (flush (firstn k recs))) + 8) (Z.of_nat (length data)) (i + Z.of_nat k) vs).
Proof.
  induction recs as [|[d0 v0] recs IH]; intros o i [|k] data vs E F; cbn in E; try discriminate.
  - inversion E; subst. cbn. do 2 f_equal; lia.
  - inversion F as [|? ? H F']; subst. cbn [located nth_error firstn flush flat_map]. rewrite (IH _ _ _ _ _ E F'). fold (flush (firstn k recs)).
    rewrite app_length, (record_len _ H). cbn [fst snd]. f_equal. f_equal; lia.
Qed.
Lemma located_length recs : forall o i, length (located o i recs) = length recs.
Proof. induction recs as [|[d v] r IH]; intros; cbn; auto. Qed.
Lemma flush_split recs : forall k data vs, nth_error recs k = Some (data, vs) ->
  flush recs = flush (firstn k recs) ++ record_bytes (data, vs) ++ flush (skipn (S k) recs).
Proof.
  induction recs as [|a recs IH]; intros [|k] data vs E; cbn in E; try discriminate.
  - inversion E; subst. reflexivity.
  - cbn [firstn flush flat_map]. fold (flush recs) (flush (firstn k recs)). rewrite (IH k data vs E), <- app_assoc. reflexivity.
Qed.
Lemma flush_len recs : (length recs <= length (flush recs))%nat.
Proof. induction recs as [|w r IH]; [reflexivity|]. cbn [flush flat_map length]. rewrite app_length. fold (flush r). unfold record_bytes at 1. rewrite app_length, le_length. lia. Qed.

(** ** Prefixes of the metadata file *)
Lemma wrapper_bytes_byte w : Forall (fun v => Forall byte (voxel_bytes v)) (w_voxels w) -> Forall byte (wrapper_bytes w).
Proof.
  intros F. unfold wrapper_bytes. repeat (apply Forall_app; split); try apply le_bytes. induction F; cbn; [constructor|]. apply Forall_app; auto.
Qed.
Lemma firstn_byte n l : Forall byte l -> Forall byte (firstn n l).
Proof. intros F. rewrite <- (firstn_skipn n l) in F. apply Forall_app in F. apply F. Qed.

Lemma load_short w n : length junk = 12%nat -> Forall byte junk -> wok w -> Forall byte (wrapper_bytes w) -> (n < length (wrapper_bytes w))%nat ->
  forall f cap d i, i < cap -> exists tail, load_loop junk (S (S f)) cap d i (firstn n (wrapper_bytes w)) = Some tail /\ (length tail <= 1)%nat /\ ((8 <= n)%nat -> length tail = 1%nat) /\ ((n < 8)%nat -> tail = []).
Proof.
  intros J Fj W Fb Hn f cap d i I. remember (S f) as ff eqn:Hg. cbn [load_loop]. destruct (Z.ltb_spec i cap); [|lia].
  set (s := firstn n (wrapper_bytes w)). assert (Ls : length s = n) by (unfold s; rewrite firstn_length; lia).
  assert (Fs : Forall byte s) by (apply firstn_byte; auto).
  destruct (fread_size d s) as [[z ok] s1] eqn:E1. destruct (fread_size_spec _ _ _ _ _ Fs E1) as [A1 [A2 [A3 [A4 A5]]]].
  destruct (Nat.lt_ge_cases n 8) as [N8|N8].
  { destruct ok; [specialize (A4 eq_refl); lia|]. exists []. split; [reflexivity|]. cbn. split; [lia|]. split; [lia|reflexivity]. }
  assert (ok = true) as ->. { destruct ok; auto. unfold fread_size, fread in E1. rewrite le_length, firstn_length in E1. inversion E1. replace (Nat.min 8 (length s)) with 8%nat in * by lia. discriminate. }
  destruct (fread_size 0 s1) as [[ds ok2] s2] eqn:E2. destruct (fread_size_spec _ _ _ _ _ A2 E2) as [B1 [B2 [B3 [B4 B5]]]].
  destruct (fread_size z s2) as [[k ok3] s3] eqn:E3. destruct (fread_size_spec _ _ _ _ _ B2 E3) as [C1 [C2 [C3 [C4 C5]]]].
  destruct (read_voxels junk (Z.to_nat k) s3) as [vs s4] eqn:E4. destruct (read_voxels_spec J Fj _ _ _ _ C2 E4) as [D1 [D2 [D3 [D4 D5]]]].
  assert (X : s4 = []).
  { apply D5. destruct (Nat.lt_ge_cases n 24) as [N24|N24].
    - specialize (A4 eq_refl). destruct ok2; [|rewrite B5 in C3 by reflexivity; cbn in C3; lia]. specialize (B4 eq_refl).
      destruct ok3; [specialize (C4 eq_refl); lia|rewrite C5 by reflexivity; cbn; lia].
    - (* all three numbers were read: k is the number of voxels *)
      destruct W as [Wo [Wd [Wn Wv]]].
      assert (S : s = le 8 (w_offset w) ++ le 8 (w_data_size w) ++ le 8 (Z.of_nat (length (w_voxels w))) ++ firstn (n - 24) (flat_map voxel_bytes (w_voxels w))).
      { unfold s, wrapper_bytes. rewrite !firstn_app, !le_length.
        rewrite (firstn_all2 (n := n) (le 8 (w_offset w))) by (rewrite le_length; lia).
        rewrite (firstn_all2 (n := n - 8) (le 8 (w_data_size w))) by (rewrite le_length; lia).
        rewrite (firstn_all2 (n := n - 8 - 8) (le 8 (Z.of_nat (length (w_voxels w))))) by (rewrite le_length; lia).
        replace (n - 8 - 8 - 8)%nat with (n - 24)%nat by lia. reflexivity. }
      rewrite S in E1. rewrite fread_size_full in E1 by auto. match type of E1 with (?a, _, ?b) = _ => assert (Q : z = a /\ s1 = b) by (split; congruence) end. destruct Q as [-> ->].
      rewrite fread_size_full in E2 by auto. match type of E2 with (?a, _, ?b) = _ => assert (Q : ds = a /\ s2 = b) by (split; congruence) end. destruct Q as [-> ->].
      rewrite fread_size_full in E3 by auto. match type of E3 with (?a, _, ?b) = _ => assert (Q : k = a /\ s3 = b) by (split; congruence) end. destruct Q as [-> ->].
      rewrite Nat2Z.id, firstn_length. unfold wrapper_bytes in Hn. rewrite !app_length, !le_length, voxels_len in Hn by auto. rewrite voxels_len by auto. lia. }
  assert (Y : forall g, load_loop junk (S g) cap k (i + 1) s4 = Some []).
  { intros g. rewrite X. cbn [load_loop]. destruct (i + 1 <? cap); reflexivity. }
  subst ff. rewrite Y. cbn [bind]. eexists. split; [reflexivity|]. cbn. split; [lia|]. split; [reflexivity|lia].
Qed.

Lemma load_prefix : length junk = 12%nat -> Forall byte junk -> forall objs n cap i d fuel, Forall wok objs -> Forall (fun w => Forall byte (wrapper_bytes w)) objs -> numbered i objs ->
  (length objs + 1 < fuel)%nat -> i + Z.of_nat (length objs) < cap ->
  exists k tail, load_loop junk fuel cap d i (firstn n (persist objs)) = Some (firstn k objs ++ tail) /\ (length tail <= 1)%nat /\ (k <= length objs)%nat /\ (tail <> [] -> (k < length objs)%nat) /\
    (length (persist (firstn k objs)) <= n)%nat /\ (k < length objs -> n < length (persist (firstn (S k) objs)))%nat.
Proof.
  intros J Fj. induction objs as [|w objs IH]; intros n cap i d fuel F B N L C.
  - exists 0%nat, []. destruct fuel as [|f]; [cbn in L; lia|]. cbn [persist flat_map]. rewrite firstn_nil. cbn. split; [destruct (i <? cap); reflexivity|]. repeat split; try lia. congruence.
  - inversion F; inversion B; subst. destruct N as [N1 N2]. cbn [length] in *. destruct fuel as [|[|f]]; [lia|lia|].
    cbn [persist flat_map]. fold (persist objs). rewrite firstn_app.
    destruct (Nat.lt_ge_cases n (length (wrapper_bytes w))) as [Hn|Hn].
    + replace (n - length (wrapper_bytes w))%nat with 0%nat by lia. rewrite firstn_O, app_nil_r.
      destruct (load_short w n J Fj H1 H5 Hn f cap d i ltac:(lia)) as [tail [E [T [_ _]]]].
      exists 0%nat, tail. split; [exact E|]. split; [exact T|]. split; [lia|]. split; [lia|]. split; [cbn; lia|]. intros _. cbn. rewrite app_nil_r. exact Hn.
    + rewrite firstn_all2 by lia. rewrite load_step by (auto; lia).
      destruct (IH (n - length (wrapper_bytes w))%nat cap (i + 1) (Z.of_nat (length (w_voxels w))) (S f) H2 H6 N2 ltac:(lia) ltac:(lia)) as [k [tail [E [T [K [T' [P1 P2]]]]]]].
      rewrite E. cbn [bind]. exists (S k), tail. split; [reflexivity|]. split; [exact T|]. split; [lia|]. split; [intros X; specialize (T' X); lia|].
      split; [cbn [firstn persist flat_map]; fold (persist (firstn k objs)); rewrite app_length; lia|].
      intros X. cbn [firstn persist flat_map]. rewrite app_length. assert (Y := P2 ltac:(lia)). cbn [firstn persist flat_map] in Y. fold (persist (firstn k objs)) in *. lia.
Qed.
End Junk.
