(** Proofs about the test of two triangles in the same plane. *)
From Coq Require Import QArith List Bool Arith Lia Lqa Setoid.
From Verif Require Import AabModel AabProofs SegDistModel SegDistProofs TriIntModel TriIntProofs.
Import ListNotations.
Open Scope Q_scope.

(** The three corners of a triangle are indexed by the axes, taken in cyclic order. *)
Definition nxt (k : axis) : axis := match k with AX => AY | AY => AZ | AZ => AX end.
Definition corners (a b c : vec) : axis -> vec := fun k => match k with AX => a | AY => b | AZ => c end.

Section Plane.
  Variables i0 i1 : axis.
  Definition cr (a b : vec) : Q := a i0 * b i1 - a i1 * b i0.
  Definition eq2 (a b : vec) : Prop := a i0 == b i0 /\ a i1 == b i1.
  (** Two segments, each a start and a direction, meet in the projection. *)
  Definition seg_meet (v a u b : vec) : Prop := exists s q, unit s /\ unit q /\ eq2 (at_ v a s) (at_ u b q).

  Lemma edge_edge_iff ax ay v a u b u1 : ax == a i0 -> ay == a i1 -> (forall i, u1 i == u i + b i) ->
    edge_edge i0 i1 ax ay v u u1 = true <-> ~ cr a b == 0 /\ seg_meet v a u b.
  Proof.
    intros Eax Eay Eu. unfold edge_edge.
    set (f := ay * (u i0 - u1 i0) - ax * (u i1 - u1 i1)).
    set (d := (u i1 - u1 i1) * (v i0 - u i0) - (u i0 - u1 i0) * (v i1 - u i1)).
    set (e := ax * (v i1 - u i1) - ay * (v i0 - u i0)).
    assert (Ef : f == cr a b) by (unfold f, cr; rewrite Eax, Eay, !Eu; ring).
    assert (Ed : d == b i0 * (v i1 - u i1) - b i1 * (v i0 - u i0)) by (unfold d; rewrite !Eu; ring).
    assert (Ee : e == a i0 * (v i1 - u i1) - a i1 * (v i0 - u i0)) by (unfold e; rewrite Eax, Eay; ring).
    assert (T : (if (Qltb 0 f && Qle_bool 0 d && Qle_bool d f) || (Qltb f 0 && Qle_bool d 0 && Qle_bool f d)
                 then if Qltb 0 f then Qle_bool 0 e && Qle_bool e f else Qle_bool e 0 && Qle_bool f e else false) = true <->
                leg d f /\ leg e f).
    { destruct (Qltb_spec 0 f) as [P|P].
      - rewrite (leg_pos _ _ P), (leg_pos _ _ P). assert (P' : Qltb f 0 = false) by (destruct (Qltb_spec f 0); [lra|reflexivity]).
        rewrite P'. cbn [andb orb]. rewrite orb_false_r.
        destruct (Qleb_spec 0 d), (Qleb_spec d f), (Qleb_spec 0 e), (Qleb_spec e f); cbn; split; intros; try discriminate; try lra; reflexivity.
      - cbn [andb orb]. destruct (Qltb_spec f 0) as [M|M].
        + rewrite (leg_neg _ _ M), (leg_neg _ _ M). cbn [andb].
          destruct (Qleb_spec d 0), (Qleb_spec f d), (Qleb_spec e 0), (Qleb_spec f e); cbn; split; intros; try discriminate; try lra; reflexivity.
        + cbn [andb]. split; [discriminate|]. intros [[N _] _]. destruct N; lra. }
    rewrite T. unfold leg, seg_meet, eq2, at_. split.
    - intros [[N Ud] [_ Ue]]. split; [rewrite <- Ef; exact N|]. exists (d / f), (e / f). split; [exact Ud|split; [exact Ue|]].
      assert (N' : ~ cr a b == 0) by (rewrite <- Ef; exact N). rewrite Ef, Ed, Ee. unfold cr in *. split; field; exact N'.
    - intros [N (s & q & Us & Uq & X & Y)].
      assert (Nf : ~ f == 0) by (rewrite Ef; exact N).
      assert (KX : b i1 * (v i0 + s * a i0) == b i1 * (u i0 + q * b i0)) by (rewrite X; reflexivity).
      assert (KY : b i0 * (v i1 + s * a i1) == b i0 * (u i1 + q * b i1)) by (rewrite Y; reflexivity).
      assert (LX : a i1 * (v i0 + s * a i0) == a i1 * (u i0 + q * b i0)) by (rewrite X; reflexivity).
      assert (LY : a i0 * (v i1 + s * a i1) == a i0 * (u i1 + q * b i1)) by (rewrite Y; reflexivity).
      assert (Es : s == d / f).
      { apply (Qmult_inj_r _ _ f Nf). assert (G : d / f * f == d) by (field; exact Nf). rewrite G, Ef, Ed. unfold cr. lra. }
      assert (Eq : q == e / f).
      { apply (Qmult_inj_r _ _ f Nf). assert (G : e / f * f == e) by (field; exact Nf). rewrite G, Ef, Ee. unfold cr. lra. }
      split; (split; [exact Nf|]); [apply (unit_comp s)|apply (unit_comp q)]; assumption.
  Qed.

  (** ** Triangles by their corners *)
  Definition edge (V : axis -> vec) (k : axis) : vec := vsub (V (nxt k)) (V k).
  Definition area (V : axis -> vec) : Q := cr (edge V AX) (edge V AY).
  (** Weight of corner [k] of the point [X]. *)
  Definition weight (V : axis -> vec) (k : axis) (X : vec) : Q :=
    cr (edge V (nxt k)) (vsub X (V (nxt k))) / area V.
  Definition inside2 (V : axis -> vec) (X : vec) : Prop := forall k, 0 <= weight V k X.

  Lemma nxt3 k : nxt (nxt (nxt k)) = k. Proof. destruct k; reflexivity. Qed.
  Lemma area_edges V k : cr (edge V k) (edge V (nxt k)) == area V.
  Proof. unfold area, cr, edge, vsub. destruct k; cbn [nxt]; ring. Qed.

  Lemma weight_sum V X : ~ area V == 0 -> weight V AX X + weight V AY X + weight V AZ X == 1.
  Proof.
    intros N. unfold weight. assert (K : cr (edge V (nxt AX)) (vsub X (V (nxt AX))) + cr (edge V (nxt AY)) (vsub X (V (nxt AY))) +
      cr (edge V (nxt AZ)) (vsub X (V (nxt AZ))) == area V) by (unfold area, cr, edge, vsub; cbn [nxt]; ring).
    assert (G : forall x y z w, ~ w == 0 -> x / w + y / w + z / w == (x + y + z) / w) by (intros; field; assumption).
    rewrite G by exact N. rewrite K. field; exact N.
  Qed.
  (** A point is the weighted sum of the corners. *)
  Lemma weight_point V X k : ~ area V == 0 ->
    eq2 X (fun i => V k i + weight V (nxt k) X * edge V k i - weight V (nxt (nxt k)) X * edge V (nxt (nxt k)) i).
  Proof.
    intros N. unfold weight. rewrite nxt3.
    split.
    - apply (Qmult_inj_l _ _ (area V) N).
      assert (E : forall w x y z p q, ~ w == 0 -> w * (x + y / w * p - z / w * q) == w * x + y * p - z * q) by (intros; field; assumption).
      rewrite E by exact N. unfold area, cr, edge, vsub. destruct k; cbn [nxt]; ring.
    - apply (Qmult_inj_l _ _ (area V) N).
      assert (E : forall w x y z p q, ~ w == 0 -> w * (x + y / w * p - z / w * q) == w * x + y * p - z * q) by (intros; field; assumption).
      rewrite E by exact N. unfold area, cr, edge, vsub. destruct k; cbn [nxt]; ring.
  Qed.
  (** Weights are affine. *)
  Definition between (X Y : vec) (m : Q) : vec := fun i => X i + m * (Y i - X i).
  Lemma weight_between V k X Y m : ~ area V == 0 ->
    weight V k (between X Y m) == weight V k X + m * (weight V k Y - weight V k X).
  Proof. intros N. unfold weight, cr, between, vsub. field; exact N. Qed.
  Lemma weight_corner V k j : ~ area V == 0 -> weight V k (V j) == if match k, j with AX, AX | AY, AY | AZ, AZ => true | _, _ => false end then 1 else 0.
  Proof.
    intros N. unfold weight.
    assert (K : cr (edge V (nxt k)) (vsub (V j) (V (nxt k))) ==
      area V * if match k, j with AX, AX | AY, AY | AZ, AZ => true | _, _ => false end then 1 else 0)
      by (destruct k, j; unfold area, cr, edge, vsub; cbn [nxt]; ring).
    rewrite K. field; exact N.
  Qed.
  Lemma inside_corner V j : ~ area V == 0 -> inside2 V (V j).
  Proof. intros N k. rewrite weight_corner by exact N. destruct k, j; lra. Qed.
  Lemma inside_between V X Y m : ~ area V == 0 -> unit m -> inside2 V X -> inside2 V Y -> inside2 V (between X Y m).
  Proof.
    intros N [M0 M1] HX HY k. rewrite weight_between by exact N. specialize (HX k); specialize (HY k).
    assert (0 <= (1 - m) * weight V k X) by (apply Qmult_le_0_compat; lra).
    assert (0 <= m * weight V k Y) by (apply Qmult_le_0_compat; lra). lra.
  Qed.
  Lemma inside_dec V X : inside2 V X \/ exists k, weight V k X < 0.
  Proof.
    destruct (Qlt_le_dec (weight V AX X) 0); [eauto|]. destruct (Qlt_le_dec (weight V AY X) 0); [eauto|].
    destruct (Qlt_le_dec (weight V AZ X) 0); [eauto|]. left. intros []; assumption.
  Qed.

  (** A point of the border. *)
  Definition on_edge (V : axis -> vec) (k : axis) (X : vec) : Prop := exists s, unit s /\ eq2 X (at_ (V k) (edge V k) s).
  Lemma border V k X : ~ area V == 0 -> inside2 V X -> weight V k X == 0 -> on_edge V (nxt k) X.
  Proof.
    intros N H Z. exists (weight V (nxt (nxt k)) X). pose proof (weight_sum V X N) as S.
    pose proof (H AX); pose proof (H AY); pose proof (H AZ).
    split; [unfold unit; destruct k; cbn [nxt]; lra|].
    pose proof (weight_point V X (nxt k) N) as [A B]. rewrite nxt3 in A, B. rewrite Z in A, B. unfold at_.
    split; [rewrite A|rewrite B]; ring.
  Qed.

  (** Leaving a triangle crosses its border. *)
  Lemma leave1 x y : 0 <= x -> y < 0 -> exists m, unit m /\ x + m * (y - x) == 0.
  Proof.
    intros Hx Hy. exists (x / (x - y)). split; [apply div_pos_unit; lra|]. field. lra.
  Qed.
  Lemma leave (l : list (Q * Q)) : (forall p, In p l -> 0 <= fst p) ->
    exists m, unit m /\ (forall p, In p l -> 0 <= fst p + m * (snd p - fst p)) /\
      ((m == 1 /\ forall p, In p l -> 0 <= snd p) \/ exists p, In p l /\ fst p + m * (snd p - fst p) == 0).
  Proof.
    induction l as [|[x y] l IH]; intros H.
    - exists 1. split; [unfold unit; lra|]. split; [intros p []|left; split; [reflexivity|intros p []]].
    - destruct IH as (m & [M0 M1] & A & B); [intros p Hp; apply H; right; exact Hp|].
      pose proof (H _ (or_introl eq_refl)) as Hx. cbn in Hx.
      destruct (Qlt_le_dec (x + m * (y - x)) 0) as [L|L].
      + assert (Ly : y < 0).
        { destruct (Qlt_le_dec y 0) as [?|Hy]; [assumption|]. assert (0 <= (1 - m) * x) by (apply Qmult_le_0_compat; lra).
          assert (0 <= m * y) by (apply Qmult_le_0_compat; lra). lra. }
        destruct (leave1 x y Hx Ly) as (n & [N0 N1] & E).
        assert (Nm : n <= m).
        { destruct (Qlt_le_dec m n) as [G|G]; [|exact G]. assert (0 <= (n - m) * (x - y)) by (apply Qmult_le_0_compat; lra). lra. }
        exists n. split; [unfold unit; lra|]. split.
        * intros p [<-|Hp]; [cbn; lra|]. specialize (A p Hp). pose proof (H p (or_intror Hp)) as Hp0.
          destruct p as [u v]; cbn [fst snd] in *.
          destruct (Qlt_le_dec v u) as [D|D].
          -- assert (0 <= (m - n) * (u - v)) by (apply Qmult_le_0_compat; lra). lra.
          -- assert (0 <= n * (v - u)) by (apply Qmult_le_0_compat; lra). lra.
        * right. exists (x, y). split; [left; reflexivity|exact E].
      + exists m. split; [split; assumption|]. split.
        * intros p [<-|Hp]; [exact L|apply A; exact Hp].
        * destruct B as [[M B]|(p & Hp & E)]; [|right; exists p; split; [right; exact Hp|exact E]].
          left. split; [exact M|]. intros p [<-|Hp]; [cbn; rewrite M in L; lra|apply B; exact Hp].
  Qed.

  Lemma leave_triangle V X Y : ~ area V == 0 -> inside2 V X -> ~ inside2 V Y ->
    exists m k, unit m /\ on_edge V k (between X Y m).
  Proof.
    intros N HX HY.
    destruct (leave [(weight V AX X, weight V AX Y); (weight V AY X, weight V AY Y); (weight V AZ X, weight V AZ Y)])
      as (m & Hm & A & B).
    { intros p [<-|[<-|[<-|[]]]]; apply HX. }
    assert (I : inside2 V (between X Y m)).
    { intros k. rewrite weight_between by exact N. destruct k;
        [apply (A (weight V AX X, weight V AX Y))|apply (A (weight V AY X, weight V AY Y))|apply (A (weight V AZ X, weight V AZ Y))]; cbn; auto. }
    destruct B as [[_ B]|(p & Hp & E)].
    - destruct HY. intros k. destruct k;
        [apply (B (weight V AX X, weight V AX Y))|apply (B (weight V AY X, weight V AY Y))|apply (B (weight V AZ X, weight V AZ Y))]; cbn; auto.
    - assert (K : exists k, weight V k (between X Y m) == 0).
      { destruct Hp as [<-|[<-|[<-|[]]]]; [exists AX|exists AY|exists AZ]; rewrite weight_between by exact N; exact E. }
      destruct K as [k K]. exists m, (nxt k). split; [exact Hm|]. apply border; assumption.
  Qed.

  (** ** Common points of two borders are seen by the edge tests *)
  Definition hit (V U : axis -> vec) : Prop := exists k j, ~ cr (edge V k) (edge U j) == 0 /\ seg_meet (V k) (edge V k) (U j) (edge U j).

  Definition prv (k : axis) : axis := nxt (nxt k).
  Lemma not_parallel V k (b : vec) m : ~ area V == 0 -> ~ m == 0 -> eq2 b (fun i => m * edge V k i) ->
    ~ cr (edge V (nxt k)) b == 0 /\ ~ cr (edge V (prv k)) b == 0.
  Proof.
    intros N M [X Y]. split; intros Z; apply N.
    - assert (E : - m * area V == 0).
      { rewrite <- (area_edges V k). rewrite <- Z. unfold cr. rewrite X, Y. ring. }
      destruct (Qmult_integral _ _ E); [lra|assumption].
    - assert (E : m * area V == 0).
      { rewrite <- (area_edges V (prv k)). unfold prv. rewrite nxt3. rewrite <- Z. unfold cr. rewrite X, Y. unfold prv. ring. }
      destruct (Qmult_integral _ _ E); [lra|assumption].
  Qed.

  Lemma cr_anti a b : cr a b == - cr b a. Proof. unfold cr; ring. Qed.
  Lemma cr_zero_sym a b : ~ cr a b == 0 -> ~ cr b a == 0. Proof. intros H Z. apply H. rewrite cr_anti, Z. ring. Qed.

  Lemma edge_nonzero V k : ~ area V == 0 -> ~ (edge V k i0 == 0 /\ edge V k i1 == 0).
  Proof. intros N [X Y]. apply N. rewrite <- (area_edges V k). unfold cr. rewrite X, Y. ring. Qed.
  Lemma parallel2 a b : ~ (a i0 == 0 /\ a i1 == 0) -> ~ (b i0 == 0 /\ b i1 == 0) -> cr a b == 0 ->
    exists m, ~ m == 0 /\ eq2 b (fun i => m * a i).
  Proof.
    intros Na Nb Z. unfold cr in Z.
    destruct (Qeq_dec (a i0) 0) as [E|E].
    - destruct (Qeq_dec (a i1) 0) as [F|F]; [destruct Na; auto|].
      rewrite E in Z. assert (B0 : a i1 * b i0 == 0) by lra. destruct (Qmult_integral _ _ B0) as [?|B0']; [contradiction|].
      exists (b i1 / a i1). split.
      + intros Z'. apply Nb. split; [exact B0'|]. assert (K : b i1 == b i1 / a i1 * a i1) by (field; exact F). rewrite K, Z'. ring.
      + split; [rewrite B0', E; ring|field; exact F].
    - exists (b i0 / a i0).
      assert (B1 : b i1 == b i0 / a i0 * a i1).
      { apply (Qmult_inj_l _ _ (a i0) E). assert (K : a i0 * (b i0 / a i0 * a i1) == b i0 * a i1) by (field; exact E). rewrite K. lra. }
      split; [|split; [field; exact E|exact B1]].
      intros Z'. apply Nb. assert (K : b i0 == b i0 / a i0 * a i0) by (field; exact E).
      split; [rewrite K, Z'; ring|rewrite B1, Z'; ring].
  Qed.

  Lemma prv_end V k i : V k i == V (prv k) i + 1 * edge V (prv k) i.
  Proof. unfold edge, prv, vsub. rewrite nxt3. ring. Qed.

  Lemma border_hit V U k j X : ~ area V == 0 -> ~ area U == 0 -> on_edge V k X -> on_edge U j X -> hit V U.
  Proof.
    intros NV NU (s & Hs & Xs0 & Xs1) (q & Hq & Xq0 & Xq1). unfold at_ in *.
    assert (E0 : V k i0 + s * edge V k i0 == U j i0 + q * edge U j i0) by lra.
    assert (E1 : V k i1 + s * edge V k i1 == U j i1 + q * edge U j i1) by lra.
    destruct (Qeq_dec (cr (edge V k) (edge U j)) 0) as [P|P].
    2: { exists k, j. split; [exact P|]. exists s, q. split; [exact Hs|split; [exact Hq|split; unfold at_; assumption]]. }
    destruct (parallel2 _ _ (edge_nonzero V k NV) (edge_nonzero U j NU) P) as (m & Nm & B0 & B1).
    (* positions of the ends of the second edge on the line of the first *)
    set (u0 := s - q * m). set (u1 := s + (1 - q) * m). rewrite B0 in E0. rewrite B1 in E1.
    assert (U0 : eq2 (U j) (at_ (V k) (edge V k) u0)) by (unfold at_, u0; split; lra).
    assert (U1 : eq2 (U (nxt j)) (at_ (V k) (edge V k) u1)).
    { assert (D : forall i, U (nxt j) i == U j i + edge U j i) by (intros; unfold edge, vsub; ring).
      unfold at_, u1; split; rewrite D, ?B0, ?B1; lra. }
    assert (Par : eq2 (edge V k) (fun i => (/ m) * edge U j i)).
    { split; [rewrite B0|rewrite B1]; field; exact Nm. }
    assert (Nim : ~ / m == 0). { intros Z. apply Nm. rewrite <- (Qinv_involutive m), Z. reflexivity. }
    destruct (not_parallel U j (edge V k) (/ m) NU Nim Par) as [Pn Pp].
    destruct (not_parallel V k (edge U j) m NV Nm (conj B0 B1)) as [Vn Vp].
    assert (D0 : {unit u0} + {~ unit u0}).
    { unfold unit. destruct (Qlt_le_dec u0 0); [right; lra|]. destruct (Qlt_le_dec 1 u0); [right; lra|left; lra]. }
    assert (D1 : {unit u1} + {~ unit u1}).
    { unfold unit. destruct (Qlt_le_dec u1 0); [right; lra|]. destruct (Qlt_le_dec 1 u1); [right; lra|left; lra]. }
    destruct D0 as [D0|D0].
    { exists k, (prv j). split; [apply cr_zero_sym; exact Pp|]. exists u0, 1. split; [exact D0|split; [unfold unit; lra|]].
      destruct U0 as [G0 G1]. split; [rewrite <- G0|rewrite <- G1]; apply prv_end. }
    destruct D1 as [D1|D1].
    { exists k, (nxt j). split; [apply cr_zero_sym; exact Pn|]. exists u1, 0. split; [exact D1|split; [unfold unit; lra|]].
      destruct U1 as [G0 G1]. split; [rewrite <- G0|rewrite <- G1]; unfold at_; ring. }
    (* the second edge covers the first: its start lies on it *)
    exists (prv k), j. split; [exact Vp|]. exists 1, (- u0 / m). split; [unfold unit; lra|]. split.
    - unfold unit in Hs, Hq, D0, D1.
      assert (Hm : (m * q == s - u0) /\ (m * (1 - q) == u1 - s)) by (unfold u0, u1; split; ring). destruct Hm as [M0 M1].
      destruct (Qlt_le_dec 0 m) as [Pm|Pm].
      + assert (0 <= m * q) by (apply Qmult_le_0_compat; lra). assert (0 <= m * (1 - q)) by (apply Qmult_le_0_compat; lra).
        apply div_pos_unit; [exact Pm|]. assert (m == u1 - u0) by (unfold u0, u1; ring). lra.
      + assert (0 <= (- m) * q) by (apply Qmult_le_0_compat; lra). assert (0 <= (- m) * (1 - q)) by (apply Qmult_le_0_compat; lra).
        assert (Lm : m < 0) by (destruct (Qlt_le_dec m 0); [assumption|destruct Nm; lra]).
        apply div_neg_unit; [exact Lm|]. assert (m == u1 - u0) by (unfold u0, u1; ring). lra.
    - assert (R : forall i, at_ (V (prv k)) (edge V (prv k)) 1 i == V k i) by (intros; unfold at_; symmetry; apply prv_end).
      destruct U0 as [G0 G1]. unfold at_ in G0, G1.
      assert (C : forall w, - u0 / m * (m * w) == - (u0 * w)) by (intros; field; exact Nm).
      split; rewrite R; unfold at_; [rewrite G0, B0|rewrite G1, B1]; rewrite C; ring.
  Qed.

  (** ** Two triangles with a common point *)
  Lemma on_edge_toward U j Z m : unit m -> on_edge U j Z ->
    on_edge U j (between Z (U j) m) /\ on_edge U j (between Z (U (nxt j)) m).
  Proof.
    intros [M0 M1] (q & [Q0 Q1] & A & B). unfold at_ in *. split.
    - exists ((1 - m) * q). split; [split|].
      + apply Qmult_le_0_compat; lra.
      + assert (0 <= m * q) by (apply Qmult_le_0_compat; lra). lra.
      + unfold between, at_. split; [rewrite A|rewrite B]; ring.
    - exists (q + m * (1 - q)). split; [split|].
      + assert (0 <= m * (1 - q)) by (apply Qmult_le_0_compat; lra). lra.
      + assert (0 <= (1 - m) * (1 - q)) by (apply Qmult_le_0_compat; lra). lra.
      + assert (D : forall i, U (nxt j) i == U j i + edge U j i) by (intros; unfold edge, vsub; ring).
        unfold between, at_. split; [rewrite A, D|rewrite B, D]; ring.
  Qed.
  Lemma corner_on_edge U j : on_edge U j (U j) /\ on_edge U j (U (nxt j)).
  Proof.
    split; [exists 0|exists 1]; (split; [unfold unit; lra|split; unfold at_, edge, vsub; ring]).
  Qed.
  Lemma strict V U X k : ~ area V == 0 -> ~ area U == 0 -> on_edge V k X -> inside2 U X -> hit V U \/ forall j, 0 < weight U j X.
  Proof.
    intros NV NU HX HU.
    assert (D : forall j, weight U j X == 0 -> hit V U).
    { intros j Z. apply (border_hit V U k (nxt j) X NV NU HX). apply border; assumption. }
    destruct (Qeq_dec (weight U AX X) 0) as [E|E]; [left; exact (D _ E)|].
    destruct (Qeq_dec (weight U AY X) 0) as [F|F]; [left; exact (D _ F)|].
    destruct (Qeq_dec (weight U AZ X) 0) as [G|G]; [left; exact (D _ G)|]. right.
    intros j. pose proof (HU j). destruct (Qlt_le_dec 0 (weight U j X)) as [P|P]; [exact P|]. destruct j; [destruct E|destruct F|destruct G]; lra.
  Qed.
  Lemma inside_or_not V X : inside2 V X \/ ~ inside2 V X.
  Proof. destruct (inside_dec V X) as [H|[k H]]; [left; exact H|right]. intros I. specialize (I k). lra. Qed.

  Lemma flat_triangles V U X : ~ area V == 0 -> ~ area U == 0 -> inside2 V X -> inside2 U X ->
    hit V U \/ (forall j, 0 < weight U j (V AX)) \/ (forall j, 0 < weight V j (U AX)).
  Proof.
    intros NV NU XV XU.
    destruct (inside_or_not U (V AX)) as [H|H].
    { destruct (strict V U (V AX) AX NV NU (proj1 (corner_on_edge V AX)) H); auto. }
    destruct (leave_triangle U X (V AX) NU XU H) as (m & j & Hm & HZ). set (Z := between X (V AX) m) in *.
    assert (ZV : inside2 V Z) by (apply inside_between; [exact NV|exact Hm|exact XV|apply inside_corner; exact NV]).
    destruct (inside_or_not V (U AX)) as [K|K].
    { destruct (strict U V (U AX) AX NU NV (proj1 (corner_on_edge U AX)) K) as [(k & j' & P & s & q & Us & Uq & E0 & E1)|S]; [left|auto].
      exists j', k. split; [apply cr_zero_sym; exact P|]. exists q, s. split; [exact Uq|split; [exact Us|split; symmetry; assumption]]. }
    left.
    assert (Go : forall Y j' W, on_edge U j' W -> inside2 V W -> ~ inside2 V Y -> (Y = U j' \/ Y = U (nxt j')) -> hit V U).
    { intros Y j' W HW WV NY HY. destruct (leave_triangle V W Y NV WV NY) as (n & k & Hn & HE).
      destruct (on_edge_toward U j' W n Hn HW) as [T0 T1].
      destruct HY as [->| ->]; [exact (border_hit V U k j' _ NV NU HE T0)|exact (border_hit V U k j' _ NV NU HE T1)]. }
    destruct j.
    - exact (Go (U AX) AX Z HZ ZV K (or_introl eq_refl)).
    - destruct (inside_or_not V (U AY)) as [I|I].
      + exact (Go (U AX) AX (U AY) (proj2 (corner_on_edge U AX)) I K (or_introl eq_refl)).
      + exact (Go (U AY) AY Z HZ ZV I (or_introl eq_refl)).
    - exact (Go (U AX) AZ Z HZ ZV K (or_intror eq_refl)).
  Qed.
End Plane.

(** ** The two tests, in terms of weights *)
Lemma edge_tri_iff i0 i1 V U k :
  edge_tri i0 i1 (V k) (V (nxt k)) (U AX) (U AY) (U AZ) = true <->
  exists j, ~ cr i0 i1 (edge V k) (edge U j) == 0 /\ seg_meet i0 i1 (V k) (edge V k) (U j) (edge U j).
Proof.
  unfold edge_tri. rewrite !orb_true_iff.
  assert (E : forall j, edge_edge i0 i1 (V (nxt k) i0 - V k i0) (V (nxt k) i1 - V k i1) (V k) (U j) (U (nxt j)) = true <->
     ~ cr i0 i1 (edge V k) (edge U j) == 0 /\ seg_meet i0 i1 (V k) (edge V k) (U j) (edge U j)).
  { intros j. apply edge_edge_iff; [reflexivity|reflexivity|]. intros i. unfold edge, vsub. ring. }
  pose proof (E AX) as EX; pose proof (E AY) as EY; pose proof (E AZ) as EZ. cbn [nxt] in EX, EY, EZ.
  rewrite EX, EY, EZ. split.
  - intros [[H|H]|H]; eexists; exact H.
  - intros [[] H]; tauto.
Qed.

Lemma same_signs a x y z : ~ a == 0 -> x + y + z == 1 ->
  Qltb 0 (- (a * z) * - (a * x)) && Qltb 0 (- (a * z) * - (a * y)) = true <-> 0 < x /\ 0 < y /\ 0 < z.
Proof.
  intros N S. pose proof (sq_pos a N) as P.
  assert (E1 : - (a * z) * - (a * x) == (a * a) * (z * x)) by ring.
  assert (E2 : - (a * z) * - (a * y) == (a * a) * (z * y)) by ring.
  assert (C : forall p q, 0 < p -> (0 < p * q <-> 0 < q)).
  { intros p q Hp. split; intros H; [|apply Qmult_pos; assumption].
    destruct (Qlt_le_dec 0 q) as [L|L]; [exact L|]. assert (0 <= p * (- q)) by (apply Qmult_le_0_compat; lra). lra. }
  assert (D : forall p q, p < 0 -> (0 < p * q -> q < 0)).
  { intros p q Hp H. destruct (Qlt_le_dec q 0) as [L|L]; [exact L|]. assert (0 <= (- p) * q) by (apply Qmult_le_0_compat; lra). lra. }
  rewrite andb_true_iff. split.
  - intros [H1 H2]. destruct (Qltb_spec 0 (- (a * z) * - (a * x))) as [T1|]; [|discriminate].
    destruct (Qltb_spec 0 (- (a * z) * - (a * y))) as [T2|]; [|discriminate]. rewrite E1 in T1. rewrite E2 in T2.
    apply (proj1 (C _ _ P)) in T1. apply (proj1 (C _ _ P)) in T2.
    destruct (Qlt_le_dec 0 z) as [Z|Z]; [exact (conj (proj1 (C z x Z) T1) (conj (proj1 (C z y Z) T2) Z))|].
    destruct (Qlt_le_dec z 0) as [Z'|Z'].
    + pose proof (D _ _ Z' T1). pose proof (D _ _ Z' T2). lra.
    + assert (Z0 : z == 0) by lra. rewrite Z0 in T1. lra.
  - intros (X & Y & Z). pose proof (Qmult_pos _ _ Z X) as ZX. pose proof (Qmult_pos _ _ Z Y) as ZY.
    pose proof (Qmult_pos _ _ P ZX). pose proof (Qmult_pos _ _ P ZY).
    split; [destruct (Qltb_spec 0 (- (a * z) * - (a * x))); [reflexivity|lra]|destruct (Qltb_spec 0 (- (a * z) * - (a * y))); [reflexivity|lra]].
Qed.
Lemma Qltb_comp x y z : y == z -> Qltb x y = Qltb x z.
Proof. intros E. destruct (Qltb_spec x y), (Qltb_spec x z); try reflexivity; lra. Qed.

Lemma point_in_tri_iff i0 i1 U X : ~ area i0 i1 U == 0 ->
  point_in_tri i0 i1 X (U AX) (U AY) (U AZ) = true <-> forall j, 0 < weight i0 i1 U j X.
Proof.
  intros N. unfold point_in_tri.
  assert (E : forall j, side i0 i1 (U (nxt j)) (U (nxt (nxt j))) X == - (area i0 i1 U * weight i0 i1 U j X)).
  { intros j. unfold weight.
    assert (G : forall x w, ~ w == 0 -> - (w * (x / w)) == - x) by (intros; field; assumption). rewrite G by exact N.
    unfold side, cr, edge, vsub. ring. }
  pose proof (E AX) as EX; pose proof (E AY) as EY; pose proof (E AZ) as EZ. cbn [nxt] in EX, EY, EZ.
  rewrite (Qltb_comp 0 (side i0 i1 (U AX) (U AY) X * side i0 i1 (U AY) (U AZ) X) _ (Qmult_comp _ _ EZ _ _ EX)).
  rewrite (Qltb_comp 0 (side i0 i1 (U AX) (U AY) X * side i0 i1 (U AZ) (U AX) X) _ (Qmult_comp _ _ EZ _ _ EY)).
  rewrite (same_signs _ _ _ _ N (weight_sum i0 i1 U X N)). split.
  - intros (A & B & C) []; assumption.
  - intros H. split; [apply H|split; apply H].
Qed.

Lemma coplanar_iff N V U : let '(i0, i1) := kept_axes N in
  ~ area i0 i1 V == 0 -> ~ area i0 i1 U == 0 ->
  (coplanar_tri_tri N (V AX) (V AY) (V AZ) (U AX) (U AY) (U AZ) = true <->
   hit i0 i1 V U \/ (forall j, 0 < weight i0 i1 U j (V AX)) \/ (forall j, 0 < weight i0 i1 V j (U AX))).
Proof.
  unfold coplanar_tri_tri. destruct (kept_axes N) as [i0 i1]. intros NV NU. rewrite !orb_true_iff.
  rewrite !point_in_tri_iff by assumption.
  pose proof (edge_tri_iff i0 i1 V U AX) as EX; pose proof (edge_tri_iff i0 i1 V U AY) as EY; pose proof (edge_tri_iff i0 i1 V U AZ) as EZ.
  cbn [nxt] in EX, EY, EZ. rewrite EX, EY, EZ. unfold hit. split.
  - intros [[[[H|H]|H]|H]|H]; [left; eexists; exact H|left; eexists; exact H|left; eexists; exact H|right; left; exact H|right; right; exact H].
  - intros [[[] H]|[H|H]]; tauto.
Qed.

(** ** Back to space *)
Definition frame (i0 i1 k : axis) : Prop :=
  (i0, i1, k) = (AY, AZ, AX) \/ (i0, i1, k) = (AX, AY, AZ) \/ (i0, i1, k) = (AX, AZ, AY).
Lemma kept_frame N : ~ (forall i, N i == 0) -> exists k, frame (fst (kept_axes N)) (snd (kept_axes N)) k /\ ~ N k == 0.
Proof.
  intros H. unfold kept_axes.
  assert (A : forall x, 0 <= Qabsv x /\ (x == 0 <-> Qabsv x == 0)).
  { intros x. unfold Qabsv. destruct (Qltb_spec x 0); split; try split; lra. }
  destruct (A (N AX)) as [AX0 AX1], (A (N AY)) as [AY0 AY1], (A (N AZ)) as [AZ0 AZ1].
  destruct (Qltb_spec (Qabsv (N AY)) (Qabsv (N AX))); [destruct (Qltb_spec (Qabsv (N AZ)) (Qabsv (N AX)))|destruct (Qltb_spec (Qabsv (N AY)) (Qabsv (N AZ)))]; cbn [fst snd].
  - exists AX. split; [left; reflexivity|]. intros Z. apply AX1 in Z. lra.
  - exists AZ. split; [right; left; reflexivity|]. intros Z. apply AZ1 in Z. lra.
  - exists AZ. split; [right; left; reflexivity|]. intros Z. apply AZ1 in Z. lra.
  - exists AY. split; [right; right; reflexivity|]. intros Z. apply H. apply AY1 in Z. intros []; [apply AX1|apply AY1|apply AZ1]; lra.
Qed.

(** The triangle with corner [C] and edges [P], [R], as three corners. *)
Definition tri (C P R : vec) : axis -> vec := corners C (vadd C P) (vadd C R).
Lemma frame_eq i0 i1 k X Y : frame i0 i1 k -> eq2 i0 i1 X Y -> X k == Y k -> forall i, X i == Y i.
Proof. intros [E|[E|E]] [A B] C i; injection E as -> -> ->; destruct i; assumption. Qed.
Lemma frame_area i0 i1 k C P R : frame i0 i1 k -> (vcross P R k == 0 <-> area i0 i1 (tri C P R) == 0).
Proof.
  intros [E|[E|E]]; injection E as -> -> ->; unfold area, cr, edge, vsub, tri, corners, vadd, vcross, v3; cbn [nxt]; split; lra.
Qed.
Lemma frame_plane i0 i1 k N X Y : frame i0 i1 k -> ~ N k == 0 -> vdot N X == vdot N Y -> eq2 i0 i1 X Y -> forall i, X i == Y i.
Proof.
  intros F Nk E [A B]. apply (frame_eq i0 i1 k); [exact F|split; assumption|].
  apply (Qmult_inj_l _ _ (N k) Nk). unfold vdot, sum3 in E.
  destruct F as [F|[F|F]]; injection F as -> -> ->; rewrite A, B in E; lra.
Qed.

Lemma tri_weights i0 i1 C P R X a b : ~ area i0 i1 (tri C P R) == 0 -> eq2 i0 i1 X (tri_point C P R a b) ->
  weight i0 i1 (tri C P R) AX X == 1 - a - b /\ weight i0 i1 (tri C P R) AY X == a /\ weight i0 i1 (tri C P R) AZ X == b.
Proof.
  intros N [E0 E1].
  assert (G : forall x y w, ~ w == 0 -> x == y * w -> x / w == y) by (intros x y w Hw ->; field; exact Hw).
  unfold weight. split; [|split]; apply (G _ _ _ N);
    unfold area, cr, edge, vsub, tri, corners, vadd in *; cbn [nxt]; rewrite E0, E1; unfold tri_point; ring.
Qed.
Lemma in_tri_inside i0 i1 C P R X : ~ area i0 i1 (tri C P R) == 0 -> in_tri C P R X -> inside2 i0 i1 (tri C P R) X.
Proof.
  intros N (a & b & (A & B & S) & E). destruct (tri_weights i0 i1 C P R X a b N (conj (E i0) (E i1))) as (W0 & W1 & W2).
  intros []; [rewrite W0|rewrite W1|rewrite W2]; lra.
Qed.
Lemma cross_perp P R : vdot (vcross P R) P == 0 /\ vdot (vcross P R) R == 0.
Proof. unfold vdot, sum3, vcross, v3. split; ring. Qed.
Lemma inside_in_tri i0 i1 k N C P R X : frame i0 i1 k -> ~ area i0 i1 (tri C P R) == 0 -> ~ N k == 0 ->
  vdot N P == 0 -> vdot N R == 0 -> vdot N X == vdot N C -> inside2 i0 i1 (tri C P R) X -> in_tri C P R X.
Proof.
  intros F NA Nk HP HR HX I. set (V := tri C P R) in *.
  exists (weight i0 i1 V AY X), (weight i0 i1 V AZ X). split.
  - pose proof (weight_sum i0 i1 V X NA). pose proof (I AX). pose proof (I AY). pose proof (I AZ). unfold bary. lra.
  - apply (frame_plane i0 i1 k N _ _ F Nk).
    + set (a := weight i0 i1 V AY X). set (b := weight i0 i1 V AZ X). rewrite HX.
      assert (E : vdot N (tri_point C P R a b) == vdot N C + a * vdot N P + b * vdot N R) by (unfold vdot, sum3, tri_point; ring).
      rewrite E, HP, HR. ring.
    + pose proof (weight_point i0 i1 V X AX NA) as [A B]. cbn [nxt] in A, B.
      split; [rewrite A at 1|rewrite B at 1]; unfold tri_point, edge, vsub, V, tri, corners, vadd; cbn [nxt]; ring.
Qed.
Lemma on_edge_in_tri C P R k s : unit s -> in_tri C P R (at_ (tri C P R k) (edge (tri C P R) k) s).
Proof.
  intros [S0 S1]. destruct k.
  - exists s, 0. split; [unfold bary; lra|]. intros i. unfold at_, edge, vsub, tri, corners, vadd, tri_point; cbn [nxt]. ring.
  - exists (1 - s), s. split; [unfold bary; lra|]. intros i. unfold at_, edge, vsub, tri, corners, vadd, tri_point; cbn [nxt]. ring.
  - exists 0, (1 - s). split; [unfold bary; lra|]. intros i. unfold at_, edge, vsub, tri, corners, vadd, tri_point; cbn [nxt]. ring.
Qed.
Lemma in_tri_plane N C P R X : vdot N P == 0 -> vdot N R == 0 -> in_tri C P R X -> vdot N X == vdot N C.
Proof.
  intros HP HR (a & b & _ & E).
  assert (F : vdot N X == vdot N C + a * vdot N P + b * vdot N R) by (unfold vdot, sum3; rewrite !E; unfold tri_point; ring).
  rewrite F, HP, HR. ring.
Qed.
Lemma in_tri_corner C P R : in_tri C P R C.
Proof. exists 0, 0. split; [unfold bary; lra|]. intros i. unfold tri_point. ring. Qed.
Lemma in_tri_comp C P R X Y : (forall i, X i == Y i) -> in_tri C P R X -> in_tri C P R Y.
Proof. intros E (a & b & H & F). exists a, b. split; [exact H|]. intros i. rewrite <- E. apply F. Qed.

(** Two triangles of positive area whose planes are parallel. *)
Lemma flat_exact C1 P1 P2 D1 Q1 Q2 :
  ~ (forall i, vcross P1 P2 i == 0) -> ~ (forall i, vcross Q1 Q2 i == 0) ->
  vdot (vcross P1 P2) Q1 == 0 -> vdot (vcross P1 P2) Q2 == 0 ->
  TriInt C1 P1 P2 D1 Q1 Q2 = true <-> share C1 P1 P2 D1 Q1 Q2.
Proof.
  intros NP NQ H1 H2. set (N := vcross P1 P2) in *.
  destruct (cross_perp P1 P2) as [G1 G2]. fold N in G1, G2.
  assert (T : TriInt C1 P1 P2 D1 Q1 Q2 =
    if Qeq_bool (vdot N (vsub D1 C1)) 0 then
      coplanar_tri_tri N (tri C1 P1 P2 AX) (tri C1 P1 P2 AY) (tri C1 P1 P2 AZ) (tri D1 Q1 Q2 AX) (tri D1 Q1 Q2 AY) (tri D1 Q1 Q2 AZ)
    else false).
  { unfold TriInt. cbv zeta.
    match goal with |- (if Qeq_bool ?x 0 && Qeq_bool ?y 0 then _ else _) = _ =>
      assert (E1 : x == 0) by (rewrite <- H1; unfold N, vdot, sum3, vcross, v3; ring);
      assert (E2 : y == 0) by (rewrite <- H2; unfold N, vdot, sum3, vcross, v3; ring) end.
    apply Qeq_bool_iff in E1. apply Qeq_bool_iff in E2. rewrite E1, E2. cbn [andb]. fold N.
    match goal with |- (if negb (Qeq_bool ?x 0) then _ else _) = _ =>
      assert (E3 : x == - vdot N (vsub D1 C1)) by (unfold N, vdot, sum3, vcross, v3; ring); revert E3; generalize x end.
    intros x E3. unfold tri, corners.
    destruct (Qeq_bool x 0) eqn:Z; cbn [negb].
    - apply Qeq_bool_iff in Z. assert (Z' : vdot N (vsub D1 C1) == 0) by lra. apply Qeq_bool_iff in Z'. rewrite Z'. reflexivity.
    - destruct (Qeq_bool (vdot N (vsub D1 C1)) 0) eqn:Z'; [|reflexivity]. apply Qeq_bool_iff in Z'.
      apply Qeq_bool_neq in Z. destruct Z. lra. }
  rewrite T. clear T.
  assert (ED : vdot N (vsub D1 C1) == vdot N D1 - vdot N C1) by (unfold vdot, sum3, vsub; ring).
  destruct (Qeq_bool (vdot N (vsub D1 C1)) 0) eqn:Z.
  2: { apply Qeq_bool_neq in Z. split; [discriminate|]. intros (X & X1 & X2). destruct Z.
       pose proof (in_tri_plane N _ _ _ _ G1 G2 X1). pose proof (in_tri_plane N _ _ _ _ H1 H2 X2). lra. }
  apply Qeq_bool_iff in Z. assert (EP : vdot N D1 == vdot N C1) by lra. clear Z ED.
  destruct (kept_frame N NP) as (k & F & Nk). pose proof (coplanar_iff N (tri C1 P1 P2) (tri D1 Q1 Q2)) as CI.
  destruct (kept_axes N) as [i0 i1]. cbn [fst snd] in F.
  assert (NV : ~ area i0 i1 (tri C1 P1 P2) == 0) by (rewrite <- (frame_area i0 i1 k C1 P1 P2 F); exact Nk).
  assert (NU : ~ area i0 i1 (tri D1 Q1 Q2) == 0).
  { rewrite <- (frame_area i0 i1 k D1 Q1 Q2 F). intros M. apply NQ.
    (* the normals are parallel *)
    assert (K : forall i, N k * vcross Q1 Q2 i == 0).
    { intros i. assert (L : N k * vcross Q1 Q2 i == N i * vcross Q1 Q2 k).
      { clear - H1 H2. clearbody N. unfold vdot, sum3 in *. unfold vcross, v3.
        assert (KX : Q2 AX * (N AX * Q1 AX + N AY * Q1 AY + N AZ * Q1 AZ) == 0) by (rewrite H1; ring).
        assert (KY : Q2 AY * (N AX * Q1 AX + N AY * Q1 AY + N AZ * Q1 AZ) == 0) by (rewrite H1; ring).
        assert (KZ : Q2 AZ * (N AX * Q1 AX + N AY * Q1 AY + N AZ * Q1 AZ) == 0) by (rewrite H1; ring).
        assert (LX : Q1 AX * (N AX * Q2 AX + N AY * Q2 AY + N AZ * Q2 AZ) == 0) by (rewrite H2; ring).
        assert (LY : Q1 AY * (N AX * Q2 AX + N AY * Q2 AY + N AZ * Q2 AZ) == 0) by (rewrite H2; ring).
        assert (LZ : Q1 AZ * (N AX * Q2 AX + N AY * Q2 AY + N AZ * Q2 AZ) == 0) by (rewrite H2; ring).
        destruct k, i; lra. }
      rewrite L, M. ring. }
    intros i. destruct (Qmult_integral _ _ (K i)) as [?|?]; [contradiction|assumption]. }
  rewrite (CI NV NU). clear CI. split.
  - intros [(kk & j & _ & s & q & Us & Uq & E)|[W|W]].
    + exists (at_ (tri C1 P1 P2 kk) (edge (tri C1 P1 P2) kk) s).
      pose proof (on_edge_in_tri C1 P1 P2 kk s Us) as I1. pose proof (on_edge_in_tri D1 Q1 Q2 j q Uq) as I2.
      split; [exact I1|]. apply (in_tri_comp _ _ _ (at_ (tri D1 Q1 Q2 j) (edge (tri D1 Q1 Q2) j) q)); [|exact I2].
      apply (frame_plane i0 i1 k N _ _ F Nk); [|split; symmetry; apply E].
      rewrite (in_tri_plane N _ _ _ _ G1 G2 I1), (in_tri_plane N _ _ _ _ H1 H2 I2). exact EP.
    + exists C1. split; [apply in_tri_corner|]. apply (inside_in_tri i0 i1 k N); try assumption; [symmetry; exact EP|].
      intros j. specialize (W j). apply Qlt_le_weak. exact W.
    + exists D1. split; [|apply in_tri_corner]. apply (inside_in_tri i0 i1 k N); try assumption.
      intros j. specialize (W j). apply Qlt_le_weak. exact W.
  - intros (X & X1 & X2). exact (flat_triangles i0 i1 _ _ X NV NU (in_tri_inside i0 i1 _ _ _ _ NV X1) (in_tri_inside i0 i1 _ _ _ _ NU X2)).
Qed.
