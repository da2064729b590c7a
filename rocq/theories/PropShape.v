(** Boxes written as surfaces (make_cube) and the program that moves and shrinks objects. *)
From Coq Require Import List ZArith QArith Qabs Bool Lia Lqa Permutation Arith.
From Verif Require Import Arr AabModel AabProofs TextModel TextSpec TextProofs ShapeModel ShapeProofs.
Import ListNotations.
Open Scope Q_scope.

(** ** C136: make_cube makes the surface of the box *)
(** The eight corners, and the six sides: an axis and which end of it. *)
Definition corners (b : aab) : list point :=
  flat_map (fun x => flat_map (fun y => map (fun z => (x, y, z)) [bmin b AZ; bmax b AZ]) [bmin b AY; bmax b AY]) [bmin b AX; bmax b AX].
Definition sides_of_box : list (axis * bool) := [(AX, false); (AX, true); (AY, false); (AY, true); (AZ, false); (AZ, true)].
Definition coord (a : axis) (p : point) : Q := let '(x, y, z) := p in match a with AX => x | AY => y | AZ => z end.
Definition on_side (b : aab) (s : axis * bool) (p : point) : Prop := coord (fst s) p = if snd s then bmax b (fst s) else bmin b (fst s).
(** The steps of a face from vertex to vertex. *)
Definition steps (f : list nat) : list (nat * nat) := combine f (tl f ++ firstn 1 f).
Definition step_dec (a b : nat * nat) : {a = b} + {a <> b}.
Proof. decide equality; apply Nat.eq_dec. Defined.
Definition times (e : nat * nat) (fs : list (list nat)) : nat := count_occ step_dec (flat_map steps fs) e.
(** Six times the volume of the pyramid over a face with its top at the origin, positive when the
    face is seen counterclockwise from outside. *)
Definition det (a b c : point) : Q :=
  let '(ax, ay, az) := a in let '(bx, by_, bz) := b in let '(cx, cy, cz) := c in
  ax * (by_ * cz - bz * cy) - ay * (bx * cz - bz * cx) + az * (bx * cy - by_ * cx).
Definition pyramid (f : list point) : Q :=
  match f with
  | [] => 0
  | a :: r => fold_right Qplus 0 (map (fun e => det a (fst e) (snd e)) (combine r (tl r)))
  end.
Definition place (ps : list point) (v : nat) : point := nth v ps (0, 0, 0).

Theorem cube_is_the_box : forall b,
  let P := make_cube b in
  (* the vertices are the corners *)
  Permutation (v_point P) (corners b) /\
  (* closed: every step of a face is made once, and once the other way *)
  (forall u v, In (u, v) (flat_map steps (face_list P)) -> times (u, v) (face_list P) = 1%nat /\ times (v, u) (face_list P) = 1%nat) /\
  (* one face of four vertices for each side of the box *)
  (exists ss, Permutation ss sides_of_box /\
    Forall2 (fun f s => NoDup f /\ length f = 4%nat /\ Forall (fun v => (v < 8)%nat /\ on_side b s (place (v_point P) v)) f) (face_list P) ss) /\
  (* seen from outside *)
  fold_right Qplus 0 (map (fun f => pyramid (map (place (v_point P)) f)) (face_list P))
    == 6 * ((bmax b AX - bmin b AX) * (bmax b AY - bmin b AY) * (bmax b AZ - bmin b AZ)).
Proof.
  intros b P.
  assert (EV : v_point P = [corner b true false false; corner b false false true; corner b false false false; corner b false true false;
                            corner b true false true; corner b false true true; corner b true true false; corner b true true true]) by reflexivity.
  assert (EF : face_list P = [[0; 4; 1; 2]; [2; 3; 6; 0]; [3; 5; 7; 6]; [1; 5; 3; 2]; [4; 7; 5; 1]; [0; 6; 7; 4]]%nat) by (vm_compute; reflexivity).
  rewrite EF, EV. clear EF EV P. split; [|split; [|split]].
  - unfold corners, corner. cbn [flat_map map app].
    set (p0 := (bmin b AX, bmin b AY, bmin b AZ)). set (p1 := (bmin b AX, bmin b AY, bmax b AZ)).
    set (p2 := (bmin b AX, bmax b AY, bmin b AZ)). set (p3 := (bmin b AX, bmax b AY, bmax b AZ)).
    set (p4 := (bmax b AX, bmin b AY, bmin b AZ)). set (p5 := (bmax b AX, bmin b AY, bmax b AZ)).
    set (p6 := (bmax b AX, bmax b AY, bmin b AZ)). set (p7 := (bmax b AX, bmax b AY, bmax b AZ)).
    apply Permutation_trans with [p0; p1; p4; p2; p5; p3; p6; p7].
    + change [p4; p1; p0; p2; p5; p3; p6; p7] with ([p4; p1; p0] ++ [p2; p5; p3; p6; p7]).
      change [p0; p1; p4; p2; p5; p3; p6; p7] with (rev [p4; p1; p0] ++ [p2; p5; p3; p6; p7]).
      apply Permutation_app_tail, Permutation_rev.
    + do 2 apply perm_skip. apply Permutation_trans with [p2; p4; p5; p3; p6; p7]; [apply perm_swap|]. apply perm_skip.
      apply Permutation_sym. change [p3; p4; p5; p6; p7] with ([p3] ++ [p4; p5] ++ [p6; p7]).
      change [p4; p5; p3; p6; p7] with ([p4; p5] ++ [p3] ++ [p6; p7]). rewrite !app_assoc. apply Permutation_app_tail, Permutation_app_comm.
  - intros u v H. cbn in H. repeat (destruct H as [H|H]; [injection H as <- <-; split; reflexivity|]). contradiction.
  - exists [(AY, false); (AZ, false); (AY, true); (AX, false); (AZ, true); (AX, true)]. split.
    + unfold sides_of_box.
      apply NoDup_Permutation; [repeat constructor; cbn; intuition discriminate | repeat constructor; cbn; intuition discriminate |].
      intros [[] []]; cbn; intuition.
    + repeat (apply Forall2_cons; [split; [repeat constructor; cbn; intuition lia|]; split; [reflexivity|];
        repeat (apply Forall_cons; [split; [lia | reflexivity]|]); apply Forall_nil|]). apply Forall2_nil.
  - unfold pyramid, place, corner, det. cbn [map nth fold_right combine tl fst snd]. ring.
Qed.
Print Assumptions cube_is_the_box.

Example cube_sample : v_point (make_cube (Aab (v3 0 0 0) (v3 1 2 3))) = [(1, 0, 0); (0, 0, 3); (0, 0, 0); (0, 2, 0); (1, 0, 3); (0, 2, 3); (1, 2, 0); (1, 2, 3)] /\
  length (face_list (make_cube (Aab (v3 0 0 0) (v3 1 2 3)))) = 6%nat.
Proof. split; reflexivity. Qed.

(** ** C137: adjusting scales the shape *)
(** One axis of all vertices.  The coordinates have passed through a stream: [nearest 6]. *)
Theorem adjust_scales : forall shift shrink cs out, adjust_axis shift shrink cs = Some out ->
  exists ts, Forall2 (nearest 6) cs ts /\ length out = length cs /\
  forall i j a b x y, nth_error ts i = Some a -> nth_error ts j = Some b -> nth_error out i = Some x -> nth_error out j = Some y ->
  (x - y) * shrink == a - b.
Proof.
  intros shift shrink cs out H. destruct (adjust_some _ _ _ _ H) as (NZ & m & mean & F & ->).
  exists (map (shown 6) cs). split; [|split].
  - clear. induction cs as [|c cs IH]; constructor; [apply nearest_shown; lia|exact IH].
  - apply map_length.
  - intros i j a b x y Ha Hb Hx Hy. rewrite nth_error_map in *.
    destruct (nth_error cs i) as [c|]; [|discriminate Ha]. destruct (nth_error cs j) as [d|]; [|discriminate Hb].
    cbn in *. injection Ha as <-. injection Hb as <-. injection Hx as <-. injection Hy as <-.
    unfold moved. destruct (Qltb 1 shrink); field; exact NZ.
Qed.
Print Assumptions adjust_scales.
(** It is done whenever there are vertices, the sum of their sizes fits an int and the factor is not 0. *)
Theorem adjust_done : forall shift shrink cs (B : Q), cs <> [] -> ~ shrink == 0 -> 0 <= B ->
  Forall (fun c => few_digits 6 c /\ Qabs c <= B) cs -> inject_Z (Z.of_nat (length cs)) * B <= 2147483647 ->
  exists out, adjust_axis shift shrink cs = Some out.
Proof.
  intros shift shrink cs B N NZ HB HF HS. rewrite adjust_frame.
  destruct (frame_some B (map (shown 6) cs) HB) as ([m mean] & F).
  - intros C. destruct cs; [contradiction|discriminate C].
  - apply Forall_map. eapply Forall_impl; [|exact HF]. intros c [Fc Bc]. cbv beta. rewrite (shown_few 6 c) by (lia || exact Fc). exact Bc.
  - rewrite map_length. exact HS.
  - rewrite F. cbn [bind]. rewrite move_all_some by exact NZ. eexists. reflexivity.
Qed.
Print Assumptions adjust_done.
(** It is undefined when whole coordinates that are not negative sum up to 2^31 or more. *)
Lemma to_int_eq q q' : q == q' -> to_int q = to_int q'.
Proof.
  intro E. unfold to_int. rewrite (Qround.Qfloor_comp _ _ E), (Qround.Qfloor_comp (- q) (- q')) by (rewrite E; reflexivity).
  replace (Qle_bool 0 q) with (Qle_bool 0 q') by (rewrite E; reflexivity). reflexivity.
Qed.
Lemma gather_over : forall (zs : list Z) cs mn mean, (0 <= mean)%Z -> Forall2 (fun z c => (0 <= z)%Z /\ c == inject_Z z) zs cs ->
  (2147483648 <= fold_right Z.add mean zs)%Z -> (mean <= 2147483647)%Z -> gather cs mn mean = None.
Proof.
  intros zs cs mn mean H0 F. revert mn mean H0. induction F as [|z c zs cs [Hz E] F IH]; intros mn mean H0 S L; cbn [fold_right gather] in *; [lia|].
  rewrite (to_int_eq _ (inject_Z (mean + z))) by (rewrite E, inject_Z_plus; reflexivity).
  unfold to_int. rewrite (proj2 (Qle_bool_iff 0 (inject_Z (mean + z)))) by (change 0 with (inject_Z 0); rewrite <- Zle_Qle; lia).
  rewrite Qround.Qfloor_Z. destruct (Z.leb_spec (- 2147483648) (mean + z)); [|lia]. destruct (Z.leb_spec (mean + z) 2147483647); cbn [andb bind]; [|reflexivity].
  apply IH; [lia| |lia]. assert (X : forall l a b, fold_right Z.add (a + b)%Z l = (b + fold_right Z.add a l)%Z).
  { induction l as [|y l IHl]; intros a b; cbn [fold_right]; [lia|]. rewrite IHl. lia. }
  rewrite X. lia.
Qed.
Theorem adjust_undefined : forall shift shrink zs, Forall (fun z => (0 <= z)%Z /\ few_digits 6 (inject_Z z)) zs ->
  (2147483648 <= fold_right Z.add 0 zs)%Z -> adjust_axis shift shrink (map inject_Z zs) = None.
Proof.
  intros shift shrink zs F S. unfold adjust_axis. cbv zeta. rewrite (gather_over zs); [reflexivity|lia| |exact S|lia].
  clear S. induction F as [|z zs [Hz Fz] F IH]; cbn [map]; constructor; [|exact IH]. split; [exact Hz|]. apply shown_few; [lia|exact Fz].
Qed.
Print Assumptions adjust_undefined.
Example adjust_undefined_nonvacuous : Forall (fun z => (0 <= z)%Z /\ few_digits 6 (inject_Z z)) [1000000000; 1147480000; 3648]%Z /\
  fold_right Z.add 0%Z [1000000000; 1147480000; 3648]%Z = 2147483648%Z.
Proof.
  split; [|reflexivity]. repeat (apply Forall_cons; [split; [discriminate|]|]); [exists 1%Z, 9%Z|exists 114748%Z, 4%Z|exists 3648%Z, 0%Z|apply Forall_nil]; split; reflexivity.
Qed.
Example adjust_sample : adjust_axis 5 2 [0; 10; 10; 10] <> None /\ Forall (fun c => few_digits 6 c /\ Qabs c <= 10) [0; 10; 10; 10].
Proof.
  split; [vm_compute; discriminate|]. repeat (apply Forall_cons; [split; [|discriminate]|]); [exists 0%Z, 0%Z|exists 1%Z, 1%Z|exists 1%Z, 1%Z|exists 1%Z, 1%Z|apply Forall_nil]; split; reflexivity.
Qed.

(** ** C138: the shift is divided as well *)
Theorem adjust_shift_refuted : exists cs out out', Forall (few_digits 6) cs /\
  adjust_axis 0 2 cs = Some out /\ adjust_axis 4 2 cs = Some out' /\ Forall2 (fun x y => y == x + 2) out out' /\ out <> [].
Proof.
  exists [0; 10]. 
  exists [(shown 6 0 + inject_Z 0 - shown 6 0) / 2 + inject_Z 5; (shown 6 10 + inject_Z 0 - shown 6 0) / 2 + inject_Z 5].
  exists [(shown 6 0 + inject_Z 4 - shown 6 0) / 2 + inject_Z 5; (shown 6 10 + inject_Z 4 - shown 6 0) / 2 + inject_Z 5].
  split; [constructor; [exists 0%Z, 0%Z; split; reflexivity|constructor; [exists 1%Z, 1%Z; split; reflexivity|constructor]]|].
  split; [vm_compute; reflexivity|]. split; [vm_compute; reflexivity|].
  split; [repeat constructor; vm_compute; reflexivity | discriminate].
Qed.
Print Assumptions adjust_shift_refuted.
Theorem adjust_shift_partial : forall shift shrink cs out out',
  adjust_axis 0 shrink cs = Some out -> adjust_axis shift shrink cs = Some out' ->
  Forall2 (fun x y => y == x + inject_Z shift / shrink) out out'.
Proof.
  intros shift shrink cs out out' H H'. destruct (adjust_some _ _ _ _ H) as (NZ & m & mean & F & ->).
  destruct (adjust_some _ _ _ _ H') as (_ & m' & mean' & F' & ->). rewrite F in F'.
  apply (f_equal (fun o => match o with Some x => x | None => (0, 0%Z) end)) in F'. cbv beta iota in F'.
  pose proof (f_equal fst F') as E1. pose proof (f_equal snd F') as E2. cbn [fst snd] in E1, E2. subst m' mean'. clear.
  induction cs as [|c cs IH]; constructor; [|exact IH].
  unfold moved. change (inject_Z 0) with 0. destruct (Qltb 1 shrink); unfold Qdiv; ring.
Qed.
Print Assumptions adjust_shift_partial.
Example adjust_shift_sample : adjust_axis 0 3 [0; 10; 10; 10] <> None /\ adjust_axis 5 3 [0; 10; 10; 10] <> None.
Proof. split; vm_compute; discriminate. Qed.

(** ** C139: a shrunk object need not stay where it was *)
Theorem adjust_place_refuted : exists cs out x, Forall (few_digits 6) cs /\ Forall (fun c => 0 <= c <= 10) cs /\
  adjust_axis 0 2 cs = Some out /\ In x out /\ 10 < x.
Proof.
  exists [0; 10; 10; 10].
  set (f := fun c => (shown 6 c + inject_Z 0 - shown 6 0) / 2 + inject_Z 7).
  exists [f 0; f 10; f 10; f 10], (f 10).
  split; [repeat (apply Forall_cons; [|]); [exists 0%Z, 0%Z|exists 1%Z, 1%Z|exists 1%Z, 1%Z|exists 1%Z, 1%Z|apply Forall_nil]; split; reflexivity|].
  split; [repeat (apply Forall_cons; [split; discriminate|]); apply Forall_nil|].
  split; [vm_compute; reflexivity|]. split; [right; left; reflexivity|]. vm_compute. reflexivity.
Qed.
Print Assumptions adjust_place_refuted.
(** Coordinates that are not negative stay so, and at most double. *)
Theorem adjust_place_partial : forall shrink cs out M, 1 < shrink -> Forall (fun c => few_digits 6 c /\ 0 <= c <= M) cs ->
  adjust_axis 0 shrink cs = Some out -> Forall (fun x => 0 <= x <= M + M / shrink) out.
Proof.
  intros shrink cs out M HS HF H. destruct (adjust_some _ _ _ _ H) as (NZ & m & mean & F & ->).
  assert (HF' : Forall (fun c => 0 <= c <= M) (map (shown 6) cs)).
  { apply Forall_map. eapply Forall_impl; [|exact HF]. intros c [Fc Bc]. cbv beta. rewrite (shown_few 6 c) by (lia || exact Fc). exact Bc. }
  destruct (frame_pos M _ m mean HF' F) as (Hm & Hmin & Hmean).
  rewrite Forall_map in HF', Hmin. apply Forall_map. rewrite Forall_forall in HF', Hmin |- *.
  intros c Hc. specialize (HF' c Hc). specialize (Hmin c Hc). cbv beta in *.
  unfold moved. destruct (Qltb_spec 1 shrink) as [L|L]; [|lra].
  set (t := shown 6 c) in *. change (inject_Z 0) with 0.
  assert (IP : 0 < / shrink) by (apply Qinv_lt_0_compat; lra).
  assert (A : 0 <= (t + 0 - m) / shrink <= M / shrink).
  { unfold Qdiv. split.
    - apply Qmult_le_0_compat; lra.
    - apply Qmult_le_compat_r; lra. }
  lra.
Qed.
Print Assumptions adjust_place_partial.
Example adjust_place_sample : 1 < 2 /\ adjust_axis 0 2 [0; 10; 10; 10] <> None.
Proof. split; [reflexivity|]. vm_compute. discriminate. Qed.

(** The structure make_cube leaves is linked as a polyhedron is: opposite half-edges belong together and end
    where the other one starts, and following the next half-edge one goes round a face of four. *)
Definition linked (p : hds) (n : nat) : Prop := length (h_next p) = n /\ length (h_opp p) = n /\ length (h_vert p) = n /\ length (h_face p) = n /\
  forall h, (h < n)%nat -> (nx p h < n)%nat /\ (op p h < n)%nat /\ op p h <> h /\ op p (op p h) = h /\ vt p (op p (nx p h)) = vt p h /\
    get (h_face p) (nx p h) = get (h_face p) h /\ nx p (nx p (nx p (nx p h))) = h.
Theorem cube_is_linked : forall b, linked (make_cube b) 24.
Proof.
  intro b.
  assert (E1 : h_next (make_cube b) = [12; 2; 0; 4; 5; 17; 19; 14; 6; 10; 15; 9; 1; 16; 20; 11; 23; 3; 13; 21; 22; 8; 7; 18]%nat) by (vm_compute; reflexivity).
  assert (E2 : h_opp (make_cube b) = [3; 6; 9; 0; 11; 7; 1; 5; 10; 2; 8; 4; 13; 12; 15; 14; 17; 16; 19; 18; 21; 20; 23; 22]%nat) by (vm_compute; reflexivity).
  assert (E3 : h_vert (make_cube b) = [0; 1; 2; 2; 3; 6; 4; 3; 1; 1; 5; 2; 4; 0; 5; 3; 6; 0; 4; 7; 7; 5; 6; 7]%nat) by (vm_compute; reflexivity).
  assert (E4 : h_face (make_cube b) = [0; 0; 0; 1; 1; 1; 4; 2; 4; 3; 3; 3; 0; 5; 2; 3; 5; 1; 5; 4; 2; 4; 2; 5]%nat) by (vm_compute; reflexivity).
  unfold linked. rewrite E1, E2, E3, E4. clear. split; [reflexivity|]. split; [reflexivity|]. split; [reflexivity|]. split; [reflexivity|]. intros h H.
  do 24 (destruct h as [|h]; [cbn [get nth]; repeat split; try lia|]). lia.
Qed.
Print Assumptions cube_is_linked.
Example cube_is_linked_nonvacuous : linked (make_cube (Aab (fun _ => 0%Q) (fun _ => 1%Q))) 24.
Proof. exact (cube_is_linked (Aab (fun _ => 0%Q) (fun _ => 1%Q))). Qed.
