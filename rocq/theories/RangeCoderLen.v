(** The byte counter of the encoder and the trailer done_encoding writes. *)
From Coq Require Import List ZArith Lia.
From Verif Require Import RangeCoderModel RangeCoderProofs RangeCoderTrace RangeCoderSpec RangeCoderSpecProofs.
Import ListNotations.
Open Scope Z_scope.

Definition counted (e : enc) : Prop := e_cnt e = w32 (Z.of_nat (nb e) - 1).

Lemma iter_counted h e : inv h e -> h + 1 < 2 ^ 32 -> e_range e <= Bottom -> counted e -> counted (enc_norm_iter e).
Proof.
  intros Hi Hh HB C. destruct (iter_spec h e Hi Hh HB) as (_ & _ & _ & N & _). unfold counted. rewrite N.
  assert (E : e_cnt (enc_norm_iter e) = w32 (e_cnt e + 1)).
  { unfold enc_norm_iter. destruct (e_low e <? _); [reflexivity|]. destruct (negb _); reflexivity. }
  rewrite E, C. unfold w32. rewrite Zplus_mod_idemp_l. f_equal. lia.
Qed.

Lemma loop_counted f : forall h e e', inv h e -> h + Z.of_nat f < 2 ^ 32 -> counted e -> enc_normalize_loop f e = Some e' ->
  counted e' /\ (nb e' <= nb e + f)%nat.
Proof.
  induction f as [|f IH]; intros h e e' Hi Hh C E; cbn [enc_normalize_loop] in E.
  - destruct (e_range e <=? Bottom); [discriminate|]. injection E as <-. split; [auto|lia].
  - destruct (Z.leb_spec (e_range e) Bottom) as [L|L].
    + destruct (iter_spec h e Hi ltac:(lia) L) as (Hi' & _ & _ & N & _).
      destruct (IH (h + 1) _ e' Hi' ltac:(lia) (iter_counted h e Hi ltac:(lia) L C) E) as [A B]. split; [exact A|lia].
    + injection E as <-. split; [auto|lia].
Qed.

Lemma trace_counted ts : forall h e e', inv h e -> h + 4 * Z.of_nat (length ts) + 4 < 2 ^ 32 -> Forall valid_step ts -> counted e ->
  enc_trace e ts = Some e' -> counted e' /\ inv (h + 4 * Z.of_nat (length ts)) e' /\ (nb e' <= nb e + 4 * length ts)%nat.
Proof.
  induction ts as [|[[k sy] lt] ts IH]; intros h e e' Hi Hh Hv C E; cbn [enc_trace] in E.
  - injection E as <-. split; [auto|]. split; [apply (inv_weaken h); [auto|cbn; lia]|lia].
  - inversion Hv as [|? ? Hv1 Hv2]; subst. cbn [length] in Hh.
    destruct (enc_step_eq h e k sy lt Hi ltac:(lia) Hv1) as (n & e1 & E1 & Hi1 & Hn & B & ES). rewrite ES in E.
    destruct (narrow_spec (h + 4) e1 k sy lt Hi1 B Hv1) as (Hi2 & _ & _ & N & _).
    destruct (loop_counted 4 h e e1 Hi ltac:(lia) C E1) as [C1 L1].
    assert (C2 : counted (narrow e1 k sy lt)) by (unfold counted; rewrite N; exact C1).
    destruct (IH (h + 4) _ e' Hi2 ltac:(lia) Hv2 C2 E) as (A & I & L). rewrite N in L. cbn [length]. split; [exact A|]. split; [|lia].
    apply (inv_weaken _ _ _ I). lia.
Qed.

(** The three bytes after the code, big-endian. *)
Lemma trailer c msg seg : 0 <= c < 256 -> Forall codable msg -> 4 * Z.of_nat (length msg) + 8 < 2 ^ 32 ->
  write_message c [] msg = Some seg ->
  exists body x y z, seg = body ++ [x; y; z] /\ (x * 256 + y) * 256 + z = Z.of_nat (length seg) mod 2 ^ 24 /\
    (5 <= length seg <= 4 * length msg + 9)%nat.
Proof.
  intros Hc Hm Hn W. rewrite write_segment in W. unfold enc_segment in W.
  assert (Hv : Forall valid_step (map step_of msg)).
  { apply Forall_forall. intros s Hs. apply in_map_iff in Hs. destruct Hs as (mv & <- & Hin). apply step_of_valid. rewrite Forall_forall in Hm. auto. }
  destruct (enc_trace (start_encoding c 0 []) (map step_of msg)) as [e|] eqn:E; [|discriminate].
  assert (C0 : counted (start_encoding c 0 [])) by reflexivity.
  destruct (trace_counted (map step_of msg) 0 _ e (start_inv c 0 [] Hc (Forall_nil _)) ltac:(rewrite map_length; lia) Hv C0 E) as (C & I & L).
  rewrite map_length in *. destruct (normalize_spec _ e I ltac:(lia)) as (n & e1 & EN & I1 & Hn1 & _).
  destruct (loop_counted 4 _ e e1 I ltac:(lia) C EN) as [C1 L1]. unfold done_encoding in W. rewrite EN in W.
  assert (NB : nb (start_encoding c 0 []) = 1%nat) by reflexivity. rewrite NB in L.
  set (cnt := w32 (e_cnt e1 + 5)) in *. set (tmp := if Z.land (e_low e1) (Bottom - 1) <? _ then _ else _) in *.
  assert (P1 : (1 <= nb e1)%nat) by (unfold nb, prefix; rewrite app_length; cbn [length]; lia).
  assert (LS : length seg = (nb e1 + 4)%nat).
  { apply Some_inj in W. rewrite <- W. unfold nb, prefix. rewrite !app_length. cbn [length]. destruct (255 <? tmp); cbn [length]; rewrite !repeat_length; lia. }
  assert (EC : cnt = w32 (Z.of_nat (length seg))).
  { unfold cnt. rewrite C1. unfold w32. rewrite Zplus_mod_idemp_l. f_equal. lia. }
  clearbody cnt tmp. apply Some_inj in W.
  exists (e_out e1 ++ (if 255 <? tmp then (e_buf e1 + 1) mod 256 :: repeat 0 (Z.to_nat (e_help e1)) else e_buf e1 :: repeat 255 (Z.to_nat (e_help e1))) ++ [Z.land tmp 255]),
    (Z.land (Z.shiftr cnt 16) 255), (Z.land (Z.shiftr cnt 8) 255), (Z.land cnt 255).
  split; [rewrite <- W, <- !app_assoc; reflexivity|]. split; [|lia].
  replace 255 with (Z.ones 8) by reflexivity. rewrite !Z.land_ones, !Z.shiftr_div_pow2 by lia.
  assert (R : cnt mod 2 ^ 24 = Z.of_nat (length seg) mod 2 ^ 24).
  { rewrite EC. unfold w32. change (2 ^ 32) with (2 ^ 24 * 2 ^ 8). rewrite Z.rem_mul_r by lia. rewrite Z.mul_comm, Z.mod_add by lia. apply Z.mod_mod. lia. }
  rewrite <- R. clear. change (2 ^ 16) with 65536. change (2 ^ 8) with 256. change (2 ^ 24) with 16777216. Z.div_mod_to_equations. lia.
Qed.
