(** Quantisation of positions in floating point. *)
From Coq Require Import ZArith QArith Qabs Lqa Lia Floats.SpecFloat.
From Verif Require Import QuantModel FloatQuantModel FloatQuantProofs.
Open Scope Z_scope.

(** False of single precision: a vertex that the compressor has moved to the centre of its cell may
    lie in another cell, so that it is written, and comes back, elsewhere.  14 bits, a box from
    8388608 to 8404995, the vertex at 8394070: it is compressed at 8394071 and decoded at 8394072. *)
Theorem float_positions_stable_refuted : exists bits corner range p q p' q',
  let step := quantStepF bits range in
  1 <= bits <= 16 /\ SFleb corner p = true /\ SFleb p (SFadd 24 128 corner range) = true /\
  quantizeCoordF bits corner step p = Some (q, p') /\
  getQuantizedPosF corner step p' = Some q' /\ 0 <= q' < 2 ^ bits /\ q' <> q /\ SFeqb (getPosF corner step q') p' = false.
Proof.
  exists 14, (of_int 24 128 8388608), (of_int 24 128 16387), (of_int 24 128 8394070), 5461, (of_int 24 128 8394071), 5462.
  split; [lia|]. vm_compute. repeat split; discriminate.
Qed.
Print Assumptions float_positions_stable_refuted.
Example float_positions_stable_nonvacuous : (* an ordinary case is stable *)
  let step := quantStepF 12 (of_int 24 128 1000) in
  quantizeCoordF 12 (of_int 24 128 (-500)) step (of_int 24 128 123) = Some (2551, S754_finite false 16112000 (-17)) /\
  quantizeCoordF 12 (of_int 24 128 (-500)) step (S754_finite false 16112000 (-17)) = Some (2551, S754_finite false 16112000 (-17)).
Proof. vm_compute. split; reflexivity. Qed.

(** True as long as the box is not too far from the origin: if its corner is within 2^22 - 2^16
    cells of it, any rounding within half a unit in the last place (24 bits for float, 53 for
    double, no underflow) leaves each of up to 2^16 grid positions fixed.  Missing for the full
    claim: nothing can be, see the refutation. *)
Theorem rounded_positions_stable_partial : forall r24 r53 corner step z,
  (forall x, Qabs (r24 x - x) <= (1 # 2 ^ 24) * Qabs x)%Q -> (forall x, Qabs (r53 x - x) <= (1 # 2 ^ 53) * Qabs x)%Q ->
  (0 < step)%Q -> 0 <= z < 2 ^ 16 -> (Qabs corner <= inject_Z (2 ^ 22 - 2 ^ 16) * step)%Q ->
  getQuantizedPosR r24 corner step (getPosR r24 r53 corner step z) = z.
Proof. intros. apply stable_near; auto. Qed.
Print Assumptions rounded_positions_stable_partial.
(** The worst rounding allowed: everything too large. *)
Example rounded_positions_nonvacuous :
  let r24 := fun x => (x * (1 + (1 # 2 ^ 24)))%Q in let r53 := fun x => (x * (1 + (1 # 2 ^ 53)))%Q in
  (forall x, Qabs (r24 x - x) <= (1 # 2 ^ 24) * Qabs x)%Q /\ (forall x, Qabs (r53 x - x) <= (1 # 2 ^ 53) * Qabs x)%Q /\
  getQuantizedPosR r24 4128768 1 (getPosR r24 r53 4128768 1 65535) = 65535 /\
  (~ getPosR r24 r53 4128768 1 65535 == getPos 4128768 1 65535)%Q.
Proof.
  cbv zeta. split; [|split; [|split]].
  - intro x. setoid_replace (x * (1 + (1 # 2 ^ 24)) - x)%Q with ((1 # 2 ^ 24) * x)%Q by ring. rewrite Qabs_Qmult. apply Qle_refl.
  - intro x. setoid_replace (x * (1 + (1 # 2 ^ 53)) - x)%Q with ((1 # 2 ^ 53) * x)%Q by ring. rewrite Qabs_Qmult. apply Qle_refl.
  - vm_compute. reflexivity.
  - vm_compute. discriminate.
Qed.
