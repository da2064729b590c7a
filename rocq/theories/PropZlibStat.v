(** C216: the statistics of the decompressor. *)
From Coq Require Import List Arith Lia.
From Verif Require Import ZlibStatModel.
Import ListNotations.

(** The claim: nothing is written outside the buffer, and what is printed for a level is the length of its result. *)
Definition inside (n : nat) (z : nat -> nat) (g : nat) : Prop := overflows n z g = false.
Definition true_lengths (z : nat -> nat) (printed : list nat) : Prop := printed = map z (seq 1 9).
(** The shortest result up to level [l], and not above [g]. *)
Fixpoint shortest (z : nat -> nat) (g l : nat) : nat := match l with O => g | S k => Nat.min (shortest z g k) (z (S k)) end.

Lemma levels_shortest z g : forall k a, levels z (seq (S a) k) (shortest z g a) = map (shortest z g) (seq (S a) k).
Proof.
  induction k as [|k IH]; intro a; [reflexivity|]. cbn [seq levels map].
  assert (E : compress2 (z (S a)) (shortest z g a) = shortest z g (S a)).
  { unfold compress2. cbn [shortest]. destruct (Nat.leb_spec (z (S a)) (shortest z g a)); lia. }
  rewrite E. f_equal. apply IH.
Qed.
(** Full claim of C216: [inside n z g /\ true_lengths z (statistics z g)] whatever the variable holds.  Proved: the
    number printed for a level is the shortest result up to this level, or what the variable held if that is less; nothing is
    written outside if the variable held at most the size of the buffer, or if the result of the first level fits; the lengths
    printed are right exactly if the results get no longer from level to level and the variable held enough for the first. *)
Theorem zlib_statistics_partial : forall z g n,
  statistics z g = map (shortest z g) (seq 1 9) /\
  (g <= 12 * n \/ z 1 <= 12 * n -> inside n z g) /\
  (true_lengths z (statistics z g) <-> z 1 <= g /\ forall l, 1 <= l < 9 -> z (S l) <= z l).
Proof.
  intros z g n. assert (E : statistics z g = map (shortest z g) (seq 1 9)) by exact (levels_shortest z g 9 0).
  split; [exact E|]. unfold inside, overflows. rewrite E. split.
  - intro H. apply Bool.not_true_is_false. intro X. apply existsb_exists in X. destruct X as (w & I & X). apply Nat.ltb_lt in X. unfold buffer in X.
    apply in_map_iff in I. destruct I as (l & <- & I). apply in_seq in I.
    assert (A : forall k, shortest z g k <= g) by (induction k; cbn [shortest]; lia).
    assert (B : forall k, shortest z g (S k) <= z 1) by (induction k as [|k IH]; [cbn [shortest]; lia|cbn [shortest] in *; lia]).
    destruct l as [|l]; [lia|]. specialize (A (S l)). specialize (B l). lia.
  - unfold true_lengths. split.
    + intro H. cbn [seq map shortest] in H.
      injection H as H1 H2 H3 H4 H5 H6 H7 H8 H9. split; [lia|]. intros l L.
      assert (D : l = 1 \/ l = 2 \/ l = 3 \/ l = 4 \/ l = 5 \/ l = 6 \/ l = 7 \/ l = 8) by lia.
      repeat (destruct D as [->|D]; [lia|]). subst l. lia.
    + intros (G & D). apply map_ext_in. intros l I. apply in_seq in I. destruct I as (I1 & I2). cbn [Nat.add] in I2.
      induction l as [|l IH]; [lia|]. destruct l as [|l]; [cbn [shortest]; lia|].
      change (Nat.min (shortest z g (S l)) (z (S (S l))) = z (S (S l))). rewrite IH by lia. specialize (D (S l) ltac:(lia)). lia.
Qed.
Print Assumptions zlib_statistics_partial.
(** The case of the theorem: a variable that held the size of the buffer, results that get shorter. *)
Example zlib_case : 1200 <= 12 * 100 /\ 100 - 1 <= 1200 /\ (forall l, 1 <= l < 9 -> 100 - S l <= 100 - l) /\ statistics (fun l => 100 - l) 1200 = [99; 98; 97; 96; 95; 94; 93; 92; 91].
Proof. split; [cbn; lia|]. split; [lia|]. split; [lia|reflexivity]. Qed.
(** With vertices that do not compress (the result is longer than the input, as zlib stores it with a header) and a variable
    that happens to hold more, bytes behind the buffer are overwritten. *)
Theorem zlib_overflow : forall n z g, 12 * n < z 1 -> 12 * n < g -> ~ inside n z g.
Proof.
  intros n z g Z G I. destruct (zlib_statistics_partial z g n) as (E & _). unfold inside, overflows in I. rewrite E in I. cbn [seq map existsb shortest] in I.
  apply Bool.orb_false_iff in I. destruct I as (I & _). apply Nat.ltb_ge in I. unfold buffer in I. lia.
Qed.
Print Assumptions zlib_overflow.
(** Two vertices: 24 bytes, 35 bytes as zlib stores them.  And a level whose result is longer than that of the level before: the
    number printed is that of the level before. *)
Theorem zlib_statistics_refuted : (exists n z g, ~ inside n z g) /\
  exists n z g, inside n z g /\ z 1 <= g <= 12 * n /\ ~ true_lengths z (statistics z g).
Proof.
  split.
  - exists 2, (fun _ => 35), 4096. apply zlib_overflow; cbn; lia.
  - exists 10, (fun l => if l =? 2 then 91 else 90), 120. split; [reflexivity|]. split; [cbn; lia|]. intro H. vm_compute in H. discriminate H.
Qed.
Print Assumptions zlib_statistics_refuted.
