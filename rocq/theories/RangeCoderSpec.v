(** What a user of the range coder does with it: a message is a list of items, each coded
    with a table of slice widths known to both sides (or as a raw byte / short). *)
From Coq Require Import List ZArith Bool.
From Verif Require Import RangeCoderModel.
Import ListNotations.
Open Scope Z_scope.

(** How one item is coded: with encode_freq and a total, or encode_shift and a precision,
    and a table of widths; or encode_byte / encode_short (rangecod.h:142-143). *)
Inductive method :=
| ByFreq (tot : Z) (widths : list Z)
| ByShift (sh : Z) (widths : list Z)
| RawByte
| RawShort.

Definition sum (l : list Z) : Z := fold_right Z.add 0 l.
(** Cumulative width in front of entry [i]. *)
Definition before (i : nat) (ws : list Z) : Z := sum (firstn i ws).

Definition table_ok (tot : Z) (ws : list Z) (v : Z) : Prop :=
  Forall (fun w => 0 <= w) ws /\ sum ws <= tot /\
  0 <= v < Z.of_nat (length ws) /\ 1 <= nth (Z.to_nat v) ws 0.

(** The items a coder accepts: totals up to 2^23 (rangecod.h: "MUST be less than 1<<23"). *)
Definition codable (mv : method * Z) : Prop :=
  match mv with
  | (ByFreq tot ws, v) => 1 <= tot <= 2 ^ 23 /\ table_ok tot ws v
  | (ByShift sh ws, v) => 0 <= sh <= 23 /\ table_ok (2 ^ sh) ws v
  | (RawByte, v) => 0 <= v < 2 ^ 8
  | (RawShort, v) => 0 <= v < 2 ^ 16
  end.

Definition put (e : enc) (m : method) (v : Z) : option enc :=
  match m with
  | ByFreq tot ws => encode_freq e (nth (Z.to_nat v) ws 0) (before (Z.to_nat v) ws) tot
  | ByShift sh ws => encode_shift e (nth (Z.to_nat v) ws 0) (before (Z.to_nat v) ws) sh
  | RawByte => encode_byte e v
  | RawShort => encode_short e v
  end.

(** Linear search of the slice holding the cumulative count [cf]. *)
Fixpoint find_slice (ws : list Z) (cf : Z) : nat :=
  match ws with
  | [] => O
  | w :: r => if cf <? w then O else S (find_slice r (cf - w))
  end.

Definition get (d : dec) (m : method) : option (Z * dec) :=
  match m with
  | ByFreq tot ws =>
    match decode_culfreq d tot with
    | None => None
    | Some (cf, d1) => let i := find_slice ws cf in
      Some (Z.of_nat i, decode_update d1 (nth i ws 0) (before i ws) tot)
    end
  | ByShift sh ws =>
    match decode_culshift d sh with
    | None => None
    | Some (cf, d1) => let i := find_slice ws cf in
      Some (Z.of_nat i, decode_update d1 (nth i ws 0) (before i ws) (2 ^ sh))
    end
  | RawByte => decode_byte d
  | RawShort => decode_short d
  end.

Fixpoint puts (e : enc) (l : list (method * Z)) : option enc :=
  match l with
  | [] => Some e
  | (m, v) :: r => match put e m v with None => None | Some e' => puts e' r end
  end.
Fixpoint gets (d : dec) (l : list method) : option (list Z * dec) :=
  match l with
  | [] => Some ([], d)
  | m :: r =>
    match get d m with
    | None => None
    | Some (v, d') =>
      match gets d' r with None => None | Some (vs, d'') => Some (v :: vs, d'') end
    end
  end.

(** Write a message behind what the buffer already holds; [c] is the lead byte. *)
Definition write_message (c : Z) (buffer : list Z) (msg : list (method * Z)) : option (list Z) :=
  match puts (start_encoding c 0 buffer) msg with None => None | Some e => done_encoding e end.

(** Read a message at the cursor; also returns what lies behind it. *)
Definition read_message (input : list Z) (ms : list method) : option (Z * list Z * list Z) :=
  match start_decoding input with
  | None => None
  | Some (c, d) =>
    match gets d ms with
    | None => None
    | Some (vs, d') =>
      match done_decoding d' with None => None | Some rest => Some (c, vs, rest) end
    end
  end.
