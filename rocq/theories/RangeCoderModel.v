(** Model of the range coder, /repo/src/PPMC/rangeCoder/rangecod.c (and rangecod.h).
    Machine words are [Z] with the 32-bit wrap written explicitly ([w32]).
    A result [None] stands for behaviour the C code leaves undefined or that does not
    terminate: division by zero, over-long shift, reading past the input, an endless
    renormalisation loop.  Not modelled here: the fixed size of the output
    buffer (mymesh.cpp:45, see BufferModel); the output is an unbounded byte list. *)
From Coq Require Import List ZArith.
Import ListNotations.
Open Scope Z_scope.

(** uint4 arithmetic, port.h:10-16. *)
Definition w32 (x : Z) : Z := x mod 2 ^ 32.

(** rangecod.c:90-91 CODE_BITS, Top_value; 105-107 SHIFT_BITS, EXTRA_BITS, Bottom_value. *)
Definition Top : Z := 2 ^ 31.
Definition SHIFT_BITS : Z := 23.
Definition EXTRA_BITS : Z := 7.
Definition Bottom : Z := 2 ^ 23.

(** rangecod.h: struct rangecoder, the fields used while encoding.  [e_out] is the
    memory from the start of the buffer up to *p_dataOffset. *)
Record enc := Enc {
  e_low : Z; e_range : Z; e_help : Z; e_buf : Z; e_cnt : Z; e_out : list Z }.

(** rangecod.h: struct rangecoder, the fields used while decoding.  [d_in] is the memory
    from *p_dataOffset onwards. *)
Record dec := Dec {
  d_low : Z; d_range : Z; d_help : Z; d_buf : Z; d_in : list Z }.

(** rangecod.c:145-151 start_encoding.  [out] is what the buffer already holds. *)
Definition start_encoding (c initlength : Z) (out : list Z) : enc :=
  Enc 0 Top 0 (c mod 256) (w32 initlength) out.

(** rangecod.c:161-186, one iteration of the loop of enc_normalize. *)
Definition enc_norm_iter (e : enc) : enc :=
  let low := e_low e in
  let low' := Z.land (w32 (Z.shiftl low 8)) (Top - 1) in
  let range' := w32 (Z.shiftl (e_range e) 8) in
  let cnt' := w32 (e_cnt e + 1) in
  if low <? Z.shiftl 255 SHIFT_BITS then
    Enc low' range' 0 (Z.shiftr low SHIFT_BITS mod 256) cnt'
        (e_out e ++ e_buf e :: repeat 255 (Z.to_nat (e_help e)))
  else if negb (Z.land low Top =? 0) then
    Enc low' range' 0 (Z.shiftr low SHIFT_BITS mod 256) cnt'
        (e_out e ++ (e_buf e + 1) mod 256 :: repeat 0 (Z.to_nat (e_help e)))
  else
    Enc low' range' (w32 (e_help e + 1)) (e_buf e) cnt' (e_out e).

(** rangecod.c:157-188 enc_normalize.  The loop runs at most 3 times for range > 0 and for
    ever for range = 0; [fuel] bounds it, exhaustion is [None]. *)
Fixpoint enc_normalize_loop (fuel : nat) (e : enc) : option enc :=
  if e_range e <=? Bottom then
    match fuel with
    | O => None
    | S f => enc_normalize_loop f (enc_norm_iter e)
    end
  else Some e.
Definition enc_normalize (e : enc) : option enc := enc_normalize_loop 4 e.

(** rangecod.c:198-212 encode_freq. *)
Definition encode_freq (e0 : enc) (sy lt tot : Z) : option enc :=
  match enc_normalize e0 with
  | None => None
  | Some e =>
    if tot =? 0 then None else
    let r := e_range e / tot in
    let tmp := w32 (r * lt) in
    let range' := if w32 (lt + sy) <? tot then w32 (r * sy) else w32 (e_range e - tmp) in
    Some (Enc (w32 (e_low e + tmp)) range' (e_help e) (e_buf e) (e_cnt e) (e_out e))
  end.

(** rangecod.c:214-229 encode_shift. *)
Definition encode_shift (e0 : enc) (sy lt sh : Z) : option enc :=
  match enc_normalize e0 with
  | None => None
  | Some e =>
    if (sh <? 0) || (32 <=? sh) then None else
    let r := Z.shiftr (e_range e) sh in
    let tmp := w32 (r * lt) in
    let range' := if Z.shiftr (w32 (lt + sy)) sh =? 0 then w32 (r * sy)
                  else w32 (e_range e - tmp) in
    Some (Enc (w32 (e_low e + tmp)) range' (e_help e) (e_buf e) (e_cnt e) (e_out e))
  end%bool.

(** rangecod.h: macros encode_byte, encode_short. *)
Definition encode_byte (e : enc) (b : Z) : option enc := encode_shift e 1 b 8.
Definition encode_short (e : enc) (s : Z) : option enc := encode_shift e 1 s 16.

(** rangecod.c:238-260 done_encoding; the result is the whole buffer content. *)
Definition done_encoding (e0 : enc) : option (list Z) :=
  match enc_normalize e0 with
  | None => None
  | Some e =>
    let cnt := w32 (e_cnt e + 5) in
    let tmp := if Z.land (e_low e) (Bottom - 1) <? Z.shiftr (Z.land cnt 16777215) 1
               then Z.shiftr (e_low e) SHIFT_BITS
               else w32 (Z.shiftr (e_low e) SHIFT_BITS + 1) in
    let head := if 255 <? tmp
                then (e_buf e + 1) mod 256 :: repeat 0 (Z.to_nat (e_help e))
                else e_buf e :: repeat 255 (Z.to_nat (e_help e)) in
    Some (e_out e ++ head ++
          [Z.land tmp 255; Z.land (Z.shiftr cnt 16) 255; Z.land (Z.shiftr cnt 8) 255;
           Z.land cnt 255])
  end.

(** rangecod.c:99 inbyte: read one byte and advance. *)
Definition inbyte (l : list Z) : option (Z * list Z) :=
  match l with [] => None | b :: r => Some (b mod 256, r) end.

(** rangecod.c:266-274 start_decoding.  The first byte is a signed char widened to int, so
    0xff compares equal to EOF and the function returns early, leaving the coder
    uninitialised ([None]; the callers ignore the return value). *)
Definition start_decoding (inp : list Z) : option (Z * dec) :=
  match inbyte inp with
  | None => None
  | Some (c, r1) =>
    if c =? 255 then None else
    match inbyte r1 with
    | None => None
    | Some (b, r2) =>
      Some (c, Dec (Z.shiftr b (8 - EXTRA_BITS)) (Z.shiftl 1 EXTRA_BITS) 0 b r2)
    end
  end.

(** rangecod.c:279-283, one iteration of the loop of dec_normalize. *)
Definition dec_norm_iter (d : dec) : option dec :=
  match inbyte (d_in d) with
  | None => None
  | Some (b, r) =>
    let low1 := Z.lor (w32 (Z.shiftl (d_low d) 8))
                      (Z.land (Z.shiftl (d_buf d) EXTRA_BITS) 255) in
    Some (Dec (Z.lor low1 (Z.shiftr b (8 - EXTRA_BITS))) (w32 (Z.shiftl (d_range d) 8))
              (d_help d) b r)
  end.

(** rangecod.c:277-284 dec_normalize. *)
Fixpoint dec_normalize_loop (fuel : nat) (d : dec) : option dec :=
  if d_range d <=? Bottom then
    match fuel with
    | O => None
    | S f => match dec_norm_iter d with None => None | Some d' => dec_normalize_loop f d' end
    end
  else Some d.
Definition dec_normalize (d : dec) : option dec := dec_normalize_loop 4 d.

(** rangecod.c:293-303 decode_culfreq. *)
Definition decode_culfreq (d0 : dec) (tot : Z) : option (Z * dec) :=
  match dec_normalize d0 with
  | None => None
  | Some d =>
    if tot =? 0 then None else
    let help := d_range d / tot in
    if help =? 0 then None else
    let tmp := d_low d / help in
    Some (if tot <=? tmp then tot - 1 else tmp,
          Dec (d_low d) (d_range d) help (d_buf d) (d_in d))
  end.

(** rangecod.c:305-315 decode_culshift. *)
Definition decode_culshift (d0 : dec) (sh : Z) : option (Z * dec) :=
  match dec_normalize d0 with
  | None => None
  | Some d =>
    if (sh <? 0) || (32 <=? sh) then None else
    let help := Z.shiftr (d_range d) sh in
    if help =? 0 then None else
    let tmp := d_low d / help in
    Some (if Z.shiftr tmp sh =? 0 then tmp else w32 (Z.shiftl 1 sh) - 1,
          Dec (d_low d) (d_range d) help (d_buf d) (d_in d))
  end%bool.

(** rangecod.c:323-335 decode_update. *)
Definition decode_update (d : dec) (sy lt tot : Z) : dec :=
  let tmp := w32 (d_help d * lt) in
  let range' := if w32 (lt + sy) <? tot then w32 (d_help d * sy) else w32 (d_range d - tmp) in
  Dec (w32 (d_low d - tmp)) range' (d_help d) (d_buf d) (d_in d).

(** rangecod.c:340-350 decode_byte, decode_short. *)
Definition decode_byte (d : dec) : option (Z * dec) :=
  match decode_culshift d 8 with
  | None => None
  | Some (t, d') => let t := t mod 256 in Some (t, decode_update d' 1 t (2 ^ 8))
  end.
Definition decode_short (d : dec) : option (Z * dec) :=
  match decode_culshift d 16 with
  | None => None
  | Some (t, d') => let t := t mod 65536 in Some (t, decode_update d' 1 t (2 ^ 16))
  end.

(** rangecod.c:355-357 done_decoding; what is left is the position of the cursor. *)
Definition done_decoding (d : dec) : option (list Z) :=
  match dec_normalize d with None => None | Some d' => Some (d_in d') end.
