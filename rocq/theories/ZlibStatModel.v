(** Model of the statistics with zlib at the end of the decompressor: /repo/src/test/decompress.cpp:56-66. *)
From Coq Require Import List Arith.
Import ListNotations.

(** zlib's compress2 at one level: the result has [z] bytes, [limit] is *destLen on entry, the space the caller says there is.
    The bytes written and *destLen on return: all of the result if it fits, else [limit] bytes and the error Z_BUF_ERROR, which
    decompress.cpp:62 stores in nResult and never looks at. *)
Definition compress2 (z limit : nat) : nat := if z <=? limit then z else limit.
(** decompress.cpp:59-64: the levels from 1 to 9; [z] gives the length of the result of a level.  compressedsize is handed over
    again as the previous call left it.  The result: for each level the bytes written, which is also the number printed. *)
Fixpoint levels (z : nat -> nat) (ls : list nat) (compressedsize : nat) : list nat :=
  match ls with
  | [] => []
  | l :: r => let w := compress2 (z l) compressedsize in w :: levels z r w
  end.
(** decompress.cpp:59: the bytes of zcomp for [n] vertices, three floats each. *)
Definition buffer (n : nat) : nat := n * 3 * 4.
(** decompress.cpp:59-64; [garbage] is what the variable compressedsize, not initialised (60), happens to hold. *)
Definition statistics (z : nat -> nat) (garbage : nat) : list nat := levels z (seq 1 9) garbage.
(** Whether one of the calls writes behind zcomp. *)
Definition overflows (n : nat) (z : nat -> nat) (garbage : nat) : bool := existsb (fun w => buffer n <? w) (statistics z garbage).
