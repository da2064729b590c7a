(** Model of the adaptive frequency model, /repo/src/PPMC/rangeCoder/qsmodel.c and qsmodel.h.
    Integers are unbounded [Z]: the proofs show that all quantities stay between 0 and the total
    2^lg_totf, so no machine integer overflows for lg_totf <= 30.
    [None] is undefined behaviour (array overrun, NULL search table) or the fatal
    "BUG: rescaling" exit (qsmodel.c:69-73). *)
From Coq Require Import List ZArith.
From Verif Require Import Arr.
Import ListNotations.
Open Scope Z_scope.

(** qsmodel.h: typedef struct qsmodel.  [q_search = None] is the NULL pointer. *)
Record qsmodel := Qs {
  q_n : Z; q_left : Z; q_nextleft : Z; q_rescale : Z; q_target : Z; q_incr : Z;
  q_shift : Z; q_cf : list Z; q_newf : list Z; q_search : option (list Z) }.

(** qsmodel.c:44 TBLSHIFT. *)
Definition TBLSHIFT : Z := 7.

(** qsmodel.c:61-68, the loop [for(i=m->n-1; i; i--)], counting [i] down to 1. *)
Fixpoint rescale_loop (i : nat) (cf missing : Z) (cfa newf : list Z)
  : option (Z * Z * list Z * list Z) :=
  match i with
  | O => Some (cf, missing, cfa, newf)
  | S i' =>
    do tmp <- aget newf (Z.of_nat i);
    let cf := cf - tmp in
    do cfa <- aset cfa (Z.of_nat i) cf;
    let tmp := Z.lor (Z.shiftr tmp 1) 1 in
    do newf <- aset newf (Z.of_nat i) tmp;
    rescale_loop i' cf (missing - tmp) cfa newf
  end.

(** qsmodel.c:86-89, [while (start<=end)]; [k] is the number of iterations left. *)
Fixpoint fill (k : nat) (start v : Z) (search : list Z) : option (list Z) :=
  match k with
  | O => Some search
  | S k' => do s <- aset search start v; fill k' (start + 1) v s
  end.

(** qsmodel.c:80-90, [i=m->n; while (i)]. *)
Fixpoint fill_search (i : nat) (shift : Z) (cfa search : list Z) : option (list Z) :=
  match i with
  | O => Some search
  | S i' =>
    do c1 <- aget cfa (Z.of_nat i);
    let e := Z.shiftr (c1 - 1) shift in
    do c0 <- aget cfa (Z.of_nat i');
    let s := Z.shiftr c0 shift in
    do search <- fill (Z.to_nat (e - s + 1)) s (Z.of_nat i') search;
    fill_search i' shift cfa search
  end.

(** qsmodel.c:47-92 dorescale. For n <= 0 the loop at 61 runs out of the array. *)
Definition dorescale (m : qsmodel) : option qsmodel :=
  if negb (q_nextleft m =? 0) then
    Some (Qs (q_n m) (q_nextleft m) 0 (q_rescale m) (q_target m) (q_incr m + 1)
             (q_shift m) (q_cf m) (q_newf m) (q_search m))
  else
    let rescale :=
      if q_rescale m <? q_target m then
        (let r := Z.shiftl (q_rescale m) 1 in if q_target m <? r then q_target m else r)
      else q_rescale m in
    if q_n m <=? 0 then None else
    do tot <- aget (q_cf m) (q_n m);
    do (cf, missing, cfa, newf) <- rescale_loop (Z.to_nat (q_n m - 1)) tot tot (q_cf m) (q_newf m);
    do f0 <- aget newf 0;
    if negb (cf =? f0) then None (* BUG exit *) else
    let f0' := Z.lor (Z.shiftr f0 1) 1 in
    do newf <- aset newf 0 f0';
    let missing := missing - f0' in
    let incr := Z.quot missing rescale in
    let nextleft := Z.rem missing rescale in
    let left := rescale - nextleft in
    do search <- match q_search m with
                 | None => Some None
                 | Some s => do s' <- fill_search (Z.to_nat (q_n m)) (q_shift m) cfa s; Some (Some s')
                 end;
    Some (Qs (q_n m) left nextleft rescale (q_target m) incr (q_shift m) cfa newf search).

(** qsmodel.c:132-135 / 137-138, filling newf[0..n-1]; element n stays as allocated. *)
Definition init_newf (n tot : Z) (init : option (list Z)) (old : list Z) : option (list Z) :=
  match init with
  | None =>
    let initval := tot / n in
    let e := tot mod n in
    Some (map (fun i => if Z.of_nat i <? e then initval + 1 else initval) (seq 0 (Z.to_nat n))
          ++ skipn (Z.to_nat n) old)
  | Some l => if Z.of_nat (length l) <? n then None
              else Some (firstn (Z.to_nat n) l ++ skipn (Z.to_nat n) old)
  end.

(** qsmodel.c:125-140 resetqsmodel. *)
Definition resetqsmodel (m : qsmodel) (init : option (list Z)) : option qsmodel :=
  let rescale := Z.lor (Z.shiftr (q_n m) 4) 2 in
  do tot <- aget (q_cf m) (q_n m);
  if q_n m <=? 0 then None else
  do newf <- init_newf (q_n m) tot init (q_newf m);
  dorescale (Qs (q_n m) (q_left m) 0 rescale (q_target m) (q_incr m) (q_shift m) (q_cf m) newf
                (q_search m)).

(** qsmodel.c:102-119 initqsmodel.  [junk] is the content of freshly allocated memory (malloc),
    also used for the members left and incr that are not assigned before dorescale. *)
Definition initqsmodel (junk : nat -> Z) (n lg rescale : Z) (init : option (list Z)) (compress : bool)
  : option qsmodel :=
  let shift := if lg - TBLSHIFT <? 0 then 0 else lg - TBLSHIFT in
  let mem := map junk (seq 0 (Z.to_nat (n + 1))) in
  do cf1 <- aset mem n (Z.shiftl 1 lg);
  do cf2 <- aset cf1 0 0;
  do search <- (if compress then Some None
               else do s <- aset (map junk (seq 0 (Z.to_nat (Z.shiftl 1 TBLSHIFT + 1))))
                                 (Z.shiftl 1 TBLSHIFT) (n - 1);
                    Some (Some s));
  resetqsmodel (Qs n (junk 0%nat) (junk 1%nat) (junk 2%nat) rescale (junk 3%nat) shift cf2 mem search) init.

(** qsmodel.c:158-160 qsgetfreq; result (sy_f, lt_f). *)
Definition qsgetfreq (m : qsmodel) (sym : Z) : option (Z * Z) :=
  do lt <- aget (q_cf m) sym;
  do up <- aget (q_cf m) (sym + 1);
  Some (up - lt, lt).

(** qsmodel.c:172-178, the binary search; each iteration shrinks [hi - lo], [fuel] bounds it. *)
Fixpoint bsearch (fuel : nat) (cf : list Z) (lt lo hi : Z) : option Z :=
  if lo + 1 <? hi then
    match fuel with
    | O => None
    | S f =>
      let mid := Z.shiftr (lo + hi) 1 in
      do c <- aget cf mid;
      if lt <? c then bsearch f cf lt lo mid else bsearch f cf lt mid hi
    end
  else Some lo.

(** qsmodel.c:166-180 qsgetsym. *)
Definition qsgetsym (m : qsmodel) (lt : Z) : option Z :=
  match q_search m with
  | None => None
  | Some s =>
    do lo <- aget s (Z.shiftr lt (q_shift m));
    do h <- aget s (Z.shiftr lt (q_shift m) + 1);
    bsearch (Z.to_nat (h + 1 - lo)) (q_cf m) lt lo (h + 1)
  end.

(** qsmodel.c:186-191 qsupdate. *)
Definition qsupdate (m0 : qsmodel) (sym : Z) : option qsmodel :=
  do m <- (if q_left m0 <=? 0 then dorescale m0 else Some m0);
  do f <- aget (q_newf m) sym;
  do newf <- aset (q_newf m) sym (f + q_incr m);
  Some (Qs (q_n m) (q_left m - 1) (q_nextleft m) (q_rescale m) (q_target m) (q_incr m)
           (q_shift m) (q_cf m) newf (q_search m)).

(** The model after a history of updates. *)
Fixpoint qsupdates (m : qsmodel) (syms : list Z) : option qsmodel :=
  match syms with
  | [] => Some m
  | s :: r => do m' <- qsupdate m s; qsupdates m' r
  end.
