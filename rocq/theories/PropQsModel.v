(** Properties C03, C04: the adaptive frequency model. *)
From Coq Require Import List ZArith.
From Verif Require Import QsModel RangeCoderSpec QsSpecProofs QsPace.
Import ListNotations.
Open Scope Z_scope.

(** C03.  After any history of updates (whatever junk freshly allocated memory held, whatever
    rescale interval was asked for) the model answers for every symbol, never took the fatal
    exit, and the answers are consecutive slices of width at least 1 filling [0, 2^lg). *)
Theorem adaptive_model_partition : forall junk n lg rescale init compress hist,
  1 <= n <= 2 ^ lg -> good_counts n lg init -> Forall (fun s => 0 <= s < n) hist ->
  exists m0 m ws,
    initqsmodel junk n lg rescale init compress = Some m0 /\ qsupdates m0 hist = Some m /\
    Z.of_nat (length ws) = n /\ Forall (fun w => 1 <= w) ws /\ sum ws = 2 ^ lg /\
    forall s, 0 <= s < n ->
      qsgetfreq m s = Some (nth (Z.to_nat s) ws 0, before (Z.to_nat s) ws).
Proof. exact partition_proof. Qed.
Print Assumptions adaptive_model_partition.

(** C03.  No stored count leaves [0, 2^lg]: with lg <= 30 no machine integer overflows. *)
Theorem adaptive_model_no_overflow : forall junk n lg rescale init compress hist,
  1 <= n <= 2 ^ lg -> good_counts n lg init -> Forall (fun s => 0 <= s < n) hist ->
  exists m0 m, initqsmodel junk n lg rescale init compress = Some m0 /\ qsupdates m0 hist = Some m /\
    (forall i, 0 <= i < n -> 1 <= nth (Z.to_nat i) (q_newf m) 0 <= 2 ^ lg) /\
    (forall i, 0 <= i <= n -> 0 <= nth (Z.to_nat i) (q_cf m) 0 <= 2 ^ lg).
Proof. exact bounds_proof. Qed.
Print Assumptions adaptive_model_no_overflow.

(** Three symbols, 7 bits, rescaling every 2 to 5 updates, a history crossing several rescales. *)
Definition sample_hist : list Z := [2; 2; 2; 0; 2; 1; 2; 2; 2; 2; 2; 0; 2; 2; 1; 2; 2; 2; 2; 2].
Example adaptive_model_nonvacuous :
  1 <= 3 <= 2 ^ 7 /\ good_counts 3 7 (Some [100; 1; 27]) /\ Forall (fun s => 0 <= s < 3) sample_hist /\
  match initqsmodel (fun _ => 77) 3 7 5 (Some [100; 1; 27]) true with
  | Some m0 => match qsupdates m0 sample_hist with
               | Some m => map (qsgetfreq m) [0; 1; 2] = [Some (15, 0); Some (16, 15); Some (97, 31)]
               | None => False end
  | None => False
  end.
Proof.
  split; [split; [discriminate|discriminate]|]. split.
  - split; [reflexivity|]. split; [repeat constructor; discriminate|reflexivity].
  - split; [repeat constructor; discriminate|]. vm_compute. reflexivity.
Qed.

(** C04.  Lookup by cumulative count finds the unique symbol whose slice holds the count. *)
Theorem symbol_lookup_inverts_slices : forall junk n lg rescale init hist,
  1 <= n <= 2 ^ lg -> 7 <= lg -> good_counts n lg init -> Forall (fun s => 0 <= s < n) hist ->
  exists m0 m,
    initqsmodel junk n lg rescale init false = Some m0 /\ qsupdates m0 hist = Some m /\
    forall lt, 0 <= lt < 2 ^ lg ->
    exists s, qsgetsym m lt = Some s /\ 0 <= s < n /\
      (exists sy l, qsgetfreq m s = Some (sy, l) /\ l <= lt < l + sy) /\
      forall s' sy l, 0 <= s' < n -> qsgetfreq m s' = Some (sy, l) -> l <= lt < l + sy -> s' = s.
Proof. exact lookup_proof. Qed.
Print Assumptions symbol_lookup_inverts_slices.

Example symbol_lookup_nonvacuous :
  1 <= 3 <= 2 ^ 10 /\ 7 <= 10 /\ good_counts 3 10 None /\ Forall (fun s => 0 <= s < 3) sample_hist /\
  match initqsmodel (fun _ => 77) 3 10 5 None false with
  | Some m0 => match qsupdates m0 sample_hist with
               | Some m => map (qsgetsym m) [0; 200; 513; 1023] = [Some 0; Some 1; Some 2; Some 2]
               | None => False end
  | None => False
  end.
Proof.
  split; [split; [discriminate|discriminate]|]. split; [discriminate|]. split; [exact I|].
  split; [repeat constructor; discriminate|]. vm_compute. reflexivity.
Qed.

(** The bound 7 <= lg is needed: the initialiser accepts a smaller precision, but then the table
    entry behind the last bucket is never written and lookup runs on uninitialised memory. *)
Theorem symbol_lookup_small_precision_refuted :
  exists junk n lg rescale lt m,
    1 <= n <= 2 ^ lg /\ 0 <= lt < 2 ^ lg /\
    initqsmodel junk n lg rescale None false = Some m /\ qsgetsym m lt = None.
Proof.
  exists (fun _ => 100), 2, 6, 5, 63,
    (match initqsmodel (fun _ => 100) 2 6 5 None false with Some m => m | None => Qs 0 0 0 0 0 0 0 [] [] None end).
  split; [split; discriminate|]. split; [split; [discriminate|reflexivity]|].
  split; vm_compute; reflexivity.
Qed.
Print Assumptions symbol_lookup_small_precision_refuted.

(** C81.  After any history there is a number k, at most the larger of the rescale interval asked for
    and n/16+2, such that the next k updates leave every answer alone and the update after them
    replaces the widths by the counts collected meanwhile. *)
Theorem adaptive_model_pace : forall junk n lg rescale init compress hist,
  1 <= n <= 2 ^ lg -> good_counts n lg init -> Forall (fun s => 0 <= s < n) hist ->
  exists m0 m k, initqsmodel junk n lg rescale init compress = Some m0 /\ qsupdates m0 hist = Some m /\
    (k <= Z.to_nat (Z.max rescale (Z.lor (Z.shiftr n 4) 2)))%nat /\
    (forall more, Forall (fun s => 0 <= s < n) more -> (length more <= k)%nat ->
       exists m', qsupdates m more = Some m' /\ forall s, 0 <= s < n -> qsgetfreq m' s = qsgetfreq m s) /\
    (forall more s, Forall (fun s => 0 <= s < n) more -> length more = k -> 0 <= s < n ->
       exists m1 m2, qsupdates m more = Some m1 /\ qsupdate m1 s = Some m2 /\
         forall i, 0 <= i < n -> exists lt, qsgetfreq m2 i = Some (nth (Z.to_nat i) (q_newf m1) 0, lt)).
Proof. exact pace_proof. Qed.
Print Assumptions adaptive_model_pace.
Example adaptive_model_pace_nonvacuous : 1 <= 3 <= 2 ^ 7 /\ good_counts 3 7 (Some [100; 1; 27]) /\ Z.max 5 (Z.lor (Z.shiftr 3 4) 2) = 5.
Proof. split; [split; discriminate|]. split; [|reflexivity]. split; [reflexivity|]. split; [repeat constructor; discriminate|reflexivity]. Qed.
