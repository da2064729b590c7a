(** Model of the batches of the joins: packing (SpatialJoin.cpp:352-398 and 694-757), the division
    among threads (geometry_computer.cpp:14-23, 109-145, 160-195) and the queue of tile pairs
    (SpatialJoin.cpp:802-862). *)
From Coq Require Import ZArith List Bool.
Import ListNotations.
Open Scope Z_scope.

(** SpatialJoin.cpp:352-398: offsets and sizes are uint, 32 bits. *)
Definition u32max : Z := 2 ^ 32.

(** * Packing *)
(** SpatialJoin.cpp:352, 694: voxel_map, from the address of a voxel to its offset and size (uint).
    A list of bindings in order of insertion; the code iterates it in order of addresses, see
    [fill]. *)
Definition vmap : Type := list (nat * (Z * Z)).
Fixpoint vfind (v : nat) (m : vmap) : option (Z * Z) :=
  match m with [] => None | (w, x) :: r => if Nat.eqb v w then Some x else vfind v r end.
(** SpatialJoin.cpp:361-370, 713-722: one voxel.  [wrap] is the modulus of the running total: 2^32
    for segment_num (353), 2^64 for triangle_num (695). *)
Definition add_voxel (wrap : Z) (size : nat -> Z) (s : vmap * Z) (v : nat) : vmap * Z :=
  match vfind v (fst s) with
  | Some _ => s
  | None => (fst s ++ [(v, (snd s mod u32max, size v mod u32max))], (snd s + size v) mod wrap)
  end.
(** SpatialJoin.cpp:355-374, 696-727: all voxel pairs in order. *)
Definition layout (wrap : Z) (size : nat -> Z) (pairs : list (nat * nat)) : vmap * Z :=
  fold_left (fun s p => add_voxel wrap size (add_voxel wrap size s (fst p)) (snd p)) pairs ([], 0).
(** SpatialJoin.cpp:381-385, 737-743: memcpy of one voxel, [w] floats per element.  The product
    [first*w] is an unsigned 32-bit product.  The buffer is a function of the float index; a float
    never written is [None]. *)
Definition copy_voxel {A} (w : Z) (size : nat -> Z) (data : nat -> Z -> A) (buf : Z -> option A) (b : nat * (Z * Z)) : Z -> option A :=
  let start := (fst (snd b) * w) mod u32max in
  fun a => if (start <=? a) && (a <? start + size (fst b) * w) then Some (data (fst b) (a - start)) else buf a.
(** The bindings [l] of the map in order of iteration. *)
Definition fill {A} (w : Z) (size : nat -> Z) (data : nat -> Z -> A) (l : vmap) : Z -> option A :=
  fold_left (copy_voxel w size data) l (fun _ => None).
(** SpatialJoin.cpp:378, 736: the number of floats allocated; 6*segment_num is a 32-bit product. *)
Definition allocated (wrap w total : Z) : Z := (w * total) mod wrap.
(** SpatialJoin.cpp:387-398, 750-761: the quadruple of one pair; [operator[]] of an absent key gives
    zeros. *)
Definition quad (m : vmap) (p : nat * nat) : (Z * Z) * (Z * Z) :=
  let f v := match vfind v m with Some x => x | None => (0, 0) end in (f (fst p), f (snd p)).
Definition offset_size (m : vmap) (pairs : list (nat * nat)) : list ((Z * Z) * (Z * Z)) := map (quad m) pairs.
(** geometry_computer.cpp:17-20, 163-166: the float [k] of the first or second operand of a pair, as
    read by SegDist_single or TriInt_single. *)
Definition operand {A} (w : Z) (buf : Z -> option A) (os : Z * Z) (k : Z) : option A := buf ((fst os * w) mod u32max + k).

(** * Division among threads *)
(** geometry_computer.cpp:111-136: first pair and number of pairs of each thread; [fuel] threads from
    number [i] on. *)
Fixpoint chunks_from (fuel : nat) (each p i : Z) : list (Z * Z) :=
  match fuel with
  | O => []
  | S f => let start := each * i in
    if p <=? start then [] else (start, Z.min each (p - start)) :: chunks_from f each p (i + 1)
  end.
Definition distance_threads (p t : Z) : Z := if p / t =? 0 then p else t.
Definition distance_chunks (p t : Z) : list (Z * Z) := chunks_from (Z.to_nat (distance_threads p t)) (p / t + 1) p 0.
(** geometry_computer.cpp:172-189. *)
Definition intersect_chunks (p t : Z) : list (Z * Z) := chunks_from (Z.to_nat t) (p / t) p 0.
(** geometry_computer.cpp:14-23, 160-169: the pairs one run of the unit works on. *)
Definition unit_pairs (c : Z * Z) : list Z := map (fun k => fst c + Z.of_nat k) (seq 0 (Z.to_nat (snd c))).
(** geometry_computer.cpp:132-135: with a single thread the unit is run by the caller and then again
    by the thread.  The first list are the runs by the caller, the second those of the threads. *)
Definition distance_runs (p t : Z) : list (list Z) * list (list Z) :=
  (if distance_threads p t =? 1 then map unit_pairs (distance_chunks p t) else [], map unit_pairs (distance_chunks p t)).
Definition intersect_runs (p t : Z) : list (list Z) * list (list Z) :=
  (if t =? 1 then map unit_pairs (intersect_chunks p t) else [], map unit_pairs (intersect_chunks p t)).
(** Threads run in any interleaving: [interleaved ws tr] when the results are computed in the order
    [tr]. *)
Inductive interleaved : list (list Z) -> list Z -> Prop :=
| il_done ws : Forall (fun w => w = []) ws -> interleaved ws []
| il_step l x w r tr : interleaved (l ++ w :: r) tr -> interleaved (l ++ (x :: w) :: r) (x :: tr).
(** The results after the computations [tr], [f] being the value computed for a pair; [None] is the
    initial value (SpatialJoin.cpp:303-305, 747-749). *)
Definition store {A} (f : Z -> A) (tr : list Z) : Z -> option A :=
  fold_left (fun out x => fun y => if x =? y then Some (f x) else out y) tr (fun _ => None).

(** * The queue of tile pairs *)
(** SpatialJoin.cpp:816-842: where a worker is.  [Front]: the lock is held and the queue was not
    empty; [Popped]: still locked, with the pair taken; [Joining]: outside the lock. *)
Inductive wpc (A : Type) := Check | Want | Held | Front | Popped (x : A) | Joining (x : A) | Stopped.
Arguments Check {A}. Arguments Want {A}. Arguments Held {A}. Arguments Front {A}.
Arguments Popped {A} x. Arguments Joining {A} x. Arguments Stopped {A}.
Record jstate (A : Type) := JState { j_queue : list A; j_workers : list (wpc A); j_joined : list A }.
Arguments JState {A}. Arguments j_queue {A}. Arguments j_workers {A}. Arguments j_joined {A}.
(** pthread_mutex_lock: a worker between lock and unlock. *)
Definition holds_lock {A} (w : wpc A) : bool := match w with Held | Front | Popped _ => true | _ => false end.
Definition lock_free {A} (ws : list (wpc A)) : bool := negb (existsb holds_lock ws).
(** One step of the worker between [l] and [r]. *)
Inductive jstep {A : Type} : jstate A -> jstate A -> Prop :=
| j_check_empty l r log : jstep (JState [] (l ++ Check :: r) log) (JState [] (l ++ Stopped :: r) log)
| j_check x q l r log : jstep (JState (x :: q) (l ++ Check :: r) log) (JState (x :: q) (l ++ Want :: r) log)
| j_lock q l r log : lock_free (l ++ Want :: r) = true -> jstep (JState q (l ++ Want :: r) log) (JState q (l ++ Held :: r) log)
| j_held_empty l r log : jstep (JState [] (l ++ Held :: r) log) (JState [] (l ++ Stopped :: r) log)
| j_held x q l r log : jstep (JState (x :: q) (l ++ Held :: r) log) (JState (x :: q) (l ++ Front :: r) log)
| j_pop x q l r log : jstep (JState (x :: q) (l ++ Front :: r) log) (JState q (l ++ Popped x :: r) log)
| j_unlock x q l r log : jstep (JState q (l ++ Popped x :: r) log) (JState q (l ++ Joining x :: r) log)
| j_join x q l r log : jstep (JState q (l ++ Joining x :: r) log) (JState q (l ++ Check :: r) (log ++ [x])).
Inductive jsteps {A : Type} : jstate A -> jstate A -> Prop :=
| js_refl s : jsteps s s
| js_step s t u : jsteps s t -> jstep t u -> jsteps s u.
(** SpatialJoin.cpp:844-853: all pairs queued, [n] workers started. *)
Definition jinit {A} (pairs : list A) (n : nat) : jstate A := JState pairs (repeat Check n) [].
