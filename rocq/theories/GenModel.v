(** Model of the generator of test data, /repo/src/test/data_generator.cpp.  Coordinates are exact
    rationals; meshes are their vertices, the compressed bytes of a mesh are any bytes. *)
From Coq Require Import QArith ZArith List Bool Qround.
From Verif Require Import Arr AabModel TileModel.
Import ListNotations.
Open Scope Z_scope.

(** util.h:94-96 get_rand_number, [r] being the next number of rand(); dividing by zero has no
    result. *)
Definition get_rand_number (r max_value : Z) : option Z := if max_value =? 0 then None else Some (Z.rem r max_value + 1).

(** data_generator.cpp:94-106: a nucleus is shrunk, then moved to the origin; [pts] are its
    vertices.  The box of the shrunk vertices comes first. *)
Definition shrunk (shrink : Q) (pts : list vec) : list vec := map (fun p a => (p a / shrink)%Q) pts.
Definition points_box (pts : list vec) : option aab := fold_left acc_point pts None.
Definition to_origin (b : aab) (pts : list vec) : list vec := map (fun p a => (p a - bmin b a)%Q) pts.
Definition load_nucleus (shrink : Q) (pts : list vec) : option (list vec * vec) :=
  do b <- points_box (shrunk shrink pts);
  Some (to_origin b (shrunk shrink pts), fun a => (bmax b a - bmin b a)%Q).
(** data_generator.cpp:104-110: the corner max of nuclei_box; a box starts below everything.  The
    corner min is not used (107-109 set min[2] twice and leave min[0]). *)
Definition nuclei_max (sizes : list vec) : option vec :=
  fold_left (fun m s => Some (fun a => match m with None => s a | Some m => if Qltb (m a) (s a) then s a else m a end)) sizes None.

(** data_generator.cpp:119-124, 207-213: how many nuclei fit along each axis, the fraction cut. *)
Definition nuclei_num (nb vb : vec) (a : axis) : Z := Qfloor (vb a / nb a)%Q.
Definition total_slots (n : axis -> Z) : Z := n AX * n AY * n AZ.
(** data_generator.cpp:225-231: the place of a slot. *)
Definition slot_x (n : axis -> Z) (idx : Z) : Z := Z.rem (Z.rem idx (n AX * n AY)) (n AX).
Definition slot_y (n : axis -> Z) (idx : Z) : Z := Z.quot (Z.rem idx (n AX * n AY)) (n AX).
Definition slot_z (n : axis -> Z) (idx : Z) : Z := Z.quot idx (n AX * n AY).
Definition slot_shift (nb : vec) (n : axis -> Z) (base : vec) (idx : Z) : vec :=
  fun a => (inject_Z (match a with AX => slot_x n idx | AY => slot_y n idx | AZ => slot_z n idx end) * nb a + base a)%Q.

(** data_generator.cpp:126-141: the slots marked for one voxel of the vessel; the coordinates are
    divided by the numbers of slots.  [cut] rounds towards zero. *)
Definition cut (q : Q) : Z := Z.quot (Qnum q) (Zpos (Qden q)).
Definition span (lo hi : Z) : list Z := map (fun k => lo + Z.of_nat k) (seq 0 (Z.to_nat (hi - lo + 1))).
Definition voxel_slots (n : axis -> Z) (v : aab) : list Z :=
  flat_map (fun z => flat_map (fun y => map (fun x => z * n AX * n AY + y * n AX + x)
    (span (cut (bmin v AX / inject_Z (n AX))) (cut (bmax v AX / inject_Z (n AX)))))
    (span (cut (bmin v AY / inject_Z (n AY))) (cut (bmax v AY / inject_Z (n AY)))))
    (span (cut (bmin v AZ / inject_Z (n AZ))) (cut (bmax v AZ / inject_Z (n AZ)))).
(** The array vessel_taken: [junk] are the values that new leaves in it. *)
Definition vessel_taken (n : axis -> Z) (junk : Z -> bool) (voxels : list aab) (i : Z) : bool :=
  junk i || existsb (fun v => existsb (Z.eqb i) (voxel_slots n v)) voxels.

(** Outcome of generating: the slots used, in order, and the random numbers left; [Beyond] an array
    was read or written outside; [Stuck] the numbers have run out while looking for a free slot. *)
Inductive gen := Slots (l : list Z) (rest : list Z) | Beyond | Stuck.
(** data_generator.cpp:219-222: drawing a slot.  [None] is running out, [Some (None, _)] reading outside. *)
Fixpoint draw (total : Z) (taken vtaken : Z -> bool) (rand : list Z) : option (option Z * list Z) :=
  match rand with
  | [] => None
  | r :: rest => match get_rand_number r total with
    | None => Some (None, rest)
    | Some idx => if (idx <? 0) || (total <=? idx) then Some (None, rest)
                  else if taken idx || vtaken idx then draw total taken vtaken rest else Some (Some idx, rest)
    end
  end.
(** data_generator.cpp:218-244: [k] turns of the loop.  [taken] starts as what new leaves in it.
    The random numbers drawn for other purposes are left out. *)
Fixpoint gen_slots (k : nat) (total : Z) (taken vtaken : Z -> bool) (rand : list Z) : gen :=
  match k with
  | O => Slots [] rand
  | S k' => match draw total taken vtaken rand with
    | None => Stuck
    | Some (None, _) => Beyond
    | Some (Some idx, rest) => match gen_slots k' total (fun i => taken i || Z.eqb i idx) vtaken rest with
      | Slots l rest' => Slots (idx :: l) rest'
      | o => o
      end
    end
  end.
(** data_generator.cpp:212, 218, 245: the counter is advanced before it is compared; its value is
    returned. *)
Definition generate_nuclei (num total : Z) (junk vtaken : Z -> bool) (rand : list Z) : gen * Z :=
  (gen_slots (Z.to_nat (num - 1)) total junk vtaken rand, Z.max 1 num).

(** data_generator.cpp:233-234, 241-242: the prototype taken. *)
Definition pick_prototype (r : Z) (prototypes : Z) : option Z := get_rand_number r (prototypes - 1).
(** data_generator.cpp:236-239: the place of the second nucleus along one axis. *)
Definition second_shift (shift nb : Q) (range r : Z) (up : bool) : option Q :=
  do k <- get_rand_number r range;
  Some (shift + nb * (inject_Z k * 1) / 100 * (if up then 1 else -1))%Q.

(** data_generator.cpp:347-350: the numbers of vessels along the axes; [x_dim] is what the floating
    point cube root gives.  [None] is a division by zero. *)
Definition dims (x_dim num_vessel : Z) : option (Z * Z * Z) :=
  if x_dim * x_dim =? 0 then None else Some (x_dim, x_dim, Z.quot num_vessel (x_dim * x_dim)).
Definition per_vessel (num_nuclei num_vessel : Z) (d : Z * Z * Z) : option Z :=
  let '(x, y, z) := d in if x * y * z =? 0 then None else Some (Z.quot (num_nuclei * num_vessel) (x * y * z)).
(** data_generator.cpp:353-361: the shifts of the vessels. *)
Definition upto (n : Z) : list Z := map Z.of_nat (seq 0 (Z.to_nat n)).
Definition vessel_base (vb : vec) (i j k : Z) : vec := fun a => (inject_Z (match a with AX => i | AY => j | AZ => k end) * vb a)%Q.
Definition vessel_jobs (d : Z * Z * Z) : list (Z * Z * Z) :=
  let '(x, y, z) := d in flat_map (fun i => flat_map (fun j => map (fun k => (i, j, k)) (upto z)) (upto y)) (upto x).

(** data_generator.cpp:165-199 organize_data: the record appended to a buffer of [size] bytes;
    [None] is writing beyond it.  [o] are the bytes of the shifted mesh and its shifted voxels; the
    assertion of line 197 is compiled out. *)
Definition organize_data (size : Z) (o : list Z * list vmeta) (data : list Z) : option (list Z) :=
  if Z.of_nat (length data + length (record_bytes o)) <=? size then Some (data ++ record_bytes o) else None.
Definition organize_all (size : Z) (l : list (list Z * list vmeta)) : option (list Z) :=
  fold_left (fun d o => do d <- d; organize_data size o d) l (Some []).
(** data_generator.cpp:283: the buffer of generate_vessel. *)
Definition vessel_buffer (vessels : Z) : Z := vessels * 100000 * 2.

(** * The threads, data_generator.cpp:255-280 generate_unit *)
(** Before the test of the queue, waiting for the lock, holding it, generating, waiting to write,
    done. *)
Inductive gpc (A : Type) := Test | Want | Hold | Make (j : A) | Write (j : A) | Done.
Arguments Test {A}. Arguments Want {A}. Arguments Hold {A}. Arguments Make {A}. Arguments Write {A}. Arguments Done {A}.
Record gstate (A : Type) := GState { g_queue : list A; g_workers : list (gpc A); g_written : list A; g_bad : bool }.
Arguments GState {A}. Arguments g_queue {A}. Arguments g_workers {A}. Arguments g_written {A}. Arguments g_bad {A}.
Definition set_worker {A} (l : list (gpc A)) (i : nat) (p : gpc A) : list (gpc A) := firstn i l ++ p :: skipn (S i) l.
(** The lock is held exactly by a worker at [Hold]; the second critical section (271-275) is one step. *)
Definition locked {A} (l : list (gpc A)) : bool := existsb (fun p => match p with Hold => true | _ => false end) l.
(** One step of worker [i].  Popping an empty queue is undefined; the flag records it. *)
Definition gstep {A} (s : gstate A) (i : nat) : gstate A :=
  let '(GState q w out bad) := s in
  match nth_error w i with
  | Some Test => GState q (set_worker w i match q with [] => Done | _ => Want end) out bad
  | Some Want => if locked w then s else GState q (set_worker w i Hold) out bad
  | Some Hold => match q with
    | [] => GState q (set_worker w i Done) out true
    | j :: q' => GState q' (set_worker w i (Make j)) out bad
    end
  | Some (Make j) => GState q (set_worker w i (Write j)) out bad
  | Some (Write j) => if locked w then s else GState q (set_worker w i Test) (out ++ [j]) bad
  | _ => s
  end.
(** data_generator.cpp:362-369: the threads are started. *)
Definition gstart {A} (jobs : list A) (threads : nat) : gstate A := GState jobs (repeat Test (Nat.min threads (length jobs))) [] false.
Definition grun {A} (s : gstate A) (sched : list nat) : gstate A := fold_left gstep sched s.
