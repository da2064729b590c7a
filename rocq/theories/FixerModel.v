(** Model of the program that takes meshes apart and fills their holes, /repo/src/test/fixer.cpp.
    Points are of any type with an equality test (the code compares coordinates); vertex numbers
    that are negative do not occur.  Printing and freeing are left out. *)
From Coq Require Import List ZArith Bool Arith.
From Verif Require Import Arr.
Import ListNotations.
Open Scope nat_scope.

(** fixer.cpp:95-116 Polyhedron.  Of the map edges only its keys are used; they are kept in the
    order of std::map. *)
Record poly (P : Type) := Poly { points : list P; faces : list (list nat); edges : list (nat * nat) }.
Arguments Poly {P}. Arguments points {P}. Arguments faces {P}. Arguments edges {P}.

(** The pairs (f[i], f[(i+1) % size]) of a face, e.g. fixer.cpp:278. *)
Definition sides (f : list nat) : list (nat * nat) := combine f (tl f ++ firstn 1 f).
(** operator< and == of pair<int,int>. *)
Definition pair_lt (a b : nat * nat) : bool := (fst a <? fst b) || ((fst a =? fst b) && (snd a <? snd b)).
Definition pair_eq (a b : nat * nat) : bool := (fst a =? fst b) && (snd a =? snd b).
(** Insertion into the map. *)
Fixpoint ins (e : nat * nat) (l : list (nat * nat)) : list (nat * nat) :=
  match l with
  | [] => [e]
  | x :: r => if pair_eq e x then l else if pair_lt e x then e :: l else x :: ins e r
  end.
(** fixer.cpp:276-288 add_face. *)
Definition add_face {P} (p : poly P) (f : list nat) : poly P :=
  Poly (points p) (faces p ++ [f]) (fold_left (fun es e => ins e es) (sides f) (edges p)).

(** * Taking apart *)
Definition set_true (g : nat -> bool) (v : nat) : nat -> bool := fun w => (w =? v) || g w.
(** fixer.cpp:191-198: the list connections[v]. *)
Definition connections (fs : list (list nat)) (v : nat) : list nat :=
  flat_map (fun e => (if fst e =? v then [snd e] else []) ++ (if snd e =? v then [fst e] else [])) (flat_map sides fs).
(** fixer.cpp:216-229: the loop over the stack; the vertex pushed last is taken first. *)
Fixpoint flood (conn : nat -> list nat) (fuel : nat) (cur added : nat -> bool) (st : list nat) : option ((nat -> bool) * (nat -> bool)) :=
  match st with
  | [] => Some (cur, added)
  | v :: r => match fuel with
    | O => None
    | S k => let cur' := set_true cur v in
             flood conn k cur' (set_true added v) (rev (filter (fun p => negb (cur' p)) (conn v)) ++ r)
    end
  end.
(** fixer.cpp:203-231: one component after the other, each from the first vertex not added. *)
Fixpoint components (conn : nat -> list nat) (n fuel k : nat) (added : nat -> bool) : option (list (nat -> bool)) :=
  match find (fun v => negb (added v)) (seq 0 n) with
  | None => Some []
  | Some s => match k with
    | O => None
    | S k' => do (cur, added') <- flood conn fuel (fun _ => false) added [s];
              do r <- components conn n fuel k' added';
              Some (cur :: r)
    end
  end.
(** fixer.cpp:243-256: pid_map and cg_map; entries of later components overwrite earlier ones. *)
Fixpoint cg_map (cs : list (nat -> bool)) (i v d : nat) : nat :=
  match cs with [] => d | c :: r => cg_map r (S i) v (if c v then i else d) end.
Fixpoint pid_map (cs : list (nat -> bool)) (v d : nat) : nat :=
  match cs with [] => d | c :: r => pid_map r v (if c v then length (filter c (seq 0 v)) else d) end.
(** fixer.cpp:189-273 depart.  [None]: an index outside the points, a face without vertices, or not
    enough [fuel].  The assertion of line 264 is compiled out. *)
Definition depart {P} (fuel : nat) (p : poly P) : option (list (poly P)) :=
  let n := length (points p) in
  if negb (forallb (forallb (fun v => v <? n)) (faces p)) || existsb (fun f => length f =? 0) (faces p) then None else
  do cs <- components (connections (faces p)) n fuel n (fun _ => false);
  Some (map (fun ic => fold_left add_face
      (map (map (fun v => pid_map cs v 0)) (filter (fun f => cg_map cs 0 (hd 0 f) 0 =? fst ic) (faces p)))
      (Poly (flat_map (fun v => match nth_error (points p) v with Some x => [x] | None => [] end) (filter (snd ic) (seq 0 n))) [] []))
    (combine (seq 0 (length cs)) cs)).

(** * Merging vertices *)
(** fixer.cpp:312-321: the first index with the same point. *)
Definition vid_map {P} (eqb : P -> P -> bool) (ps : list P) (i : nat) : nat :=
  match nth_error ps i with
  | None => i
  | Some x => match find (fun j => match nth_error ps j with Some y => eqb y x | None => false end) (seq 0 (length ps)) with Some j => j | None => i end
  end.
(** fixer.cpp:306-327 merge_vertex: neither the points nor the edges are touched. *)
Definition merge_vertex {P} (eqb : P -> P -> bool) (p : poly P) : poly P :=
  Poly (points p) (map (map (vid_map eqb (points p))) (faces p)) (edges p).

(** * Filling holes *)
(** fixer.cpp:331-337. *)
Definition has (e : nat * nat) (es : list (nat * nat)) : bool := existsb (pair_eq e) es.
Definition single_edges (es : list (nat * nat)) : list (nat * nat) := filter (fun e => negb (has (snd e, fst e) es)) es.
(** fixer.cpp:345-351: connect[e.second] = e.first, later entries overwrite. *)
Definition connect (ss : list (nat * nat)) (v : nat) : option nat := option_map fst (find (fun e => snd e =? v) (rev ss)).
(** The keys of the map assigned, in order. *)
Fixpoint ins_nat (v : nat) (l : list nat) : list nat :=
  match l with [] => [v] | x :: r => if v =? x then l else if v <? x then v :: l else x :: ins_nat v r end.
Definition boundary (ss : list (nat * nat)) : list nat := fold_left (fun l e => ins_nat (snd e) (ins_nat (fst e) l)) ss [].
(** fixer.cpp:371-388: walking along a hole; [f] are the vertices of the face so far. *)
Fixpoint trace (conn : nat -> option nat) (fuel : nat) (assigned : nat -> bool) (f : list nat) (v : nat) : option (list nat * bool * (nat -> bool)) :=
  match fuel with
  | O => None
  | S k =>
    let f' := f ++ [v] in let assigned' := set_true assigned v in
    match conn v with
    | None => Some (f', false, assigned')
    | Some w => if assigned' w then Some (f', w =? hd 0 f', assigned') else trace conn k assigned' f' w
    end
  end.
(** fixer.cpp:355-394. *)
Fixpoint fill {P} (conn : nat -> option nat) (keys : list nat) (fuel k : nat) (assigned : nat -> bool) (p : poly P) : option (poly P) :=
  match find (fun v => negb (assigned v)) keys with
  | None => Some p
  | Some v => match k with
    | O => None
    | S k' => do (r, assigned') <- trace conn fuel assigned [] v;
              fill conn keys fuel k' assigned' (if snd r then add_face p (fst r) else p)
    end
  end.
(** fixer.cpp:329-395 fill_holes. *)
Definition fill_holes {P} (p : poly P) : option (poly P) :=
  let ss := single_edges (edges p) in
  match ss with
  | [] => Some p
  | _ => fill (connect ss) (boundary ss) (length (boundary ss)) (length (boundary ss)) (fun _ => false) p
  end.

(** * The program *)
(** fixer.cpp:412-437 main: the files written in order, by their name, the numbers of points and
    faces. *)
Definition least_points : nat := 100.
Definition fixed_part {P} (eqb : P -> P -> bool) (p : poly P) : option (poly P) := fill_holes (merge_vertex eqb p).
Definition fixer_main {P} (eqb : P -> P -> bool) (fuel : nat) (p : poly P) : option (list ((nat * nat) * poly P)) :=
  do parts <- depart fuel p;
  fold_right (fun q acc => do l <- acc; if least_points <? length (points q) then do r <- fixed_part eqb q; Some ((length (points r), length (faces r), r) :: l) else Some l) (Some []) parts.
(** What a name refers to in the end: the last file written under it. *)
Definition written {P} (files : list ((nat * nat) * poly P)) (name : nat * nat) : option (poly P) :=
  option_map snd (find (fun f => pair_eq (fst f) name) (rev files)).

(** * Files, the whole coordinates of whose points are numbers; what follows OFF is a list of numbers *)
(** operator<< of a double prints six digits; for whole numbers below 10^11, rounding half to even. *)
Fixpoint drop_digits (fuel : nat) (z : Z) : Z :=
  match fuel with
  | O => 1
  | S k => if (Z.abs z <? 1000000 * 10 ^ Z.of_nat (S (5 - S k)))%Z then (10 ^ Z.of_nat (S (5 - S k)))%Z else drop_digits k z
  end.
Definition print6 (z : Z) : Z :=
  if (Z.abs z <? 1000000)%Z then z else
  let t := drop_digits 5 z in let q := (Z.abs z / t)%Z in let r := (Z.abs z mod t)%Z in
  let q' := if (2 * r <? t)%Z then q else if (t <? 2 * r)%Z then (q + 1)%Z else if Z.even q then q else (q + 1)%Z in
  (Z.sgn z * (q' * t))%Z.
Definition pt3 : Type := (Z * Z * Z)%type.
(** fixer.cpp:145-161 dumpto. *)
Definition dumpto (p : poly pt3) : list Z :=
  [Z.of_nat (length (points p)); Z.of_nat (length (faces p)); 0%Z] ++
  flat_map (fun x : pt3 => let '(a, b, c) := x in [print6 a; print6 b; print6 c]) (points p) ++
  flat_map (fun f => Z.of_nat (length f) :: map Z.of_nat f) (faces p).
(** fixer.cpp:166-185 load: every face is read as a triangle.  A read past the end leaves the
    variables as they are, which is taken as failure here. *)
Fixpoint read_points (k : nat) (s : list Z) : option (list pt3 * list Z) :=
  match k with
  | O => Some ([], s)
  | S k' => match s with a :: b :: c :: r => do (l, r') <- read_points k' r; Some ((a, b, c) :: l, r') | _ => None end
  end.
Fixpoint read_faces (k : nat) (s : list Z) (p : poly pt3) : option (poly pt3) :=
  match k with
  | O => Some p
  | S k' => match s with _ :: a :: b :: c :: r => read_faces k' r (add_face p [Z.to_nat a; Z.to_nat b; Z.to_nat c]) | _ => None end
  end.
Definition load (s : list Z) : option (poly pt3) :=
  match s with
  | n :: f :: _ :: r => do (ps, r') <- read_points (Z.to_nat n) r; read_faces (Z.to_nat f) r' (Poly ps [] [])
  | _ => None
  end.

(** fixer.cpp:397-408 evaluate: the three numbers printed for points, faces and edges, and V+F-E. *)
Definition evaluate {P} (p : poly P) : nat * nat * nat * Z :=
  let E := fold_left (fun e f => e + length f) (faces p) 0 / 2 in
  (length (points p), length (faces p), E, (Z.of_nat (length (points p)) + Z.of_nat (length (faces p)) - Z.of_nat E)%Z).
