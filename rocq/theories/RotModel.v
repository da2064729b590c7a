(** Model of the integer rotation: /repo/src/PPMC/frenetRotation.cpp.  Floats and doubles are exact
    rationals, ints are unbounded. *)
From Coq Require Import QArith Qround ZArith List Bool Lia.
From Verif Require Import AabModel TriIntModel.
Import ListNotations.
Open Scope Q_scope.

(** CGAL MatrixC33: row, column. *)
Definition mat := axis -> axis -> Q.
Definition m33 (a b c d e f g h i : Q) : mat := fun r =>
  match r with AX => v3 a b c | AY => v3 d e f | AZ => v3 g h i end.

(** frenetRotation.cpp:46-49 signe. *)
Definition signe (x : Q) : Q := if Qltb x 0 then -1 else 1.

(** frenetRotation.cpp:52-79 matProd. *)
Definition matProd (m n : mat) : mat := fun r c => m r AX * n AX c + m r AY * n AY c + m r AZ * n AZ c.

(** The functions of the mathematical library used by compRotationMat; they stay unspecified. *)
Record libm := { l_tan : Q -> Q; l_sin : Q -> Q; l_cos : Q -> Q; l_acos : Q -> Q; l_sqrt : Q -> Q }.

(** frenetRotation.cpp:91-105. *)
Definition D1 : mat := m33 1 0 0 0 1 0 0 0 1.
Definition D2 : mat := m33 0 1 0 1 0 0 0 0 1.
Definition D3 : mat := m33 (-1) 0 0 0 (-1) 0 0 0 1.
Definition D4 : mat := m33 1 0 0 0 0 1 0 1 0.
Definition D5 : mat := m33 1 0 0 0 (-1) 0 0 0 (-1).

(** frenetRotation.cpp:128-129, 164-165, 195-196: the angle that turns (x, y) into (0, positive). *)
Definition turn (L : libm) (x y : Q) : Q :=
  let len := x * x + y * y in
  if Qeq_bool len 0 then 0 else signe (- 1 * x) * l_acos L (y / l_sqrt L len).

(** frenetRotation.cpp:83-203 compRotationMat: the fifteen matrices S[0..14], here in three parts, each
    working on the matrix M left by the previous one.  The overload of abs is taken to be the one for
    floating point. *)
(** frenetRotation.cpp:180-201: S[10..14]. *)
Definition rot_part3 (L : libm) (M : mat) : list mat :=
  let S10 := if Qltb (Qabsv (M AY AY)) (Qabsv (M AX AY)) then D2 else D1 in
  let M := matProd S10 M in
  let S11 := if Qltb (M AY AY) 0 then D3 else D1 in
  let M := matProd S11 M in
  let theta := turn L (M AX AY) (M AY AY) in
  let S12 := m33 1 (- l_tan L (theta / 2)) 0 0 1 0 0 0 1 in
  let S13 := m33 1 0 0 (l_sin L theta) 1 0 0 0 1 in
  [S10; S11; S12; S13; S12].
(** frenetRotation.cpp:146-178: S[5..9]. *)
Definition rot_part2 (L : libm) (M : mat) : list mat :=
  let S5 := if Qltb (Qabsv (M AZ AZ)) (Qabsv (M AY AZ)) then D4 else D1 in
  let M := matProd S5 M in
  let S6 := if Qltb (M AZ AZ) 0 then D5 else D1 in
  let M := matProd S6 M in
  let psi := turn L (M AY AZ) (M AZ AZ) in
  let S7 := m33 1 0 0 0 1 (- l_tan L (psi / 2)) 0 0 1 in
  let S8 := m33 1 0 0 0 1 0 0 (l_sin L psi) 1 in
  [S5; S6; S7; S8; S7] ++
  rot_part3 L (matProd (m33 1 0 0 0 (l_cos L psi) (l_sin L psi) 0 (- l_sin L psi) (l_cos L psi)) M).
(** frenetRotation.cpp:109-144: S[0..4]. *)
Definition rot_part1 (L : libm) (M : mat) : list mat :=
  let S0 := if Qltb (Qabsv (M AY AZ)) (Qabsv (M AX AZ)) then D2 else D1 in
  let M := matProd S0 M in
  let S1 := if Qltb (M AY AZ) 0 then D3 else D1 in
  let M := matProd S1 M in
  let phi := turn L (M AX AZ) (M AY AZ) in
  let S2 := m33 1 (- l_tan L (phi / 2)) 0 0 1 0 0 0 1 in
  let S3 := m33 1 0 0 (l_sin L phi) 1 0 0 0 1 in
  [S0; S1; S2; S3; S2] ++
  rot_part2 L (matProd (m33 (l_cos L phi) (l_sin L phi) 0 (- l_sin L phi) (l_cos L phi) 0 0 0 1) M).
Definition compRotationMat (L : libm) (T1 T2 normal : vec) : list mat :=
  rot_part1 L (m33 (T1 AX) (T2 AX) (normal AX) (T1 AY) (T2 AY) (normal AY) (T1 AZ) (T2 AZ) (normal AZ)).

(** C round(): to the nearest integer, halves away from zero. *)
Definition round_away (q : Q) : Z :=
  if Qltb q 0 then (- Qfloor (- q + (1 # 2)))%Z else Qfloor (q + (1 # 2)).

(** frenetRotation.cpp:210-256: VectorInt. *)
Definition ivec := (Z * Z * Z)%type.
(** frenetRotation.cpp:225-232, 249-256: multiply and round. *)
Definition apply_round (m : mat) (u : ivec) : ivec :=
  let '(x, y, z) := u in
  let row r := round_away (m r AX * inject_Z x + m r AY * inject_Z y + m r AZ * inject_Z z) in
  (row AX, row AY, row AZ).

(** frenetRotation.cpp:218-224: the permutation steps are used as they are, the others with their
    off-diagonal entries negated. *)
Definition fwd_mat (i : nat) (m : mat) : mat :=
  if existsb (Nat.eqb i) [0; 1; 5; 6; 10; 11]%nat then m
  else m33 (m AX AX) (- m AX AY) (- m AX AZ) (- m AY AX) (m AY AY) (- m AY AZ) (- m AZ AX) (- m AZ AY) (m AZ AZ).

(** The loop of frenetRotation.cpp:216-233, from step [i] on. *)
Fixpoint fwd_steps (i : nat) (Ss : list mat) (u : ivec) : ivec :=
  match Ss with
  | [] => u
  | m :: Ss => fwd_steps (S i) Ss (apply_round (fwd_mat i m) u)
  end.
(** frenetRotation.cpp:206-236. *)
Definition frenetRotation (L : libm) (Dist : ivec) (T1 T2 normal : vec) : ivec :=
  fwd_steps 0 (compRotationMat L T1 T2 normal) Dist.
(** frenetRotation.cpp:239-258: S[14] down to S[0]. *)
Definition invFrenetRotation (L : libm) (Frenet : ivec) (T1 T2 normal : vec) : ivec :=
  fold_left (fun u m => apply_round m u) (rev (compRotationMat L T1 T2 normal)) Frenet.
