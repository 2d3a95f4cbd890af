(** Model of xii/assembler/average_shape.py (Square 30-82, SquareRim 85-140,
    Circle 143-216, Disk 219-281) over the real numbers.

    Simplifications: exact real arithmetic; cos(pi/2) = 0 and sin(pi/2) = 1
    exactly; leggauss(degree) is a list of points and weights given as a
    parameter; the shape parameters P and radius are the functions stored by the
    constructors.  n / |n| with n = 0 is nan, which the assertion on |n| in the
    transform (and the one on the plane in the squares) turns into an
    AssertionError. *)
From Verif Require Export RLin.

Record v3 := V3 { vx : R; vy : R; vz : R }.
Definition vplus (a b : v3) := V3 (vx a + vx b) (vy a + vy b) (vz a + vz b).
Definition vminus (a b : v3) := V3 (vx a - vx b) (vy a - vy b) (vz a - vz b).
Definition vmul (c : R) (a : v3) := V3 (c * vx a) (c * vy a) (c * vz a).
Definition vdot3 (a b : v3) : R := vx a * vx b + vy a * vy b + vz a * vz b.
Definition cross (a b : v3) := V3 (vy a * vz b - vz a * vy b) (vz a * vx b - vx a * vz b) (vx a * vy b - vy a * vx b).
Definition norm3 (a : v3) : R := sqrt (vdot3 a a).
Definition ez := V3 0 0 1.
Definition tol13 : R := / 10 ^ 13.

(** A 3x3 matrix as three rows; A@x *)
Definition mat3 := (v3 * v3 * v3)%type.
Definition app3 (A : mat3) (x : v3) : v3 := let '(r1, r2, r3) := A in V3 (vdot3 r1 x) (vdot3 r2 x) (vdot3 r3 x).

(** average_shape.py:163-183 (same as 240-259): the rotation matrix for a unit
    normal *)
Definition rotation_axis (n : v3) : v3 :=
  let a := cross ez n in if Rlt_dec (norm3 a) tol13 then ez else vmul (/ norm3 a) a.
Definition rotation (n : v3) : mat3 :=
  let a := rotation_axis n in
  let c := vdot3 ez n in
  let s := sqrt (1 - c ^ 2) in
  (V3 (c + s * 0 + (1 - c) * (vx a * vx a)) (s * - vz a + (1 - c) * (vx a * vy a)) (s * vy a + (1 - c) * (vx a * vz a)),
   V3 (s * vz a + (1 - c) * (vy a * vx a)) (c + s * 0 + (1 - c) * (vy a * vy a)) (s * - vx a + (1 - c) * (vy a * vz a)),
   V3 (s * - vy a + (1 - c) * (vz a * vx a)) (s * vx a + (1 - c) * (vz a * vy a)) (c + s * 0 + (1 - c) * (vz a * vz a))).

(** average_shape.py:185-197 *)
Definition map_from_reference (x0 n : v3) (r : R) (x : v3) : res v3 :=
  if Req_EM_T (norm3 n) 0 then Err AssertionError
  else let n := vmul (/ norm3 n) n in
       if Rlt_dec (Rabs (norm3 n - 1)) tol13 then Ok (vplus x0 (vmul r (app3 (rotation n) x))) else Err AssertionError.

(** Circle.quadrature 199-210; [gauss] is the list of (xq, wq) of leggauss *)
Definition circle_quadrature (radius : v3 -> R) (gauss : list (R * R)) (x0 n : v3) : res (list v3 * list R) :=
  let r := radius x0 in
  do pts <- mapM (map_from_reference x0 n r) (map (fun g => V3 (cos (PI * fst g)) (sin (PI * fst g)) 0) gauss);
  Ok (pts, map (fun g => snd g * r * PI) gauss).
(** Circle.quadrature_normal 213-221 *)
Definition circle_normals (radius : v3 -> R) (gauss : list (R * R)) (x0 n : v3) : res (list v3 * list R * list v3) :=
  do q <- circle_quadrature radius gauss x0 n;
  Ok (fst q, snd q, map (fun p => let d := vminus p x0 in vmul (/ norm3 d) d) (fst q)).
(** Disk.quadrature 267-281; [rule] are points and weights on the unit disk *)
Definition disk_points (radius : v3 -> R) (rule : list (R * R * R)) (x0 n : v3) : res (list v3 * list R) :=
  let r := radius x0 in
  do pts <- mapM (map_from_reference x0 n r) (map (fun g => V3 (fst (fst g)) (snd (fst g)) 0) rule);
  Ok (pts, map (fun g => snd g * r ^ 2) rule).

(** Square.map_from_reference 46-66: the corners A and C *)
Definition square_corners (x0 n P : v3) : res (v3 * v3) :=
  if Req_EM_T (norm3 n) 0 then Err AssertionError
  else let n := vmul (/ norm3 n) n in
       let vec := vminus P x0 in
       if Rlt_dec (Rabs (vdot3 vec n)) tol13
       then Ok (vplus (vplus (vplus x0 (vmul 0 vec)) (vmul 1 (cross n vec))) (vmul (vdot3 n vec * (1 - 0)) n),
                vplus (vplus (vplus x0 (vmul 0 vec)) (vmul (-1) (cross n vec))) (vmul (vdot3 n vec * (1 - 0)) n))
       else Err AssertionError.
Definition square_map (P A C : v3) (xy : R * R) : res v3 :=
  if Rlt_dec (Rabs (fst xy)) (1 + tol13)
  then if Rlt_dec (Rabs (snd xy)) (1 + tol13)
       then Ok (vplus (vplus P (vmul (/ 2 * (1 + fst xy)) (vminus A P))) (vmul (/ 2 * (1 + snd xy)) (vminus C P)))
       else Err AssertionError
  else Err AssertionError.
(** Square.quadrature 68-87 *)
Definition square_quadrature (P : v3 -> v3) (gauss : list (R * R)) (x0 n : v3) : res (list v3 * list R) :=
  do AC <- square_corners x0 n (P x0);
  let sq := square_map (P x0) (fst AC) (snd AC) in
  do A <- sq (-1, -1);
  do B <- sq (-1, 1);
  let size := / 2 * norm3 (vminus B A) in
  do pts <- mapM sq (list_prod (map fst gauss) (map fst gauss));
  let wq := map (fun g => snd g * size) gauss in
  Ok (pts, map (fun ww => fst ww * snd ww) (list_prod wq wq)).

(** SquareRim.map_from_reference 104-127 and quadrature 129-145 *)
Definition rim_map (corners : list v3) (x : R) : res (list v3) :=
  if Rlt_dec (Rabs x) (1 + tol13)
  then Ok (map (fun PQ => vplus (vmul (/ 2 * (1 - x)) (fst PQ)) (vmul (/ 2 * (1 + x)) (snd PQ)))
             (combine corners (tl corners ++ match corners with [] => [] | c :: _ => [c] end)))
  else Err AssertionError.
Definition rim_quadrature (P : v3 -> v3) (gauss : list (R * R)) (x0 n : v3) : res (list v3 * list R) :=
  do AC <- square_corners x0 n (P x0);
  let pts := [P x0; fst AC; vminus x0 (vminus (P x0) x0); snd AC] in
  do cs <- rim_map pts (-1);
  let size := / 2 * norm3 (vminus (nth 1 cs x0) (nth 0 cs x0)) in
  do tx <- mapM (rim_map pts) (map fst gauss);
  Ok (concat tx, flat_map (fun g => repeat (snd g * size) 4) gauss).
