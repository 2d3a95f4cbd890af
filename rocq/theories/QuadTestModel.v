(** The averages of test/test_reduction_quad.py (24-241) and the values expected of them, with the shapes of
    ShapeModel.v and the tables of DiskModel.v.

    Simplifications: exact real arithmetic.  The functions of the tests are interpolated in a space that has them (constants
    and squares of a coordinate in CG2, cubic polynomials in CG3), so that the interpolant is the function.  The line in
    the tests is x = y = 0.5 (I_curve) or has a corner (L_curve); a cell of it has the tangent v0 - v1, which is along z or along x.
    A mesh of the unit cube finds a point exactly if it is in the closed cube.  The error in the norm of L2 on the line,
    which is what the tests return, is not modelled, the values at the dofs are. *)
From Coq Require Import ZArith Reals.
From Verif Require Import Base ShapeModel DiskModel.
Local Open Scope R_scope.

(** tree.compute_first_entity_collision(Point) < mesh.num_cells() for UnitCubeMesh(n, n, n) (average_matrix.py:206-209) *)
Definition unit_interval (t : R) : bool := if Rle_dec 0 t then (if Rle_dec t 1 then true else false) else false.
Definition in_cube (p : v3) : bool := unit_interval (vx p) && unit_interval (vy p) && unit_interval (vz p).

(** average_matrix.py:196-241: the row of a dof at [x0] of a cell with tangent [n], applied to the coefficients of [g]; the
    weights of all points are summed up in the measure, the points that are not in the mesh are skipped *)
Fixpoint sum_weights (w : list R) : R := match w with [] => 0 | v :: w' => v + sum_weights w' end.
Fixpoint sum_inside (inside : v3 -> bool) (g : v3 -> R) (measure : R) (pts : list v3) (w : list R) : R :=
  match pts, w with
  | p :: pts', v :: w' => (if inside p then g p * v / measure else 0) + sum_inside inside g measure pts' w'
  | _, _ => 0
  end.
Definition average (inside : v3 -> bool) (quadrature : v3 -> v3 -> res (list v3 * list R)) (g : v3 -> R) (x0 n : v3) : res R :=
  do q <- quadrature x0 n;
  Ok (sum_inside inside g (sum_weights (snd q)) (fst q) (snd q)).

(** average_shape.py:232-234: Disk.__init__ with the table of the degree (disk_quadrature.py:3-119), in decimals *)
Definition decimal (z : Z) : R := IZR z / 10 ^ 15.
Definition disk_rule (degree : Z) : res (list (R * R * R)) :=
  do pw <- disk_quadrature degree;
  Ok (map (fun r => (decimal (fst (fst r)), decimal (snd (fst r)), decimal (snd r))) (combine (fst pw) (snd pw))).
Definition disk_shape (radius : v3 -> R) (degree : Z) (x0 n : v3) : res (list v3 * list R) :=
  do rule <- disk_rule degree;
  disk_points radius rule x0 n.

(** test_reduction_quad.py:10 *)
Definition is_close (a b : R) : Prop := Rabs (a - b) < / 10 ^ 12.

(** The functions: 28 (sanity_test), 69 (identity_test), 107 and 142, 178, 214 (the others) *)
Definition f_sanity (p : v3) : R := 1.
Definition f_identity (p : v3) : R := vz p * vz p.
Definition f_foo (p : v3) : R := vz p * ((vx p - / 2) * (vx p - / 2) + (vy p - / 2) * (vy p - / 2)).

(** What they are compared with: 40 (one), 85 (the function), 116, 151, 187, 223; functions of the coordinates on the line *)
Definition true_circle (p : v3) : R := vz p * (/ 10 + 0 * vz p / 2) * (/ 10 + 0 * vz p / 2).
Definition true_disk (p : v3) : R := vz p * (/ 10 + 0 * vz p / 2) * (/ 10 + 0 * vz p / 2) / 2.
Definition size : R := / 10.
Definition true_rim (p : v3) : R := vz p * 4 / 3 * (size + size * vz p) * (size + size * vz p).
Definition true_square (p : v3) : R := vz p * 2 / 3 * (size + size * vz p) * (size + size * vz p).

(** The shapes: 51, 56-59 and 95-98 with constants, 106 and 141 with radii, 176-177 and 212-213 with corners *)
Definition r_const (x0 : v3) : R := / 10.
Definition p_const (x0 : v3) : v3 := vminus x0 (V3 (/ 10) (/ 10) 0).
Definition r_test (x0 : v3) : R := / 10 + 0 * vz x0 / 2.
Definition p_test (x0 : v3) : v3 := vminus x0 (V3 (size + size * vz x0) (size + size * vz x0) 0).

(** test/avg_test_square.py:54, 74, 75: corner, function and value (there the function is interpolated in CG1, here it is not) *)
Definition f_xxyy (p : v3) : R := vx p * vx p + vy p * vy p.
Definition p_old (size : R) (x0 : v3) : v3 := V3 (- size) (- size) (vz x0).
Definition old_value (size : R) : R := 4 * size * size / 3.
