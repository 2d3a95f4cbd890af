(** Geometry of cells: circumcenters (xii/meshing/cell_centers.py:7-291), the
    point-in-simplex test (xii/meshing/refinement.py:187-219) and the intersection of a
    segment with a cell (xii/meshing/line_collision.py:43-76)

    Arithmetic is exact (real numbers); a point is the list of its coordinates. *)
From Verif Require Export RLin.
Export ListNotations.
Local Open Scope R_scope.

Fixpoint rsub (x y : list R) : list R := match x, y with a :: x', b :: y' => (a - b) :: rsub x' y' | _, _ => [] end.
Fixpoint radd (x y : list R) : list R := match x, y with a :: x', b :: y' => (a + b) :: radd x' y' | _, _ => [] end.
Definition rscale (a : R) (x : list R) : list R := map (Rmult a) x.
Fixpoint rdot (x y : list R) : R := match x, y with a :: x', b :: y' => a * b + rdot x' y' | _, _ => 0 end.
(** np.linalg.norm of a vector *)
Definition rnorm (x : list R) : R := sqrt (rdot x x).
Definition at_ (x : list R) (i : nat) : R := nth i x 0.
(** Determinant by expansion of the first row (np.linalg.det) *)
Definition drop_col (j : nat) (r : list R) : list R := firstn j r ++ skipn (S j) r.
Fixpoint det (n : nat) (M : list (list R)) : R :=
  match n, M with
  | O, _ => 1
  | S _, [] => 0
  | S n', r :: M' => rsum n (fun j => (-1) ^ j * at_ r j * det n' (map (drop_col j) M'))
  end.

Section Circumcenter.
(** Eigen's A.fullPivLu().solve(b) *)
Variable lu_solve : list (list R) -> list R -> list R.
(** code_1_2, 31-36.  [c] are the coordinates of the vertices of a cell, one vertex after
    the other (get_vertex_coordinates) *)
Definition circ_1_2 (c : list R) : list R :=
  let v0 := [at_ c 0; at_ c 1] in let v1 := [at_ c 2; at_ c 3] in rscale (1 / 2) (radd v0 v1).
(** code_2_2, 125-141 *)
Definition circ_2_2 (c : list R) : list R :=
  let v0 := [at_ c 0; at_ c 1] in let v1 := [at_ c 2; at_ c 3] in let v2 := [at_ c 4; at_ c 5] in
  let u := rsub v1 v0 in let v := rsub v2 v0 in
  let b := [rdot u u; rdot v v] in
  let A := [[rdot u u; rdot u v]; [rdot v u; rdot v v]] in
  let yloc := lu_solve A (rscale (1 / 2) b) in
  radd (radd v0 (rscale (at_ yloc 0) u)) (rscale (at_ yloc 1) v).
(** code_2_3, 182-199 *)
Definition circ_2_3 (c : list R) : list R :=
  let v0 := [at_ c 0; at_ c 1; at_ c 2] in let v1 := [at_ c 3; at_ c 4; at_ c 5] in let v2 := [at_ c 6; at_ c 7; at_ c 8] in
  let u := rsub v1 v0 in let v := rsub v2 v0 in
  let b := [rdot u u; rdot v v] in
  let A := [[rdot u u; rdot u v]; [rdot v u; rdot v v]] in
  let yloc := lu_solve A (rscale (1 / 2) b) in
  radd (radd v0 (rscale (at_ yloc 0) u)) (rscale (at_ yloc 1) v).
(** code_3_3, 241-260 *)
Definition circ_3_3 (c : list R) : list R :=
  let v0 := [at_ c 0; at_ c 1; at_ c 2] in let v1 := [at_ c 3; at_ c 4; at_ c 5] in let v2 := [at_ c 6; at_ c 7; at_ c 8] in let v3 := [at_ c 9; at_ c 10; at_ c 11] in
  let u := rsub v1 v0 in let v := rsub v2 v0 in let w := rsub v3 v0 in
  let b := [rdot u u; rdot v v; rdot w w] in
  let A := [[rdot u u; rdot u v; rdot u w]; [rdot v u; rdot v v; rdot v w]; [rdot w u; rdot w v; rdot w w]] in
  let yloc := lu_solve A (rscale (1 / 2) b) in
  radd (radd (radd v0 (rscale (at_ yloc 0) u)) (rscale (at_ yloc 1) v)) (rscale (at_ yloc 2) w).
(** 275-291: the value on a cell.  The code for (1, 3) does not compile (76-78: a vector of
    two components from three numbers), there is none for (1, 1). *)
Definition cell_circumcenter (tdim gdim : nat) (cell : list (list R)) : res (list R) :=
  let c := concat cell in
  match tdim, gdim with
  | 1%nat, 2%nat => Ok (circ_1_2 c)
  | 1%nat, 3%nat => Err RuntimeError
  | 2%nat, 2%nat => Ok (circ_2_2 c)
  | 2%nat, 3%nat => Ok (circ_2_3 c)
  | 3%nat, 3%nat => Ok (circ_3_3 c)
  | _, _ => Err KeyError
  end.
End Circumcenter.

(** itertools.combinations *)
Fixpoint combos {A} (l : list A) (k : nat) : list (list A) :=
  match k, l with
  | O, _ => [[]]
  | S _, [] => []
  | S k', x :: l' => map (cons x) (combos l' k') ++ combos l' k
  end.
(** refinement.py:198-203 *)
Definition simplices (x : list R) (cell : list (list R)) : list (list (list R)) :=
  map (fun other => x :: map (fun i => nth i cell []) other) (combos (seq 0 (length cell)) (length cell - 1)).
(** np.cross *)
Definition rcross (u v : list R) : list R :=
  [at_ u 1 * at_ v 2 - at_ u 2 * at_ v 1; at_ u 2 * at_ v 0 - at_ u 0 * at_ v 2; at_ u 0 * at_ v 1 - at_ u 1 * at_ v 0].
(** refinement.py:206-219.  For other numbers of vertices the function returns None, with
    which no arithmetic can be done. *)
Definition simplex_area (cell : list (list R)) : res R :=
  match cell with
  | [A; B] => Ok (rnorm (rsub B A))
  | [A; B; C] => if (length A =? 2)%nat then Ok (Rabs (det 3 (map (fun p => p ++ [1]) cell) / 2))
                 else if (length A =? 3)%nat then Ok (rnorm (rcross (rsub B A) (rsub C A)) / 2) else Err ValueError
  | [A; _; _; _] => if (length A =? 3)%nat then Ok (Rabs (det 4 (map (fun p => p ++ [1]) cell) / 6)) else Err LinAlgError
  | _ => Err TypeError
  end.
Definition lsum (l : list R) : R := fold_right Rplus 0 l.
(** refinement.py:194 *)
Definition area_diff (x : list R) (cell : list (list R)) : res R :=
  do a <- simplex_area cell;
  do parts <- mapM simplex_area (simplices x cell);
  Ok (Rabs (a - lsum parts)).
(** refinement.py:195 *)
Definition point_is_inside (x : list R) (cell : list (list R)) (tol : R) : res bool :=
  do d <- area_diff x cell;
  Ok (if Rlt_dec d tol then true else false).
(** refinement.py:190-191: many points, each in its cell *)
Fixpoint points_are_inside (xs : list (list R)) (cells : list (list (list R))) (tol : R) : res bool :=
  match xs, cells with
  | x :: xs', c :: cells' => do b <- point_is_inside x c tol;
                             if b then points_are_inside xs' cells' tol else Ok false
  | _, _ => Ok true
  end.

Section Intersects.
(** np.linalg.solve *)
Variable np_solve : list (list R) -> list R -> res (list R).
(** np.vstack(vs).T *)
Definition columns (vs : list (list R)) : list (list R) := map (fun i => map (fun v => at_ v i) vs) (seq 0 (length (hd [] vs))).
Definition within (tol xi : R) : bool := (if Rlt_dec (0 - tol) xi then true else false) && (if Rlt_dec xi (1 + tol) then true else false).
(** line_collision.py:55-76 *)
Definition intersects (cell : list (list R)) (seg : list R * list R) (tol : R) : res bool :=
  let '(X, Y) := seg in
  do vs <- match cell with
           | [A; B] => Ok (A, [rsub B A; rsub X Y])
           | [A; B; C] => Ok (A, [rsub B A; rsub C A; rsub X Y])
           | [] => Err IndexError
           | _ => Err ValueError
           end;
  let '(A, vs) := vs in
  let vec := rsub X A in
  match (if (length (hd [] vs) =? length vs)%nat then np_solve (columns vs) vec else Err LinAlgError) with
  | Err LinAlgError => Ok false
  | Err e => Err e
  | Ok x => Ok (forallb (within tol) x && (if (length x =? 3)%nat then within tol (at_ x 0 + at_ x 1) else true))
  end.
(** line_collision.py:43-52, the default tolerance *)
Definition collides_cell (cell : list (list R)) (seg : list R * list R) : res bool := intersects cell seg (1 / 10 ^ 13).
End Intersects.
