(** cross_grid_refine of sandbox/cross_grid_refine.py:6-49

    The parent and child pointers of dolfin (43-44) are left out, of the entity map (46-47) the map
    of the cells is kept; that of the vertices is the identity on the old ones.  Arithmetic is
    exact. *)
From Verif Require Export Base MakeMeshModel.
From Verif Require Import GeomModel.
From Coq Require Export Reals.
Local Open Scope nat_scope.

(** 25: np.mean(x[cells], axis=1), for a cell; [gdim] numbers *)
Definition cell_mean (gdim : nat) (x : list (list R)) (cell : list nat) : res (list R) :=
  do ps <- mapM (fun v => opt_res IndexError (nth_error x v)) cell;
  Ok (map (fun k => (fold_right Rplus 0 (map (fun p => nth k p 0) ps) / INR (length ps))%R) (seq 0 gdim)).

(** 33-39: the loop; [center] is the number of the next new vertex *)
Fixpoint split_cells (basis : list (list nat)) (cells : list (list nat)) (pc center : nat) : list (list nat) * list nat :=
  match cells with
  | [] => ([], [])
  | cell :: cells' =>
      let (fine, parents) := split_cells basis cells' (pc + 1) (center + 1) in
      (map (fun base => map (fun i => nth i cell 0) base ++ [center]) basis ++ fine, map (fun _ => pc) basis ++ parents)
  end.

(** 6-49; [nv] is the number of columns of the array of cells *)
Definition cross_grid_refine (nv : nat) (m : mesh (R := R)) : res (mesh (R := R) * list nat) :=
  let x := m_vertices m in
  let cells := m_cells m in
  do _ <- py_assert ((nv =? 2) || (nv =? 3) || ((nv =? 4) && (m_tdim m =? 3)));
  do xnew <- mapM (cell_mean (m_gdim m) x) cells;
  let basis := combos (seq 0 nv) (nv - 1) in
  let (fine_cells, child2parent) := split_cells basis cells 0 (length x) in
  Ok (make_mesh 0%R (x ++ xnew) fine_cells (m_tdim m) (m_gdim m) None, child2parent).
