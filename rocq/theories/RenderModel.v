(** The pictures of averaging surfaces: render_avg_surface and
    tube_render_avg_surface of xii/assembler/average_shape.py:285-329, and the
    points the averages themselves use (average_matrix.py:92-108 and 187-203).

    Simplifications: the space of the averages (average_space) is given by the
    dofs of its cells and the points of the dofs, as its dofmap and
    tabulate_dof_coordinates return them; shape.quadrature is a function (the
    shapes are those of ShapeModel); the vertices of a cell come in the same order
    from get_vertex_coordinates and from mesh_x[entities(0)]. *)
From Verif Require Import Base EmbedModel.
From Verif Require Export ShapeModel.

(** shape.quadrature *)
Definition shape_fn : Type := v3 -> v3 -> res (list v3 * list R).
(** A cell of the line mesh: the vertices and the dofs of the first component (TV.sub(0), or of the scalar space) *)
Record lcell := LCell { c_v0 : v3; c_v1 : v3; c_dofs : list nat }.
(** dm.cell_dofs of a space with [size] components: those of the first, then those of the next, shifted *)
Definition cell_dofs (size : nat) (c : lcell) : list nat := flat_map (fun k => map (fun d => (d + k)%nat) (c_dofs c)) (seq 0%nat size).

(** np.row_stack *)
Definition row_stack (l : list v3) : res (list v3) := match l with [] => Err ValueError | _ => Ok l end.
(** shape.quadrature(x, n).points; the shape is None for traces *)
Definition points (sh : option shape_fn) (x n : v3) : res (list v3) :=
  do s <- opt_res AttributeError sh; do q <- s x n; Ok (fst q).

(** 285-307 *)
Definition render_dof (sh : option shape_fn) (n : v3) (surface : list (list v3)) (x : v3) : res (list (list v3)) :=
  do p <- points sh x n; do p <- row_stack p; Ok (surface ++ [p]).
Definition render_cell (size : nat) (sh : option shape_fn) (dofs_x : nat -> v3) (surface : list (list v3)) (c : lcell) : res (list (list v3)) :=
  let n := vminus (c_v1 c) (c_v0 c) in
  foldM (render_dof sh n) (map dofs_x (cell_dofs size c)) surface.
Definition render_avg_surface (size : nat) (sh : option shape_fn) (dofs_x : nat -> v3) (cells : list lcell) : res (list (list v3)) :=
  foldM (render_cell size sh dofs_x) cells [].

(** 310-329 *)
Definition tube_cell (sh : option shape_fn) (c : lcell) : res (list v3 * list v3) :=
  let n := vminus (c_v1 c) (c_v0 c) in
  do p0 <- points sh (c_v0 c) n; do p0 <- row_stack p0;
  do p1 <- points sh (c_v1 c) n; do p1 <- row_stack p1;
  Ok (p0, p1).
Definition tube_render_avg_surface (sh : option shape_fn) (cells : list lcell) : res (list (list v3 * list v3)) := mapM (tube_cell sh) cells.

(** average_matrix.py:92-108 and 187-203: the points of the averages, dof by dof *)
Definition used_cell (sh : option shape_fn) (dofs_x : nat -> v3) (used : list (list v3)) (c : lcell) : res (list (list v3)) :=
  let n := vminus (c_v0 c) (c_v1 c) in
  foldM (fun used x => do p <- points sh x n; Ok (used ++ [p])) (map dofs_x (c_dofs c)) used.
Definition used_points (sh : option shape_fn) (dofs_x : nat -> v3) (cells : list lcell) : res (list (list v3)) :=
  foldM (used_cell sh dofs_x) cells [].
