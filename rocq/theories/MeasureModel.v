(** MeasureFunction of xii/assembler/average_matrix.py:334-372

    A cell of the line mesh is its two vertices and its dofs.  [quadrature] is that of the
    shape, ShapeModel.v.  Entries of np.empty are [None] until they are written. *)
From Verif Require Export Base ShapeModel FillModel.
From Verif Require Import EmbedModel.
From Coq Require Import Reals.
Local Open Scope nat_scope.

Record line_cell := LineCell { l_v0 : v3; l_v1 : v3; l_dofs : list nat }.
(** visited and values *)
Definition mstate := (list bool * list (option R))%type.

(** 358-364; the dofs of a cell differ, so that visited[dofs] may be read at each of them *)
Definition measure_dof (quadrature : v3 -> v3 -> res (list v3 * list R)) (coordinates : nat -> v3) (n : v3) (st : mstate) (dof : nat) : res mstate :=
  do seen <- opt_res IndexError (nth_error (fst st) dof);
  if (seen : bool) then Ok st
  else
    do q <- quadrature (coordinates dof) n;
    Ok (set_nth (fst st) dof true, set_nth (snd st) dof (Some (fold_left Rplus (snd q) 0%R))).
(** 350-364 *)
Definition measure_cell (quadrature : v3 -> v3 -> res (list v3 * list R)) (coordinates : nat -> v3) (st : mstate) (c : line_cell) : res mstate :=
  let n := vminus (l_v0 c) (l_v1 c) in
  foldM (measure_dof quadrature coordinates n) (l_dofs c) st.
Definition MeasureFunction (quadrature : v3 -> v3 -> res (list v3 * list R)) (dim : nat) (coordinates : nat -> v3) (cells : list line_cell) : res (list (option R)) :=
  do st <- foldM (measure_cell quadrature coordinates) cells (repeat false dim, repeat None dim);
  do _ <- py_assert (forallb (fun b => b) (fst st));
  Ok (snd st).
