(** Operators between finite element spaces: FESpaceOperator of xii/linalg/fe_space_op.py:8-62 and
    the harmonic extension of xii/assembler/extension_matrix.py:102-172

    Spaces are their dimensions.  The vector create_vec returns is from a pool (vec_pool of
    cbc.block), which may hand out a vector that was used before: what it holds is an argument
    [pool] of the model.  Messages and timers (27-28, 40) are left out.  PETSc matrices are
    matrices of exact numbers. *)
From Verif Require Export Base Mat FillModel.
From Verif Require Import EmbedModel.
Local Open Scope nat_scope.

(** fe_space_op.py:10-12 and the attribute matrix_repr; [so_matvec] is that of the subclass *)
Record space_op := SpaceOp { so_V1 : nat; so_V0 : nat; so_matvec : vec -> res vec; so_repr : option mat }.
(** 55-57: without a matvec in the subclass *)
Definition no_matvec (b : vec) : res vec := Err NotImplementedError.

(** sparse.vstack of 1 x n matrices *)
Definition vstack (rows : list vec) : res mat :=
  match rows with
  | [] => Err ValueError
  | r :: _ => if forallb (fun s => length s =? length r) rows then Ok (of_rows (length rows) (length r) rows) else Err ValueError
  end.
(** 30-38, for a column *)
Definition collapse_column (op : space_op) (st : vec * list vec) (i : nat) : res (vec * list vec) :=
  let (x_values, columns) := st in
  let x_values := set_nth x_values i q1 in
  do y <- so_matvec op x_values;
  Ok (set_nth x_values i q0, columns ++ [y]).
(** 22-53; returns the operator with its attribute *)
Definition collapse (pool : vec) (op : space_op) : res (mat * space_op) :=
  match so_repr op with
  | Some M => Ok (M, op)
  | None =>
      do st <- foldM (collapse_column op) (seq 0 (so_V1 op)) (pool, []);
      do rows <- vstack (snd st);
      Ok (mtr rows, SpaceOp (so_V1 op) (so_V0 op) (so_matvec op) (Some (mtr rows)))
  end.

(** ** Harmonic extension, extension_matrix.py:102-172 *)
(** What is assembled: (grad u, grad v) and (u, v) on the auxiliary mesh, (f, T v) on the curve
    [h_load], (p, q) on the extended mesh and (T u, q) there [h_transfer]; [h_markers] are the values of
    auxiliary_facet_f.  Conditions on the boundary are commented out in the code (143-144, 161-163). *)
Record harmonic := Harmonic { h_dim : nat; h_ext : nat; h_markers : list nat; h_stiff : mat; h_mass : mat; h_load : mat; h_mass_ext : mat; h_transfer : mat }.
(** 126-168; [solve] is df.solve *)
Definition harmonic_matvec (solve : mat -> vec -> res vec) (h : harmonic) (b : vec) : res vec :=
  let A := madd (h_stiff h) (h_mass h) in
  do uh <- solve A (mv (h_load h) b);
  solve (h_mass_ext h) (mv (h_transfer h) uh).
(** 113-118, 170-171; gdims: of the curve, the extended and the auxiliary mesh *)
Definition harmonic_extension_operator (solve : mat -> vec -> res vec) (gdims : nat * nat * nat) (pool : vec) (h : harmonic) : res mat :=
  let '(g1, g0, ga) := gdims in
  do _ <- py_assert ((g1 =? 2) && (g0 =? 2));
  do _ <- py_assert (ga =? 2);
  do _ <- py_assert (existsb (Nat.eqb 1) (h_markers h));
  do r <- collapse pool (SpaceOp (h_dim h) (h_ext h) (harmonic_matvec solve h) None);
  Ok (fst r).
