(** Matrices of operators that are given by their action (xii/linalg/fe_space_op.py), and of rows
    (row_matrix of xii/linalg/matrix_utils.py)

    Library meaning that is trusted here: [self*x] is the method matvec; csc_matrix of an array is the
    matrix of this row, vstack puts rows of one length on top of each other, raising ValueError for
    other lengths or no rows; numpy's cumsum, tile, hstack; csr_matrix and createAIJ take the entries
    of row i from indptr[i] to indptr[i+1], adding those of one column; unpacking a set with other
    than one element raises ValueError. *)
From Verif Require Export Base Mat FillModel.

(** create_vec (14-20): the vectors of cbc.block's pool; [stale] is what the vector holds, which is
    zero if it is new *)
Record feop := { dim0 : nat; dim1 : nat; stale : vec; action : vec -> res vec }.
(** collapse, 31-42: the loop on the columns; [x_values] is kept *)
Fixpoint columns_from (op : feop) (n i : nat) (x_values : vec) : res (list vec) :=
  match n with
  | 0 => Ok []
  | S n' =>
      let x := set_nth x_values i q1 in
      do column <- action op x;
      do columns <- columns_from op n' (i + 1) (set_nth x i q0);
      Ok (column :: columns)
  end.
(** scipy: vstack *)
Definition vstack (rows : list vec) : res mat :=
  match rows with
  | [] => Err ValueError
  | r :: _ => if forallb (fun x => length x =? length r) rows then Ok (of_rows (length rows) (length r) rows) else Err ValueError
  end.
(** collapse, 22-54: [cache] is the attribute matrix_repr, if there is one; the result is the matrix
    and the attribute *)
Definition collapse (op : feop) (cache : option mat) : res (mat * option mat) :=
  match cache with
  | Some A => Ok (A, Some A)
  | None =>
      do columns <- columns_from op (dim1 op) 0 (stale op);
      do M <- vstack columns;
      let A := mtr M in
      Ok (A, Some A)
  end.

(** matrix_utils.py 104-122: sparse storage of the rows *)
Record csr := { indptr : list nat; indices : list nat; data : vec; shape : nat * nat }.
Fixpoint cumsum (acc : nat) (l : list nat) : list nat := match l with [] => [] | a :: l' => (acc + a) :: cumsum (acc + a) l' end.
Definition unpack_sizes (sizes : list nat) : res nat :=
  match nodup Nat.eq_dec sizes with [n] => Ok n | _ => Err ValueError end.
Definition row_matrix (rows : list vec) : res csr :=
  do ncols <- unpack_sizes (map (@length Qc) rows);
  let nrows := length rows in
  Ok {| indptr := cumsum 0 (0 :: repeat ncols nrows);
        indices := concat (repeat (seq 0 ncols) nrows);
        data := concat rows;
        shape := (nrows, ncols) |}.
