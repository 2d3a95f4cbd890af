(** Model of identity_matrix (xii/linalg/matrix_utils.py 59-70) and of
    block_mat_to_numpy (xii/linalg/convert.py 230-243) for block matrices whose
    blocks may again be block matrices, and of block_reshape
    (xii/linalg/matrix_utils.py 73-87) followed by block_mat_to_numpy.

    Library meaning that is trusted here:
    - createAIJ(size=n) with setDiagonal is the matrix with that diagonal;
    - a cbc.block block_mat keeps the rows of blocks it is given;
    - np.array(list).reshape(shape) of the flattened blocks has them in their old places;
    - scipy.sparse.bmat as in scipy 1: every block that is not None sets the
      number of rows of its row of blocks (columns of its column) when this is
      still 0 and must agree with it otherwise; None stands for zeros. *)
From Verif Require Import Base Mat ConvertModel BlockUtilsModel.

(** A number, a matrix or a block_mat. *)
Inductive deep := DNum (a : Qc) | DMat (m : mat) | DBlock (rows : list (list deep)).

(** What identity_matrix takes: a FunctionSpace (its dimension), an int or a list. *)
Inductive spaces := Space (dim : nat) | Size (n : nat) | Spaces (l : list spaces).

(** matrix_utils.py 59-70 identity_matrix.  The numbers of 67 are replaced on
    the diagonal only (68-69). *)
Fixpoint identity_matrix (V : spaces) : deep :=
  match V with
  | Space dim => DMat (diagonal_matrix dim q1)
  | Size n => DMat (diagonal_matrix n q1)
  | Spaces l =>
    let ids := map identity_matrix l in
    DBlock (map (fun i => map (fun j => if i =? j then nth i ids (DNum q0) else DNum q0)
                              (seq 0 (length l)))
                (seq 0 (length l)))
  end.

(** scipy bmat: brow_lengths[i] (bcol_lengths[j]) and a block with [n] rows (columns). *)
Definition put (l : list nat) (k n : nat) : list nat := firstn k l ++ n :: skipn (S k) l.
Definition fix_len (l : list nat) (k n : nat) : res (list nat) :=
  if nth k l 0 =? 0 then Ok (put l k n)
  else if nth k l 0 =? n then Ok l else Err ValueError.

(** scipy bmat: the loop over the blocks, row by row. *)
Fixpoint scan (cells : list (nat * nat * option mat)) (br bc : list nat) : res (list nat * list nat) :=
  match cells with
  | [] => Ok (br, bc)
  | (_, _, None) :: l => scan l br bc
  | (i, j, Some A) :: l =>
    do br' <- fix_len br i (nr A);
    do bc' <- fix_len bc j (nc A);
    scan l br' bc'
  end.

Definition oblk (bs : list (list (option mat))) (i j : nat) : option mat := nth j (nth i bs []) None.

Definition scipy_bmat (m n : nat) (bs : list (list (option mat))) : res mat :=
  do lens <- scan (flat_map (fun i => map (fun j => (i, j, oblk bs i j)) (seq 0 n)) (seq 0 m))
                  (repeat 0 m) (repeat 0 n);
  let '(br, bc) := lens in
  Ok (Mat (list_sum br) (list_sum bc)
        (fun I J => let '(i, r) := locate br I in let '(j, c) := locate bc J in
                    match oblk bs i j with
                    | Some A => if (r <? nr A) && (c <? nc A) then ent A r c else q0
                    | None => q0
                    end)).

(** convert.py 230-243 block_mat_to_numpy.  A block_mat without rows is a
    ValueError (not reached by the callers). *)
Fixpoint block_mat_to_numpy (b : deep) : res (option mat) :=
  match b with
  | DMat m => Ok (Some m)
  | DNum _ => Ok None
  | DBlock rows =>
    do bs <- mapM (mapM block_mat_to_numpy) rows;
    match rows with
    | [] => Err ValueError
    | row :: _ => do M <- scipy_bmat (length rows) (length row) bs; Ok (Some M)
    end
  end.

(** matrix_utils.py 73-87 block_reshape (BlockUtilsModel.v) as a block matrix:
    a group of several blocks is a block_mat, a single block stays what it is. *)
Definition of_group (g : bgroup deep) : deep := match g with GOne x => x | GMany l => DBlock l end.
Definition reshaped (AA : list (list deep)) (offsets : list Z) : res deep :=
  do R <- block_reshape AA offsets;
  Ok (DBlock (map (map of_group) R)).
