(** Sparse matrices in rows: xii/linalg/convert.py:230-291 and 378-400 (block_mat_to_numpy,
    numpy_to_petsc, block_mat_to_petsc, set_lg_map), xii/linalg/matrix_utils.py:46-56, 90-119,
    131 and 140 (diagonal_matrix, zero_matrix, row_matrix, the sizes of petsc_serial_matrix), the matrix of
    xii/assembler/extension_matrix.py:94-99 and the blocks of xii/linalg/bc_apply.py:190-198.

    Here a matrix is stored as PETSc and scipy store it: the column indices and values of all
    rows one after another ([indices], [data]) and the places where rows start ([indptr]).
    PETSc and scipy matrices have the same fields; getValuesCSR is the triple (indptr, indices,
    data) and csr_matrix takes (data, indices, indptr).  What the libraries check when a matrix
    is made is below.  Numbers are rational. *)
From Verif Require Export Mat.
Local Open Scope nat_scope.
Local Close Scope Q_scope.
Local Close Scope Qc_scope.

Record csr := Csr { c_m : nat; c_n : nat; indptr : list nat; indices : list nat; data : list Qc }.

(** np.cumsum([a] + l) *)
Fixpoint cumsum (a : nat) (l : list nat) : list nat := a :: match l with [] => [] | x :: l' => cumsum (a + x) l' end.

Fixpoint sorted (l : list nat) : bool := match l with a :: (b :: _) as l' => (a <=? b) && sorted l' | _ => true end.
(** csr_matrix((data, indices, indptr), shape=(m, n)) *)
Definition csr_matrix (d : list Qc) (ix ip : list nat) (m n : nat) : res csr :=
  if negb (length ip =? S m) then Err ValueError else
  if negb (hd 1 ip =? 0) then Err ValueError else
  if negb (length ix =? length d) then Err ValueError else
  if length ix <? last ip 0 then Err ValueError else Ok (Csr m n ip ix d).
(** PETSc.Mat().createAIJ(size, csr=(indptr, indices, data)) *)
Definition createAIJ (m n : nat) (ip ix : list nat) (d : list Qc) : res csr :=
  if negb (length ip =? S m) || negb (hd 1 ip =? 0) || negb (sorted ip) || negb (last ip 0 =? length ix) || negb (length ix =? length d) then Err ValueError
  else if forallb (fun j => j <? n) ix then Ok (Csr m n ip ix d) else Err RuntimeError.

(** csr_matrix((data, (rows, cols)), shape): the entries of a row keep their order *)
Definition from_rows (m n : nat) (rows : list (list (nat * Qc))) : csr :=
  Csr m n (cumsum 0 (map (fun r => length r) rows)) (map fst (concat rows)) (map snd (concat rows)).
Definition from_triples (m n : nat) (l : list (nat * nat * Qc)) : res csr :=
  if forallb (fun t => (fst (fst t) <? m) && (snd (fst t) <? n)) l
  then Ok (from_rows m n (map (fun i => map (fun t => (snd (fst t), snd t)) (filter (fun t => fst (fst t) =? i) l)) (seq 0 m)))
  else Err ValueError.
(** csr_matrix of a dense array: what is not zero *)
Definition from_dense (m n : nat) (a : list (list Qc)) : csr :=
  from_rows m n (map (fun row => filter (fun p => negb (qeqb (snd p) q0)) (combine (seq 0 n) row)) a).

(** matrix_utils.py:46-56: createAIJ(size, nnz=1) and setDiagonal *)
Definition diagonal_matrix (n : nat) (d : list Qc) : res csr :=
  if length d =? n then createAIJ n n (cumsum 0 (repeat 1 n)) (seq 0 n) d else Err ValueError.
(** 90-101 zero_matrix *)
Definition zero_matrix (nrows ncols : nat) : res csr :=
  do A <- from_triples nrows ncols (map (fun i => (i, 0, q0)) (seq 0 nrows));
  createAIJ nrows ncols (indptr A) (indices A) (data A).
(** 104-119 row_matrix *)
Definition row_matrix (rows : list (list Qc)) : res csr :=
  match nodup Nat.eq_dec (map (fun r => length r) rows) with
  | [ncols] =>
      let nrows := length rows in
      do A <- csr_matrix (concat rows) (concat (repeat (seq 0 ncols) nrows)) (cumsum 0 (repeat ncols nrows)) nrows ncols;
      createAIJ nrows ncols (indptr A) (indices A) (data A)
  | _ => Err ValueError
  end.

(** convert.py:246-262; arrays with one axis, two axes or more *)
Inductive array := Array1 (x : list Qc) | Array2 (m n : nat) (a : list (list Qc)) | ArrayMore | Sparse (A : csr).
Inductive petsc := PVec (x : list Qc) | PMat (A : csr).
Definition numpy_to_petsc (a : array) : res petsc :=
  let sparse A := do B <- createAIJ (c_m A) (c_n A) (indptr A) (indices A) (data A); Ok (PMat B) in
  match a with
  | Array1 x => Ok (PVec x)
  | Array2 m n a => sparse (from_dense m n a)
  | ArrayMore => Err TypeError
  | Sparse A => sparse A
  end.

(** extension_matrix.py:94-99; EV.dim() = m, V.dim() = n *)
Definition extension_csr (m n : nat) (columns : list nat) : res petsc :=
  do A <- csr_matrix (map (fun _ => q1) columns) columns (seq 0 (S m)) m n; numpy_to_petsc (Sparse A).

(** The stored entries of row i: getrow(i) *)
Definition getrow (A : csr) (i : nat) : list (nat * Qc) :=
  let a := nth i (indptr A) 0 in let b := nth (S i) (indptr A) 0 in firstn (b - a) (skipn a (combine (indices A) (data A))).
Definition all_rows (A : csr) : list (list (nat * Qc)) := map (getrow A) (seq 0 (c_m A)).

(** * scipy.sparse.bmat, convert.py:230-243 *)
Inductive block := Mat_ (A : csr) | Num_ (a : Qc) | Blocks (m n : nat) (b : list block).
(** the length of a block row (column): that of its first block that has one; None is no block *)
Definition set_length (l x : nat) : res nat := if l =? 0 then Ok x else if l =? x then Ok l else Err ValueError.
Definition lengths (size : csr -> nat) (l : list (option csr)) : res nat :=
  fold_left (fun acc b => do a <- acc; match b with Some A => set_length a (size A) | None => Ok a end) l (Ok 0).
Definition grid (m n : nat) (b : list (option csr)) (i j : nat) : option csr := nth (i * n + j) b None.
Definition scipy_bmat (m n : nat) (b : list (option csr)) : res csr :=
  do rs <- mapM (fun i => lengths c_m (map (grid m n b i) (seq 0 n))) (seq 0 m);
  do cs <- mapM (fun j => lengths c_n (map (fun i => grid m n b i j) (seq 0 m))) (seq 0 n);
  let ro := cumsum 0 rs in let co := cumsum 0 cs in
  let entries i j := match grid m n b i j with
    | Some A => concat (map (fun r => map (fun p => (nth i ro 0 + r, nth j co 0 + fst p, snd p)) (getrow A r)) (seq 0 (c_m A)))
    | None => [] end in
  from_triples (last ro 0) (last co 0) (flat_map (fun i => flat_map (entries i) (seq 0 n)) (seq 0 m)).
(** A block_mat is its shape and its blocks row by row *)
Fixpoint block_mat_to_numpy (fuel : nat) (b : block) : res (option csr) :=
  match fuel with
  | O => Err OutOfFuel
  | S fuel =>
      match b with
      | Mat_ A => do B <- csr_matrix (data A) (indices A) (indptr A) (c_m A) (c_n A); Ok (Some B)
      | Num_ _ => Ok None
      | Blocks m n bs => do l <- mapM (block_mat_to_numpy fuel) bs; do A <- scipy_bmat m n l; Ok (Some A)
      end
  end.

(** * block_mat_to_petsc, convert.py:265-291 *)
(** zip of several lists *)
Definition zip_all {A} (d : A) (ls : list (list A)) : list (list A) :=
  match map (fun l => length l) ls with
  | [] => []
  | n :: ns => map (fun k => map (fun l => nth k l d) ls) (seq 0 (fold_left Nat.min ns n))
  end.
(** setValues([row], indices, values, INSERT_VALUES) on a matrix of m rows and n columns *)
Definition set_row (m n row : nat) (ix : list nat) (vals : list Qc) (E : nat -> nat -> Qc) : res (nat -> nat -> Qc) :=
  if negb (length ix =? length vals) then Err ValueError else
  if negb ((row <? m) && forallb (fun j => j <? n) ix) then Err RuntimeError else
  Ok (fold_left (fun E p i j => if (i =? row) && (j =? fst p) then snd p else E i j) (combine ix vals) E).
(** 281-289 for one row of the result *)
Definition one_row (col_offsets : list nat) (l : list (list (nat * Qc))) : list nat * list Qc :=
  (concat (map (fun p => map (fun q => fst q + snd p) (fst p)) (combine l col_offsets)), concat (map (map snd) l)).
Fixpoint fill_rows (m n row : nat) (l : list (list nat * list Qc)) (E : nat -> nat -> Qc) : res (nat -> nat -> Qc) :=
  match l with [] => Ok E | (ix, vals) :: l' => do E <- set_row m n row ix vals E; fill_rows m n (S row) l' E end.
(** [get_sizes] is what the name stands for in the module, None if it is not defined.
    The sizes given to petsc_serial_matrix (matrix_utils.py:123) are entries of an array of
    numpy; they are numbers to is_number (matrix_utils.py:20-22, 131) only if numpy's integers
    are Python's ([np_int], false since Python 3), otherwise their method mesh is asked for
    (line 140) *)
Definition block_mat_to_petsc (np_int : bool) (get_sizes : option (list (list csr) -> res (list nat * list nat))) (b : list (list csr)) : res mat :=
  do f <- opt_res NameError get_sizes;
  do s <- f b;
  let ro := cumsum 0 (fst s) in let co := cumsum 0 (snd s) in
  let m := last ro 0 in let n := last co 0 in
  if negb np_int then Err AttributeError else
  let rows := flat_map (fun row_blocks => map (one_row co) (zip_all [] (map all_rows row_blocks))) b in
  do E <- fill_rows m n 0 rows (fun _ _ => q0); Ok (Mat m n E).
(** The module neither defines nor imports get_sizes *)
Definition convert_get_sizes : option (list (list csr) -> res (list nat * list nat)) := None.

(** * set_lg_map, convert.py:378-400: a matrix with its maps of rows and columns *)
Inductive mapped := MNum (a : Qc) | MMat (A : csr) (row_map col_map : option (list nat)) | MBlocks (m n : nat) (b : list mapped) | MOther.
Fixpoint set_lg_map (fuel : nat) (x : mapped) : res mapped :=
  match fuel with
  | O => Err OutOfFuel
  | S fuel =>
      match x with
      | MNum _ => Ok x
      | MMat A _ _ => Ok (MMat A (Some (seq 0 (c_m A))) (Some (seq 0 (c_n A))))
      | MBlocks m n b => do b' <- mapM (set_lg_map fuel) b; if length b' =? m * n then Ok (MBlocks m n b') else Err ValueError
      | MOther => Err AssertionError
      end
  end.

(** * as_block of a matrix, bc_apply.py:190-198: monolithic[rows, :][:, cols] *)
Definition slice_rows (A : csr) (rows : list nat) : res csr :=
  if forallb (fun i => i <? c_m A) rows then Ok (from_rows (length rows) (c_n A) (map (getrow A) rows)) else Err IndexError.
Definition slice_cols (A : csr) (cols : list nat) : res csr :=
  if forallb (fun j => j <? c_n A) cols
  then Ok (from_rows (c_m A) (length cols) (map (fun row => flat_map (fun p => flat_map (fun k => if nth k cols 0 =? fst p then [(k, snd p)] else []) (seq 0 (length cols))) row) (all_rows A)))
  else Err IndexError.
Definition sub_matrix (A : csr) (rows cols : list nat) : res petsc :=
  do B <- csr_matrix (data A) (indices A) (indptr A) (c_m A) (c_n A);
  do C <- slice_rows B rows; do D <- slice_cols C cols; numpy_to_petsc (Sparse D).
