(** Field split preconditioners of PETSc from block preconditioners of cbc.block
    (xii/linalg/nest.py, pc_mat and pc_nest)

    Library meaning that is trusted here: getNestISs gives the rows and columns of the blocks of a nested
    matrix; the union of index sets is sorted, without repetition; LU, SUPERLU_LU, AMG and
    Elasticity of cbc.block are classes (none a subclass of another) derived from precond, with a matrix A, a
    block_mul has a chain, a transposed operator its operator as A; PETSc gives a KSP for each field.
    Zero pivots and the options of the user are not modelled. *)
From Verif Require Export Base Mat EmbedModel BlockUtilsModel.

(** The blocks of a preconditioner *)
Inductive pcclass := LU | SUPERLU_LU | AMG | Elasticity.
Inductive pblock := PZero | PPre (c : pcclass) (A : mat) | PAdd (p q : pblock) | POther.
(** What is set on PETSc's side: a type, perhaps with the package of the solver, or a sum of preconditioners that have
    their own matrices *)
Inductive pctype := T_lu | T_lu_superlu | T_hypre | T_gamg.
Inductive pcset := Simple (t : pctype) | Composite (subs : list (pctype * mat)).

(** 15-32 *)
Definition simple_type (c : pcclass) : pctype :=
  match c with LU => T_lu | SUPERLU_LU => T_lu_superlu | AMG => T_hypre | Elasticity => T_gamg end.
Definition is_precond (b : pblock) : option (pcclass * mat) := match b with PPre c A => Some (c, A) | _ => None end.
(** 13-58: what is set, and the matrix that is returned.  In a sum both are set up (43-52), the matrix
    is the identity (54) *)
Definition pc_mat (block : pblock) : res (pcset * mat) :=
  match block with
  | PPre c A => Ok (Simple (simple_type c), A)
  | PAdd this that =>
      match is_precond this, is_precond that with
      | Some (c, A), Some (d, B) => Ok (Composite [(simple_type c, A); (simple_type d, B)], mid (nr B))
      | _, _ => Err AssertionError
      end
  | _ => Err AssertionError
  end.

(** A block preconditioner: a block matrix, or a product Rt*block_pc*R with the offsets of R
    ([transposed]: Rt is the transpose of R), or a product of other than three, or something else *)
Inductive blockpc :=
| BMat (blocks : list (list pblock))
| BMul (transposed : bool) (offsets : list Z) (inner : list (list pblock))
| BMulOther
| BOther.
Definition union (a b : list nat) : list nat := np_unique (a ++ b).
(** 82-89 *)
Definition group (isets : list (list nat)) (fl : Z * Z) : res (list nat) :=
  let (first, last) := fl in
  if Z.eqb (last - first) 1 then py_get isets first
  else
    do g <- py_get isets first;
    foldM (fun g i => do s <- py_get isets i; Ok (union g s)) (py_range (first + 1) last) g.
(** What pc_nest sets and returns: on the preconditioner itself, or on the fields; the returned
    operator is the matrix or the diagonal of the matrices (111-121) *)
Inductive outcome := Single (s : pcset) (A : mat) | Split (fields : list (list nat)) (sets : list pcset) (diagonal : list mat).
Definition shape_is (blocks : list (list pblock)) (n : nat) : bool := (length blocks =? n) && forallb (fun row => length row =? n) blocks.
Definition entry (blocks : list (list pblock)) (i j : nat) : pblock := nth j (nth i blocks []) PZero.
(** 93-121 *)
Definition split_fields (fields : list (list nat)) (blocks : list (list pblock)) : res outcome :=
  do _ <- py_assert (shape_is blocks (length fields));
  let n := length fields in
  do _ <- py_assert (forallb (fun ij => (fst ij =? snd ij) || match entry blocks (fst ij) (snd ij) with PZero => true | _ => false end) (list_prod (seq 0 n) (seq 0 n)));
  do settings <- mapM (fun i => pc_mat (entry blocks i i)) (seq 0 n);
  Ok (Split fields (map fst settings) (map snd settings)).
(** 61-121; index sets are equal if they have the same indices *)
Definition same_set (a b : list nat) : bool := if list_eq_dec Nat.eq_dec (np_unique a) (np_unique b) then true else false.
Definition pc_nest (block_pc : blockpc) (isets jsets : list (list nat)) : res outcome :=
  do _ <- py_assert (length isets =? length jsets);
  do _ <- py_assert (forallb (fun p => same_set (fst p) (snd p)) (combine isets jsets));
  if length isets =? 1 then
    match block_pc with
    | BMat blocks =>
        do row <- py_get blocks 0;
        do block <- py_get row 0;
        do r <- pc_mat block;
        Ok (Single (fst r) (snd r))
    | _ => Err TypeError
    end
  else
    match block_pc with
    | BMat blocks => split_fields isets blocks
    | BMul transposed offsets inner =>
        do _ <- py_assert transposed;
        do fields <- mapM (group isets) (pairs_of offsets);
        split_fields fields inner
    | BMulOther => Err ValueError
    | BOther => Err AttributeError
    end.
