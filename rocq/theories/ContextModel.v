(** The wrappers that hand operators to PETSc and preconditioners back: ii_PETScOperator,
    ii_PETScPreconditioner and BlockPC, xii/linalg/block_utils.py:26-181, 416-433

    Vectors live in a memory: an address holds entries.  A PETSc vector is one address or a nest of
    them.  An operator of cbc.block takes the entries of its blocks and gives new vectors (the result
    of [A*x] is never one of the arguments).  y *= 0 makes entries zero (VecScale by 0 is VecSet). *)
From Verif Require Export Mat.
Local Open Scope nat_scope.

Definition memory := nat -> vec.
Definition write (h : memory) (a : nat) (v : vec) : memory := fun b => if Nat.eqb b a then v else h b.
Inductive pvec := Flat (a : nat) | Nest (l : list nat).
Definition addresses (x : pvec) : list nat := match x with Flat a => [a] | Nest l => l end.

(** An operator: does create_vec give a block_vec; the sizes of the blocks of create_vec(0) and
    create_vec(1); [A*x] and [block_transpose(A)*x] by blocks (one for an operator without blocks) *)
Record operator := Operator { is_blocked : bool; row_blocks : list nat; col_blocks : list nat;
  times : list vec -> res (list vec); transpose_times : list vec -> res (list vec) }.

(** y *= 0 *)
Definition set_zero (h : memory) (y : pvec) : memory :=
  fold_left (fun h a => write h a (map (fun _ => q0) (h a))) (addresses y) h.
(** reading x: block_vec(map(PETScVector, x.getNestSubVecs())) or PETScVector(x); a vector that is
    not nested has no sub vectors, a nested one is no argument of a matrix: PetscError *)
Definition read (block : bool) (h : memory) (x : pvec) : res (list vec) :=
  match block, x with
  | true, Nest l => Ok (map h l)
  | false, Flat a => Ok [h a]
  | _, _ => Err PetscError
  end.
Definition vplus (v w : vec) : vec := vtab (length v) (fun i => (vnth v i + vnth w i)%Qc).
(** y.axpy(1., as_petsc_nest(..)) or as_petsc: sub vector by sub vector, of the same sizes *)
Fixpoint axpy (h : memory) (l : list nat) (vs : list vec) : res memory :=
  match l, vs with
  | [], [] => Ok h
  | a :: l', v :: vs' => if Nat.eqb (length (h a)) (length v) then axpy (write h a (vplus (h a) v)) l' vs' else Err PetscError
  | _, _ => Err PetscError
  end.
(** The four (eight) methods of the contexts, 58-104 and 132-173: with [mul] times or transpose_times *)
Definition context_method (block : bool) (mul : list vec -> res (list vec)) (h : memory) (x y : pvec) : res memory :=
  let h1 := set_zero h y in
  do xs <- read block h1 x;
  do ys <- mul xs;
  axpy h1 (addresses y) ys.

(** 26-109: what becomes of the PETSc matrix.  The null space is constants AND the given vectors
    (line 101: constant=True); [nullspace] = None is an argument that is not passed, Some None is
    nullspace=None.  The parameter has no default *)
Record petsc_mat := PetscMat { p_rows : nat; p_cols : nat;
  p_mult : memory -> pvec -> pvec -> res memory; p_multTranspose : memory -> pvec -> pvec -> res memory;
  p_nullspace : option (bool * list vec) }.
Definition ii_PETScOperator (A : operator) (nullspace : option (option (list vec))) : res petsc_mat :=
  match nullspace with
  | None => Err TypeError
  | Some ns =>
      Ok (PetscMat (fold_right Nat.add 0 (row_blocks A)) (fold_right Nat.add 0 (col_blocks A))
            (context_method (is_blocked A) (times A)) (context_method (is_blocked A) (transpose_times A))
            (option_map (pair true) ns))
  end.
(** MatNullSpaceRemove of PETSc: what the Krylov methods do to residuals *)
Definition mean (v : vec) : Qc := (sumn (length v) (vnth v) / qz (Z.of_nat (length v)))%Qc.
Definition dot (v w : vec) : Qc := sumn (length v) (fun i => vnth v i * vnth w i)%Qc.
Definition remove_constant (v : vec) : vec := vtab (length v) (fun i => vnth v i - mean v)%Qc.
Definition remove_vector (v z : vec) : vec := vtab (length v) (fun i => vnth v i - dot v z * vnth z i)%Qc.
Definition remove (ns : bool * list vec) (v : vec) : vec :=
  fold_left remove_vector (snd ns) (if fst ns then remove_constant v else v).

(** 112-181: [block_vec_is_base] says whether block_vec of cbc.block derives from block_base, by
    which line 122 tells the cases apart.  A block_mat times one vector is no block_vec: TypeError *)
Record petsc_pc := PetscPC { pc_apply : memory -> pvec -> pvec -> res memory;
                             pc_applyTranspose : memory -> pvec -> pvec -> res memory }.
Definition one_block (A : operator) (mul : list vec -> res (list vec)) (xs : list vec) : res (list vec) :=
  if is_blocked A then Err TypeError else mul xs.
Definition ii_PETScPreconditioner (block_vec_is_base : bool) (B : operator) : petsc_pc :=
  let is_block := is_blocked B && block_vec_is_base in
  if is_block then PetscPC (context_method true (times B)) (context_method true (transpose_times B))
  else PetscPC (context_method false (one_block B (times B))) (context_method false (one_block B (transpose_times B))).

(** 416-433 BlockPC: [y] is the address of the vector create_vec(0) takes from the pool *)
Definition BlockPC_matvec (pc : petsc_pc) (h : memory) (x : nat) (y : nat) : res (memory * nat) :=
  do h' <- pc_apply pc h (Flat x) (Flat y); Ok (h', y).
