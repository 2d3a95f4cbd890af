(** Solvers of other libraries for block systems (xii/linalg/krylov_api.py)

    Library meaning that is trusted here: [bmat.create_vec(0)] and [create_vec(1)] have the
    sizes of the rows and of the columns of the operator, [bmat*x] is the action, which
    raises for vectors of other sizes; [set_local] raises RuntimeError for an array of another
    size; LinearOperator.matvec of scipy checks the length of its argument and of the
    result.  Floating point numbers are exact rationals, everything is serial. *)
From Verif Require Export Base Mat.

(** A block operator: sizes of rows and columns, the action *)
Record blockop := { rsizes : list nat; csizes : list nat; act : list vec -> res (list vec) }.
(** The block matrix of cbc.block whose blocks are matrices *)
Definition bmat_op (rs cs : list nat) (A : nat -> nat -> mat) : blockop :=
  {| rsizes := rs; csizes := cs;
     act := fun xs => if list_eq_dec Nat.eq_dec (map (@length Qc) xs) cs
                      then Ok (map (fun i => vtab (nth i rs 0) (fun r => sumn (length cs) (fun j => vnth (mv (A i j) (nth j xs [])) r))) (seq 0 (length rs)))
                      else Err RuntimeError |}.
(** 22-27, 58-63, 94-99: slices of the array are copied to vectors of the sizes *)
Definition set_local (size : nat) (values : vec) : res vec := if length values =? size then Ok values else Err RuntimeError.
Fixpoint fill (first : nat) (sizes : list nat) (xarr : vec) : res (list vec) :=
  match sizes with
  | [] => Ok []
  | size :: sizes' =>
      do xi <- set_local size (firstn size (skipn first xarr));
      do xs <- fill (first + size) sizes' xarr;
      Ok (xi :: xs)
  end.
(** ScipyLinOp (10-31): the shape, and the action; the working vector has the sizes of the rows *)
Definition shape (op : blockop) : nat * nat := (list_sum (rsizes op), list_sum (csizes op)).
Definition scipy_matvec (op : blockop) (xarr : vec) : res vec :=
  do xs <- fill 0 (rsizes op) xarr;
  do ys <- act op xs;
  Ok (concat ys).
(** scipy: LinearOperator.matvec *)
Definition matvec (op : blockop) (xarr : vec) : res vec :=
  if length xarr =? snd (shape op)
  then do y <- scipy_matvec op xarr; if length y =? fst (shape op) then Ok y else Err ValueError
  else Err ValueError.
(** A solver: operator, right hand side, preconditioner, initial guess; what it returns is
    the solution and the status *)
Definition solver := (vec -> res vec) -> vec -> option (vec -> res vec) -> vec -> res (vec * Z).
(** pyamg_solve (34-65) and scipy_solve (68-101), of which the difference is the solver and the
    list of residuals *)
Definition library_solve (krylov : solver) (AA : blockop) (bb : list vec) (M : option blockop) (x0 : list vec) : res (list vec) :=
  do r <- krylov (matvec AA) (concat bb) (option_map matvec M) (concat x0);
  do _ <- py_assert (snd r =? 0)%Z;
  fill 0 (map (@length Qc) x0) (fst r).
(** scipy_solve, 85-86: what the callback collects for the iterates *)
Definition scipy_residuals (norm : vec -> Qc) (iterates : list vec) : list Qc := map norm iterates.
(** cbc_solve (104-127): the table of methods; a class takes operator, preconditioner and
    initial guess *)
Inductive cbc_class := LGMRES | ConjGrad | BiCGStab | CGN | SymmLQ | TFQMR | MinRes.
Inductive method := M_lgmres | M_cg | M_bicg | M_cgn | M_symmlq | M_tfqmr | M_minres | M_other.
Definition cbc_table (m : method) : res cbc_class :=
  match m with
  | M_lgmres => Ok LGMRES | M_cg => Ok ConjGrad | M_bicg => Ok BiCGStab | M_cgn => Ok CGN
  | M_symmlq => Ok SymmLQ | M_tfqmr => Ok TFQMR | M_minres => Ok MinRes | M_other => Err KeyError
  end.
(** The preconditioner is the number 1 if there is none (106-107) *)
Definition cbc_solve {P : Type} (one : P) (inverse : cbc_class -> blockop -> P -> list vec -> list vec -> res (list vec)) (m : method) (AA : blockop) (bb : list vec) (M : option P) (x0 : list vec) : res (list vec) :=
  let M := match M with None => one | Some M => M end in
  do cls <- cbc_table m;
  inverse cls AA M x0 bb.
