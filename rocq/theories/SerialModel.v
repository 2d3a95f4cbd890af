(** Matrices that are filled in a with block: petsc_serial_matrix, xii/linalg/matrix_utils.py:122-174, with the calls of
    setValues of xii (trace_matrix.py:504 and 508 and the others), and what PETSc does with them.

    All calls in xii set values of one row.  What PETSc does is modelled after its documentation and sources: a process keeps
    values for rows of other processes in a stash; assemblyBegin sends stashes, assemblyEnd receives what was sent, drops what is
    left in stashes and makes the matrix readable; negative indices are skipped and too large ones are an error; in debugging
    builds ([debug]) inserted and added values must not be mixed between two assemblies.  No caller gives nnz, so rows grow as needed.
    Maps from local to global indices (140-161, 167) are not used by setValues and left out.  Numbers are rational. *)
From Verif Require Export RestrictModel.
Local Open Scope nat_scope.
Local Close Scope Q_scope.
Local Close Scope Qc_scope.

Inductive mode := INSERT_VALUES | ADD_VALUES.
(** mat.setValues([row], cols, vals, mode), or an exception in the with block *)
Inductive op := SetRow (row : Z) (cols : list Z) (vals : list Qc) (m : mode) | Raise (e : exn).
(** [p_owner i] is the process that has the row [i] *)
Record pmat := PMat { p_rows : nat; p_cols : nat; p_owner : nat -> nat; p_store : nat -> nat -> Qc;
                      p_stash : list (Z * Z * Qc * mode); p_sent : list (Z * Z * Qc * mode); p_mode : option mode; p_assembled : bool }.

Definition mode_eqb (a b : mode) : bool := match a, b with INSERT_VALUES, INSERT_VALUES | ADD_VALUES, ADD_VALUES => true | _, _ => false end.
Definition put (E : nat -> nat -> Qc) (w : Z * Z * Qc * mode) : nat -> nat -> Qc :=
  match w with
  | (i, j, v, INSERT_VALUES) => set_ent E (Z.to_nat i) (Z.to_nat j) v
  | (i, j, v, ADD_VALUES) => set_ent E (Z.to_nat i) (Z.to_nat j) (E (Z.to_nat i) (Z.to_nat j) + v)%Qc
  end.
(** One value given by the process [r] *)
Definition set_value (r : nat) (w : Z * Z * Qc * mode) (A : pmat) : res pmat :=
  let '(i, j, v, m) := w in
  if (i <? 0)%Z || (j <? 0)%Z then Ok A else
  if (Z.of_nat (p_rows A) <=? i)%Z || (Z.of_nat (p_cols A) <=? j)%Z then Err PetscError else
  if p_owner A (Z.to_nat i) =? r
  then Ok (PMat (p_rows A) (p_cols A) (p_owner A) (put (p_store A) w) (p_stash A) (p_sent A) (p_mode A) (p_assembled A))
  else Ok (PMat (p_rows A) (p_cols A) (p_owner A) (p_store A) (p_stash A ++ [w]) (p_sent A) (p_mode A) (p_assembled A)).
Fixpoint set_values (r : nat) (ws : list (Z * Z * Qc * mode)) (A : pmat) : res pmat :=
  match ws with [] => Ok A | w :: ws' => do B <- set_value r w A; set_values r ws' B end.
Definition step (debug : bool) (r : nat) (o : op) (A : pmat) : res pmat :=
  match o with
  | Raise e => Err e
  | SetRow row cols vals m =>
    if negb (length vals =? length cols) then Err ValueError else
    if debug && match p_mode A with Some m' => negb (mode_eqb m m') | None => false end then Err PetscError else
    set_values r (map (fun p => (row, fst p, snd p, m)) (combine cols vals))
      (PMat (p_rows A) (p_cols A) (p_owner A) (p_store A) (p_stash A) (p_sent A) (match p_mode A with Some m' => Some m' | None => Some m end) false)
  end.
Fixpoint run (debug : bool) (ops : list (nat * op)) (A : pmat) : res pmat :=
  match ops with [] => Ok A | (r, o) :: ops' => do B <- step debug r o A; run debug ops' B end.

Definition createAIJ (n m : nat) (owner : nat -> nat) : pmat := PMat n m owner (fun _ _ => q0) [] [] None false.
Definition assemblyBegin (A : pmat) : pmat := PMat (p_rows A) (p_cols A) (p_owner A) (p_store A) [] (p_sent A ++ p_stash A) (p_mode A) false.
Definition assemblyEnd (A : pmat) : pmat := PMat (p_rows A) (p_cols A) (p_owner A) (fold_left put (p_sent A) (p_store A)) [] [] None true.
(** reading a matrix *)
Definition getValue (A : pmat) (i j : nat) : res Qc := if p_assembled A then Ok (p_store A i j) else Err PetscError.

(** What the function is given: Python integers, numbers of numpy (for which is_number, 20-22, is False), or function spaces
    with their dimension and the number of processes of the mesh *)
Inductive arg := Number (n : nat) | NumpyNumber (n : nat) | Space (dim procs : nat).
(** 131-171, up to the yield; [world] is the size of MPI.comm_world *)
Definition enter (world : nat) (test trial : arg) : res pmat :=
  match test, trial with
  | Number n, Number m => do _ <- py_assert (world =? 1); Ok (assemblyBegin (createAIJ n m (fun _ => 0)))
  | Space n procs, Space m _ => do _ <- py_assert (procs =? 1); Ok (assemblyBegin (createAIJ n m (fun _ => 0)))
  | _, _ => Err AttributeError                                   (* .mesh() or .dofmap() of a number *)
  end.
(** with petsc_serial_matrix(test, trial) as mat: body.  There is no try around the yield: an exception of the body leaves at once *)
Definition with_matrix (debug : bool) (world : nat) (test trial : arg) (body : list op) : res pmat :=
  do A <- enter world test trial;
  do B <- run debug (map (fun o => (0, o)) body) A;
  Ok (assemblyEnd B).                                            (* 174 *)

(** The same without the assertion of 154, on many processes: [ops] are the calls with the processes that make them.
    [begin_first] as in the code; otherwise assemblyBegin is after the block *)
Definition collective (begin_first : bool) (debug : bool) (n m : nat) (owner : nat -> nat) (ops : list (nat * op)) : res pmat :=
  if begin_first then do B <- run debug ops (assemblyBegin (createAIJ n m owner)); Ok (assemblyEnd B)
  else do B <- run debug ops (createAIJ n m owner); Ok (assemblyEnd (assemblyBegin B)).

(** trace_mat_two_restrict as calls of setValues, trace_matrix.py:451-509; see two_dofs and two_loop of RestrictModel.v *)
Section Two.
Variable gdim : nat.
Variables cell_mid trace_mid normal : nat -> vec.
Variable facet_cells : nat -> list nat.
Variables T_dofs V_dofs : nat -> list nat.
Variable dof_value : nat -> nat -> nat -> nat -> Qc.
(** 490-509 *)
Definition sweep_ops (t k d : nat) (mcs : list ((Qc -> Qc) * nat)) : list op :=
  let row (md : mode) (mc : (Qc -> Qc) * nat) := SetRow (Z.of_nat d) (map Z.of_nat (V_dofs (snd mc))) (values_on V_dofs dof_value t k mc) md in
  match mcs with [] => [] | mc :: mcs' => row INSERT_VALUES mc :: map (row ADD_VALUES) mcs' end.
(** 479-509: visited dofs and calls *)
Fixpoint dofs_ops (t k : nat) (mcs : list ((Qc -> Qc) * nat)) (ds : list nat) (seen : list bool) : list bool * list op :=
  match ds with
  | [] => (seen, [])
  | d :: ds' => if nth d seen true then dofs_ops t (S k) mcs ds' seen
                else let r := dofs_ops t (S k) mcs ds' (set_nth seen d true) in (fst r, sweep_ops t k d mcs ++ snd r)
  end.
(** 453-509 *)
Fixpoint loop_ops (ps : (Qc -> Qc) * (Qc -> Qc)) (mapping : list (nat * nat)) (cells : list nat) (seen : list bool) : list op :=
  match cells with
  | [] => []
  | t :: cells' =>
    match (do f <- opt_res KeyError (lookup t mapping); two_cells gdim cell_mid trace_mid normal ps t (facet_cells f)) with
    | Ok mcs => let r := dofs_ops t 0 mcs (T_dofs t) seen in snd r ++ loop_ops ps mapping cells' (fst r)
    | Err e => [Raise e]
    end
  end.
(** 443-510 *)
Definition two_restrict (debug : bool) (m n procs : nat) (r : restriction) (mapping : list (nat * nat)) (num_cells : nat) : res pmat :=
  do ps <- pieces r;
  with_matrix debug procs (Space m procs) (Space n procs) (loop_ops ps mapping (seq 0 num_cells) (repeat false m)).
End Two.
