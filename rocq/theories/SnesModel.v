(** NLProblem of sandbox/babuska_snes.py:49-91 in dolfin's NewtonSolver, as in 112-118

    As in NewtonModel.v, [residual w] is what ii_convert(ii_assemble(self.lhs_form)) gives for the functions with
    the coefficients w, and [solve w b] the solution of the system with the matrix of self.jac_form for w.  The
    vector w.vector() given to the solver is nested and shares the vectors of the functions, so the forms know
    the current coefficients without the argument x of the methods; what the library does when the
    solution of the system, which is not nested, is subtracted from it is the argument [minus], and it may raise.

    Library meaning that is trusted here: a vector or matrix of dolfin has no zeroEntries; as_backend_type(b).vec()
    is the PETSc object in b, so what is done with it is seen in b; NewtonSolver::solve with the criterion
    "residual" and relaxation 1 is [snes] below.  What is printed is left out. *)
From Coq Require Import Reals.
From Verif Require Export NewtonModel.
Local Open Scope R_scope.

(** The two objects the solver keeps: None is empty(); a matrix is known by the coefficients it was assembled with *)
Definition vec_obj := option (list R).
Definition mat_obj := option blocks.
(** 51-55 *)
Record counters := Counters { Fcount : nat; Jcount : nat }.

(** What a run ends with: the number of iterations, or dolfin's error that it has not converged, or an exception *)
Inductive ending := Converged (k : nat) | NotConverged | Raised (e : exn).
(** ... and what is left in the functions and the counters *)
Record run := Run { end_of : ending; left_in : blocks; counted : counters }.

Section Snes.
Variable residual : blocks -> list R.
Variable solve : blocks -> list R -> res (list R).
Variable minus : blocks -> list R -> res blocks.

(** 57-72: b is rebound to the PETSc vector only if it is empty *)
Definition problem_F (b : vec_obj) (w : blocks) (c : counters) : res (vec_obj * counters) :=
  let b_ := residual w in
  let c := Counters (Fcount c + 0) (Jcount c) in
  match b with
  | None => Ok (Some (axpy 1 b_ (repeat 0 (length b_))), c)
  | Some _ => Err AttributeError
  end.
(** 74-91 *)
Definition problem_J (A : mat_obj) (w : blocks) (c : counters) : res (mat_obj * counters) :=
  let c := Counters (Fcount c) (Jcount c + 0) in
  match A with
  | None => Ok (Some w, c)
  | Some _ => Err AttributeError
  end.

(** NewtonSolver::converged for the first residual r0 and the current one *)
Definition small (rtol atol r0 r : R) : bool :=
  if Rlt_dec r atol then true
  else if Req_EM_T r0 0 then false else if Rlt_dec (r / r0) rtol then true else false.

(** NewtonSolver::solve for methods F and J of a problem *)
Variable F : vec_obj -> blocks -> counters -> res (vec_obj * counters).
Variable J : mat_obj -> blocks -> counters -> res (mat_obj * counters).
Definition content (b : vec_obj) : list R := match b with Some x => x | None => [] end.
Fixpoint snes_loop (left k : nat) (rtol atol r0 : R) (b : vec_obj) (A : mat_obj) (w : blocks) (c : counters) : run :=
  if small rtol atol r0 (l2 (content b)) then Run (Converged k) w c else
  match left with
  | O => Run NotConverged w c
  | S left' =>
      match J A w c with
      | Err e => Run (Raised e) w c
      | Ok (A', c1) =>
          match (match A' with Some wA => solve wA (content b) | None => Err PetscError end) with
          | Err e => Run (Raised e) w c1
          | Ok dx =>
              match minus w dx with
              | Err e => Run (Raised e) w c1
              | Ok w' =>
                  match F b w' c1 with
                  | Err e => Run (Raised e) w' c1
                  | Ok (b', c2) => snes_loop left' (S k) rtol atol r0 b' A' w' c2
                  end
              end
          end
      end
  end.
Definition snes (maxiter : nat) (rtol atol : R) (w : blocks) : run :=
  let c := Counters 0 0 in
  match F None w c with
  | Err e => Run (Raised e) w c
  | Ok (b, c) => snes_loop maxiter 0 rtol atol (l2 (content b)) b None w c
  end.
End Snes.

(** 112-118: the functions of a new ii_Function are zero, the methods are those above; the parameters of the
    solver have their defaults (maximum_iterations 50, relative and absolute tolerance 1E-9 and 1E-10) *)
Definition script (residual : blocks -> list R) (solve : blocks -> list R -> res (list R)) (minus : blocks -> list R -> res blocks)
    (sizes : list nat) : run :=
  snes solve minus (problem_F residual) problem_J 50 (1 / 10 ^ 9) (1 / 10 ^ 10) (map (repeat 0) sizes).
