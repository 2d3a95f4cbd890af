(** krylov_solve of sandbox/daniele.py:133-179

    Modelled is what is done with the arguments and with the eigenvalues: the options (139-140), the check of the
    preconditioner (143-161), the check of the eigenvalues (176-179).  The solver is not: the number of iterations and
    the computed eigenvalues are arguments, the eigenvalues as pairs of real and imaginary part.  Trusted meaning: a
    generator is true whatever it would yield; PETSc computes complex numbers and np.abs is their modulus; max and min
    of an empty array raise ValueError; division by zero of numpy floats returns inf or nan, here None. *)
From Coq Require Import Reals String.
From Verif Require Export Base.
Local Open Scope R_scope.

(** 139: petsc_args[::2], and petsc_args[1::2] as the same of the tail *)
Fixpoint every_second {A : Type} (l : list A) : list A :=
  match l with [] => [] | x :: l' => x :: match l' with [] => [] | _ :: l'' => every_second l'' end end.
(** 139-140: the calls of setValue in their order *)
Definition ksp_options (args : list string) : list (string * option string) :=
  map (fun kv => (fst kv, if String.eqb (snd kv) "none" then None else Some (snd kv)))
      (combine (every_second args) (every_second (List.tl args))).
(** The data base of options: a later value replaces an earlier one *)
Fixpoint opt_lookup (key : string) (l : list (string * option string)) : option (option string) :=
  match l with
  | [] => None
  | (k, v) :: l' => match opt_lookup key l' with Some w => Some w | None => if String.eqb k key then Some v else None end
  end.

Definition modulus (z : R * R) : R := sqrt (fst z * fst z + snd z * snd z).
(** max and min of a list *)
Definition py_extreme (better : R -> R -> bool) (l : list R) : res R :=
  match l with [] => Err ValueError | x :: l' => Ok (fold_left (fun a y => if better y a then y else a) l' x) end.
Definition gt_ (y a : R) : bool := if Rlt_dec a y then true else false.
Definition lt_ (y a : R) : bool := if Rlt_dec y a then true else false.
(** 176: (e > 0 for e in eigs) is a generator *)
Inductive pyval := PyBool (b : bool) | PyGenerator (yields : list Prop).
Definition truth (v : pyval) : bool := match v with PyBool b => b | PyGenerator _ => true end.
(** 143-179 *)
Definition krylov_solve (is_block has_BB : bool) (niters : nat) (eigs : list (R * R)) : res (nat * option R) :=
  do _ <- (if is_block then Ok tt else py_assert (negb has_BB));
  do _ <- py_assert (truth (PyGenerator (map (fun e => fst e > 0) eigs)));
  let eigs := map modulus eigs in
  do a <- py_extreme gt_ eigs;
  do b <- py_extreme lt_ eigs;
  Ok (niters, if Req_EM_T b 0 then None else Some (a / b)).
