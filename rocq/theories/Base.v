(** Shared vocabulary: Python exceptions as values, and a few list helpers.
    No part of /repo is modelled here. *)
From Coq Require Export List Arith ZArith Lia Bool.
Export ListNotations.

(** The Python exceptions that occur in the modelled code.  [OutOfFuel] stands
    for a Python computation that has not finished within the recursion budget
    given to the model (RecursionError, or an endless loop). *)
Inductive exn :=
| AssertionError | TypeError | ValueError | IndexError | KeyError | NameError
| AttributeError | UnboundLocalError | StopIteration | ZeroDivisionError
| NotImplementedError | LinAlgError | RuntimeError | PetscError | OutOfFuel.

Inductive res (A : Type) := Ok (a : A) | Err (e : exn).
Arguments Ok {A} a.
Arguments Err {A} e.

Definition bind {A B} (x : res A) (f : A -> res B) : res B :=
  match x with Ok a => f a | Err e => Err e end.
Notation "'do' x <- e1 ; e2" := (bind e1 (fun x => e2))
  (at level 200, x binder, e1 at level 100, e2 at level 200, right associativity).

(** Python's [assert b]. *)
Definition py_assert (b : bool) : res unit := if b then Ok tt else Err AssertionError.

(** Left-to-right evaluation of a list of computations, first exception wins. *)
Definition mapM {A B} (f : A -> res B) : list A -> res (list B) :=
  fix go (l : list A) : res (list B) :=
    match l with
    | [] => Ok []
    | x :: l' => do y <- f x; do ys <- go l'; Ok (y :: ys)
    end.

Definition opt_res {A} (e : exn) (o : option A) : res A :=
  match o with Some a => Ok a | None => Err e end.

Definition is_ok {A} (x : res A) : bool := match x with Ok _ => true | Err _ => false end.
