(** The iterations of Newton written out in sandbox/babuska_hand_newton.py:47-92,
    sandbox/mortar_lin_couple.py:65-89 and sandbox/mortar_nlin_couple.py:68-92

    What is assembled is given: [residual w] is ii_convert(ii_assemble(F)) and [solve w b] the solution of the
    system with the matrix ii_convert(ii_assemble(dF)), both for the current coefficients w, one list for each
    space; a solver may raise.  The vector of an ii_Function is nested and shares the vectors of its parts
    (FunctionModel.v): here it is cut by the sizes of the spaces.  Arithmetic is that of the reals. *)
From Coq Require Import Reals.
From Verif Require Export Base.
Local Open Scope R_scope.

Definition blocks := list (list R).

(** x.norm('l2') *)
Definition l2 (x : list R) : R := sqrt (fold_right (fun a s => a * a + s) 0 x).
(** babuska_hand_newton.py:82 *)
Definition block_norm (d : blocks) : R := sqrt (fold_right (fun x s => l2 x * l2 x + s) 0 d).
(** The parts of a nested vector *)
Fixpoint cut (sizes : list nat) (x : list R) : blocks :=
  match sizes with
  | [] => []
  | n :: sizes' => firstn n x :: cut sizes' (skipn n x)
  end.
(** y.axpy(a, x) *)
Definition axpy (a : R) (x y : list R) : list R := map (fun p => fst p + a * snd p) (combine y x).
(** 89-90 *)
Definition update (w d : blocks) : blocks := map (fun p => axpy (-1) (snd p) (fst p)) (combine w d).

Section Loop.
Variable residual : blocks -> list R.
Variable solve : blocks -> list R -> res (list R).
Variable sizes : list nat.

(** 63-90, with [left] passes left of maxiter; the number of passes, the last eps, the functions *)
Fixpoint newton_loop (left : nat) (tol eps : R) (w : blocks) : res (nat * R * blocks) :=
  if Rlt_dec tol eps then
    match left with
    | O => Ok (O, eps, w)
    | S left' =>
        do x <- solve w (residual w);
        let d := cut sizes x in
        do r <- newton_loop left' tol (block_norm d) (update w d);
        Ok (S (fst (fst r)), snd (fst r), snd r)
    end
  else Ok (O, eps, w).
(** 48-51: a new ii_Function is zero *)
Definition newton (maxiter : nat) (tol : R) : res (nat * R * blocks) :=
  newton_loop maxiter tol 1 (map (repeat 0) sizes).
End Loop.
