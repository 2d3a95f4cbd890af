(** Evaluators of degrees of freedom and basis functions, DegreeOfFreedom and
    FEBasisFunction of xii/assembler/fem_eval.py:5-106

    Objects are states that setters and methods change.  Of dolfin: the mesh gives
    the coordinates and the orientation of the vertices of a cell, Cell(mesh, c)
    raises RuntimeError for a cell that is not there, and the orientation of an
    interval in space raises; the element has space_dimension() degrees of freedom,
    evaluate_dofs and evaluate_basis are functions of their arguments.  self.eval of
    an expression (105) calls eval_cell.  An array that is returned is either new
    or the object's own, which later calls write to. *)
From Verif Require Export Base Mat.
From Coq Require Import ZArith.
Local Open Scope Z_scope.

Section Evaluators.
Context {F X : Type}.
Record space := Space {
  s_tdim : nat; s_gdim : nat; s_ncells : nat;
  s_coordinates : nat -> list Qc;
  s_orientation : nat -> nat;
  s_dim : nat; s_value_size : nat;
  s_evaluate_dofs : F -> list Qc -> nat -> nat -> list Qc;
  s_evaluate_basis : Z -> X -> list Qc -> nat -> list Qc }.
Variable V : space.

(** cell.orientation() *)
Definition orientation (c : nat) : res nat :=
  if ((s_tdim V =? 1) && (s_gdim V =? 3))%nat%bool then Err RuntimeError else Ok (s_orientation V c).
(** 5-7 *)
Definition cell_orientation (is_1d_in_3d : bool) (c : nat) : res nat := if negb is_1d_in_3d then orientation c else Ok 0%nat.
(** 16, 67 *)
Definition is_1d_in_3d : bool := ((s_tdim V =? 1) && (s_gdim V =? 3))%nat%bool.
Definition get_cell (value : nat) : res nat := if (value <? s_ncells V)%nat then Ok value else Err RuntimeError.

Record state := State { e_cell : nat; e_vertex_x : list Qc; e_orientation : nat; e_dof : Z; e_values : list Qc }.
(** 12-23, 63-75 *)
Definition new : res state :=
  do c <- get_cell 0;
  do o <- cell_orientation is_1d_in_3d c;
  Ok (State c (s_coordinates V c) o 0 (repeat q0 (s_value_size V))).
(** 29-32, 81-84; the state after an error is that before *)
Definition set_dof (st : state) (value : Z) : state * option exn :=
  if value <? Z.of_nat (s_dim V) then (State (e_cell st) (e_vertex_x st) (e_orientation st) value (e_values st), None)
  else (st, Some AssertionError).
(** 38-43, 90-95 *)
Definition set_cell (st : state) (value : nat) : state * option exn :=
  match get_cell value with
  | Err e => (st, Some e)
  | Ok c =>
      let st := State (e_cell st) (s_coordinates V c) (e_orientation st) (e_dof st) (e_values st) in
      match cell_orientation is_1d_in_3d c with
      | Err e => (st, Some e)
      | Ok o =>
          let st := State (e_cell st) (e_vertex_x st) o (e_dof st) (e_values st) in
          (State c (e_vertex_x st) (e_orientation st) (e_dof st) (e_values st), None)
      end
  end.

Inductive array := Own | New (values : list Qc).
(** what an array has when it is looked at *)
Definition look (st : state) (a : array) : list Qc := match a with Own => e_values st | New v => v end.
Inductive outcome := Done | Raised (e : exn) | Number (x : Qc) | Array (a : array).
(** l[i] of Python *)
Definition item (l : list Qc) (i : Z) : res Qc :=
  let n := Z.of_nat (length l) in
  opt_res IndexError (if (0 <=? i) && (i <? n) then nth_error l (Z.to_nat i)
                      else if (i <? 0) && (- n <=? i) then nth_error l (Z.to_nat (i + n)) else None)%bool.
(** 51-55 *)
Definition eval_dofs (st : state) (f : F) : outcome := Array (New (s_evaluate_dofs V f (e_vertex_x st) (e_orientation st) (e_cell st))).
(** 45-49 *)
Definition eval (st : state) (f : F) : outcome :=
  match item (s_evaluate_dofs V f (e_vertex_x st) (e_orientation st) (e_cell st)) (e_dof st) with Ok x => Number x | Err e => Raised e end.
(** 97-101 *)
Definition eval_cell (st : state) (x : X) : list Qc := s_evaluate_basis V (e_dof st) x (e_vertex_x st) (e_orientation st).
(** 103-106: values[:] = ... and 1*values *)
Definition call (st : state) (x : X) : state * outcome :=
  let st := State (e_cell st) (e_vertex_x st) (e_orientation st) (e_dof st) (eval_cell st x) in
  (st, Array (New (e_values st))).

Inductive op := SetDof (value : Z) | SetCell (value : nat) | Eval (f : F) | EvalDofs (f : F) | Call (x : X).
Definition step (st : state) (o : op) : state * outcome :=
  match o with
  | SetDof v => let r := set_dof st v in (fst r, match snd r with Some e => Raised e | None => Done end)
  | SetCell v => let r := set_cell st v in (fst r, match snd r with Some e => Raised e | None => Done end)
  | Eval f => (st, eval st f)
  | EvalDofs f => (st, eval_dofs st f)
  | Call x => call st x
  end.
Fixpoint run (st : state) (ops : list op) : state * list outcome :=
  match ops with
  | [] => (st, [])
  | o :: ops' => let r := step st o in let r' := run (fst r) ops' in (fst r', snd r :: snd r')
  end.
End Evaluators.
Arguments space : clear implicits.
Arguments op : clear implicits.
