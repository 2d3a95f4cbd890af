(** trace_3d1d_matrix of xii/assembler/average_matrix.py:252-331

    A cell of the line mesh is its number and its dofs of the first component with
    their points (298-299).  [parents] is parent_entity_map[mesh.id()][1] as a dictionary,
    [edge_cells] the connectivity from edges to cells, [collision] what
    tree.compute_first_entity_collision gives for the midpoint of a line cell.  V and TV
    have the same value size; the assertions on ids and families (254-257) are left
    out. *)
From Verif Require Export Base Mat FillModel.
From Verif Require Import EmbedModel.
Local Open Scope nat_scope.

Section Trace.
Context {X : Type}.
Variable parents : option (nat -> option nat).
Variable edge_cells : nat -> list nat.
Variable collision : nat -> nat.
Variable limit : nat.
Variable basis : nat -> X -> list Qc.
Variable V_dofs : nat -> list nat.
Variable size : nat.

(** 268-284 *)
Definition get_cell3d (c : nat) : res (option nat) :=
  match parents with
  | Some mapping => do e <- opt_res KeyError (mapping c); do t <- opt_res IndexError (hd_error (edge_cells e)); Ok (Some t)
  | None => let index := collision c in Ok (if index <? limit then Some index else None)
  end.
(** 318-326, for a dof and its point: row shift of data are components shift of the basis functions *)
Definition trace_dof (t : nat) (E : nat -> nat -> Qc) (rx : nat * X) : nat -> nat -> Qc :=
  let data := reshape size (length (V_dofs t)) (basis t (snd rx)) in
  fold_left (fun E' shift => set_row E' (fst rx + shift) (V_dofs t) (map (fun v => vnth v shift) data)) (seq 0 size) E.
(** 295-328 *)
Definition trace_cell (E : nat -> nat -> Qc) (lc : nat * list (nat * X)) : res (nat -> nat -> Qc) :=
  do found <- get_cell3d (fst lc);
  match found with
  | None => Ok E
  | Some t => Ok (fold_left (trace_dof t) (snd lc) E)
  end.
Definition trace_3d1d_matrix (m n : nat) (cells : list (nat * list (nat * X))) : res mat :=
  do E <- foldM trace_cell cells (fun _ _ => q0);
  Ok (Mat m n E).
End Trace.
