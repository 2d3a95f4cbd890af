(** Model of traces restricted to one side of a facet
    (xii/assembler/trace_matrix.py:34-98, 201-510).

    Coordinates are rational.  The vector between the midpoints of a facet and a cell
    is divided by its length in the code (322), which does not change the sign of its
    inner product with the normal and is left out.  The case that tag_data is None is
    left out (the key of the cache, 24, raises TypeError for it).  The values of
    functionals on basis functions and the non-conforming matrix are parameters.
    Progress bars and messages are left out. *)
From Verif Require Export Mat FillModel EntityModel.
Local Open Scope nat_scope.
Local Close Scope Q_scope.
Local Close Scope Qc_scope.

Inductive restriction := NoRestriction | Plus | Minus | Avg | Jump | OtherRestriction.

Section Restrict.
Variable gdim : nat.
(** Midpoints of the cells of the mesh and of the trace cells, value of the normal on
    the trace cells (314, 472) *)
Variables cell_mid trace_mid normal : nat -> vec.
(** f2c *)
Variable facet_cells : nat -> list nat.
Variables T_dofs V_dofs : nat -> list nat.
(** [dof_value t k c l]: the dof [k] of the trace cell [t] evaluated at the basis
    function [l] of the cell [c] *)
Variable dof_value : nat -> nat -> nat -> nat -> Qc.

Definition inner (x y : vec) : Qc := sumn gdim (fun k => (vnth x k * vnth y k)%Qc).
Definition vminus (x y : vec) : vec := vtab gdim (fun k => (vnth x k - vnth y k)%Qc).

(** 319-323: the sign of a cell is '+' *)
Definition plus_sign (t c : nat) : bool := qltb q0 (inner (vminus (trace_mid t) (cell_mid c)) (normal t)).
(** 312-327: signs.index raises ValueError if there is no such sign *)
Definition pick_cell (plus : bool) (t : nat) (cells : list nat) : res nat :=
  opt_res ValueError (find (fun c => Bool.eqb (plus_sign t c) plus) cells).
(** 342-362 and 375-399: what a trace cell gives to the loops *)
Definition restricted_cell (plus : bool) (mapping : list (nat * nat)) (t : nat) : res fcell :=
  do f <- opt_res KeyError (lookup t mapping);
  do c <- pick_cell plus t (facet_cells f);
  Ok (FCell (T_dofs t) (V_dofs c) (fun l k => dof_value t k c l)).
(** 337-412, the loops of 340-406 are those of 134-192 *)
Definition one_restrict (m n : nat) (plus dg : bool) (mapping : list (nat * nat)) (cells : list nat) : res mat :=
  do fs <- mapM (restricted_cell plus mapping) cells;
  Ok (if dg then trace_dg m n fs else trace_cg m n fs).

(** 443-444 *)
Definition pieces (r : restriction) : res ((Qc -> Qc) * (Qc -> Qc)) :=
  match r with
  | Avg => Ok ((fun x => x / (q1 + q1))%Qc, (fun x => x / (q1 + q1))%Qc)
  | Jump => Ok ((fun x => x), (fun x => - x)%Qc)
  | _ => Err KeyError
  end.
(** 460-477: modifiers with cells, '+' first *)
Definition two_cells (ps : (Qc -> Qc) * (Qc -> Qc)) (t : nat) (cells : list nat) : res (list ((Qc -> Qc) * nat)) :=
  match cells with
  | [c] => Ok [((fun x => x), c)]
  | [c; d] => Ok (if qltb q0 (inner (vminus (cell_mid c) (trace_mid t)) (normal t)) then [(fst ps, c); (snd ps, d)] else [(fst ps, d); (snd ps, c)])
  | _ => Err AssertionError
  end.
(** 508: mat.setValues([row], cols, vals, ADD_VALUES).  PETSc built with debugging
    refuses to mix insertion and addition, which is not modelled. *)
Definition add_row (E : nat -> nat -> Qc) (i : nat) (cols : list nat) (vals : list Qc) : nat -> nat -> Qc :=
  fold_left (fun E' p => set_ent E' i (fst p) (E' i (fst p) + snd p)%Qc) (combine cols vals) E.
(** 496-499 *)
Definition values_on (t k : nat) (mc : (Qc -> Qc) * nat) : list Qc :=
  map (fun l => fst mc (dof_value t k (snd mc) l)) (seq 0 (length (V_dofs (snd mc)))).
(** 490-509: the first sweep inserts, the second adds *)
Definition sweep (t k d : nat) (mcs : list ((Qc -> Qc) * nat)) (E : nat -> nat -> Qc) : nat -> nat -> Qc :=
  match mcs with
  | [] => E
  | mc :: mcs' => fold_left (fun E' mc' => add_row E' d (V_dofs (snd mc')) (values_on t k mc')) mcs' (set_row E d (V_dofs (snd mc)) (values_on t k mc))
  end.
(** 479-509 *)
Fixpoint two_dofs (t k : nat) (mcs : list ((Qc -> Qc) * nat)) (ds : list nat) (s : list bool * (nat -> nat -> Qc)) : list bool * (nat -> nat -> Qc) :=
  match ds with
  | [] => s
  | d :: ds' => if nth d (fst s) true then two_dofs t (S k) mcs ds' s
                else two_dofs t (S k) mcs ds' (set_nth (fst s) d true, sweep t k d mcs (snd s))
  end.
(** 453-509 *)
Fixpoint two_loop (ps : (Qc -> Qc) * (Qc -> Qc)) (mapping : list (nat * nat)) (cells : list nat) (s : list bool * (nat -> nat -> Qc)) : res (list bool * (nat -> nat -> Qc)) :=
  match cells with
  | [] => Ok s
  | t :: cells' =>
    do f <- opt_res KeyError (lookup t mapping);
    do mcs <- two_cells ps t (facet_cells f);
    two_loop ps mapping cells' (two_dofs t 0 mcs (T_dofs t) s)
  end.
(** 443-510 *)
Definition two_fill (m n : nat) (r : restriction) (mapping : list (nat * nat)) (num_cells : nat) : res mat :=
  do ps <- pieces r;
  do s <- two_loop ps mapping (seq 0 num_cells) (repeat false m, fun _ _ => q0);
  Ok (Mat m n (snd s)).

(** 245-248, for a component: dof map of TV and dofs of the facets *)
Fixpoint dlt_cells (tdofs : nat -> list nat) (fdof : nat -> nat) (mapping : list (nat * nat)) (cells : list nat) (E : nat -> nat -> Qc) : res (nat -> nat -> Qc) :=
  match cells with
  | [] => Ok E
  | t :: cells' =>
    match tdofs t with
    | [d] => do f <- opt_res KeyError (lookup t mapping); dlt_cells tdofs fdof mapping cells' (set_ent E d (fdof f) q1)
    | _ => Err ValueError
    end
  end.
(** 244 *)
Fixpoint dlt_components (comps : list ((nat -> list nat) * (nat -> nat))) (mapping : list (nat * nat)) (cells : list nat) (E : nat -> nat -> Qc) : res (nat -> nat -> Qc) :=
  match comps with [] => Ok E | c :: comps' => do E' <- dlt_cells (fst c) (snd c) mapping cells E; dlt_components comps' mapping cells E' end.
(** 223-249 *)
Definition dlt_trace_mat (m n : nat) (tdofs : list (nat -> list nat)) (fdofs : list (nat -> nat)) (mapping : list (nat * nat)) (cells : list nat) : res mat :=
  if negb (length tdofs =? length fdofs) then Err AssertionError
  else do E <- dlt_components (combine tdofs fdofs) mapping cells (fun _ _ => q0); Ok (Mat m n E).

(** ** The functions that start with the search for the map *)
Variable build : nat -> mesh_function -> list nat -> res entity_map.
(** nonconforming_trace_mat(V, TV) *)
Variable nonconforming : res mat.
(** The degree of V if its family is HDiv Trace, dof maps of the components of TV, dofs
    on the facets of the components of V *)
Variable hdiv_trace : option nat.
Variable tdofs : list (nat -> list nat).
Variable fdofs : list (nat -> nat).
(** sizes of TV and V, id of the mesh, dimension of the trace mesh, TV is discontinuous *)
Variables (m n mesh_id fdim : nat) (dg : bool).

(** 106, 221, 292, 429 *)
Definition the_mapping (tm : trace_mesh) : res (list (nat * nat)) :=
  do maps <- opt_res AttributeError (t_maps tm); do em <- opt_res KeyError (lookup mesh_id maps); opt_res KeyError (lookup fdim em).
(** 93-121 and 279-307; [fill] is what follows *)
Definition conforming (tm : trace_mesh) (f : mesh_function) (tags : list nat) (fill : list (nat * nat) -> list nat -> res mat) : res mat :=
  match get_entity_map build mesh_id tm (Some f) (Some tags) with
  | (_, Err AssertionError) | (_, Err IndexError) => nonconforming
  | (_, Err e) => Err e
  | (tm', Ok _) =>
    match hdiv_trace with
    | Some degree =>
      if negb (degree =? 0) then Err AssertionError
      else do mp <- the_mapping tm'; dlt_trace_mat m n tdofs fdofs mp (trace_cells (mf_values f) tags)
    | None => do mp <- the_mapping tm'; fill mp (trace_cells (mf_values f) tags)
    end
  end.
(** 252-412; [normal_dg0] is what 258-259 assert *)
Definition trace_mat_one_restrict (plus normal_dg0 : bool) (tm : trace_mesh) (f : mesh_function) (tags : list nat) : res mat :=
  if negb normal_dg0 then Err AssertionError else conforming tm f tags (one_restrict m n plus dg).
(** 141-152 and 176-185: the first cell of the facet *)
Definition first_cell (mapping : list (nat * nat)) (t : nat) : res fcell :=
  do f <- opt_res KeyError (lookup t mapping);
  do c <- opt_res IndexError (nth_error (facet_cells f) 0);
  Ok (FCell (T_dofs t) (V_dofs c) (fun l k => dof_value t k c l)).
(** 131-198 *)
Definition no_restrict (mapping : list (nat * nat)) (cells : list nat) : res mat :=
  do fs <- mapM (first_cell mapping) cells; Ok (if dg then trace_dg m n fs else trace_cg m n fs).
(** 73-198: get_entity_map is called first in front of the try statement *)
Definition trace_mat_no_restrict (tm : trace_mesh) (f : mesh_function) (tags : list nat) : res mat :=
  match get_entity_map build mesh_id tm (Some f) (Some tags) with
  | (_, Err e) => Err e
  | (tm', Ok _) => conforming tm' f tags no_restrict
  end.
(** 415-510 *)
Definition trace_mat_two_restrict (r : restriction) (num_cells : nat) (tm : trace_mesh) : res mat :=
  match get_entity_map build mesh_id tm None None with
  | (_, Err e) => Err e
  | (tm', Ok _) => do mp <- the_mapping tm'; two_fill m n r mp num_cells
  end.
(** 34-70; [compatible] is what 47-53 assert, [has_normal] what 59 asserts.
    trace_mat_two_restrict takes five arguments and gets six (69). *)
Definition trace_mat (compatible has_normal normal_dg0 : bool) (r : restriction) (tm : trace_mesh) (f : mesh_function) (tags : list nat) : res mat :=
  if negb compatible then Err AssertionError
  else match r with
  | NoRestriction => trace_mat_no_restrict tm f tags
  | Plus => if negb has_normal then Err AssertionError else trace_mat_one_restrict true normal_dg0 tm f tags
  | Minus => if negb has_normal then Err AssertionError else trace_mat_one_restrict false normal_dg0 tm f tags
  | Avg | Jump => if negb has_normal then Err AssertionError else Err TypeError
  | OtherRestriction => Err AssertionError
  end.
End Restrict.
