(** Model of the spaces in which reduced functions live: trace_element,
    average_space, flux_average_space, point_trace_space,
    gradient_point_trace_space, mean_space, surface_mean_element,
    restriction_space, injection_space, transpose_trace_element,
    extension_element and the cells that go with them
    (xii/assembler/{trace,average,flux_average,point_trace,
    gradient_point_trace,mean,surface_mean,restriction,injection,
    transpose_trace,extension}_form.py).

    Elements of UFL are trees.  Families other than Lagrange, Discontinuous
    Lagrange and Real are told apart by a number and by whether their values
    are scalars, vectors or matrices ([SFam], [VFam], [TFam]); an
    EnrichedElement counts as a family of this kind.  Quadrature degree,
    variants and symmetry of tensors are not modelled.  Where a space is
    built the model returns its element; df.FunctionSpace checks that the
    cell is that of the mesh. *)
From Verif Require Import Base.

Inductive cellname := Interval | Triangle | Tetrahedron.
Record cell := Cell { c_name : cellname; c_gdim : nat }.
Definition name_eqb (a b : cellname) : bool :=
  match a, b with Interval, Interval | Triangle, Triangle | Tetrahedron, Tetrahedron => true | _, _ => false end.
Definition cell_eqb (a b : cell) : bool := name_eqb (c_name a) (c_name b) && (c_gdim a =? c_gdim b).
(** Cell.topological_dimension() *)
Definition c_tdim (c : cell) : nat := match c_name c with Interval => 1 | Triangle => 2 | Tetrahedron => 3 end.

Inductive family := Lagrange | DiscLagrange | Real | SFam (n : nat) | VFam (n : nat) | TFam (n : nat) | Mixed.

(** FiniteElement, VectorElement, TensorElement and MixedElement *)
Inductive elem :=
| FE (f : family) (c : cell) (degree : nat)
| VE (sub : elem) (dim : nat)
| TE (sub : elem) (shape : list nat)
| ME (subs : list elem).

Definition prod (l : list nat) : nat := fold_right Nat.mul 1 l.

(** UFL: value_shape(); a mixed element has one value per component *)
Fixpoint value_shape (e : elem) : list nat :=
  match e with
  | FE (VFam _) c _ => [c_gdim c]
  | FE (TFam _) c _ => [c_gdim c; c_gdim c]
  | FE _ _ _ => []
  | VE s n => n :: value_shape s
  | TE s sh => sh ++ value_shape s
  | ME l => [list_sum (map (fun s => prod (value_shape s)) l)]
  end.
(** UFL: cell(), that of the first sub element *)
Fixpoint e_cell (e : elem) : res cell :=
  match e with
  | FE _ c _ => Ok c
  | VE s _ => e_cell s
  | TE s _ => e_cell s
  | ME [] => Err ValueError
  | ME (s :: _) => e_cell s
  end.
(** UFL: degree(), the largest of a mixed element *)
Fixpoint e_degree (e : elem) : nat :=
  match e with
  | FE _ _ d => d
  | VE s _ => e_degree s
  | TE s _ => e_degree s
  | ME l => fold_right (fun s m => Nat.max (e_degree s) m) 0 l
  end.
(** UFL: family() *)
Fixpoint e_family (e : elem) : family :=
  match e with
  | FE f _ _ => f
  | VE s _ => e_family s
  | TE s _ => e_family s
  | ME _ => Mixed
  end.

(** elm(family, cell, degree) with elm the class picked from elmtype_map by
    rank (trace_form.py:58-71 and its copies: both branches of the test on
    type(elm) pick the same class); VectorElement and TensorElement take the
    geometric dimension for the size *)
Definition by_rank (rank : nat) (f : family) (c : cell) (degree : nat) : res elem :=
  match rank with
  | 0 => Ok (FE f c degree)
  | 1 => Ok (VE (FE f c degree) (c_gdim c))
  | 2 => Ok (TE (FE f c degree) [c_gdim c; c_gdim c])
  | _ => Err KeyError
  end.

(** trace_form.py:8-27 trace_cell *)
Definition trace_cell (c : cell) : res cell :=
  match c_name c with
  | Tetrahedron => Ok (Cell Triangle (c_gdim c))
  | Triangle => Ok (Cell Interval (c_gdim c))
  | Interval => Err KeyError
  end.

(** trace_form.py:30-71 trace_element; the family map is empty; 42 unpacks
    the set of the sub elements, which are all equal *)
Fixpoint trace_element (e : elem) : res elem :=
  match e with
  | ME l =>
    do l' <- (fix go (l : list elem) : res (list elem) :=
                match l with [] => Ok [] | s :: r => do s' <- trace_element s; do r' <- go r; Ok (s' :: r') end) l;
    Ok (ME l')
  | VE s n => if n =? 0 then Err ValueError else do s' <- trace_element s; Ok (VE s' n)
  | FE _ _ _ | TE _ _ =>
    do c <- e_cell e;
    do c' <- trace_cell c;
    by_rank (length (value_shape e)) DiscLagrange c' (e_degree e)
  end.

(** trace_form.py:74-79 trace_space *)
Definition trace_space (e : elem) (mesh : cell) : res elem :=
  do t <- trace_element e; do c <- e_cell t; if cell_eqb c mesh then Ok t else Err RuntimeError.

(** average_form.py:9-24 average_cell, flux_average_form.py:11-23 *)
Definition average_cell (c : cell) : res cell :=
  match c_name c with Tetrahedron => Ok (Cell Interval (c_gdim c)) | _ => Err KeyError end.

(** average_form.py:27-52 average_space *)
Definition average_space (e : elem) (mesh : cell) : res elem :=
  do c <- e_cell e;
  do c' <- average_cell c;
  if cell_eqb mesh c' then by_rank (length (value_shape e)) DiscLagrange mesh (e_degree e) else Err AssertionError.

(** flux_average_form.py:26-40 flux_average_space *)
Definition flux_average_space (e : elem) (mesh : cell) : res elem :=
  do c <- e_cell e;
  do c' <- average_cell c;
  if cell_eqb mesh c' then
    if length (value_shape e) =? 1 then Ok (FE DiscLagrange mesh (e_degree e)) else Err AssertionError
  else Err AssertionError.

(** point_trace_form.py:13-26 point_trace_space; None for more than two axes *)
Definition point_trace_space (e : elem) (mesh : cell) : res (option elem) :=
  match value_shape e with
  | [] => Ok (Some (FE Real mesh 0))
  | [n] => match e with VE _ _ => Ok (Some (VE (FE Real mesh 0) n)) | _ => Err AssertionError end
  | [n; m] => match e with TE _ _ => Ok (Some (TE (FE Real mesh 0) [n; m])) | _ => Err AssertionError end
  | _ => Ok None
  end.

(** gradient_point_trace_form.py:13-18, mean_form.py:22-28 (after its test
    of the cell), surface_mean_form.py:14-28: one number *)
Definition gradient_point_trace_space (e : elem) (mesh : cell) : res elem :=
  match value_shape e with [] => Ok (FE Real mesh 0) | _ => Err AssertionError end.
Definition mean_space (e : elem) (mesh : cell) : res elem :=
  do c <- e_cell e;
  if cell_eqb mesh c then match value_shape e with [] => Ok (FE Real mesh 0) | _ => Err AssertionError end
  else Err AssertionError.
Definition surface_mean_space (e : elem) (mesh : cell) : res elem :=
  match value_shape e with
  | [] => do c <- e_cell e; do c' <- trace_cell c; if cell_eqb c' mesh then Ok (FE Real c' 0) else Err RuntimeError
  | _ => Err AssertionError
  end.

(** restriction_form.py:21-26, injection_form.py:20-25: the same element *)
Definition restriction_space (e : elem) (mesh : cell) : res elem :=
  do c <- e_cell e; if cell_eqb mesh c then Ok e else Err AssertionError.

(** transpose_trace_form.py:8-24 transpose_trace_cell *)
Definition transpose_trace_cell (c : cell) : res cell :=
  match c_name c with
  | Triangle => Ok (Cell Tetrahedron (c_gdim c))
  | Interval => Ok (Cell Triangle (c_gdim c))
  | Tetrahedron => Err KeyError
  end.

(** transpose_trace_form.py:27-59 transpose_trace_element: only Lagrange *)
Fixpoint transpose_trace_element (e : elem) : res elem :=
  match e with
  | ME l =>
    do l' <- (fix go (l : list elem) : res (list elem) :=
                match l with [] => Ok [] | s :: r => do s' <- transpose_trace_element s; do r' <- go r; Ok (s' :: r') end) l;
    Ok (ME l')
  | FE _ _ _ | VE _ _ | TE _ _ =>
    match e_family e with
    | Lagrange =>
      do c <- e_cell e;
      do c' <- transpose_trace_cell c;
      by_rank (length (value_shape e)) Lagrange c' (e_degree e)
    | _ => Err KeyError
    end
  end.

(** extension_form.py:7-31 extension_cell: both branches give a triangle *)
Definition extension_cell (c : cell) : res cell :=
  if ((c_gdim c =? 2) || (c_gdim c =? 3)) && (c_tdim c =? 1) then Ok (Cell Triangle (c_gdim c)) else Err AssertionError.

(** extension_form.py:34-66 extension_element: Lagrange stays, other
    families are replaced by Discontinuous Lagrange *)
Fixpoint extension_element (e : elem) : res elem :=
  match e with
  | ME l =>
    do l' <- (fix go (l : list elem) : res (list elem) :=
                match l with [] => Ok [] | s :: r => do s' <- extension_element s; do r' <- go r; Ok (s' :: r') end) l;
    Ok (ME l')
  | FE _ _ _ | VE _ _ | TE _ _ =>
    do c <- e_cell e;
    do c' <- extension_cell c;
    by_rank (length (value_shape e)) (match e_family e with Lagrange => Lagrange | _ => DiscLagrange end) c' (e_degree e)
  end.
