(** Model of the operators that mark functions for reduction: Trace
    (trace_form.py:82-131), Average (average_form.py:55-86), Restriction
    (restriction_form.py:29-47), Injection (injection_form.py:28-66),
    TransposeTrace (transpose_trace_form.py:67-85), PointTrace
    (point_trace_form.py:29-44), GradientPointTrace
    (gradient_point_trace_form.py:21-35), CellPatchAverage
    (patch_average_form.py:38-65), FluxAverage (flux_average_form.py:43-61),
    Extension (extension_form.py:77-95), Mean (mean_form.py:31-45) and
    SurfaceMean (surface_mean_form.py:31-45), with reconstruct
    (ufl_utils.py:127-139).

    Python objects are entries of a heap and are referred to by number;
    meshes are kept in a second table because Injection writes to them.  A
    Function knows its space and the number of its coefficient vector, so two
    Functions with one vector share it.  [Const] is a dolfin Constant,
    [Operator] anything that is not a terminal. *)
From Verif Require Import Base ElementModel.

(** the part of a mesh that is read or written *)
Record mesh := Mesh {
  m_cell : cell;
  m_ncells : nat;
  m_marks : option (list nat);                       (* marking_function.array(), if there is one *)
  m_parents : option (list nat);                     (* parent_meshes *)
  m_maps : option (list (nat * list nat));           (* parent_entity_map: mesh -> map of its cells *)
  m_parent_cell : option (list nat)                  (* data().array('parent_cell', tdim) *)
}.
Record space := Space { s_elem : elem; s_mesh : nat }.

Inductive sort := Argument (number : nat) (V : space) | Function (V : space) (vec : nat) | Const | Operator.

(** The dictionaries that are attached; each is the value of one attribute. *)
Inductive mark :=
| MTrace (type mesh : nat) (normal : option nat) (marking : list nat) (tags : list nat)
| MAverage (mesh : nat) (shape : option nat)
| MRestriction (mesh : nat)
| MInjection (mesh method : nat)
| MTranspose (trace_mesh full_mesh : nat)
| MPoint (point cell : nat)
| MGradPoint (point cell tangent : nat)
| MPatch (vertex_f patch_f : nat) (coloring : option nat)
| MFlux (mesh shape : nat) (domain : space)
| MExtension (type mesh : nat) (data : option nat)
| MMean (weight measure : option nat)
| MSurface (mesh : nat).
(** the name of the attribute *)
Definition attribute (m : mark) : nat :=
  match m with
  | MTrace _ _ _ _ _ => 0 | MAverage _ _ => 1 | MRestriction _ => 2 | MInjection _ _ => 3 | MTranspose _ _ => 4
  | MPoint _ _ => 5 | MGradPoint _ _ _ => 6 | MPatch _ _ _ => 7 | MFlux _ _ _ => 8 | MExtension _ _ _ => 9
  | MMean _ _ => 10 | MSurface _ => 11
  end.

Record obj := Obj { o_sort : sort; o_marks : list mark }.
Record state := State { heap : list obj; meshes : list mesh }.

Definition get (st : state) (v : nat) : res obj := opt_res NameError (nth_error (heap st) v).
Definition get_mesh (st : state) (m : nat) : res mesh := opt_res NameError (nth_error (meshes st) m).

(** is_terminal (ufl_utils.py:19-21) *)
Definition is_terminal (o : obj) : bool := match o_sort o with Operator => false | _ => true end.

(** v.ufl_element() and its cell; the cell of a Constant is None and has no
    name *)
Definition space_of (o : obj) : res space :=
  match o_sort o with Argument _ V => Ok V | Function V _ => Ok V | _ => Err AttributeError end.
Definition obj_cell (o : obj) : res cell := do V <- space_of o; e_cell (s_elem V).

(** allocation of a new object *)
Definition new (st : state) (o : obj) : state * nat := (State (heap st ++ [o]) (meshes st), length (heap st)).

(** if isinstance(v, ufl.Coefficient): df.Function(v.function_space(), v.vector())
    else [df.TestFunction, df.TrialFunction][v.number()](v.function_space())
    followed by the assignment of the attribute *)
Definition copy_and_mark (st : state) (o : obj) (m : mark) : res (state * nat) :=
  match o_sort o with
  | Function V x => Ok (new st (Obj (Function V x) [m]))
  | Argument n V => if n <? 2 then Ok (new st (Obj (Argument n V) [m])) else Err IndexError
  | Const => Err AttributeError
  | Operator => Err AttributeError
  end.

(** v.attribute = value *)
Definition set_mark (o : obj) (m : mark) : obj :=
  Obj (o_sort o) (m :: filter (fun k => negb (attribute k =? attribute m)) (o_marks o)).

(** reconstruct (ufl_utils.py:127-139): arguments are made anew, anything
    else is returned as it is; then the attribute is assigned *)
Definition reconstruct_and_mark (st : state) (v : nat) (o : obj) (m : mark) : res (state * nat) :=
  match o_sort o with
  | Argument 0 V | Argument 1 V => Ok (new st (Obj (o_sort o) [m]))
  | _ => Ok (State (firstn v (heap st) ++ set_mark o m :: skipn (S v) (heap st)) (meshes st), v)
  end.

(** sorted without repetition: set(np.unique(array)) *)
Fixpoint insert (x : nat) (l : list nat) : list nat :=
  match l with [] => [x] | y :: r => if x <? y then x :: l else if x =? y then l else y :: insert x r end.
Definition unique (l : list nat) : list nat := fold_right insert [] l.
Definition mem (x : nat) (l : list nat) : bool := existsb (Nat.eqb x) l.

(** Trace; the five restrictions are numbered from 0 *)
Definition Trace (st : state) (v mmesh type : nat) (normal : option nat) (tag : option (list nat)) : res (state * nat) :=
  do o <- get st v;
  do m <- get_mesh st mmesh;
  if negb (is_terminal o) then Err AssertionError else
  do c <- obj_cell o;
  do tc <- trace_cell c;
  if negb (cell_eqb tc (m_cell m)) then Err AssertionError else
  if negb (type <? 5) then Err AssertionError else
  match tag with
  | Some tags =>
    match m_marks m with
    | None => Err AssertionError
    | Some marks => if forallb (fun t => mem t marks) tags then copy_and_mark st o (MTrace type mmesh normal marks (unique tags)) else Err AssertionError
    end
  | None =>
    let marks := match m_marks m with Some marks => marks | None => repeat 0 (m_ncells m) end in
    copy_and_mark st o (MTrace type mmesh normal marks (unique marks))
  end.

(** Average *)
Definition Average (st : state) (v line_mesh : nat) (shape : option nat) : res (state * nat) :=
  do o <- get st v;
  do m <- get_mesh st line_mesh;
  if negb (is_terminal o) then Err AssertionError else
  do c <- obj_cell o;
  do ac <- average_cell c;
  if negb (cell_eqb ac (m_cell m)) then Err AssertionError else
  do V <- space_of o;
  match shape, m_maps m, e_family (s_elem V) with
  | None, Some _, Lagrange => copy_and_mark st o (MAverage line_mesh shape)
  | None, Some _, _ => Err AssertionError
  | _, _, _ => copy_and_mark st o (MAverage line_mesh shape)
  end.

(** the cell of Restriction and Injection: None of a Constant is no cell *)
Definition same_cell (o : obj) (m : mesh) : res bool :=
  match o_sort o with
  | Const => Ok false
  | _ => do c <- obj_cell o; Ok (cell_eqb c (m_cell m))
  end.

(** Restriction *)
Definition Restriction (st : state) (v mmesh : nat) : res (state * nat) :=
  do o <- get st v;
  do m <- get_mesh st mmesh;
  if negb (is_terminal o) then Err AssertionError else
  do same <- same_cell o m;
  if negb same then Err AssertionError else copy_and_mark st o (MRestriction mmesh).

Fixpoint set_mesh (l : list mesh) (i : nat) (m : mesh) : list mesh :=
  match l, i with [], _ => [] | _ :: r, 0 => m :: r | x :: r, S k => x :: set_mesh r k m end.
Definition key_in (k : nat) (l : list (nat * list nat)) : bool := existsb (fun p => fst p =? k) l.

(** Injection; the two methods are numbered from 0.  Without a map for the
    mesh of v the array parent_cell is stored as its map, replacing all maps
    (47-51). *)
Definition Injection (st : state) (v fmesh method : nat) : res (state * nat) :=
  do o <- get st v;
  do m <- get_mesh st fmesh;
  if negb (is_terminal o) then Err AssertionError else
  do same <- same_cell o m;
  if negb same then Err AssertionError else
  do V <- space_of o;
  let cmesh := s_mesh V in
  if match m_maps m with Some maps => key_in cmesh maps | None => false end then
    copy_and_mark st o (MInjection fmesh method)
  else match m_parent_cell m with
  | Some cmap =>
    let st' := State (heap st) (set_mesh (meshes st) fmesh
                 (Mesh (m_cell m) (m_ncells m) (m_marks m) (m_parents m) (Some [(cmesh, cmap)]) (m_parent_cell m))) in
    copy_and_mark st' o (MInjection fmesh method)
  | None => if method <? 2 then copy_and_mark st o (MInjection fmesh method) else Err AssertionError
  end.

(** TransposeTrace; full_mesh, = trace_mesh.parent_meshes unpacks one mesh *)
Definition TransposeTrace (st : state) (v trace_mesh : nat) (full_mesh : option nat) : res (state * nat) :=
  do o <- get st v;
  do m <- get_mesh st trace_mesh;
  if negb (is_terminal o) then Err AssertionError else
  match m_maps m with
  | None => Err AssertionError
  | Some maps =>
    do full <- match full_mesh with
               | Some f => Ok f
               | None => match m_parents m with Some [f] => Ok f | Some _ => Err ValueError | None => Err AttributeError end
               end;
    if key_in full maps then copy_and_mark st o (MTranspose trace_mesh full) else Err AssertionError
  end.

(** the families of PointTrace and GradientPointTrace; a Constant is Real *)
Definition point_values (o : obj) : res bool :=
  match o_sort o with
  | Const => Ok false
  | _ => do V <- space_of o; Ok (match e_family (s_elem V) with Lagrange | DiscLagrange => true | _ => false end)
  end.

(** PointTrace and GradientPointTrace; point and cell are integers *)
Definition PointTrace (st : state) (v point c : nat) : res (state * nat) :=
  do o <- get st v;
  if negb (is_terminal o) then Err AssertionError else
  do ok <- point_values o;
  if negb ok then Err AssertionError else reconstruct_and_mark st v o (MPoint point c).
Definition GradientPointTrace (st : state) (v point c tangent : nat) : res (state * nat) :=
  do o <- get st v;
  if negb (is_terminal o) then Err AssertionError else
  do ok <- point_values o;
  if negb ok then Err AssertionError else reconstruct_and_mark st v o (MGradPoint point c tangent).

(** the cells of patch_average_form.py:8-24 *)
Definition patch_average_cell (c : cell) : cell := Cell Interval (c_gdim c).

Definition scalar (e : elem) : bool := match value_shape e with [] => true | _ => false end.

(** CellPatchAverage; vertex_f is a Function with its space, patch_f a mesh
    function given by its mesh and dimension (None for patch_f = None, stored
    as 0) *)
Definition CellPatchAverage (st : state) (v vertex_f : nat) (Vgamma : space) (patch_f : option (nat * nat * nat)) (coloring : option nat) : res (state * nat) :=
  do o <- get st v;
  match o_sort o with Const | Operator => Err AttributeError | _ =>
  do V <- space_of o;
  if negb (scalar (s_elem V)) then Err AssertionError else
  do pf <- match patch_f with
           | None => Ok 0
           | Some (id, omega, dim) => do m <- get_mesh st omega; if c_tdim (m_cell m) =? dim then Ok (S id) else Err AssertionError
           end;
  if negb (scalar (s_elem Vgamma)) then Err AssertionError else
  do gamma <- get_mesh st (s_mesh Vgamma);
  do c <- obj_cell o;
  if negb (cell_eqb (patch_average_cell c) (m_cell gamma)) then Err AssertionError else
  copy_and_mark st o (MPatch vertex_f pf coloring)
  end.

(** FluxAverage; the copy is in a scalar space *)
Definition FluxAverage (st : state) (v line_mesh : nat) (shape : option nat) : res (state * nat) :=
  do o <- get st v;
  do m <- get_mesh st line_mesh;
  if negb (is_terminal o) then Err AssertionError else
  do c <- obj_cell o;
  do ac <- average_cell c;
  if negb (cell_eqb ac (m_cell m)) then Err AssertionError else
  match shape with
  | None => Err AssertionError
  | Some sh =>
    match o_sort o with
    | Argument n V =>
      if n <? 2 then
        Ok (new st (Obj (Argument n (Space (FE DiscLagrange c (e_degree (s_elem V))) (s_mesh V))) [MFlux line_mesh sh V]))
      else Err IndexError
    | _ => Err ValueError
    end
  end.

(** Extension *)
Definition Extension (st : state) (v emesh type : nat) (data : option nat) : res (state * nat) :=
  do o <- get st v;
  do m <- get_mesh st emesh;
  if negb (is_terminal o) then Err AssertionError else
  do c <- obj_cell o;
  do ec <- extension_cell c;
  if negb (cell_eqb ec (m_cell m)) then Err AssertionError else copy_and_mark st o (MExtension type emesh data).

(** Mean; a Constant passes the test of the shape *)
Definition Mean (st : state) (v : nat) (weight measure : option nat) : res (state * nat) :=
  do o <- get st v;
  if match o_sort o with Argument _ V | Function V _ => negb (scalar (s_elem V)) | Const => false | Operator => true end then Err AssertionError else
  copy_and_mark st o (MMean weight measure).

(** SurfaceMean *)
Definition SurfaceMean (st : state) (v mmesh : nat) : res (state * nat) :=
  do o <- get st v;
  do m <- get_mesh st mmesh;
  if negb (is_terminal o) then Err AssertionError else
  do c <- obj_cell o;
  do tc <- trace_cell c;
  if negb (cell_eqb tc (m_cell m)) then Err AssertionError else copy_and_mark st o (MSurface mmesh).
