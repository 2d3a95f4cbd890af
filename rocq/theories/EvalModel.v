(** Model of the matrices that evaluate finite element functions:
    flux_average_matrix (flux_average_matrix.py:56-156), point_trace_mat and
    gradient_point_trace_mat (point_trace_matrix.py:33-160,
    gradient_point_trace_matrix.py:12-101) and nonconforming_trace_mat
    (nonconforming_trace_matrix.py:14-98).

    What dolfin computes (collisions, dof maps, values of basis functions, values
    of degrees of freedom on basis functions) are parameters, as in FillModel.v.
    The cache in front of the matrices is in CacheModel.v; progress bars and
    warnings are left out. *)
From Verif Require Export Base Mat FillModel.
Local Open Scope nat_scope.
Local Close Scope Q_scope.
Local Close Scope Qc_scope.

(** ** flux_average_matrix.py *)
Section Flux.
Context {X N : Type}.
Variable collision : X -> nat.
Variable limit : nat.
Variable basis : nat -> X -> list Qc.        (** evaluate_basis_all on a cell *)
Variable V_dofs : nat -> list nat.
Variable size : nat.                         (** value_size *)
(** shape.quadrature_normal: points, weights, normals *)
Variable quadrature_normal : X -> N -> list X * list Qc * list vec.

(** 129: np.sum(basis_values*normal_ip, axis=1) *)
Definition normal_values (c : nat) (ip : X) (normal : vec) : list Qc :=
  map (fun b => qplus_list (map (fun k => (vnth b k * vnth normal k)%Qc) (seq 0 size)))
      (reshape size (length (V_dofs c)) (basis c ip)).
(** 110-136 *)
Definition flux_point (measure : Qc) (d : list (nat * Qc)) (p : X * vec * Qc) : list (nat * Qc) :=
  let '(ip, normal, w) := p in
  let c := collision ip in
  if limit <=? c then d
  else fold_left (fun d' cv => dict_add d' (fst cv) (snd cv * w / measure)%Qc) (combine (V_dofs c) (normal_values c ip normal)) d.
(** 101-136 *)
Definition flux_row (x : X) (n : N) : list (nat * Qc) :=
  let '(points, wq, normals) := quadrature_normal x n in
  fold_left (flux_point (qplus_list wq)) (combine (combine points normals) wq) [].
(** 90-150: a line cell is its tangent and its dofs with their points *)
Definition flux_average (m n : nat) (cells : list (N * list (nat * X))) : mat :=
  coo m n (flat_map (fun lc => flat_map (fun rx => map (fun cv => (fst rx, fst cv, snd cv)) (flux_row (snd rx) (fst lc))) (snd lc)) cells).
End Flux.

(** ** point_trace_matrix.py, gradient_point_trace_matrix.py *)

(** The point is the number of a vertex or a tuple. *)
Inductive place := AtVertex (v : nat) | AtPoint (x : vec).
Inductive family := Lagrange | DiscontinuousLagrange | Real | OtherFamily.
Inductive tangent := TauConstant (tau : vec) | TauFunction (at_midpoint : nat -> vec) | TauArray (tau : vec).

(** What is asked of the two spaces (element and mesh) *)
Record fspace := FSpace { s_family : family; s_shape : list nat; s_meshid : nat; s_tdim : nat; s_gdim : nat }.

Section Point.
Variables (V TV : fspace) (trace_mesh : nat).
Variable entity_collisions : nat -> list nat.     (** cells that collide with a vertex *)
Variable V_dofs TV_dofs : nat -> list nat.
(** evaluate_basis_all(x[v], cell), evaluate_basis_derivatives_all(1, x[v], cell) *)
Variable basis_at derivatives_at : nat -> nat -> list Qc.
Variables (m n : nat).                            (** TV.dim(), V.dim() *)

(** np.linalg.norm(values) > 0 *)
Definition nonzero (l : list Qc) : bool := negb (forallb (fun x => Qc_eq_bool x q0) l).

(** 100-108 / 89-97: the row and the matrix *)
Definition one_row (cell : nat) (values : list Qc) : res mat :=
  match TV_dofs cell with
  | [row] => Ok (coo m n (zip3 (repeat row (length (V_dofs cell))) (V_dofs cell) values))
  | _ => Err ValueError
  end.
(** point_trace_matrix.py:63-112 *)
Definition point_trace_matrix_DG (v cell : nat) : res mat :=
  if negb (existsb (Nat.eqb cell) (entity_collisions v)) then Err AssertionError
  else let values := basis_at v cell in
  if negb (nonzero values) then Err AssertionError else one_row cell values.

(** gradient_point_trace_matrix.py:64-69 *)
Definition tau_of (t : tangent) (cell : nat) : vec :=
  match t with TauConstant tau => tau | TauFunction f => f cell | TauArray tau => tau end.
(** 85, 95: basis_values.reshape((.., gdim)), dot *)
Definition dot_rows (gdim count : nat) (l : list Qc) (tau : vec) : list Qc :=
  map (fun b => qplus_list (map (fun k => (vnth b k * vnth tau k)%Qc) (seq 0 gdim))) (reshape gdim count l).
(** 41-101 *)
Definition gradient_point_trace_matrix_DG (v cell : nat) (t : tangent) : res mat :=
  if negb (existsb (Nat.eqb cell) (entity_collisions v)) then Err AssertionError
  else let tau := tau_of t cell in
  let values := derivatives_at v cell in
  if negb (nonzero values) then Err AssertionError
  else one_row cell (dot_rows (s_gdim V) (length (V_dofs cell)) values tau).

(** point_trace_matrix.py:115-160: line 137, evaluate_basis_all is called with four
    arguments (values, point, vertices, orientation) but takes three (as
    everywhere else in the code), whatever the cell found at 122-123. *)
Definition point_trace_matrix_CG (first_collision limit : nat) : res mat :=
  if first_collision <? limit then Err TypeError else Err AssertionError.

Definition fam_eqb (a b : family) : bool :=
  match a, b with Lagrange, Lagrange | DiscontinuousLagrange, DiscontinuousLagrange | Real, Real | OtherFamily, OtherFamily => true | _, _ => false end.
Definition shape_eqb (a b : list nat) : bool := if list_eq_dec Nat.eq_dec a b then true else false.

(** point_trace_matrix.py:40-42, gradient_point_trace_matrix.py:19-21 *)
Definition spaces_fit : bool :=
  fam_eqb (s_family TV) Real && shape_eqb (s_shape V) (s_shape TV) &&
  ((s_meshid V =? s_meshid TV) && (s_meshid TV =? trace_mesh)).
(** 49-52 / 27-30; the cell is an int in the model *)
Definition dg_fits : bool :=
  fam_eqb (s_family V) DiscontinuousLagrange && (s_tdim V =? 1) && shape_eqb (s_shape V) [].

(** point_trace_matrix.py:33-59; [first_collision x] and limit for the other branch *)
Definition point_trace_mat (first_collision : vec -> nat) (limit : nat) (x0 : place) (cell : nat) : res mat :=
  if negb spaces_fit then Err AssertionError
  else if fam_eqb (s_family V) Lagrange then
    match x0 with
    | AtVertex _ => Err TypeError                 (* len of an int *)
    | AtPoint x => if length x =? s_gdim V then point_trace_matrix_CG (first_collision x) limit else Err AssertionError
    end
  else if negb dg_fits then Err AssertionError
  else match x0 with AtVertex v => point_trace_matrix_DG v cell | AtPoint _ => Err AssertionError end.

(** gradient_point_trace_matrix.py:12-37 *)
Definition gradient_point_trace_mat (x0 : place) (cell : nat) (t : tangent) : res mat :=
  if negb spaces_fit then Err AssertionError
  else if fam_eqb (s_family V) Lagrange then Err NotImplementedError
  else if negb dg_fits then Err AssertionError
  else match x0 with AtVertex v => gradient_point_trace_matrix_DG v cell t | AtPoint _ => Err AssertionError end.
End Point.

(** ** nonconforming_trace_matrix.py *)
Section Nonconforming.
Variable limit : nat.
Variable collisions : nat -> nat.              (** 41-47: dof of T -> cell of V *)
Variable V_dofs : nat -> list nat.
(** dof [k] of the cell [t] of T applied to the basis function [l] of the cell [c] of V *)
Variable dof_value : nat -> nat -> nat -> nat -> Qc.

(** 68-97: the loop over the dofs of the cell [t] *)
Fixpoint nonconforming_dofs (t k : nat) (ds : list nat) (s : list bool * (nat -> nat -> Qc)) : list bool * (nat -> nat -> Qc) :=
  match ds with
  | [] => s
  | d :: ds' =>
    if nth d (fst s) true then nonconforming_dofs t (S k) ds' s
    else
      let visited := set_nth (fst s) d true in
      let c := collisions d in
      if limit <=? c then nonconforming_dofs t (S k) ds' (visited, snd s)
      else nonconforming_dofs t (S k) ds'
             (visited, set_row (snd s) d (V_dofs c) (map (fun l => dof_value t k c l) (seq 0 (length (V_dofs c)))))
  end.
Fixpoint nonconforming_cells (t : nat) (cells : list (list nat)) (s : list bool * (nat -> nat -> Qc)) : list bool * (nat -> nat -> Qc) :=
  match cells with [] => s | ds :: cells' => nonconforming_cells (S t) cells' (nonconforming_dofs t 0 ds s) end.
(** 62-98 *)
Definition nonconforming_trace_mat (m n : nat) (cells : list (list nat)) : mat :=
  Mat m n (snd (nonconforming_cells 0 cells (repeat false m, fun _ _ => q0))).
End Nonconforming.
