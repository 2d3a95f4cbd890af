(** The reduction matrices of FillModel.v, RestrictModel.v, Trace31Model.v,
    PatchModel.v, MeanModel.v, EvalModel.v and InjectModel.v in the assemblers of
    ReducedModel.v: what xii_assembly.py:29-60 multiplies with is what the loops
    have filled.  The caches in front of them are in CacheModel.v. *)
From Verif Require Import Base Mat FillModel EvalModel UflModel ReducedModel EntityModel RestrictModel Trace31Model PatchModel MeanModel InjectModel.
Local Open Scope nat_scope.
Local Close Scope Q_scope.
Local Close Scope Qc_scope.

(** What trace_mat gets from dolfin and from the data of the reduction, see RestrictModel.v *)
Record trace_source := TraceSource {
  tr_gdim : nat;
  tr_cell_mid : nat -> vec; tr_trace_mid : nat -> vec; tr_normal : nat -> vec;
  tr_facet_cells : nat -> list nat;
  tr_T_dofs : nat -> list nat; tr_V_dofs : nat -> list nat;
  tr_dof_value : nat -> nat -> nat -> nat -> Qc;
  tr_build : nat -> mesh_function -> list nat -> res entity_map;
  tr_nonconforming : res mat;
  tr_hdiv : option nat; tr_tdofs : list (nat -> list nat); tr_fdofs : list (nat -> nat);
  tr_mesh_id : nat; tr_fdim : nat; tr_dg : bool;
  tr_compatible : bool; tr_has_normal : bool; tr_normal_dg0 : bool;
  tr_restriction : restriction;
  tr_mesh : trace_mesh; tr_f : mesh_function; tr_tags : list nat
}.
(** patch_f (None: point evaluation), patch_coloring, values of vertex_f, squared distances *)
Record patch_source := PatchSource {
  p_cells : option (list pcell); p_coloring : option (list (nat * nat)); p_ids : list nat; p_sqdists : list (list Qc) }.
(** The space, its mesh, weight and measure *)
Record mean_source := MeanSource {
  e_space : sspace; e_mesh : list mcell; e_weight : option (nat -> Qc); e_measure : option (list mcell) }.
(** Point traces, with the tangent for derivatives *)
Record point_source := PointSource {
  o_V : fspace; o_TV : fspace; o_trace_mesh : nat;
  o_collisions : nat -> list nat; o_V_dofs : nat -> list nat; o_TV_dofs : nat -> list nat;
  o_basis : nat -> nat -> list Qc; o_derivatives : nat -> nat -> list Qc;
  o_first : vec -> nat; o_limit : nat; o_x0 : place; o_cell : nat; o_tangent : tangent }.
(** What surface_mean_mat asserts (31-34), the trace, the trace space over the surface *)
Record surface_source := SurfaceSource { u_fits : bool; u_trace : trace_source; u_space : sspace; u_cells : list mcell }.
(** data['not_nested_method'], the matrix of create_transfer_matrix, meshes for the lookup *)
Inductive nested_method := Interpolate | Project | Lookup.
Record injection_source := InjectionSource { j_method : nested_method; j_transfer : mat; j_spaces : pair_of_spaces }.

(** What the loops get from dolfin, by the space that is reduced, the reduced space, its mesh
    and the data [d] of the reduction: cells of the target mesh with dofs
    (restriction_matrix.py:41-88); collisions, basis functions and dofs of
    the space that is averaged, whether there is a shape, its quadrature, line cells with their
    dofs and the number of components (average_matrix.py:46-49, 72-75, 151-249); line cells
    with numbers, their parents and the cells at edges (252-331); for
    flux averages the number of components of the space and the quadrature with
    normals (flux_average_matrix.py:71-104). *)
Record geometry := Geometry {
  g_trace : nat -> nat -> nat -> nat -> trace_source;
  g_restriction : nat -> nat -> nat -> nat -> list fcell;
  g_collision : nat -> vec -> nat;
  g_limit : nat -> nat;
  g_basis : nat -> nat -> vec -> list Qc;
  g_dofs : nat -> nat -> list nat;
  g_shape : nat -> bool;
  g_quadrature : nat -> vec -> vec -> list vec * list Qc;
  g_lines : nat -> list (vec * list (nat * vec));
  g_size : nat -> nat;
  g_line_cells : nat -> list (nat * list (nat * vec));
  g_parents : nat -> nat -> option (nat -> option nat);
  g_edge_cells : nat -> nat -> list nat;
  g_line_collision : nat -> nat -> nat -> nat;
  g_components : nat -> nat;
  g_normals : nat -> vec -> vec -> list vec * list Qc * list vec;
  g_transpose : nat -> nat -> nat -> nat -> trace_source;
  g_patch : nat -> nat -> nat -> patch_source;
  g_mean : nat -> nat -> mean_source;
  g_point : nat -> nat -> nat -> point_source;
  g_surface : nat -> nat -> nat -> surface_source;
  g_injection : nat -> nat -> nat -> injection_source
}.

(** trace_mat, trace_matrix.py:34-70 *)
Definition trace_matrix (s : trace_source) (m n : nat) : res mat :=
  trace_mat (tr_gdim s) (tr_cell_mid s) (tr_trace_mid s) (tr_normal s) (tr_facet_cells s) (tr_T_dofs s) (tr_V_dofs s) (tr_dof_value s) (tr_build s) (tr_nonconforming s)
    (tr_hdiv s) (tr_tdofs s) (tr_fdofs s) m n (tr_mesh_id s) (tr_fdim s) (tr_dg s) (tr_compatible s) (tr_has_normal s) (tr_normal_dg0 s) (tr_restriction s) (tr_mesh s) (tr_f s) (tr_tags s).
(** trace_mat_no_restrict, trace_matrix.py:73-198.  Without tag_data (82-88) the mesh function is
    marking_function of the trace mesh with all of its values, or zero *)
Definition plain_trace_matrix (s : trace_source) (m n : nat) : res mat :=
  trace_mat_no_restrict (tr_facet_cells s) (tr_T_dofs s) (tr_V_dofs s) (tr_dof_value s) (tr_build s) (tr_nonconforming s)
    (tr_hdiv s) (tr_tdofs s) (tr_fdofs s) m n (tr_mesh_id s) (tr_fdim s) (tr_dg s) (tr_mesh s) (tr_f s) (tr_tags s).
(** patch_avg_mat, patch_average_matrix.py:29-42 *)
Definition patch_matrix (s : patch_source) (m n : nat) : res mat :=
  match p_cells s with
  | None => dirac_matrix m n (p_sqdists s)
  | Some cells => patch_avg m n cells (p_coloring s) (p_ids s)
  end.
(** point_trace_mat, gradient_point_trace_mat *)
Definition point_matrix (s : point_source) (m n : nat) : res mat :=
  point_trace_mat (o_V s) (o_TV s) (o_trace_mesh s) (o_collisions s) (o_V_dofs s) (o_TV_dofs s) (o_basis s) m n (o_first s) (o_limit s) (o_x0 s) (o_cell s).
Definition gradient_matrix (s : point_source) (m n : nat) : res mat :=
  gradient_point_trace_mat (o_V s) (o_TV s) (o_trace_mesh s) (o_collisions s) (o_V_dofs s) (o_TV_dofs s) (o_derivatives s) m n (o_x0 s) (o_cell s) (o_tangent s).
(** surface_mean_mat, surface_mean_matrix.py:29-51 *)
Definition surface_matrix (s : surface_source) (n : nat) : res mat :=
  if u_fits s then do T <- plain_trace_matrix (u_trace s) (s_dim (u_space s)) n; Ok (surface_mean_matrix (u_space s) (u_cells s) T)
  else Err AssertionError.
(** injection_matrix, injection_matrix.py:29-98 (the lookup with line 88) *)
Definition injection_matrix (s : injection_source) : res mat :=
  match j_method s with
  | Interpolate => Ok (j_transfer s)
  | Project => Err ValueError
  | Lookup => do t <- lookup_matrix (j_spaces s) true; Ok (Mat (v_dim (j_spaces s)) (v_dim_c (j_spaces s)) (entry t))
  end.

(** reduction_matrix of trace_assembly.py:35-43, restriction_assembly.py:34-43,
    average_assembly.py:26-33, transpose_trace_assembly.py:38-40 (with
    transpose_trace_matrix.py:22-26), flux_average_assembly.py:35-37 and of the
    assemblers for patch averages, means, point traces and their gradients, surface
    means and injections *)
Definition reduction_matrix (w : world) (g : geometry) (a : attr) (V TV mesh d : nat) : res mat :=
  let m := w_dim w TV in
  let n := w_dim w V in
  match a with
  | ATrace => trace_matrix (g_trace g V TV mesh d) m n
  | ARestriction => Ok (restriction_fill m n (g_restriction g V TV mesh d))
  | AAverage =>
    if g_shape g d then
      Ok (if g_size g TV =? 1
          then scalar_average (g_collision g V) (g_limit g V) (g_basis g V) (g_dofs g V) (g_quadrature g d) m n (g_lines g TV)
          else vector_average (g_collision g V) (g_limit g V) (g_basis g V) (g_dofs g V) (g_quadrature g d) (g_size g TV) m n (g_lines g TV))
    else trace_3d1d_matrix (g_parents g V TV) (g_edge_cells g V) (g_line_collision g V TV) (g_limit g V) (g_basis g V) (g_dofs g V) (g_size g TV) m n (g_line_cells g TV)
  | AOther 0 => do E <- plain_trace_matrix (g_transpose g V TV mesh d) m n; Ok (mtr E)
  | AOther 1 => Ok (flux_average (g_collision g V) (g_limit g V) (g_basis g V) (g_dofs g V) (g_components g V) (g_normals g d) m n (g_lines g TV))
  | AOther 2 => patch_matrix (g_patch g V TV d) m n
  | AOther 3 => let s := g_mean g V d in Ok (mean_mat (e_space s) (e_mesh s) (e_weight s) (e_measure s))
  | AOther 4 => point_matrix (g_point g V TV d) m n
  | AOther 5 => gradient_matrix (g_point g V TV d) m n
  | AOther 6 => surface_matrix (g_surface g V TV d) n
  | AOther 7 => injection_matrix (g_injection g V TV d)
  | AOther _ => Err KeyError
  end.
