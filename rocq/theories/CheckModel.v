(** Model of what stands between the mark on a function and the loops that
    fill its reduction matrix: reduced_assembler.py:85-100 asks is_compatible,
    makes the reduced space and calls the function that makes the matrix,
    which begins with assertions.  A mark passes ([Ok] with the reduced space)
    if none of them raises before the loops start; the loops are in
    FillModel.v, RestrictModel.v, PatchModel.v, MeanModel.v, EvalModel.v,
    InjectModel.v and ExtensionModel.v.

    The marks are those of AnnotateModel.v, spaces and meshes as there; ids of
    meshes are their numbers.  Functions on the network and patch functions are
    referred to by numbers in the marks; [vertex_space] is the space of the
    first, [patch_mesh] the mesh of the second.  The caches are not modelled. *)
From Verif Require Import Base ElementModel AnnotateModel.

Definition shape_eqb (a b : list nat) : bool := if list_eq_dec Nat.eq_dec a b then true else false.
Definition family_eqb (a b : family) : bool :=
  match a, b with
  | Lagrange, Lagrange | DiscLagrange, DiscLagrange | Real, Real | Mixed, Mixed => true
  | SFam n, SFam m | VFam n, VFam m | TFam n, TFam m => n =? m
  | _, _ => false
  end.
Definition check (b : bool) : res unit := if b then Ok tt else Err AssertionError.

Section Check.
Variables (vertex_space : nat -> space) (patch_mesh : nat -> nat).

(** trace_assembly.py:26-41; trace_mat, trace_matrix.py:46-60 *)
Definition pass_trace (st : state) (V : space) (type mesh : nat) (normal : option nat) (rmesh : nat) : res space :=
  do _ <- check (mesh =? rmesh);
  do m <- get_mesh st rmesh;
  do t <- trace_space (s_elem V) (m_cell m);
  do _ <- check (shape_eqb (value_shape (s_elem V)) (value_shape t));
  do c <- e_cell (s_elem V);
  do tc <- trace_cell c;
  do _ <- check (cell_eqb tc (m_cell m));
  do v <- get_mesh st (s_mesh V);
  do _ <- check (c_gdim (m_cell v) =? c_gdim (m_cell m));
  do _ <- check (match type, normal with 0, _ => true | _, Some _ => true | _, None => false end);
  Ok (Space t rmesh).

(** average_assembly.py:24-33; avg_mat, average_matrix.py:36-49, and
    trace_3d1d_matrix, 254-257, 268-270 *)
Definition pass_average (st : state) (V : space) (mesh : nat) (shape : option nat) (rmesh : nat) : res space :=
  do _ <- check (mesh =? rmesh);
  do m <- get_mesh st rmesh;
  do t <- average_space (s_elem V) (m_cell m);
  do _ <- check (family_eqb (e_family t) DiscLagrange);
  do _ <- check (shape_eqb (value_shape (s_elem V)) (value_shape t));
  do c <- e_cell (s_elem V);
  do ac <- average_cell c;
  do _ <- check (cell_eqb ac (m_cell m));
  do v <- get_mesh st (s_mesh V);
  do _ <- check (c_gdim (m_cell v) =? c_gdim (m_cell m));
  match shape with
  | Some _ => Ok (Space t rmesh)
  | None =>
    do _ <- check (family_eqb (e_family (s_elem V)) Lagrange || (family_eqb (e_family (s_elem V)) DiscLagrange && (e_degree (s_elem V) =? 0)));
    match m_maps m with
    | Some maps => if key_in (s_mesh V) maps then Ok (Space t rmesh) else Err KeyError
    | None => Ok (Space t rmesh)
    end
  end.

(** flux_average_assembly.py:24-37, domain_space; flux_avg_mat,
    flux_average_matrix.py:36-48 *)
Definition pass_flux (st : state) (domain : space) (mesh : nat) (rmesh : nat) : res space :=
  do _ <- check (mesh =? rmesh);
  do m <- get_mesh st rmesh;
  do t <- flux_average_space (s_elem domain) (m_cell m);
  do _ <- check (family_eqb (e_family t) DiscLagrange);
  do _ <- check (length (value_shape (s_elem domain)) =? 1);
  do _ <- check (shape_eqb (value_shape t) []);
  do c <- e_cell (s_elem domain);
  do ac <- average_cell c;
  do _ <- check (cell_eqb ac (m_cell m));
  do v <- get_mesh st (s_mesh domain);
  do _ <- check (c_gdim (m_cell v) =? c_gdim (m_cell m));
  Ok (Space t rmesh).

(** restriction_assembly.py:28-43; restriction_mat, restriction_matrix.py:31-43 *)
Definition pass_restriction (st : state) (V : space) (mesh : nat) (rmesh : nat) : res space :=
  do _ <- check (mesh =? rmesh);
  do m <- get_mesh st rmesh;
  do t <- restriction_space (s_elem V) (m_cell m);
  match m_maps m with
  | None => Err AttributeError
  | Some maps => do _ <- check (key_in (s_mesh V) maps); Ok (Space t rmesh)
  end.

(** injection_assembly.py:24-38; injection_matrix, injection_matrix.py:29-46;
    methods as in AnnotateModel.v: 0 interpolate, 1 project; by the others the
    lookup of InjectModel.v is reached *)
Definition pass_injection (st : state) (V : space) (mesh method : nat) (rmesh : nat) : res space :=
  do _ <- check (mesh =? rmesh);
  do m <- get_mesh st rmesh;
  do t <- restriction_space (s_elem V) (m_cell m);
  match method with
  | 0 => Ok (Space t rmesh)
  | 1 => Err ValueError
  | _ => match m_maps m with
         | None => Err AttributeError
         | Some maps => if key_in (s_mesh V) maps then Ok (Space t rmesh) else Err KeyError
         end
  end.

(** point_trace_assembly.py:22-33; point_trace_mat, point_trace_matrix.py:39-57:
    the point is an integer, len(x0) is a TypeError.  Where the space is None
    its element is asked for (AttributeError). *)
Definition pass_point (st : state) (V : space) (rmesh : nat) : res space :=
  do m <- get_mesh st rmesh;
  do o <- point_trace_space (s_elem V) (m_cell m);
  match o with
  | None => Err AttributeError
  | Some t =>
    do _ <- check (family_eqb (e_family t) Real);
    do _ <- check (shape_eqb (value_shape (s_elem V)) (value_shape t));
    do _ <- check (s_mesh V =? rmesh);
    if family_eqb (e_family (s_elem V)) Lagrange then Err TypeError else
    do _ <- check (family_eqb (e_family (s_elem V)) DiscLagrange);
    do _ <- check (c_tdim (m_cell m) =? 1);
    do _ <- check (shape_eqb (value_shape (s_elem V)) []);
    Ok (Space t rmesh)
  end.

(** gradient_point_trace_assembly.py:22-33; gradient_point_trace_mat,
    gradient_point_trace_matrix.py:18-33 *)
Definition pass_gradient (st : state) (V : space) (rmesh : nat) : res space :=
  do m <- get_mesh st rmesh;
  do t <- gradient_point_trace_space (s_elem V) (m_cell m);
  do _ <- check (family_eqb (e_family t) Real);
  do _ <- check (shape_eqb (value_shape (s_elem V)) (value_shape t));
  do _ <- check (s_mesh V =? rmesh);
  if family_eqb (e_family (s_elem V)) Lagrange then Err NotImplementedError else
  do _ <- check (family_eqb (e_family (s_elem V)) DiscLagrange);
  do _ <- check (c_tdim (m_cell m) =? 1);
  do _ <- check (shape_eqb (value_shape (s_elem V)) []);
  Ok (Space t rmesh).

(** patch_average_form.py:27-35 and patch_average_assembly.py:20-34;
    patch_avg_mat, patch_average_matrix.py:34-55, its copies 115-127
    and 205-222 (there patch_f is not asked for) *)
Definition pass_patch (st : state) (V : space) (vertex_f patch_f : nat) (rmesh : nat) : res space :=
  do m <- get_mesh st rmesh;
  do c <- e_cell (s_elem V);
  do _ <- check (cell_eqb (m_cell m) (patch_average_cell c));
  let TV := vertex_space vertex_f in
  do _ <- check (shape_eqb (value_shape (s_elem V)) (value_shape (s_elem TV)));
  do _ <- check (s_mesh TV =? rmesh);
  do _ <- check (shape_eqb (value_shape (s_elem V)) (value_shape (s_elem TV)) && shape_eqb (value_shape (s_elem TV)) []);
  do k <- get_mesh st (s_mesh TV);
  do _ <- check (cell_eqb (patch_average_cell c) (m_cell k));
  do v <- get_mesh st (s_mesh V);
  do _ <- check (c_gdim (m_cell v) =? c_gdim (m_cell k));
  match patch_f with
  | 0 => Ok TV
  | S _ => do _ <- check (s_mesh V =? patch_mesh patch_f); Ok TV
  end.

(** mean_assembly.py:20-32; mean_matrix.py:29-51 asserts nothing *)
Definition pass_mean (st : state) (V : space) (rmesh : nat) : res space :=
  do m <- get_mesh st rmesh;
  do t <- mean_space (s_elem V) (m_cell m);
  Ok (Space t rmesh).

(** surface_mean_assembly.py:22-33, which does not look at the mesh of the
    mark; surface_mean_mat, surface_mean_matrix.py:29-41 *)
Definition pass_surface (st : state) (V : space) (rmesh : nat) : res space :=
  do m <- get_mesh st rmesh;
  do t <- surface_mean_space (s_elem V) (m_cell m);
  do _ <- check (family_eqb (e_family t) Real);
  do _ <- check (shape_eqb (value_shape (s_elem V)) (value_shape t));
  do _ <- trace_space (s_elem V) (m_cell m);
  Ok (Space t rmesh).

(** extension_assembly.py:22-42; extension_mat, extension_matrix.py:36-52;
    types: 0 uniform, 1 harmonic, for others None is returned (C73) *)
Definition pass_extension (st : state) (V : space) (mesh : nat) (rmesh : nat) : res space :=
  do _ <- check (mesh =? rmesh);
  do m <- get_mesh st rmesh;
  do t <- extension_element (s_elem V);
  do c <- e_cell t;
  if negb (cell_eqb c (m_cell m)) then Err RuntimeError else
  do v <- get_mesh st (s_mesh V);
  do _ <- check (c_tdim (m_cell v) =? 1);
  do _ <- check ((c_tdim (m_cell m) =? 1) || (c_tdim (m_cell m) =? 2));
  do _ <- check (e_degree (s_elem V) =? e_degree t);
  do _ <- check (family_eqb (e_family (s_elem V)) (e_family t));
  do _ <- check (c_gdim (m_cell v) =? c_gdim (m_cell m));
  do _ <- check ((c_gdim (m_cell v) =? 2) || (c_gdim (m_cell v) =? 3));
  Ok (Space t rmesh).

(** The marked terminal [o] in an integral over [rmesh]
    (reduced_assembler.py:85-100); of transposed traces see C97 *)
Definition passes_mark (st : state) (V : space) (mk : mark) (rmesh : nat) : res space :=
  match mk with
  | MTrace type mesh normal _ _ => pass_trace st V type mesh normal rmesh
  | MAverage mesh shape => pass_average st V mesh shape rmesh
  | MRestriction mesh => pass_restriction st V mesh rmesh
  | MInjection mesh method => pass_injection st V mesh method rmesh
  | MTranspose _ _ => Err AssertionError
  | MPoint _ _ => pass_point st V rmesh
  | MGradPoint _ _ _ => pass_gradient st V rmesh
  | MPatch vertex_f patch_f _ => pass_patch st V vertex_f patch_f rmesh
  | MFlux mesh _ domain => pass_flux st domain mesh rmesh
  | MExtension _ mesh _ => pass_extension st V mesh rmesh
  | MMean _ _ => pass_mean st V rmesh
  | MSurface _ => pass_surface st V rmesh
  end.
Definition pass (st : state) (r rmesh : nat) : res space :=
  do o <- get st r;
  do V <- space_of o;
  match o_marks o with
  | mk :: _ => passes_mark st V mk rmesh
  | [] => Err AttributeError
  end.
End Check.
