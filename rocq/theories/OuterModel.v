(** OuterNormal given by marked cells, by a mesh or by a facet normal
    (xii/meshing/embedded_mesh.py:252-320); the orientation by a point is in NormalModel.v

    A manifold mesh is its cells, each the number of a facet of the parent mesh
    (parent_entity_map) and its volume; [known] tells whether the parent is in
    parent_entity_map.  xii.Trace of a function on facets has on a cell the value on its facet,
    so that the assembled vector (269-271, 289, 315) has (1/hK) times the integral of it. *)
From Verif Require Export Base GeomModel FacetModel.
From Verif Require Import EmbedModel.
Local Open Scope R_scope.

Record manifold_cell := MCell { c_facet : nat; c_volume : R }.

(** 269-273, 289-291, 315-317 *)
Definition to_manifold (values : list (list R)) (cells : list manifold_cell) : res (list (list R)) :=
  mapM (fun c => do v <- opt_res IndexError (nth_error values (c_facet c)); Ok (rscale (1 / c_volume c) (rscale (c_volume c) v))) cells.
(** 253-275 *)
Definition outer_by_markers (known : bool) (tdim dim : nat) (c2d marker : list nat) (facets : list facet) (cells : list manifold_cell) : res (list (list R)) :=
  if negb known then Err AssertionError else
  do normal <- OrientedFacetNormal tdim dim c2d marker facets;
  to_manifold normal cells.
(** 277-293: the integral is over exterior facets, the entries of others are zero *)
Definition outer_by_mesh (known : bool) (gdim : nat) (facets : list facet) (cells : list manifold_cell) : res (list (list R)) :=
  if negb known then Err AssertionError else
  to_manifold (map (fun f => match f_minus f with None => average f (f_np f) | Some _ => repeat 0 gdim end) facets) cells.
(** 295-319: also over interior ones, with n('+') *)
Definition outer_by_normal (known : bool) (facets : list facet) (cells : list manifold_cell) : res (list (list R)) :=
  if negb known then Err AssertionError else
  to_manifold (map (fun f => match f_minus f with None => average f (f_np f) | Some _ => average f (f_np f) end) facets) cells.
