(** Skeleton, xii/meshing/embedded_mesh.py 598-609, on EmbedModel.v.

    A mesh of dimension [tdim] has its vertices, its facets as lists of vertices
    and for every cell the list of its facets (dolfin's connectivity
    (tdim, tdim-1)).  dolfin's DomainBoundary marks the facets which belong to
    exactly one cell (serial). *)
From Verif Require Import Base FillModel EmbedModel.
Local Open Scope nat_scope.

Section Skeleton.
Context {X : Type}.
Record fmesh := FMesh { fm_dim : nat; fm_facets : @mesh X; fm_c2f : list (list nat) }.

(** mesh.topology()(tdim-1, tdim)(f), computed by dolfin from (tdim, tdim-1) *)
Definition cells_of (m : fmesh) (f : nat) : list nat :=
  filter (fun c => existsb (Nat.eqb f) (nth c (fm_c2f m) [])) (seq 0 (length (fm_c2f m))).
(** DomainBoundary().mark(facet_f, value) *)
Definition mark_boundary (m : fmesh) (facet_f : list nat) (value : nat) : list nat :=
  map (fun f => if length (cells_of m f) =? 1 then value else nth f facet_f 0) (seq 0 (length facet_f)).

Variable submesh : @mesh X -> list nat -> @mesh X * list nat * list nat.
(** embedded_mesh.py 598-609 *)
Definition skeleton (m : fmesh) (include_boundary : bool) : res (@emesh X) :=
  do _ <- py_assert (1 <? fm_dim m);
  let facet_f := repeat 1 (length (conn (fm_facets m))) in
  if include_boundary then embedded_mesh submesh (fm_dim m) (fm_dim m - 1) (fm_facets m) facet_f [1]
  else embedded_mesh submesh (fm_dim m) (fm_dim m - 1) (fm_facets m) (mark_boundary m facet_f 0) [1].
End Skeleton.
