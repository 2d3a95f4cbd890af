(** The strip of sandbox/harm_ext.py:11-36

    Meaning of dolfin that is trusted here: UnitSquareMesh(nx, ny) has the vertices (i/nx, j/ny) and two triangles
    for each square, cut along the diagonal from its lower left vertex (the default); its arguments must be
    integers; SubDomain.mark marks the cells or facets whose vertices and midpoint are inside; the SubMesh has the
    marked cells, and DomainBoundary marks the facets of exactly one of its cells.  The conditions are evaluated
    exactly, the tolerance is an argument.  What is assembled and solved (38 onwards) is not modelled here. *)
From Coq Require Import Reals.
From Verif Require Export Base.
Local Open Scope R_scope.

(** Numbers of Python *)
Inductive pynum := PInt (z : Z) | PFloat (x : R).
Definition as_float (n : pynum) : R := match n with PInt z => IZR z | PFloat x => x end.
Definition true_div (a b : pynum) : pynum := PFloat (as_float a / as_float b).
(** 15 UnitSquareMesh(nx, ny): the numbers of squares *)
Definition unit_square_mesh (nx ny : pynum) : res (Z * Z) := match nx, ny with PInt a, PInt b => Ok (a, b) | _, _ => Err TypeError end.
(** 11-15: ny = (nx+1)/2 *)
Definition script_mesh (nx : Z) : res (Z * Z) := unit_square_mesh (PInt nx) (true_div (PInt (nx + 1)) (PInt 2)).

(** Cells and facets of the mesh by their lower left vertex *)
Inductive gcell := Lower (i j : nat) | Upper (i j : nat).
Inductive gfacet := Hor (i j : nat) | Ver (i j : nat) | Dia (i j : nat).
Definition cell_vertices (c : gcell) : list (nat * nat) :=
  match c with
  | Lower i j => [(i, j); (S i, j); (S i, S j)]
  | Upper i j => [(i, j); (i, S j); (S i, S j)]
  end%nat.
Definition facet_vertices (f : gfacet) : list (nat * nat) :=
  match f with Hor i j => [(i, j); (S i, j)] | Ver i j => [(i, j); (i, S j)] | Dia i j => [(i, j); (S i, S j)] end%nat.
Definition cell_facets (c : gcell) : list gfacet :=
  match c with Lower i j => [Hor i j; Ver (S i) j; Dia i j] | Upper i j => [Ver i j; Hor i (S j); Dia i j] end%nat.
Definition gfacet_eqb (f g : gfacet) : bool :=
  (match f, g with Hor i j, Hor k l | Ver i j, Ver k l | Dia i j, Dia k l => (i =? k) && (j =? l) | _, _ => false end)%nat.
Definition mesh_cells (nx ny : nat) : list gcell :=
  flat_map (fun i => flat_map (fun j => [Lower i j; Upper i j]) (seq 0 ny)) (seq 0 nx).

Section Mesh.
Variables (nx ny : nat) (tol : R).
(** The first coordinate of a vertex *)
Definition coord (v : nat * nat) : R := INR (fst v) / INR nx.
Definition mid (vs : list (nat * nat)) : R := fold_right Rplus 0 (map coord vs) / INR (length vs).
(** SubDomain.mark: the test for the vertices and the midpoint *)
Definition tested (inside : R -> bool) (vs : list (nat * nat)) : bool := forallb inside (map coord vs) && inside (mid vs).
(** 13: A and B *)
Definition line_A : R := (INR nx - 1) / 2 / INR nx.
Definition line_B : R := (INR nx + 1) / 2 / INR nx.
(** 18, 20-21 *)
Definition between (x : R) : bool := if Rlt_dec (line_A - tol) x then if Rlt_dec x (line_B + tol) then true else false else false.
Definition near (a x : R) : bool := if Rlt_dec (a - tol) x then if Rlt_dec x (a + tol) then true else false else false.
Definition left (x : R) : bool := near line_A x.
Definition right (x : R) : bool := near line_B x.
(** 17-18 *)
Definition cell_f (c : gcell) : bool := tested between (cell_vertices c).
(** 24-26 on the background mesh *)
Definition extend_f (f : gfacet) : nat := if tested right (facet_vertices f) then 1%nat else if tested left (facet_vertices f) then 1%nat else 0%nat.
(** 32 *)
Definition aux_cells : list gcell := filter cell_f (mesh_cells nx ny).
Definition aux_count (f : gfacet) : nat := length (filter (fun c => existsb (gfacet_eqb f) (cell_facets c)) aux_cells).
(** 33-36: later marks win *)
Definition aux_f (f : gfacet) : nat :=
  if tested right (facet_vertices f) then 2%nat else if tested left (facet_vertices f) then 2%nat else if (aux_count f =? 1)%nat then 1%nat else 0%nat.
End Mesh.
