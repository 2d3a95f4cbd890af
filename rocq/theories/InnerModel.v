(** The inner and outer mesh and their interface: demo/isect_mortar_2d.py:25-54 (the same marking is in
    test/discacciati.py:5-34, sandbox/mortar_lin_couple.py:14-31 and sandbox/mortar_nlin_couple.py:16-33)

    Cells, facets and their vertices as in StripModel.v, with what is trusted there about dolfin.  Points have exact
    coordinates; near(x, 0) is |x| < tol where the tolerance is an argument. *)
From Coq Require Import Reals.
From Verif Require Export StripModel.
Local Open Scope R_scope.

Section Inner.
Variables (n : nat) (tol : R).
(** The point of a vertex, and the mean of points *)
Definition point (v : nat * nat) : R * R := (INR (fst v) / INR n, INR (snd v) / INR n).
Definition rsum (l : list R) : R := fold_right Rplus 0 l.
Definition midpoint (vs : list (nat * nat)) : R * R :=
  (rsum (map (fun v => fst (point v)) vs) / INR (length vs), rsum (map (fun v => snd (point v)) vs) / INR (length vs)).
(** 30 *)
Definition interior (p : R * R) : bool := if Rlt_dec (Rmax (Rabs (fst p - / 2)) (Rabs (snd p - / 2))) (/ 4) then true else false.
(** 31-37, 40-41 *)
Definition subdomain (c : gcell) : nat := if interior (midpoint (cell_vertices c)) then 1%nat else 0%nat.
Definition sub_cells (tag : nat) : list gcell := filter (fun c => Nat.eqb (subdomain c) tag) (mesh_cells n n).
(** 49-52: facets of exactly one cell of the inner mesh *)
Definition cells_of (f : gfacet) (l : list gcell) : list gcell := filter (fun c => existsb (gfacet_eqb f) (cell_facets c)) l.
Definition gamma_facet (f : gfacet) : bool := Nat.eqb (length (cells_of f (sub_cells 1))) 1.
(** 44-46 *)
Definition near0 (x : R) : bool := if Rlt_dec (Rabs x) tol then true else false.
Definition at_boundary (p : R * R) : bool := near0 (fst p * (1 - fst p)) || near0 (snd p * (1 - snd p)).
Definition outer_facet (f : gfacet) : bool :=
  forallb at_boundary (map point (facet_vertices f)) && at_boundary (midpoint (facet_vertices f)).
(** 25-54: the cells of the outer and the inner mesh; the interface is given by gamma_facet, the facets marked in the
    outer mesh by outer_facet *)
Definition setup_domain : res (list gcell * list gcell) :=
  do _ <- py_assert (0 <? length (sub_cells 1))%nat;
  Ok (sub_cells 0, sub_cells 1).
End Inner.
