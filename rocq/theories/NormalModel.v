(** Normals of manifold meshes (xii/meshing/embedded_mesh.py, OuterNormal and InnerNormal)

    Modelled is the orientation by a point, by the mean of the vertices and by a vector valued function; the branches
    for facet normals, meshes and markers assemble forms and are in OuterModel.v.  Library meaning that is trusted here: midpoint is the
    mean of the vertices of a cell; an Expression of degree 1 is evaluated exactly; [cell_normal] is a parameter that gets the
    vertices of the cell (dolfin has none for intervals in 3d).  The values of the cells go to the dofs as in
    [TangentModel.put_values]. *)
From Coq Require Import Reals.
From Verif Require Export Base EmbedModel GeomModel TangentModel.
Local Close Scope R_scope.
Local Open Scope nat_scope.

(** Mean of points of dimension [gdim], coordinate by coordinate *)
Definition mean_point (gdim : nat) (ps : list (list R)) : list R :=
  map (fun i => (lsum (map (fun p => nth i p 0) ps) / INR (length ps))%R) (seq 0 gdim).
(** 247-250, 326-335: a point x0 gives x - x0 *)
Inductive orientation := ByMean | ByPoint (x0 : list R) | ByFunction (shape : nat) (f : list R -> list R).
Definition direction (gdim : nat) (X : list (list R)) (o : orientation) : res (list R -> list R) :=
  match o with
  | ByMean => Ok (fun x => rsub x (mean_point gdim X))
  | ByPoint x0 => do _ <- py_assert (length x0 =? gdim); Ok (fun x => rsub x x0)
  | ByFunction shape f => do _ <- py_assert (shape =? gdim); Ok f
  end.
(** 346-353 *)
Definition oriented (f : list R -> list R) (x n : list R) : list R :=
  let m := if Rlt_dec (rdot (f x) n) 0 then rscale (-1) n else n in rscale (/ rnorm m)%R m.
(** 322-355 *)
Definition outer_normal (tdim gdim : nat) (X : list (list R)) (cells : list (list nat)) (cell_normal : list (list R) -> res (list R)) (o : orientation) : res (list (list R)) :=
  do _ <- py_assert ((1 <=? tdim) && (tdim <? gdim));
  do f <- direction gdim X o;
  mapM (fun cell => let ps := map (fun v => nth v X []) cell in do n <- cell_normal ps; Ok (oriented f (mean_point gdim ps) n)) cells.
(** 367-371 *)
Definition inner_normal (tdim gdim : nat) (X : list (list R)) (cells : list (list nat)) (cell_normal : list (list R) -> res (list R)) (o : orientation) : res (list (list R)) :=
  do values <- outer_normal tdim gdim X cells cell_normal o;
  Ok (map (rscale (-1)) values).
