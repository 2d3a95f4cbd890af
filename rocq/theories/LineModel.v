(** Meshes of branches (xii/meshing/line_mesh.py:5-68, the same code in
    xii/meshing/generation.py:5-68)

    A branch is the list of its points (an array with a row per point).  A mesh is its
    vertices and the pairs of vertices of its cells, as handed to make_mesh; that MeshEditor
    may swap the vertices of a cell is left out. *)
From Verif Require Export GeomModel.
Local Open Scope R_scope.

Record lmesh := { l_x : list (list R); l_cells : list (nat * nat) }.
(** branch[[0, -1]] *)
Definition endpoints (branch : list (list R)) : res (list R * list R) :=
  match branch with [] => Err IndexError | p :: _ => Ok (p, last branch p) end.
(** np.argmin, the first of the smallest; of an empty array ValueError *)
Fixpoint argmin_from (best : R) (ibest i : nat) (l : list R) : nat :=
  match l with [] => ibest | d :: l' => if Rlt_dec d best then argmin_from d i (S i) l' else argmin_from best ibest (S i) l' end.
Definition argmin (l : list R) : res nat := match l with [] => Err ValueError | d :: l' => Ok (argmin_from d 0 1 l') end.
(** 25-32: the vertex for an end point *)
Definition place (tol : R) (nodes : list (list R)) (point : list R) : res (nat * list (list R)) :=
  let dist_f := map (fun q => rnorm (rsub q point)) nodes in
  do f <- argmin dist_f;
  if Rlt_dec tol (at_ dist_f f) then Ok (length nodes, nodes ++ [point]) else Ok (f, nodes).
(** 21-33 *)
Fixpoint bounds (tol : R) (nodes : list (list R)) (branches : list (list (list R))) : res (list (nat * nat) * list (list R)) :=
  match branches with
  | [] => Ok ([], nodes)
  | branch :: rest =>
      do e <- endpoints branch;
      do f <- place tol nodes (fst e);
      do l <- place tol (snd f) (snd e);
      do r <- bounds tol (snd l) rest;
      Ok ((fst f, fst l) :: fst r, snd r)
  end.
(** zip(vmap[:-1], vmap[1:]) *)
Fixpoint links (l : list nat) : list (nat * nat) := match l with a :: ((b :: _) as l') => (a, b) :: links l' | _ => [] end.
(** branch[1:-1] *)
Definition interior (branch : list (list R)) : list (list R) := removelast (tl branch).
(** 35-53 *)
Fixpoint fill (bs : list ((nat * nat) * list (list R))) (fI : nat) (x : list (list R)) (cells : list (nat * nat)) : list (list R) * list (nat * nat) :=
  match bs with
  | [] => (x, cells)
  | ((fE, lE), branch) :: bs' =>
      let int_nodes := interior branch in
      if (length int_nodes =? 0)%nat then fill bs' fI x cells
      else let lI := (fI + length int_nodes)%nat in
           fill bs' lI (x ++ int_nodes) (cells ++ links (fE :: seq fI (length int_nodes) ++ [lE]))
  end.
Definition line_mesh (branches : list (list (list R))) (tol : R) : res lmesh :=
  match branches with
  | [] => Err StopIteration
  | branch :: rest =>
      do e <- endpoints branch;
      do r <- bounds tol [fst e; snd e] rest;
      let ext_bounds := (0, 1)%nat :: fst r in
      let fI := S (list_max (map (fun b => Nat.max (fst b) (snd b)) ext_bounds)) in
      let '(x, cells) := fill (combine ext_bounds branches) fI (snd r) [] in
      Ok {| l_x := x; l_cells := cells |}
  end.
(** 60-63; np.linspace(0, 1, n) is i/(n-1), and [0] for n = 1 *)
Definition linspace (n : nat) : list R := map (fun i => INR i / INR (n - 1)) (seq 0 n).
Definition line (A B : list R) (npts : nat) : list (list R) := map (fun t => radd A (rscale t (rsub B A))) (match npts with 1%nat => [0] | _ => linspace npts end).
(** 66-68 *)
Definition straight_line_mesh (A B : list R) (ncells : nat) : res lmesh := line_mesh [line A B (S ncells)] (1 / 10 ^ 13).
