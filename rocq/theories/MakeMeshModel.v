(** make_mesh of xii/meshing/make_mesh_cpp.py:24-89, with the C++ function fill_mesh

    A mesh is what the MeshEditor of dolfin is told: the dimensions, the vertices and the cells.
    Opening the editor clears the mesh it is given (dolfin), so a mesh that is passed in is an
    argument without influence.  The numbers are of any type [R]. *)
From Verif Require Export Base.
Local Open Scope nat_scope.

Section Fill.
Context {R : Type}.
Record mesh := Mesh { m_tdim : nat; m_gdim : nat; m_vertices : list (list R); m_cells : list (list nat) }.
(** reading a vector of Eigen; [zero] beyond the end (in C++ undefined), never reached *)
Variable zero : R.
(** 24-65; integer division *)
Definition fill_mesh (coordinates : list R) (cells : list nat) (tdim gdim : nat) : mesh :=
  let nvertices := length coordinates / gdim in
  let nvertices_per_cell := tdim + 1 in
  let ncells := length cells / nvertices_per_cell in
  Mesh tdim gdim
    (map (fun index => map (fun i => nth (gdim * index + i) coordinates zero) (seq 0 gdim)) (seq 0 nvertices))
    (map (fun index => map (fun i => nth (nvertices_per_cell * index + i) cells 0) (seq 0 nvertices_per_cell)) (seq 0 ncells)).
(** 79-89: the rows of the arrays one after another *)
Definition make_mesh (coordinates : list (list R)) (cells : list (list nat)) (tdim gdim : nat) (given : option mesh) : mesh :=
  fill_mesh (concat coordinates) (concat cells) tdim gdim.
End Fill.
