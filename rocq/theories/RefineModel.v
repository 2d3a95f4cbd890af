(** Refinement by inner points (xii/meshing/refinement.py:10-131) and dual meshes
    (xii/meshing/dual_mesh.py:8-135)

    A mesh is its vertex coordinates and the vertices of its cells.  An entity map
    (parent_entity_map) is kept without the mesh id: a map of vertices and one of cells,
    each a dictionary as the list of its items. *)
From Verif Require Export GeomModel.
Local Open Scope R_scope.

Record mesh := { m_x : list (list R); m_cells : list (list nat); m_nvtx : nat; m_tdim : nat; m_gdim : nat }.
Record maps := { vmap : list (nat * nat); cmap : list (nat * nat) }.
Definition at_vertex (x : list (list R)) (i : nat) : list R := nth i x [].
(** x[cell] *)
Definition pts (x : list (list R)) (cell : list nat) : list (list R) := map (at_vertex x) cell.
(** dict(enumerate(l)) *)
Definition enumerate (l : list nat) : list (nat * nat) := combine (seq 0 (length l)) l.
Fixpoint item (d : list (nat * nat)) (k : nat) : res nat := match d with [] => Err KeyError | (i, v) :: d' => if (i =? k)%nat then Ok v else item d' k end.

Section Refine.
(** What MeshEditor::close does to the vertices of a cell (make_mesh_cpp.py:67) *)
Variable order : list nat -> list nat.
Definition make_mesh (x : list (list R)) (cells : list (list nat)) (tdim gdim : nat) : mesh :=
  {| m_x := x; m_cells := map order cells; m_nvtx := S tdim; m_tdim := tdim; m_gdim := gdim |}.

(** Mesh.hmin *)
Variable hmin : mesh -> R.
(** refinement.py:82-95: children of the cells from [pc] on; the new point of the first is
    number [center] *)
Definition basis (n : nat) : list (list nat) := combos (seq 0 n) (n - 1).
Definition children (n : nat) (cell : list nat) (center : nat) : list (list nat) := map (fun base => map (fun j => nth j cell 0%nat) base ++ [center]) (basis n).
Fixpoint fine_cells (n : nat) (x : list (list R)) (cells : list (list nat)) (pc center : nat) : res (list (list nat) * list nat) :=
  match cells with
  | [] => Ok ([], [])
  | cell :: cells' =>
      do new <- mapM (fun c => do a <- simplex_area (pts x c); do _ <- py_assert (if Rlt_dec (1 / 10 ^ 15) a then true else false); Ok c) (children n cell center);
      do rest <- fine_cells n x cells' (S pc) (S center);
      Ok (new ++ fst rest, map (fun _ => pc) new ++ snd rest)
  end.
(** refinement.py:59-104, one refinement *)
Definition refine_once (new_pts : mesh -> list (list R)) (strict : R) (m : mesh) : res (mesh * maps) :=
  let n := m_nvtx m in
  do _ <- py_assert ((n =? 2) || (n =? 3) || ((n =? 4) && (m_tdim m =? 3)))%nat;
  let xnew := new_pts m in
  do inside <- (if Rlt_dec 0 strict then points_are_inside xnew (map (pts (m_x m)) (m_cells m)) (hmin m * strict) else Ok true);
  do _ <- py_assert inside;
  do fine <- fine_cells n (m_x m ++ xnew) (m_cells m) 0 (length (m_x m));
  Ok (make_mesh (m_x m ++ xnew) (fst fine) (m_tdim m) (m_gdim m), {| vmap := enumerate (seq 0 (length (m_x m))); cmap := enumerate (snd fine) |}).

(** refinement.py:31-55 = dual_mesh.py:37-58: the loop, [refv] are the vertices of the
    current mesh that are root vertices *)
Fixpoint refine_loop (once : mesh -> res (mesh * maps)) (k : nat) (m0 : mesh) (map0 : maps) (refv rootv : list nat) : res (mesh * maps) :=
  match k with
  | O => Ok (m0, map0)
  | S k' =>
      do r <- once m0;
      let '(m1, map1) := r in
      do cm <- mapM (fun kv => do v <- item (cmap map0) (snd kv); Ok (fst kv, v)) (cmap map1);
      let refv' := map fst (filter (fun kv => existsb (Nat.eqb (snd kv)) refv) (vmap map1)) in
      do _ <- py_assert (length refv' =? length rootv)%nat;
      refine_loop once k' m1 {| vmap := combine refv' rootv; cmap := cm |} refv' rootv
  end.
(** refinement.py:22-30: more than one refinement.  zip of an empty dictionary cannot be
    unpacked. *)
Definition refine_many (once : mesh -> res (mesh * maps)) (nrefs : nat) (m : mesh) : res (mesh * maps) :=
  do r <- once m;
  let '(m0, map0) := r in
  match vmap map0 with
  | [] => Err ValueError
  | _ => refine_loop once (nrefs - 1) m0 map0 (map fst (vmap map0)) (map snd (vmap map0))
  end.
Definition inner_point_refine (new_pts : mesh -> list (list R)) (strict : R) (nrefs : nat) (m : mesh) : res (mesh * maps) :=
  let once := refine_once new_pts strict in
  if (1 <? nrefs)%nat then refine_many once nrefs m else once m.

(** CellCentroid (cell_centers.py:433-444): the mean of x over the cell, which is the mean
    of the vertices *)
Definition centroid (gdim : nat) (cell : list (list R)) : list R := map (fun i => lsum (map (fun p => at_ p i) cell) / INR (length cell)) (seq 0 gdim).
Definition centroids (m : mesh) : list (list R) := map (fun c => centroid (m_gdim m) (pts (m_x m) c)) (m_cells m).
(** refinement.py:108-117 *)
Definition centroid_refine := inner_point_refine centroids.
(** refinement.py:120-129, on triangles in 2d *)
Definition circumcenters (lu : list (list R) -> list R -> list R) (m : mesh) : list (list R) := map (fun c => circ_2_2 lu (concat (pts (m_x m) c))) (m_cells m).
Definition circumcenter_refine (lu : list (list R) -> list R -> list R) := inner_point_refine (circumcenters lu).

(** Facets of a mesh of triangles: per cell its facets, per facet its vertices *)
Variable c2f : mesh -> nat -> list nat.
Variable f2v : mesh -> list (list nat).
(** Facet::midpoint *)
Definition midpoint (gdim : nat) (x : list (list R)) (f : list nat) : list R := centroid gdim (pts x f).
(** dual_mesh.py:90-135; [centers] are the cell centers *)
Definition dual_once (centers : mesh -> list (list R)) (m : mesh) : res (mesh * maps) :=
  match m_tdim m with
  | 2%nat =>
      let ncells := length (m_cells m) in
      let start := length (m_x m) in
      let facet_centers := map (midpoint (m_gdim m) (m_x m)) (f2v m) in
      do _ <- (if (ncells =? 0)%nat then Err IndexError else Ok tt);
      let vertices := m_x m ++ centers m ++ facet_centers in
      let cells := flat_map (fun cell => flat_map (fun f => map (fun v => [start + cell; start + ncells + f; v])%nat (nth f (f2v m) [])) (c2f m cell)) (seq 0 ncells) in
      Ok (make_mesh vertices cells 2 (m_gdim m), {| vmap := enumerate (seq 0 start); cmap := enumerate (flat_map (fun c => repeat c 6) (seq 0 ncells)) |})
  | 1%nat | 3%nat => Err NotImplementedError
  | _ => Err KeyError
  end.
(** dual_mesh.py:8-60 *)
Definition dual_mesh (centers : mesh -> list (list R)) (nrefs : nat) (m : mesh) : res (mesh * maps) :=
  if (nrefs =? 1)%nat then dual_once centers m else refine_many (dual_once centers) nrefs m.
End Refine.
