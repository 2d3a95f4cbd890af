(** Model of functions on facets: xii/meshing/dg_utils.py:5-56 (pcws_constant,
    OrientedFacetNormal) and xii/meshing/cell_centers.py:294-576 (vectors and
    distances between the centers of neighbouring cells, FacetCentroid,
    is_delaunay).

    A mesh is its cells (coordinates of their vertices) and its facets.  A
    facet knows the cells on its sides ('+' and '-'; exterior facets have one),
    its area, its vertices and the normals seen from its sides; which cell is
    '+' is up to dolfin.  The basis function of a facet in the space
    'Discontinuous Lagrange Trace' 0 is one there, so the entry of a facet in
    an assembled vector is the integral over the facet; that of a constant v is
    area * v, and that of the coordinates is area * mean of the vertices.  A
    function in such a space is the list of its values on facets.  Arithmetic
    is exact. *)
From Verif Require Import Base GeomModel.
Local Open Scope R_scope.

Record facet := Facet {
  f_plus : nat; f_minus : option nat;
  f_area : R; f_verts : list (list R);
  f_np : list R; f_nm : list R                      (* n('+') and n('-') *)
}.
Record fmesh := FMesh { m_tdim : nat; m_gdim : nat; m_cells : list (list (list R)); m_facets : list facet }.

(** ** dg_utils.py *)

(** values[c2d] = array: one assignment after the other *)
Fixpoint set_nth (l : list R) (i : nat) (x : R) : list R :=
  match l, i with [], _ => [] | _ :: r, O => x :: r | a :: r, S k => a :: set_nth r k x end.
Fixpoint scatter (l : list R) (idx : list nat) (xs : list R) : list R :=
  match idx, xs with i :: idx', x :: xs' => scatter (set_nth l i x) idx' xs' | _, _ => l end.

(** pcws_constant (5-20); [c2d] is entity_dofs(mesh, tdim), the dof of each
    cell; the result is the coefficient vector *)
Definition pcws_constant (tdim dim : nat) (c2d : list nat) (marker : list nat) : res (list R) :=
  if negb (tdim =? dim)%nat then Err AssertionError else
  Ok (scatter (repeat 0 (length c2d)) c2d (map INR marker)).

(** (1/hA) times the integral of a constant *)
Definition average (f : facet) (v : list R) : list R := rscale (1 / f_area f) (rscale (f_area f) v).
Definition average1 (f : facet) (v : R) : R := 1 / f_area f * (f_area f * v).

(** orient_facet_normal (34-56); [K] gives the value of the piecewise
    constant on cells, [same] tells if n and K are on one mesh *)
Definition orient_facet_normal (same : bool) (K : nat -> R) (facets : list facet) : res (list (list R)) :=
  if negb same then Err AssertionError else
  Ok (map (fun f => match f_minus f with
                    | Some m => average f (if Rgt_dec (K (f_plus f)) (K m) then f_np f else f_nm f)
                    | None => average f (f_np f)
                    end) facets).

(** OrientedFacetNormal (23-31) of a cell function: the normal is that of the
    mesh; the value on a cell is the coefficient of its dof *)
Definition OrientedFacetNormal (tdim dim : nat) (c2d marker : list nat) (facets : list facet) : res (list (list R)) :=
  do values <- pcws_constant tdim dim c2d marker;
  orient_facet_normal true (fun c => nth (nth c c2d 0%nat) values 0) facets.

(** ** cell_centers.py *)

(** the mean of points *)
Definition mean (gdim : nat) (ps : list (list R)) : list R := rscale (1 / INR (length ps)) (fold_right radd (repeat 0 gdim) ps).

(** CellCentroid (434-446): the integral of the coordinates over the cell by
    its volume *)
Definition CellCentroid (m : fmesh) : res (list (list R)) := Ok (map (mean (m_gdim m)) (m_cells m)).

Section Circum.
Variable lu_solve : list (list R) -> list R -> list R.
(** CellCircumcenter (280-291) *)
Definition CellCircumcenter (m : fmesh) : res (list (list R)) := mapM (cell_circumcenter lu_solve (m_tdim m) (m_gdim m)) (m_cells m).
End Circum.

(** FacetCentroid (466-495) *)
Definition facet_centroid (m : fmesh) (f : facet) : list R := average f (mean (m_gdim m) (f_verts f)).

Definition center (cs : list (list R)) (c : nat) : list R := nth c cs [].

(** the facets for which a cell is '+', or the only cell *)
Definition plus_facets (m : fmesh) (c : nat) : list facet := filter (fun f => (f_plus f =? c)%nat) (m_facets m).

(** the integrand of _CenterVector (313-314) *)
Definition jump (m : fmesh) (cs : list (list R)) (f : facet) : list R :=
  match f_minus f with
  | Some k => average f (rsub (center cs (f_plus f)) (center cs k))
  | None => average f (rsub (center cs (f_plus f)) (facet_centroid m f))
  end.

(** _CenterVector (294-317): a vector for each facet; on meshes of intervals
    the space is 'DG' 0, so a vector for each cell, and l('+') collects what
    comes from the facets for which the cell is '+' *)
Definition CenterVector (m : fmesh) (Center : fmesh -> res (list (list R))) : res (list (list R)) :=
  do cs <- Center m;
  Ok (if (1 <? m_tdim m)%nat then map (jump m cs) (m_facets m)
      else map (fun c => fold_right radd (repeat 0 (m_gdim m)) (map (jump m cs) (plus_facets m c))) (seq 0 (length (m_cells m)))).

(** _CenterDistance (321-338); [Center] is a function that gives vectors *)
Definition CenterDistance (m : fmesh) (Center : fmesh -> res (list (list R))) : res (list R) :=
  do cc <- Center m;
  Ok (if (1 <? m_tdim m)%nat then map (fun p => average1 (fst p) (rnorm (snd p))) (combine (m_facets m) cc)
      else map (fun c => lsum (map (fun f => average1 f (rnorm (nth c cc []))) (plus_facets m c))) (seq 0 (length (m_cells m)))).

(** f.vector().norm('linf') > 0 *)
Definition nonzero (vs : list (list R)) : bool := existsb (existsb (fun x => if Req_EM_T x 0 then false else true)) vs.

(** _CenterVectors (375-407): on each facet the centers of its '+' and '-'
    cells, on exterior facets twice that of the cell *)
Definition CenterVectors (m : fmesh) (Center : fmesh -> res (list (list R))) : res (list (list R * list R)) :=
  do cs <- Center m;
  let plus := map (fun f => average f (center cs (f_plus f))) (m_facets m) in
  if negb (nonzero plus) then Err AssertionError else
  let minus := map (fun f => average f (center cs (match f_minus f with Some k => k | None => f_plus f end))) (m_facets m) in
  if negb (nonzero minus) then Err AssertionError else
  Ok (combine plus minus).

(** _CenterDistance2 (341-368) *)
Definition CenterDistance2 (m : fmesh) (Center : fmesh -> res (list (list R * list R))) : res (list R) :=
  if negb (1 <? m_tdim m)%nat then Err ValueError else
  do cc <- Center m;
  Ok (map (fun p =>
    let '(f, (cc0, cc1)) := p in
    let fc := facet_centroid m f in
    match f_minus f with
    | Some _ => average1 f (rnorm (rsub cc0 fc)) + average1 f (rnorm (rsub cc1 fc))
    | None => 1 / 2 * (average1 f (rnorm (rsub cc0 fc)) + average1 f (rnorm (rsub cc1 fc)))
    end) (combine (m_facets m) cc)).

(** 412-431, 449-462.  CentroidDistance2 calls _CenterDistance with a
    function that has the components of both centers; of meshes of intervals
    this is not modelled. *)
Definition CentroidVector (m : fmesh) := CenterVector m CellCentroid.
Definition CentroidDistance (m : fmesh) := CenterDistance m CentroidVector.
Definition CentroidVector2 (m : fmesh) := CenterVectors m CellCentroid.
Definition CentroidDistance2 (m : fmesh) : res (list R) :=
  CenterDistance m (fun m => do cc <- CentroidVector2 m; Ok (map (fun p => fst p ++ snd p) cc)).
Section Circumvector.
Variable lu_solve : list (list R) -> list R -> list R.
Definition CircumVector (m : fmesh) := CenterVector m (CellCircumcenter lu_solve).
Definition CircumDistance (m : fmesh) := CenterDistance m CircumVector.
Definition CircumVector2 (m : fmesh) := CenterVectors m (CellCircumcenter lu_solve).
Definition CircumDistance2 (m : fmesh) := CenterDistance2 m CircumVector2.

(** np.linalg.norm(x, np.inf) of numbers or nan (None); an empty array has
    no maximum *)
Fixpoint all_numbers (l : list (option R)) : option (list R) :=
  match l with
  | [] => Some []
  | None :: _ => None
  | Some x :: r => match all_numbers r with Some xs => Some (x :: xs) | None => None end
  end.
Definition norm_inf (l : list (option R)) : res (option R) :=
  match l with
  | [] => Err ValueError
  | _ :: _ => Ok (match all_numbers l with Some xs => Some (fold_right Rmax 0 (map Rabs xs)) | None => None end)
  end.
(** np.linalg.norm(x, 2) < tol, which is False of nan *)
Definition norm2_below (l : list (option R)) (tol : R) : bool :=
  match all_numbers l with
  | Some xs => if Rlt_dec (sqrt (lsum (map (fun x => x * x) xs))) tol then true else false
  | None => false
  end.

(** inner(n, nu/sqrt(dot(nu, nu))), nan if nu is zero *)
Definition cosine (n nu : list R) : option R := if Req_EM_T (rnorm nu) 0 then None else Some (rdot n (rscale (1 / rnorm nu) nu)).

(** is_delaunay_interior (498-532) and is_delaunay_exterior (535-562), the
    facets being chosen by [chosen]; f is zero on the others *)
Definition is_delaunay_on (chosen : facet -> bool) (m : fmesh) (tol : R) : res (option R) :=
  do nu <- CircumVector m;
  let fs := combine (m_facets m) nu in
  let coef := fun p => if chosen (fst p) then match cosine (f_np (fst p)) (snd p) with Some x => Some (average1 (fst p) x) | None => None end else Some 0 in
  let g := fun p => if chosen (fst p) then average1 (fst p) (rdot (f_np (fst p)) (f_np (fst p))) else 0 in
  let mask := fun p => if Rgt_dec (Rabs (g p)) tol then true else false in
  if negb (norm2_below (map coef (filter (fun p => negb (mask p)) fs)) tol) then Err AssertionError else
  norm_inf (map (fun p => match coef p with Some x => Some (Rabs (Rabs x - 1)) | None => None end) (filter mask fs)).
Definition is_interior (f : facet) : bool := match f_minus f with Some _ => true | None => false end.
(** is_delaunay (565-568) *)
Definition is_delaunay (m : fmesh) (tol : R) : res (option R * option R) :=
  do a <- is_delaunay_on is_interior m tol;
  do b <- is_delaunay_on (fun f => negb (is_interior f)) m tol;
  Ok (a, b).
End Circumvector.
