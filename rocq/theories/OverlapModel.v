(** The mesh of the common cells of two meshes (xii/meshing/subdomain_mesh.py:16-93)

    [locate] is compute_entity_collisions of the bounding box tree of the second mesh,
    [submesh] dolfin's SubMesh.  The ids of the meshes are left out: the result is the new
    mesh with its maps into the first mesh, and the maps of vertices and cells into the
    second one, which are lists with None for what is not filled yet. *)
From Verif Require Export EmapModel EmbedModel.
From Verif Require Import FillModel.
Local Open Scope R_scope.

(** A subdomain mesh: dimensions, coordinates and cells, the values of its marking function *)
Record subdomain := { o_tdim : nat; o_gdim : nat; o_mesh : @mesh (list R); o_marks : list nat }.
(** 31-36 *)
Definition common_tags (l1 l2 : list nat) : list nat := filter (fun t => mem t l2) (nodup Nat.eq_dec l1).
(** cells of vertices seen (59), the map of vertices, the map of cells (56-57) *)
Record progress := { collided : list (nat * list nat); vertex_map : list (option nat); cell_map : list (option nat) }.

Section Overlap.
Variables (x2 : list (list R)) (c2v : list (list nat)) (locate : list R -> list nat) (ex : list (list R)) (tol s : R).
(** 65-80: min of no vertex is ValueError, next of no cell StopIteration *)
Definition locate_vertex (st : progress) (v : nat) : res (progress * list nat) :=
  match dget v (collided st) with
  | Some mcells => Ok (st, mcells)
  | None =>
      let vx := nth v ex [] in
      let mcells := locate vx in
      do c <- opt_res StopIteration (hd_error mcells);
      do w <- py_min (fun w => rnorm (rsub vx (nth w x2 []))) (nth c c2v []);
      do _ <- py_assert (close_enough tol s (rnorm (rsub vx (nth w x2 []))));
      Ok ({| collided := dset v mcells (collided st); vertex_map := set_nth (vertex_map st) v (Some w); cell_map := cell_map st |}, mcells)
  end.
(** 82-85 *)
Definition meet (the_cell mcells : list nat) : list nat :=
  match the_cell with [] => nodup Nat.eq_dec mcells | _ => filter (fun c => mem c mcells) the_cell end.
(** 65-85 *)
Fixpoint overlap_vertices (st : progress) (the_cell vs : list nat) : res (progress * list nat) :=
  match vs with
  | [] => Ok (st, the_cell)
  | v :: vs' => do r <- locate_vertex st v; overlap_vertices (fst r) (meet the_cell (snd r)) vs'
  end.
(** 60-88 *)
Fixpoint overlap_cells (st : progress) (cells : list (nat * list nat)) : res progress :=
  match cells with
  | [] => Ok st
  | (i, vs) :: cells' =>
      do r <- overlap_vertices st [] vs;
      match snd r with
      | [c] => overlap_cells {| collided := collided (fst r); vertex_map := vertex_map (fst r); cell_map := set_nth (cell_map (fst r)) i (Some c) |} cells'
      | _ => Err AssertionError
      end
  end.
End Overlap.
(** 90-91: all are found *)
Definition all_found (l : list (option nat)) : res (list nat) :=
  mapM (fun o => match o with Some v => Ok v | None => Err AssertionError end) l.
(** 16-93 *)
Definition overlap_mesh (submesh : @mesh (list R) -> list nat -> @mesh (list R) * list nat * list nat) (mesh1 mesh2 : subdomain) (locate : list R -> list nat) (tol : R) : res (@emesh (list R) * (list nat * list nat)) :=
  do _ <- py_assert (o_tdim mesh2 =? o_tdim mesh1)%nat;
  do _ <- py_assert (o_gdim mesh1 =? o_gdim mesh2)%nat;
  match common_tags (o_marks mesh1) (o_marks mesh2) with
  | [tag] =>
      do em <- embedded_mesh submesh (o_tdim mesh1) (o_tdim mesh1) (o_mesh mesh1) (o_marks mesh1) [tag];
      let ex := coords (em_mesh em) in
      let cells := conn (em_mesh em) in
      do s <- scale ex;
      do st <- overlap_cells (coords (o_mesh mesh2)) (conn (o_mesh mesh2)) locate ex tol s
                 {| collided := []; vertex_map := repeat None (length ex); cell_map := repeat None (length cells) |} (combine (seq 0 (length cells)) cells);
      do vm <- all_found (vertex_map st);
      do cm <- all_found (cell_map st);
      Ok (em, (vm, cm))
  | _ => Err AssertionError
  end.
