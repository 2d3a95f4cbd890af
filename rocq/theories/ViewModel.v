(** The view of an embedded mesh from another mesh (xii/meshing/embedded_mesh.py:127-190)

    A mesh is known by its id.  A set is a list without repetitions, [locate] is
    compute_collisions of the bounding box tree of the embedded mesh.  The tags are a list
    (154), of which the only use is the loop. *)
From Verif Require Export EmapModel EmbedModel.
Local Open Scope R_scope.

(** The embedded mesh: dimensions, coordinates, cells, its maps of vertices and cells by the
    id of the mesh (108-109) and the ids of the parents (110) *)
Record viewer := { v_tdim : nat; v_gdim : nat; v_x : list (list R); v_c2v : list (list nat); v_maps : list (nat * (list (nat * nat) * list (nat * nat))); v_parents : list nat }.
(** The mesh function: its dimension, values, and of its mesh the id, the dimension of the
    geometry, the coordinates and the vertices of the entities *)
Record tagging := { t_dim : nat; t_values : list nat; t_id : nat; t_gdim : nat; t_x : list (list R); t_e2v : list (list nat) }.
(** 169-170: the reduction of no set is TypeError *)
Definition intersection (sets : list (list nat)) : res (list nat) :=
  match sets with [] => Err TypeError | s :: sets' => Ok (fold_left (fun a b => filter (fun c => mem c b) a) sets' s) end.
(** 178-180: the largest of the distances of the vertices of the cell to their closest vertex of
    the entity *)
Definition offset (entity_x : list (list R)) (cell_x : list (list R)) : res R :=
  do l <- mapM (fun xp => reduceR Rmin (map (fun xe => rnorm (rsub xe xp)) entity_x)) cell_x; reduceR Rmax l.
(** 181: min by the second of a pair, the first of the smallest *)
Fixpoint min_pair (best : nat * R) (l : list (nat * R)) : nat * R :=
  match l with [] => best | a :: l' => if Rlt_dec (snd a) (snd best) then min_pair a l' else min_pair best l' end.
Definition py_min_pair (l : list (nat * R)) : res (nat * R) := match l with [] => Err ValueError | a :: l' => Ok (min_pair a l') end.

Section View.
Variables (self : viewer) (other : tagging) (locate : list R -> list nat) (tol : R).
(** 165-184 *)
Definition view_entity (emap : list (nat * nat)) (entity : nat) : res (list (nat * nat)) :=
  let vs := nth entity (t_e2v other) [] in
  do maybe <- intersection (map (fun v => locate (nth v (t_x other) [])) vs);
  let emap := match maybe with [the_cell] => dset the_cell entity emap | _ => emap end in
  let entity_x := map (fun v => nth v (t_x other) []) vs in
  do matching <- mapM (fun cell => do d <- offset entity_x (map (fun w => nth w (v_x self) []) (nth cell (v_c2v self) [])); Ok (cell, d)) maybe;
  do p <- py_min_pair matching;
  do _ <- py_assert (if Rlt_dec (snd p) tol then true else false);
  Ok (dset (fst p) entity emap).
(** 161-184 *)
Definition view_tag (emap : list (nat * nat)) (tag : nat) : res (list (nat * nat)) :=
  let tagged := where_eq (t_values other) tag in
  do _ <- py_assert (negb (length tagged =? 0)%nat);
  foldM view_entity tagged emap.
(** 127-190; the new state, of which the map is returned.  The map of the vertices stays as
    it was made (159) *)
Definition compute_embedding (tags : list nat) : res viewer :=
  do _ <- py_assert (v_tdim self =? t_dim other)%nat;
  do _ <- py_assert (v_gdim self =? t_gdim other)%nat;
  match dget (t_id other) (v_maps self) with
  | Some _ => Err ValueError
  | None =>
      do emap <- foldM view_tag tags [];
      Ok {| v_tdim := v_tdim self; v_gdim := v_gdim self; v_x := v_x self; v_c2v := v_c2v self;
            v_maps := dset (t_id other) ([], emap) (v_maps self);
            v_parents := if mem (t_id other) (v_parents self) then v_parents self else v_parents self ++ [t_id other] |}
  end.
End View.
