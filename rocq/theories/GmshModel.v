(** Meshes from gmsh data (xii/meshing/gmsh_interopt.py:9-31, 95-168)

    [element_data] is the dictionary in the order of its insertion.  Of an element type the
    topology (an array with [e_width] columns) and the tags (a number per row) are kept.  A
    mesh is its dimensions, vertices and cells as given to MeshEditor, whose ordering of the
    vertices of a cell is left out.  The numbering of the edges is dolfin's: [edges] gives
    the vertices of the edges for the cells of a mesh of triangles.  That a MeshFunction is
    filled with one tag by broadcasting is left out. *)
From Verif Require Export UnionModel.
Local Open Scope R_scope.

Record elements := { e_width : nat; e_rows : list (list nat); e_tags : list nat }.
Record gmesh := { g_tdim : nat; g_gdim : nat; g_x : list (list R); g_cells : list (list nat) }.
(** 100 *)
Definition elm_tdim (elm : nat) : nat := match elm with 1%nat => 1%nat | 2%nat => 2%nat | 4%nat => 2%nat | _ => 0%nat end.
(** 103: max with a key, the first of the largest; of nothing ValueError *)
Fixpoint max_key (key : nat -> nat) (best : nat) (l : list nat) : nat :=
  match l with [] => best | a :: l' => if (key best <? key a)%nat then max_key key a l' else max_key key best l' end.
Definition py_max (key : nat -> nat) (l : list nat) : res nat := match l with [] => Err ValueError | a :: l' => Ok (max_key key a l') end.
Fixpoint find_elm (elm : nat) (data : list (nat * elements)) : res elements :=
  match data with [] => Err KeyError | (e, d) :: data' => if (e =? elm)%nat then Ok d else find_elm elm data' end.
(** np.unique: distinct numbers in ascending order *)
Definition unique (l : list nat) : list nat := filter (fun v => mem v l) (seq 0 (S (list_max l))).
(** 110: old and new are the position and the node *)
Definition node_map (vtx_idx : list nat) (c : nat) : res nat := opt_res KeyError (nth_error vtx_idx c).
(** 117, 127: elm_name[cell_tdim] and its number of vertices *)
Definition num_vertices (cell_tdim : nat) : res nat := match cell_tdim with 1%nat => Ok 2%nat | 2%nat => Ok 3%nat | 4%nat => Ok 4%nat | _ => Err KeyError end.
(** 121 *)
Definition flat (TOL : R) (x : list (list R)) : bool := if Rlt_dec (rnorm (map (fun p => nth 2 p 0) x)) TOL then true else false.
Definition np_min (l : list nat) : res nat := match l with [] => Err ValueError | a :: l' => Ok (fold_left Nat.min l' a) end.
(** 9-31; MeshEditor.add_cell raises for a vertex that is not there *)
Definition build_mesh (cell_tdim gdim : nat) (x : list (list R)) (width : nat) (cells : list (list nat)) : res gmesh :=
  do n <- num_vertices cell_tdim;
  do _ <- py_assert (n =? width)%nat;
  if forallb (forallb (fun v => v <? length x)%nat) cells then Ok {| g_tdim := cell_tdim; g_gdim := gdim; g_x := x; g_cells := cells |} else Err RuntimeError.
(** v2e(v), and the intersection of those of all vertices (159); reduce of nothing is a TypeError *)
Definition incident (ents : list (list nat)) (v : nat) : list nat := filter (fun e => mem v (nth e ents [])) (seq 0 (length ents)).
Definition common (ents : list (list nat)) (entity : list nat) : res (list nat) :=
  match entity with [] => Err TypeError | v :: vs => Ok (fold_left (fun acc w => filter (fun e => mem e (incident ents w)) acc) vs (incident ents v)) end.
Fixpoint put (i v : nat) (f : list nat) : list nat := match f with [] => [] | a :: f' => match i with O => v :: f' | S i' => a :: put i' v f' end end.
(** 155-164 *)
Fixpoint tag_entities (vtx_idx : list nat) (ents : list (list nat)) (f : list nat) (l : list (list nat * nat)) : res (list nat) :=
  match l with
  | [] => Ok f
  | (entity, tag) :: l' =>
      do entity' <- mapM (node_map vtx_idx) entity;
      do es <- common ents entity';
      match es with
      | [e] => do _ <- py_assert (same_facet entity' (nth e ents [])); tag_entities vtx_idx ents (put e tag f) l'
      | _ => Err ValueError
      end
  end.
Fixpoint fun_set (k : nat) (f : list nat) (d : list (nat * list nat)) : list (nat * list nat) :=
  match d with [] => [(k, f)] | (k', f') :: d' => if (k' =? k)%nat then (k', f) :: d' else (k', f') :: fun_set k f d' end.
(** 139-166 *)
Fixpoint entity_functions (edges : list (list nat) -> list (list nat)) (cell_elm : nat) (vtx_idx : list nat) (mesh : gmesh) (fs : list (nat * list nat)) (data : list (nat * elements)) : res (list (nat * list nat)) :=
  match data with
  | [] => Ok fs
  | (elm, d) :: data' =>
      if (elm =? cell_elm)%nat then entity_functions edges cell_elm vtx_idx mesh fs data'
      else do lo <- np_min (e_tags d);
           if (lo =? 0)%nat then entity_functions edges cell_elm vtx_idx mesh fs data'
           else let tdim := elm_tdim elm in
                let ents := if (tdim =? g_tdim mesh)%nat then g_cells mesh else edges (g_cells mesh) in
                do f <- tag_entities vtx_idx ents (repeat 0%nat (length ents)) (combine (e_rows d) (e_tags d));
                entity_functions edges cell_elm vtx_idx mesh (fun_set tdim f fs) data'
  end.
(** 95-168 *)
Definition mesh_from_gmsh (edges : list (list nat) -> list (list nat)) (nodes : list (list R)) (data : list (nat * elements)) (TOL : R) : res (gmesh * list (nat * list nat)) :=
  do _ <- py_assert (forallb (fun e => mem (fst e) [1; 2; 4]%nat) data);
  do cell_elm <- py_max elm_tdim (map fst data);
  do cd <- find_elm cell_elm data;
  let vtx_idx := unique (concat (e_rows cd)) in
  do vertices <- mapM (take nodes) vtx_idx;
  do cells <- mapM (mapM (node_map vtx_idx)) (e_rows cd);
  let cell_tdim := elm_tdim cell_elm in
  let planar := flat TOL vertices in
  let gdim := if planar then 2%nat else 3%nat in
  let x := if planar then map (firstn 2) vertices else vertices in
  do mesh <- build_mesh cell_tdim gdim x (e_width cd) cells;
  do lo <- np_min (e_tags cd);
  let fs := if (0 <? lo)%nat then [(cell_tdim, e_tags cd)] else [] in
  do fs' <- entity_functions edges cell_elm vtx_idx mesh fs data;
  Ok (mesh, fs').
