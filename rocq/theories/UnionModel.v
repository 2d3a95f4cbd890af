(** Gluing of meshes (xii/meshing/union_mesh.py:6-84)

    A mesh is its identifier, dimensions, vertices and cells and, if it came from a gluing,
    its list [leafs] of pairs (identifier, map of vertices).  The cells of the result are those
    handed to make_mesh; that MeshEditor may order the vertices of a cell is left out, and the
    identifier that dolfin gives to it is an argument.  Sets of numbers are listed by Python
    in some order: [order c] is the order used in the c-th place, in the theorems any
    permutation. *)
From Verif Require Export LineModel.
Local Open Scope R_scope.

Record umesh := { u_id : nat; u_tdim : nat; u_gdim : nat; u_x : list (list R); u_cells : list (list nat); u_leafs : option (list (nat * list nat)) }.

Fixpoint remove_at {A} (i : nat) (l : list A) : list A :=
  match l with [] => [] | a :: l' => match i with O => l' | S i' => a :: remove_at i' l' end end.
Definition mem (n : nat) (l : list nat) : bool := existsb (Nat.eqb n) l.
(** The facets of a cell: each leaves out one vertex *)
Definition facets (cell : list nat) : list (list nat) := map (fun i => remove_at i cell) (seq 0 (length cell)).
Definition same_facet (f g : list nat) : bool := forallb (fun v => mem v g) f && forallb (fun v => mem v f) g.
(** DomainBoundary().mark (24): the facets with one cell only *)
Definition boundary_facets (cells : list (list nat)) : list (list nat) :=
  filter (fun f => (length (filter (fun c => existsb (same_facet f) (facets c)) cells) =? 1)%nat) (flat_map facets cells).
(** 30-31: list(set(np.concatenate(...))); nothing to concatenate is a ValueError *)
Definition boundary_vertices (order : list nat -> list nat) (cells : list (list nat)) : res (list nat) :=
  match boundary_facets cells with [] => Err ValueError | fs => Ok (order (nodup Nat.eq_dec (concat fs))) end.

(** d[k] = v *)
Fixpoint dict_set (k v : nat) (d : list (nat * nat)) : list (nat * nat) :=
  match d with [] => [(k, v)] | (k', v') :: d' => if (k' =? k)%nat then (k', v) :: d' else (k', v') :: dict_set k v d' end.
Definition dict_update (d e : list (nat * nat)) : list (nat * nat) := fold_left (fun acc kv => dict_set (fst kv) (snd kv) acc) e d.
(** 37-46, with the vertices of the first mesh in the order in which they are popped *)
Fixpoint match_vertices (tol : R) (x0 : list (list R)) (b0 : list nat) (x1 : list (list R)) (b1 : list nat) (shared : list (nat * nat)) : res (list (nat * nat)) :=
  match b0 with
  | [] => Ok shared
  | i :: b0' =>
      do x <- opt_res IndexError (nth_error x0 i);
      let dist := map (fun y => rnorm (rsub y x)) x1 in
      do imin <- argmin dist;
      if Rlt_dec (at_ dist imin) tol then
        do k <- opt_res IndexError (nth_error b1 imin);
        match_vertices tol x0 b0' (remove_at imin x1) (remove_at imin b1) (dict_set k i shared)
      else match_vertices tol x0 b0' x1 b1 shared
  end.
(** sorted(lg1.items(), key=lambda v: v[0]) *)
Fixpoint insert_item (kv : nat * nat) (l : list (nat * nat)) : list (nat * nat) :=
  match l with [] => [kv] | kv' :: l' => if (fst kv <=? fst kv')%nat then kv :: l else kv' :: insert_item kv l' end.
Definition sort_items (l : list (nat * nat)) : list (nat * nat) := fold_right insert_item [] l.
(** enumerate(l, start), as (k, v) *)
Fixpoint number_from (v : nat) (l : list nat) : list (nat * nat) := match l with [] => [] | k :: l' => (k, v) :: number_from (S v) l' end.
Definition take {A} (l : list A) (i : nat) : res A := opt_res IndexError (nth_error l i).

(** 19-84: the glued mesh, and the first mesh as it is afterwards: if it has leafs then the
    list is shared with the glued mesh (77) and grows with it *)
Definition union2 (order : nat -> list nat -> list nat) (tol : R) (new_id : nat) (mesh0 mesh1 : umesh) : res (umesh * umesh) :=
  if negb (u_gdim mesh0 =? u_gdim mesh1)%nat then Err ValueError else
  if negb (u_tdim mesh0 =? u_tdim mesh1)%nat then Err ValueError else
  do b0 <- boundary_vertices (order 0%nat) (u_cells mesh0);
  do b1 <- boundary_vertices (order 1%nat) (u_cells mesh1);
  do x1 <- mapM (take (u_x mesh1)) b1;
  do shared <- match_vertices tol (u_x mesh0) (rev b0) x1 b1 [];
  let unshared := order 2%nat (filter (fun v => negb (mem v (map fst shared))) (seq 0 (length (u_x mesh1)))) in
  let offset := length (u_x mesh0) in
  do y1 <- mapM (take (u_x mesh1)) unshared;
  let merge_x := u_x mesh0 ++ y1 in
  let items := sort_items (dict_update (number_from offset unshared) shared) in
  match items with
  | [] => Err ValueError
  | _ =>
      let lg1 := map snd items in
      do mapped <- mapM (mapM (take lg1)) (u_cells mesh1);
      let first := match u_leafs mesh0 with None => [(u_id mesh0, seq 0 offset)] | Some l => l end in
      do second <- match u_leafs mesh1 with
                   | None => Ok [(u_id mesh1, lg1)]
                   | Some l => mapM (fun im => do m <- mapM (take lg1) (snd im); Ok (fst im, m)) l
                   end;
      let leafs := first ++ second in
      Ok ({| u_id := new_id; u_tdim := u_tdim mesh0; u_gdim := u_gdim mesh0; u_x := merge_x; u_cells := u_cells mesh0 ++ mapped; u_leafs := Some leafs |},
          match u_leafs mesh0 with
          | None => mesh0
          | Some _ => {| u_id := u_id mesh0; u_tdim := u_tdim mesh0; u_gdim := u_gdim mesh0; u_x := u_x mesh0; u_cells := u_cells mesh0; u_leafs := Some leafs |}
          end)
  end.
(** 6-17; with three or more meshes the slice bound num_meshes/2+1 is a float *)
Definition union_mesh (order : nat -> list nat -> list nat) (tol : R) (new_id : nat) (meshes : list umesh) : res umesh :=
  match meshes with
  | [] => Err AssertionError
  | [m] => Ok m
  | [m0; m1] => do r <- union2 order tol new_id m0 m1; Ok (fst r)
  | _ => Err TypeError
  end.
