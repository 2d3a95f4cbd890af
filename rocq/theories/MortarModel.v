(** mortar_meshes, xii/meshing/mortar_mesh.py:7-127

    The mesh is given by the tags of its cells, the cells of each facet and the
    facets of each cell.  SubMesh numbers the cells of a subdomain in increasing
    order (see EmbedProofs.submesh_ok).  A facet of a submesh is named by the facet
    of the mesh it is; two facets whose midpoints are within the tolerance are the
    same facet.  Whether the interface is connected (is_continuous) is a parameter.
    A map of the submesh with tag t, [interface_map[id]], is the function [m t]. *)
From Verif Require Import Base FillModel EmbedModel.
Local Open Scope nat_scope.

Notation key := (nat * nat)%type (only parsing).
Notation pairs := (list (nat * (nat * nat)))%type (only parsing).
Notation iface_map := (nat -> nat -> option nat) (only parsing).
Definition key_eqb (a b : nat * nat) : bool := (fst a =? fst b) && (snd a =? snd b).

(** 36-51: what the loop adds to tagged_iface for a facet.  [c0, c1 = cells] fails
    for more than two cells. *)
Definition iface_entry (sub markers : list nat) (f2c : list (list nat)) (facet : nat) : res (option (key * (nat * nat))) :=
  match nth facet f2c [] with
  | [] | [_] => Ok None
  | [c0; c1] =>
      let tag0 := nth c0 sub 0 in let tag1 := nth c1 sub 0 in
      if negb (tag0 =? tag1) && existsb (Nat.eqb tag0) markers && existsb (Nat.eqb tag1) markers
      then Ok (Some (if tag0 <? tag1 then ((tag0, tag1), (c0, c1)) else ((tag1, tag0), (c1, c0))))
      else Ok None
  | _ => Err ValueError
  end.
(** d[k] = v *)
Fixpoint assign (d : pairs) (k : nat) (v : nat * nat) : pairs :=
  match d with [] => [(k, v)] | (k', v') :: d' => if k' =? k then (k, v) :: d' else (k', v') :: assign d' k v end.
(** tagged_iface[key][facet] = value *)
Fixpoint tag_add (d : list (key * pairs)) (k : nat * nat) (facet : nat) (v : nat * nat) : list (key * pairs) :=
  match d with
  | [] => [(k, [(facet, v)])]
  | (k', p) :: d' => if key_eqb k' k then (k', assign p facet v) :: d' else (k', p) :: tag_add d' k facet v
  end.
Definition tagged_iface (sub markers : list nat) (f2c : list (list nat)) (facets : list nat) : res (list (key * pairs)) :=
  foldM (fun d facet => do e <- iface_entry sub markers f2c facet;
                        Ok (match e with Some (k, v) => tag_add d k facet v | None => d end)) facets [].
Fixpoint lookup (d : pairs) (k : nat) : option (nat * nat) :=
  match d with [] => None | (k', v) :: d' => if k' =? k then Some v else lookup d' k end.
Definition update (m : iface_map) (t c : nat) (v : option nat) : iface_map := fun t' c' => if (t' =? t) && (c' =? c) then v else m t' c'.

Record mortar := Mortar { mo_facets : list nat; mo_colors : list nat; mo_tags : list key; mo_map : iface_map; mo_color_map : list (list nat) }.

(** list.index *)
Fixpoint list_index (x : nat) (l : list nat) : res nat :=
  match l with [] => Err ValueError | y :: l' => if y =? x then Ok 0 else (do k <- list_index x l'; Ok (S k)) end.

(** 98-116: facet of the submesh for a tag; [enumerated] is what sub_mesh_map (85-89)
    enumerates, given the parent cells of the submesh.  When no facet of the local
    cell matches, the entry stays None. *)
Definition find_facet (enumerated : list nat -> list nat) (sub : list nat) (c2f : list (list nat)) (facet tag gc : nat) : res (option nat) :=
  let sub_cells := where_eq sub tag in
  do local_cell <- position gc (enumerated sub_cells);
  let parent := nth local_cell sub_cells 0 in
  Ok (if existsb (Nat.eqb facet) (nth parent c2f []) then Some facet else None).
Definition pair_cell (enumerated : list nat -> list nat) (sub : list nat) (c2f : list (list nat)) (iface : list nat) (m : iface_map) (job : (key * pairs) * nat) : res iface_map :=
  let '((tags, ps), cell) := job in
  do facet <- opt_res KeyError (nth_error iface cell);
  do gcs <- opt_res KeyError (lookup ps facet);
  do v0 <- find_facet enumerated sub c2f facet (fst tags) (fst gcs);
  let m := match v0 with Some _ => update m (fst tags) cell v0 | None => m end in
  do v1 <- find_facet enumerated sub c2f facet (snd tags) (snd gcs);
  Ok (match v1 with Some _ => update m (snd tags) cell v1 | None => m end).

Definition mortar_with (enumerated : list nat -> list nat) (sub markers : list nat) (f2c c2f : list (list nat)) (facets : list nat) (strict continuous : bool) : res mortar :=
  do _ <- py_assert (1 <? length markers);
  do tagged <- tagged_iface sub markers f2c facets;
  let n := length tagged in
  let values := fold_left (fun v (cp : nat * (key * pairs)) => set_all_at v (map fst (snd (snd cp))) (fst cp)) (combine (seq 0 n) tagged) (repeat n (length f2c)) in
  let colors := seq 0 n in
  (* EmbeddedMesh(interface, colors), see embed_entities *)
  do _ <- py_assert (negb (n =? 0));
  let colorings := map (where_eq values) colors in
  let iface := concat colorings in
  let marks := sequential_marks colors colorings (length iface) in
  do _ <- py_assert (negb strict || continuous);
  let jobs := flat_map (fun cp : nat * (key * pairs) => map (fun cell => (snd cp, cell)) (where_eq marks (fst cp))) (combine (seq 0 n) tagged) in
  do m <- foldM (pair_cell enumerated sub c2f iface) jobs (fun _ _ => None);
  do color_map <- mapM (fun tp : key * pairs => mapM (fun t => list_index t markers) [fst (fst tp); snd (fst tp)]) tagged;
  Ok (Mortar iface marks (map fst tagged) m color_map).

(** 85-89: enumerate(parent_entity_map[id][tdim]) runs over the keys of the dict,
    which are 0, 1, ... *)
Definition dict_keys (parent_cells : list nat) : list nat := seq 0 (length parent_cells).
Definition mortar_meshes := mortar_with dict_keys.
(** With .values() *)
Definition mortar_meshes_values := mortar_with (fun parent_cells => parent_cells).
