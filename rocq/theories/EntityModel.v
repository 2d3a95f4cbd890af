(** Model of the bookkeeping of maps from trace cells to facets
    (xii/assembler/trace_matrix.py:513-558).

    Dictionaries are association lists, sets are lists of which only membership
    matters.  Meshes are known by their id().  Messages are left out. *)
From Verif Require Export Base.

(** Lookup in, assignment to and update of dictionaries *)
Fixpoint lookup {B} (k : nat) (d : list (nat * B)) : option B :=
  match d with [] => None | (k', b) :: d' => if k' =? k then Some b else lookup k d' end.
Fixpoint assign {B} (k : nat) (b : B) (d : list (nat * B)) : list (nat * B) :=
  match d with [] => [(k, b)] | (k', b') :: d' => if k' =? k then (k, b) :: d' else (k', b') :: assign k b d' end.
Definition dict_update {B} (d e : list (nat * B)) : list (nat * B) := fold_left (fun d' kb => assign (fst kb) (snd kb) d') e d.
Definition memb (x : nat) (l : list nat) : bool := existsb (Nat.eqb x) l.

(** A dictionary for every dimension (embedded_mesh.py:443) *)
Definition entity_map := list (nat * list (nat * nat)).
(** The attributes parent_entity_map (by the id of the mesh) and tagged_cells of the
    trace mesh, if it has them *)
Record trace_mesh := TraceMesh { t_maps : option (list (nat * entity_map)); t_tagged : option (list nat) }.
(** Dimension and values of a mesh function *)
Record mesh_function := MeshFunction { mf_dim : nat; mf_values : list nat }.
Definition where_equal (f : mesh_function) (tag : nat) : list nat :=
  filter (fun c => nth c (mf_values f) 0 =? tag) (seq 0 (length (mf_values f))).

Section EntityMap.
(** build_embedding_map of embedded_mesh.py:383-482 (EmapModel.v) for the trace mesh,
    by the id of the mesh, with subdomains and tags.  Without subdomains it asserts that
    there are no tags (embedded_mesh.py:397-398), and here there are (519). *)
Variable build : nat -> mesh_function -> list nat -> res entity_map.
Definition build_map (mesh_id : nat) (subdomains : option mesh_function) (tags : list nat) : res entity_map :=
  match subdomains with None => Err AssertionError | Some f => build mesh_id f tags end.

(** 541-542: what has been updated stays so after an exception *)
Fixpoint update_all (dims : list nat) (old new : entity_map) : entity_map * res unit :=
  match dims with
  | [] => (old, Ok tt)
  | d :: dims' =>
    match lookup d old, lookup d new with
    | Some o, Some e => update_all dims' (assign d (dict_update o e) old) new
    | _, _ => (old, Err KeyError)
    end
  end.
(** 530-535 *)
Definition must_compute (tagged tags : list nat) (subdomains : option mesh_function) (m : entity_map) : res bool :=
  match filter (fun t => negb (memb t tags)) tagged with
  | [] => Ok true
  | needed =>
    match subdomains with
    | None => Err AttributeError
    | Some f =>
      do d <- opt_res KeyError (lookup (mf_dim f) m);
      Ok (forallb (fun e => memb e (map fst d)) (flat_map (where_equal f) needed))
    end
  end.
(** 513-558: the trace mesh afterwards, and how it ends *)
Definition get_entity_map (mesh_id : nat) (tm : trace_mesh) (subdomains : option mesh_function) (tags : option (list nat)) : trace_mesh * res unit :=
  let tags := match tags with None => [0] | Some l => l end in
  match t_maps tm with
  | Some maps =>
    match t_tagged tm with
    | None => (tm, Err AssertionError)
    | Some tagged =>
      match lookup mesh_id maps with
      | None =>
        match build_map mesh_id subdomains tags with
        | Err e => (tm, Err e)
        | Ok m => (TraceMesh (Some (assign mesh_id m maps)) (Some tagged), Ok tt)
        end
      | Some old =>
        match must_compute tagged tags subdomains old with
        | Err e => (tm, Err e)
        | Ok false => (tm, Ok tt)
        | Ok true =>
          match build_map mesh_id subdomains tags with
          | Err e => (tm, Err e)
          | Ok m => let (m', r) := update_all (map fst old) old m in (TraceMesh (Some (assign mesh_id m' maps)) (Some tagged), r)
          end
        end
      end
    end
  | None =>
    match build_map mesh_id subdomains tags with
    | Err e => (tm, Err e)
    | Ok m =>
      match t_tagged tm with
      | Some (t :: l) => (TraceMesh (Some [(mesh_id, m)]) (Some (t :: l)), Err AssertionError)
      | _ => (TraceMesh (Some [(mesh_id, m)]) (Some tags), Ok tt)
      end
    end
  end.
(** A sequence of calls, of which some may raise exceptions that are caught (as at
    93-98 and 279-284) *)
Definition call := (nat * option mesh_function * option (list nat))%type.
Definition calls (tm : trace_mesh) (cs : list call) : trace_mesh :=
  fold_left (fun tm c => fst (get_entity_map (fst (fst c)) tm (snd (fst c)) (snd c))) cs tm.
End EntityMap.
