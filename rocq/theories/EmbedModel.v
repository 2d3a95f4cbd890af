(** Embedded meshes and the transfer of markers to them.
    xii/meshing/embedded_mesh.py (EmbeddedMesh), xii/meshing/transfer_markers.py

    A mesh is its vertex coordinates and the entities of the dimension of the
    marking function as lists of vertices.  The maps [parent_entity_map[id][0]] and
    [[tdim]] are dict(enumerate(l)); here they are the lists.  dolfin's SubMesh is a
    parameter; MeshEditor (which may sort the vertices of a cell) keeps what it is
    given.  Markers are a list; a single marker is a list of one (25). *)
From Verif Require Import Base FillModel.
Local Open Scope nat_scope.

(** np.where(values == tag)[0] *)
Definition where_eq (vals : list nat) (tag : nat) : list nat := filter (fun e => nth e vals 0 =? tag) (seq 0 (length vals)).
(** np.unique *)
Fixpoint insert_unique (v : nat) (l : list nat) : list nat :=
  match l with
  | [] => [v]
  | w :: l' => if v <? w then v :: l else if v =? w then l else w :: insert_unique v l'
  end.
Definition np_unique (l : list nat) : list nat := fold_right insert_unique [] l.
(** Position of a key in dict(zip(l, range(len(l)))): the last one wins, but the
    lists have no repetitions *)
Fixpoint position (v : nat) (l : list nat) : res nat :=
  match l with [] => Err KeyError | w :: l' => if w =? v then Ok 0 else (do k <- position v l'; Ok (S k)) end.
Definition set_all_at {A} (l : list A) (idx : list nat) (x : A) : list A := fold_left (fun l i => set_nth l i x) idx l.

Section Embed.
Context {X : Type}.
Record mesh := Mesh { coords : list X; conn : list (list nat) }.
Record emesh := EMesh { em_mesh : mesh; em_vmap : list nat; em_cmap : list nat; em_f : list nat; em_tags : list nat }.

(** embedded_mesh.py:108-121: the markers of the new cells; colours sequentially *)
Fixpoint cumsum (s : nat) (l : list nat) : list nat := s :: match l with [] => [] | x :: l' => cumsum (s + x) l' end.
Definition set_slice (f : list nat) (a b m : nat) : list nat := set_all_at f (seq a (b - a)) m.
Definition sequential_marks (markers : list nat) (colorings : list (list nat)) (ncells : nat) : list nat :=
  let f := repeat 0 ncells in
  if 1 <? length markers
  then let offsets := cumsum 0 (map (@length nat) colorings) in
       fold_left (fun f im => set_slice f (nth (fst im) offsets 0) (nth (S (fst im)) offsets 0) (snd im)) (combine (seq 0 (length markers)) markers) f
  else map (fun _ => hd 0 markers) f.
(** embedded_mesh.py:82-125: entities of lower dimension *)
Definition embed_entities (base : mesh) (values markers : list nat) : res emesh :=
  let colorings := map (where_eq values) markers in
  let tagged := concat colorings in
  do tagged_v <- mapM (fun e => opt_res IndexError (nth_error (conn base) e)) tagged;
  let vertices := np_unique (concat tagged_v) in
  do cells <- mapM (mapM (fun v => position v vertices)) tagged_v;
  do xs <- mapM (fun v => opt_res IndexError (nth_error (coords base) v)) vertices;
  Ok (EMesh (Mesh xs cells) vertices tagged (sequential_marks markers colorings (length cells)) (nodup Nat.eq_dec markers)).

(** What SubMesh(mesh, f, 1) returns: the mesh, parent_vertex_indices,
    parent_cell_indices *)
Variable submesh : mesh -> list nat -> mesh * list nat * list nat.
(** dict((m, cells) for m in markers): a repeated key keeps its first place *)
Definition color_cells (values markers : list nat) : list (nat * list nat) :=
  map (fun m => (m, where_eq values m)) (rev (nodup Nat.eq_dec (rev markers))).
(** embedded_mesh.py:40-80: cells *)
Definition embed_cells (base : mesh) (values markers : list nat) : res emesh :=
  let colors := color_cells values markers in
  let one := fold_left (fun f mc => set_all_at f (snd mc) 1) colors (repeat 0 (length (conn base))) in
  let '(sub, mapping_0, mapping_tdim) := submesh base one in
  let f := repeat 0 (length (conn sub)) in
  do f <- (if 1 <? length markers
           then (do news <- mapM (fun mc => do new <- mapM (fun o => position o mapping_tdim) (snd mc); Ok (fst mc, new)) colors;
                 Ok (fold_left (fun f mn => set_all_at f (snd mn) (fst mn)) news f))
           else Ok (map (fun _ => hd 0 markers) f));
  Ok (EMesh sub mapping_0 mapping_tdim f (nodup Nat.eq_dec markers)).

(** embedded_mesh.py:24-40: [mdim] is the dimension of the mesh, [tdim] that of the
    marking function *)
Definition embedded_mesh (mdim tdim : nat) (base : mesh) (values markers : list nat) : res emesh :=
  if mdim <? tdim then Err AssertionError
  else if tdim =? 0 then Err AssertionError
  else match markers with
       | [] => Err AssertionError
       | _ => if mdim =? tdim then embed_cells base values markers else embed_entities base values markers
       end.
End Embed.

(** ** Transfer of markers of lower dimensional entities *)

(** Connectivities that dolfin computes for entities of dimension edim and cells of
    dimension cdim (that of the embedded mesh) *)
Record conns := Conns { e2v : nat -> list nat; e2c : nat -> list nat; c2e : nat -> list nat }.
Definition same_set (a b : list nat) : bool := forallb (fun x => existsb (Nat.eqb x) b) a && forallb (fun x => existsb (Nat.eqb x) a) b.

(** transfer_markers.py:45-60.  [found] and [p_entity] are function level variables:
    they survive an empty inner loop. *)
Section Transfer.
Variables (child parent : conns) (vmap cmap : list nat) (p_values : list nat) (markers : list nat).
Definition val (p : nat) : nat := nth p p_values 0.
Fixpoint inner (as_vertex : list nat) (ps : list nat) (st : option (bool * nat)) : option (bool * nat) :=
  match ps with
  | [] => st
  | p :: ps' => let found := existsb (Nat.eqb (val p)) markers && same_set (e2v parent p) as_vertex in
                if found then Some (true, p) else inner as_vertex ps' (Some (false, p))
  end.
Fixpoint outer (as_vertex : list nat) (cells : list nat) (st : option (bool * nat)) : res (nat * option (bool * nat)) :=
  match cells with
  | [] => Ok (0, st)
  | c :: cells' =>
      do pc <- opt_res KeyError (nth_error cmap c);
      let st := inner as_vertex (c2e parent pc) st in
      match st with
      | None => Err UnboundLocalError
      | Some (true, p) => Ok (val p, st)
      | Some (false, _) => outer as_vertex cells' st
      end
  end.
Fixpoint transfer_loop (entities : list nat) (st : option (bool * nat)) : res (list nat) :=
  match entities with
  | [] => Ok []
  | e :: entities' =>
      do as_vertex <- mapM (fun v => opt_res KeyError (nth_error vmap v)) (e2v child e);
      do vs <- outer as_vertex (e2c child e) st;
      do rest <- transfer_loop entities' (snd vs);
      Ok (fst vs :: rest)
  end.
End Transfer.
(** transfer_markers.py:4-62; [markers = None]: all values but 0 *)
Definition transfer_markers (child parent : conns) (n : nat) (vmap cmap p_values : list nat) (markers : option (list nat)) : res (list nat) :=
  let markers := match markers with Some m => m | None => filter (fun v => negb (v =? 0)) (nodup Nat.eq_dec p_values) end in
  transfer_loop child parent vmap cmap p_values markers (seq 0 n) None.

(** translate_markers, embedded_mesh.py:215-242.  -1 for a missing vertex is None. *)
Section Translate.
Variables (child parent : conns) (vmap cmap : list nat) (p_values : list nat).
Definition inverse (l : list nat) (v : nat) : option nat := match position v l with Ok k => Some k | Err _ => None end.
(** 231-240: the list is popped from its end.  Without a match [e_, = matches]
    raises, so that the loop never reaches the second cell. *)
Definition search (as_vertex : list nat) (e : nat) (cells : list nat) (f : list nat) : res (list nat) :=
  match cells with
  | [] => Ok f
  | c :: cells' =>
      do cc <- opt_res KeyError (inverse cmap c);
      match filter (fun e' => same_set (e2v child e') as_vertex) (c2e child cc) with
      | [e'] => Ok (set_nth f e' (nth e p_values 0))
      | _ => Err ValueError
      end
  end.
Definition translate_one (f : list nat) (e : nat) : res (list nat) :=
  let as_vertex := map (inverse vmap) (e2v parent e) in
  if existsb (fun v => match v with None => true | Some _ => false end) as_vertex then Ok f
  else search (flat_map (fun v => match v with Some v => [v] | None => [] end) as_vertex) e
         (rev (filter (fun c => match inverse cmap c with Some _ => true | None => false end) (e2c parent e))) f.
Fixpoint foldM {A B} (step : A -> B -> res A) (l : list B) (a : A) : res A :=
  match l with [] => Ok a | x :: l' => do a' <- step a x; foldM step l' a' end.
End Translate.
(** embedded_mesh.py:192-242; [tags = None]: all values; [f] is the marker function
    to fill, zero if not given *)
Definition translate_markers (child parent : conns) (n : nat) (vmap cmap p_values : list nat) (tags : option (list nat)) (f : option (list nat)) : res (list nat) :=
  let tags := match tags with Some t => t | None => np_unique p_values end in
  foldM (fun f tag => foldM (translate_one child parent vmap cmap p_values) (where_eq p_values tag) f) tags
    (match f with Some f => f | None => repeat 0 n end).
