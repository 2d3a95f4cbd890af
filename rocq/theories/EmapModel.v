(** The map of an embedded mesh into its parent (xii/meshing/embedded_mesh.py:374-482)

    A set is a list without repetitions.  The topology of the parent is given by its
    connectivities, [locate] is tree.compute_entity_collisions.  The tags are a list, in
    the order in which they are iterated over.  Logging and timers are left out. *)
From Verif Require Export GmshModel.
Local Open Scope R_scope.

(** The parent: dimension, coordinates, c2v, c2e, e2v (433-435) *)
Record parent := { p_tdim : nat; p_x : list (list R); p_c2v : list (list nat); p_c2e : list (list nat); p_e2v : list (list nat) }.
(** The embedded mesh; [s_extract] are the arrays of entity_map(0) and entity_map(edim) if
    it has them and its parent_id is that of the parent (409-418) *)
Record embedded := { s_dim : nat; s_x : list (list R); s_cells : list (list nat); s_extract : option (list nat * list nat) }.
(** Assignment to and lookup in a dictionary *)
Fixpoint dset {B} (k : nat) (b : B) (d : list (nat * B)) : list (nat * B) :=
  match d with [] => [(k, b)] | (k', b') :: d' => if (k' =? k)%nat then (k, b) :: d' else (k', b') :: dset k b d' end.
Fixpoint dget {B} (k : nat) (d : list (nat * B)) : option B :=
  match d with [] => None | (k', b) :: d' => if (k' =? k)%nat then Some b else dget k d' end.
(** 374-380: the keys of a dictionary are distinct, so that sorting is [unique] *)
Fixpoint diffs (l : list nat) : list nat := match l with a :: ((b :: _) as l') => (b - a)%nat :: diffs l' | _ => [] end.
Definition is_1_sequence (keys : list nat) : bool :=
  match nodup Nat.eq_dec (diffs (unique keys)) with [d] => (d =? 1)%nat | _ => false end.
(** 442: the extent of the coordinates, of no vertex ValueError *)
Definition reduceR (f : R -> R -> R) (l : list R) : res R := match l with [] => Err ValueError | a :: l' => Ok (fold_left f l' a) end.
Definition column (k : nat) (x : list (list R)) : list R := map (fun p => nth k p 0) x.
Definition extent (x : list (list R)) (k : nat) : res R :=
  do hi <- reduceR Rmax (column k x); do lo <- reduceR Rmin (column k x); Ok (hi - lo).
Definition scale (x : list (list R)) : res R :=
  do l <- mapM (extent x) (seq 0 (length (hd [] x))); match x with [] => Err ValueError | _ => reduceR Rmax l end.
(** 456: min with a key, the first of the smallest *)
Fixpoint min_by (key : nat -> R) (best : nat) (l : list nat) : nat :=
  match l with [] => best | a :: l' => if Rlt_dec (key a) (key best) then min_by key a l' else min_by key best l' end.
Definition py_min (key : nat -> R) (l : list nat) : res nat := match l with [] => Err ValueError | a :: l' => Ok (min_by key a l') end.
(** 457-458: dividing by zero gives nan or inf, and the assertion fails *)
Definition close_enough (tol s err : R) : bool := if Req_EM_T s 0 then false else if Rlt_dec (err / s) tol then true else false.

Section Search.
Variable mesh : parent.
Variable locate : list R -> list nat.
Variable ex : list (list R).
Variables tol s : R.
(** 449-466; the state maps a vertex to its vertex and cells of the parent *)
Definition find_vertex (st : list (nat * (nat * list nat))) (v : nat) : res (list (nat * (nat * list nat)) * (nat * list nat)) :=
  match dget v st with
  | Some wc => Ok (st, wc)
  | None =>
      let vx := nth v ex [] in
      let mcells := locate vx in
      do c <- opt_res IndexError (nth_error mcells 0);
      do w <- py_min (fun w => rnorm (rsub vx (nth w (p_x mesh) []))) (nth c (p_c2v mesh) []);
      do _ <- py_assert (close_enough tol s (rnorm (rsub vx (nth w (p_x mesh) []))));
      Ok (dset v (w, mcells) st, (w, mcells))
  end.
(** 470-472 *)
Definition vertex_set (w : nat) (mcells : list nat) : list nat :=
  nodup Nat.eq_dec (filter (fun e => mem w (nth e (p_e2v mesh) [])) (flat_map (fun c => nth c (p_c2e mesh) []) mcells)).
(** 474-477 *)
Definition narrow (the_entity vset : list nat) : list nat :=
  match the_entity with [] => vset | _ => filter (fun e => mem e vset) the_entity end.
(** 447-477 *)
Fixpoint cell_entity (st : list (nat * (nat * list nat))) (the_entity vs : list nat) : res (list (nat * (nat * list nat)) * list nat) :=
  match vs with
  | [] => Ok (st, the_entity)
  | v :: vs' => do r <- find_vertex st v; let (st', wc) := r in cell_entity st' (narrow the_entity (vertex_set (fst wc) (snd wc))) vs'
  end.
(** 446-480 *)
Fixpoint map_cells (st : list (nat * (nat * list nat))) (emap : list (nat * nat)) (cells : list (nat * list nat)) : res (list (nat * (nat * list nat)) * list (nat * nat)) :=
  match cells with
  | [] => Ok (st, emap)
  | (i, vs) :: cells' =>
      do r <- cell_entity st [] vs;
      match snd r with [e] => map_cells (fst r) (dset i e emap) cells' | _ => Err AssertionError end
  end.
End Search.

(** 437: the cells with the tags, one tag after the other *)
Definition tagged_cells (values : list nat) (cells : list (list nat)) (tags : list nat) : list (nat * list nat) :=
  flat_map (fun t => map snd (filter (fun tc => (fst tc =? t)%nat) (combine values (combine (seq 0 (length cells)) cells)))) tags.
(** 383-482; [subs] are the dimension and the values of esubdomains *)
Definition build_embedding_map (emesh : embedded) (mesh : parent) (locate : list R -> list nat) (subs : option (nat * list nat)) (tags : option (list nat)) (tol : R) : res (list (nat * nat) * list (nat * nat)) :=
  do _ <- py_assert (s_dim emesh <? p_tdim mesh)%nat;
  do _ <- py_assert match subs with None => true | Some (d, _) => (d =? s_dim emesh)%nat end;
  do values <- match subs with
               | None => do _ <- py_assert match tags with None => true | _ => false end; Ok (repeat 0%nat (length (s_cells emesh)))
               | Some (_, values) => Ok values
               end;
  let all_check := match tags with None => true | _ => false end in
  let tags' := match tags with None => [0%nat] | Some l => l end in
  match s_extract emesh with
  | Some (vs, cs) => Ok (combine (seq 0 (length vs)) vs, combine (seq 0 (length cs)) cs)
  | None =>
      do s <- scale (s_x emesh);
      do r <- map_cells mesh locate (s_x emesh) tol s [] [] (tagged_cells values (s_cells emesh) tags');
      let vmap := map (fun kv => (fst kv, fst (snd kv))) (fst r) in
      let emap := snd r in
      do _ <- py_assert (negb all_check ||
                         ((length vmap =? length (s_x emesh))%nat && (length emap =? length (s_cells emesh))%nat &&
                          is_1_sequence (map fst vmap) && is_1_sequence (map fst emap)));
      Ok (vmap, emap)
  end.
