(** Connected meshes, is_continuous of xii/meshing/mortar_mesh.py:130-157

    A mesh is its dimensions, the vertices of its cells and, of a surface, the
    vertices of its edges in dolfin's numbering.  Library meaning that is trusted
    here: the nodes of a networkx graph are the ends of its edges, and
    number_connected_components is the number of its classes, found here by
    merging those that an edge joins; mesh.init with a negative dimension raises
    TypeError.  e2c(e) lists what contains the entity e. *)
From Verif Require Import Base FillModel.
From Coq Require Import List Arith Bool.
Import ListNotations.
Local Open Scope nat_scope.

Record smesh := SMesh { s_tdim : nat; s_gdim : nat; s_cells : list (list nat); s_edges : list (nat * nat); s_nv : nat }.

Definition has (x : nat) (l : list nat) : bool := existsb (Nat.eqb x) l.
(** nx.Graph: nodes, and the merging of the classes of the ends of an edge *)
Definition nodes_of (edges : list (nat * nat)) : list nat := nodup Nat.eq_dec (flat_map (fun e => [fst e; snd e]) edges).
Definition merge (classes : list (list nat)) (e : nat * nat) : list (list nat) :=
  let hit := fun c => has (fst e) c || has (snd e) c in
  concat (filter hit classes) :: filter (fun c => negb (hit c)) classes.
Definition number_connected_components (edges : list (nat * nat)) : nat :=
  length (fold_left merge edges (map (fun v => [v]) (nodes_of edges))).

(** sorted *)
Fixpoint insert (x : nat) (l : list nat) : list nat :=
  match l with [] => [x] | y :: r => if x <=? y then x :: l else y :: insert x r end.
Definition sorted (l : list nat) : list nat := fold_right insert [] l.
(** zip(cells[:-1], cells[1:]) *)
Definition consecutive (l : list nat) : list (nat * nat) := combine (removelast l) (tl l).

(** mesh.topology()(0, 1) of a vertex of a surface: the edges that have it *)
Definition edges_at (m : smesh) (v : nat) : list nat :=
  filter (fun e => let p := nth e (s_edges m) (0, 0) in (fst p =? v) || (snd p =? v)) (seq 0 (length (s_edges m))).

(** 130-157.  144: tdim is the truth value of "the dimension is 2", so that of a
    surface 149 has the vertices and 150 the edges, and of a mesh of another
    dimension (but 1) -1 *)
Definition is_continuous (m : smesh) : res bool :=
  if negb (s_tdim m <? s_gdim m) then Err AssertionError else
  if s_tdim m =? 1 then
    do edges <- mapM (fun c => match c with [a; b] => Ok (a, b) | _ => Err ValueError end) (s_cells m);
    Ok (number_connected_components edges =? 1)
  else if s_tdim m =? 2 then
    Ok (number_connected_components (flat_map (fun v => consecutive (sorted (edges_at m v))) (seq 0 (s_nv m))) =? 1)
  else Err TypeError.
