(** Meshes of gmsh models: msh_gmsh_model of xii/meshing/gmsh_interopt.py:34-92

    A model of gmsh, after model.mesh.generate, is what it answers: nodes with
    their tags and coordinates (50), physical groups (54), entities of a group
    (58) and, for an entity, each type of elements with the number of elements
    and the tags of their nodes in one row (61).  The options (36-42) and the
    generation (44-50) are gmsh's.  Tags of gmsh are positive, so that 1 can be
    taken off (53, 68).  np.argsort (88) is a sort by insertion; it is of
    different numbers. *)
From Verif Require Import EmbedModel.
From Verif Require Export GmshModel.
Local Open Scope nat_scope.

Record gmodel := GModel {
  m_nodes : list (nat * list R);
  m_groups : list (nat * nat);
  m_entities : nat -> nat -> list nat;
  m_elements : nat -> nat -> list (nat * (nat * list nat)) }.

(** 68: reshape((num_el, -1)) *)
Fixpoint cut (n w : nat) (l : list nat) : list (list nat) :=
  match n with O => [] | S n' => firstn w l :: cut n' w (skipn w l) end.
Definition reshape (n : nat) (l : list nat) : res (nat * list (list nat)) :=
  if n =? 0 then Err ValueError else
  if length l mod n =? 0 then Ok (length l / n, cut n (length l / n) l) else Err ValueError.
(** 71-83; row_stack of different widths is a ValueError *)
Fixpoint add_rows (elm w : nat) (rows : list (list nat)) (tags : list nat) (data : list (nat * elements)) : res (list (nat * elements)) :=
  match data with
  | [] => Ok [(elm, {| e_width := w; e_rows := rows; e_tags := tags |})]
  | (e, d) :: data' =>
      if e =? elm then
        if e_width d =? w then Ok ((e, {| e_width := w; e_rows := e_rows d ++ rows; e_tags := e_tags d ++ tags |}) :: data') else Err ValueError
      else do r <- add_rows elm w rows tags data'; Ok ((e, d) :: r)
  end.
(** 60-83, for an entity *)
Definition add_entity (M : gmodel) (dim tag : nat) (data : list (nat * elements)) (entity : nat) : res (list (nat * elements)) :=
  match m_elements M dim entity with
  | [(element_type, (num_el, node_tags))] =>
      do wr <- reshape num_el node_tags;
      add_rows element_type (fst wr) (map (map (fun v => v - 1)) (snd wr)) (repeat tag num_el) data
  | _ => Err ValueError
  end.
(** 88: nodes[np.argsort(indices)] *)
Fixpoint put_node (x : nat * list R) (l : list (nat * list R)) : list (nat * list R) :=
  match l with [] => [x] | y :: r => if fst x <=? fst y then x :: l else y :: put_node x r end.
Definition sort_nodes (l : list (nat * list R)) : list (nat * list R) := fold_right put_node [] l.
(** 34-92 *)
Definition msh_gmsh_model (M : gmodel) : res (list (list R) * list (nat * elements)) :=
  do data <- foldM (fun data g => foldM (add_entity M (fst g) (snd g)) (m_entities M (fst g) (snd g)) data) (m_groups M) [];
  Ok (map snd (sort_nodes (map (fun n => (fst n - 1, snd n)) (m_nodes M))), data).
