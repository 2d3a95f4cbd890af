(** Unit tangent of a curve (xii/meshing/embedded_mesh.py, TangentCurve)

    The mesh is the list of its cells with their vertices, as in [BranchModel], X are the coordinates of the vertices.
    Library meaning that is trusted here: nx.Graph keeps neighbours in the order in which edges were added;
    dfs_edges is networkx's search with a stack of iterators (its depth limit, the number of nodes, is
    never reached); dofs() of a subspace is sorted.  Floating point is not modelled. *)
From Coq Require Import Reals.
From Verif Require Export Base EmbedModel BranchModel GeomModel FillModel.
Local Close Scope R_scope.
Local Open Scope nat_scope.

(** 562-563: neighbours in the graph of the cells *)
Definition nbrs (g : graph) (v : nat) : list nat :=
  first_seen (flat_map (fun e => if fst e =? v then [snd e] else if snd e =? v then [fst e] else []) g).
(** 565: networkx.dfs_edges; the stack has vertices with the neighbours that have still to be looked at *)
Fixpoint dfs (fuel : nat) (g : graph) (seen : list nat) (stack : list (nat * list nat)) : res (list (nat * nat)) :=
  match stack with
  | [] => Ok []
  | (parent, children) :: rest =>
      match fuel with
      | 0 => Err OutOfFuel
      | S fuel' =>
          match children with
          | [] => dfs fuel' g seen rest
          | child :: children' =>
              if is_in child seen then dfs fuel' g seen ((parent, children') :: rest)
              else
                do es <- dfs fuel' g (child :: seen) ((child, nbrs g child) :: (parent, children') :: rest);
                Ok ((parent, child) :: es)
          end
      end
  end.
(** Enough for all steps: each vertex is put on the stack at most once *)
Definition dfs_fuel (nv : nat) (g : graph) : nat := list_sum (map (fun v => S (length (nbrs g v))) (seq 0 nv)).
Definition dfs_edges (nv : nat) (g : graph) (root : nat) : res (list (nat * nat)) := dfs (dfs_fuel nv g) g [root] [(root, nbrs g root)].
(** 567-569, 578-580 *)
Definition tangent (p q : list R) : list R := rscale (/ rnorm (rsub q p))%R (rsub q p).
(** 566: the only common cell *)
Definition the_cell (g : graph) (a b : nat) : res nat :=
  match filter (fun c => is_in c (v2c g b)) (v2c g a) with [c] => Ok c | _ => Err ValueError end.
(** 553: vertices with one cell *)
Definition roots_of (nv : nat) (g : graph) : list nat := filter (fun v => length (v2c g v) =? 1) (seq 0 nv).
(** 543-582: the values of the cells, and if the message of 573 is printed.  Where a value has not been set yet the
    cell is not visited *)
Definition tangent_curve (nv : nat) (g : graph) (X : nat -> list R) (root : option nat) : res (list (list R) * bool) :=
  let roots := roots_of nv g in
  do edges <- match roots with
              | [] => Ok []
              | _ =>
                  do r <- match root with
                          | Some r => do _ <- py_assert (is_in r roots); Ok r
                          | None => Ok (last roots 0)
                          end;
                  dfs_edges nv g r
              end;
  do visited <- foldM (fun values e => do c <- the_cell g (fst e) (snd e); Ok (set_nth values c (Some (tangent (X (fst e)) (X (snd e)))))) edges (repeat None (length g));
  let message := existsb (fun v => match v with Some _ => true | None => false end) visited in
  Ok (map (fun c => match nth c visited None with Some t => t | None => tangent (X (fst (c2v g c))) (X (snd (c2v g c))) end) (seq 0 (length g)), message).

(** 584-589: components are put to the sorted dofs of the subspaces; [cell_dof sub c] is the dof of component
    [sub] on cell [c] *)
Definition sub_dofs (cell_dof : nat -> nat -> nat) (ncells sub : nat) : list nat := np_unique (map (cell_dof sub) (seq 0 ncells)).
Definition put_component (cell_dof : nat -> nat -> nat) (values : list (list R)) (n_values : list R) (sub : nat) : res (list R) :=
  let dofs := sub_dofs cell_dof (length values) sub in
  if length dofs =? length values then
    Ok (fold_left (fun acc p => set_nth acc (fst p) (snd p)) (combine dofs (map (fun v => nth sub v 0%R) values)) n_values)
  else Err ValueError.
Definition put_values (cell_dof : nat -> nat -> nat) (gdim : nat) (values : list (list R)) (n_values : list R) : res (list R) :=
  foldM (put_component cell_dof values) (seq 0 gdim) n_values.
