(** Injection by lookup, the fallback of injection_matrix in
    xii/assembler/injection_matrix.py:39-98

    A coarse and a fine mesh with dofs of their cells; [v_value f l c k] is degree of
    freedom [l] of cell [f] of the fine space, evaluated at basis function [k] of cell
    [c] of the coarse space (the evaluators of fem_eval.py, C81).  The dictionary
    parent_entity_map[...][tdim] is the list of its items.  a[idx] = a of numpy reads a
    before it writes.  A sparse matrix of (values, (rows, columns)) has the sums of the
    values that are given for an entry.  Cells and dofs exist (52-72). *)
From Verif Require Export Base Mat.
Local Open Scope nat_scope.

Record pair_of_spaces := Pair {
  v_items : list (nat * nat);
  v_dim : nat; v_dim_c : nat;
  v_dofs : nat -> list nat; v_dofs_c : nat -> list nat;
  v_value : nat -> nat -> nat -> nat -> Qc }.

(** np.argsort *)
Fixpoint put_key (x : nat * nat) (l : list (nat * nat)) : list (nat * nat) :=
  match l with [] => [x] | y :: r => if fst x <=? fst y then x :: l else y :: put_key x r end.
Definition argsort (keys : list nat) : list nat := map snd (fold_right put_key [] (combine keys (seq 0 (length keys)))).
Fixpoint write (l : list nat) (i x : nat) : list nat :=
  match l, i with [], _ => [] | _ :: r, O => x :: r | a :: r, S k => a :: write r k x end.
Fixpoint write_all (l : list nat) (idx xs : list nat) : list nat :=
  match idx, xs with i :: idx', x :: xs' => write_all (write l i x) idx' xs' | _, _ => l end.
(** 44-46; zip of nothing can not be unpacked *)
Definition fine_to_coarse (items : list (nat * nat)) : res (list nat) :=
  match items with
  | [] => Err ValueError
  | _ => let values := map snd items in Ok (write_all values (argsort (map fst items)) values)
  end.

Definition triplet := (nat * nat * Qc)%type.
(** visited_rows[dof] = True *)
Fixpoint visit (l : list bool) (i : nat) : list bool :=
  match l, i with [], _ => [] | _ :: r, O => true :: r | a :: r, S k => a :: visit r k end.
(** 73-88, for the dofs [l], [l]+1, ... of a cell.  [insert]: line 88 is there.  In it
    mat is a local variable that has no value before line 90 *)
Fixpoint fill_rows (V : pair_of_spaces) (insert : bool) (f c l : nat) (dofs : list nat) (st : list bool * list triplet) : res (list bool * list triplet) :=
  match dofs with
  | [] => Ok st
  | dof :: dofs' =>
      do seen <- opt_res IndexError (nth_error (fst st) dof);
      if (seen : bool) then fill_rows V insert f c (S l) dofs' st
      else
        let visited := visit (fst st) dof in
        let coarse := v_dofs_c V c in
        let row := map (fun k => v_value V f l c k) (seq 0 (length coarse)) in
        let new := map (fun jx => (dof, fst jx, snd jx)) (combine coarse row) in
        if insert then Err UnboundLocalError else fill_rows V insert f c (S l) dofs' (visited, snd st ++ new)
  end.
(** 62-88, for the cells [f], [f]+1, ... *)
Fixpoint fill_cells (V : pair_of_spaces) (insert : bool) (f : nat) (coarse : list nat) (st : list bool * list triplet) : res (list bool * list triplet) :=
  match coarse with
  | [] => Ok st
  | c :: coarse' => do st' <- fill_rows V insert f c 0 (v_dofs V f) st; fill_cells V insert (S f) coarse' st'
  end.
(** 39-98: the triplets of which the matrix is made *)
Definition lookup_matrix (V : pair_of_spaces) (insert : bool) : res (list triplet) :=
  do coarse <- fine_to_coarse (v_items V);
  do st <- fill_cells V insert 0 coarse (repeat false (v_dim V), []);
  Ok (snd st).
(** 90: an entry of the matrix *)
Definition entry (t : list triplet) (i j : nat) : Qc :=
  fold_right (fun x s => if ((fst (fst x) =? i) && (snd (fst x) =? j))%bool then (snd x + s)%Qc else s) q0 t.

(** ** sandbox/injection_mat.py:12-60 *)
(** mat.setValues with INSERT_VALUES: an entry is the value that is set last, zero if none is *)
Definition inserted (t : list triplet) (i j : nat) : Qc :=
  fold_left (fun s x => if ((fst (fst x) =? i) && (snd (fst x) =? j))%bool then snd x else s) t q0.
(** 12-60; [parents] is the array parent_cell of the data of the fine mesh *)
Definition sandbox_matrix (V : pair_of_spaces) (has_parent has_child same_id : bool) (parents : list nat) : res (list triplet) :=
  do _ <- py_assert (has_parent && has_child);
  do _ <- py_assert same_id;
  do st <- fill_cells V false 0 parents (repeat false (v_dim V), []);
  Ok (snd st).
