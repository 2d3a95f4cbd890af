(** Model of the loops that fill reduction matrices:
    trace_mat_no_restrict (trace_matrix.py:73-198), restriction_matrix
    (restriction_matrix.py:41-88), interpolation_mat (interpolation_matrix.py:
    22-57), average_matrix and scalar_average_matrix (average_matrix.py:56-249).

    What FFC evaluates (degrees of freedom of the target on basis functions,
    basis functions at points) and what dolfin looks up (dof maps, collisions)
    are parameters.  csr_matrix((values, (rows, cols))) adds up duplicates;
    setValues(..., INSERT_VALUES) overwrites.  Progress bars are left out. *)
From Verif Require Export Base Mat.
Local Open Scope nat_scope.
Local Close Scope Q_scope.
Local Close Scope Qc_scope.

Definition qplus_list (l : list Qc) : Qc := fold_right Qcplus q0 l.

(** A cell of the target mesh as the loops see it: target dofs, source dofs (of
    the connected source cell) and the matrix "local row [k] of column [l]". *)
Record fcell := FCell { f_rows : list nat; f_cols : list nat; f_val : nat -> nat -> Qc }.

(** trace_matrix.py:120-122: indices of the cells with the given tags. *)
Definition subset_iterator (marks : list nat) (tag : nat) : list nat :=
  filter (fun c => nth c marks 0 =? tag) (seq 0 (length marks)).
Definition trace_cells (marks tags : list nat) : list nat := concat (map (subset_iterator marks) tags).

(** np.tile, np.repeat and boolean indexing *)
Definition np_tile {A} (l : list A) (n : nat) : list A := concat (repeat l n).
Definition np_repeat {A} (l : list A) (n : nat) : list A := flat_map (fun x => repeat x n) l.
Fixpoint np_select {A} (mask : list bool) (l : list A) : list A :=
  match mask, l with b :: mask', x :: l' => if b then x :: np_select mask' l' else np_select mask' l' | _, _ => [] end.
Fixpoint set_nth {A} (l : list A) (i : nat) (x : A) : list A :=
  match l, i with [], _ => [] | _ :: l', 0 => x :: l' | y :: l', S i' => y :: set_nth l' i' x end.

(** (row, column, value) and the matrix made of them *)
Notation triple := (nat * nat * Qc)%type (only parsing).
Definition zip3 (rows cols : list nat) (vals : list Qc) : list triple := combine (combine rows cols) vals.
Definition coo_ent (ts : list triple) (i j : nat) : Qc :=
  qplus_list (map (fun t => if (fst (fst t) =? i) && (snd (fst t) =? j) then snd t else q0) ts).
Definition coo (m n : nat) (ts : list triple) : mat := Mat m n (coo_ent ts).

(** local_values[l, :] for all l: trace_matrix.py:147-153, 181-185 *)
Definition local_values (c : fcell) : list (list Qc) :=
  map (fun l => map (fun k => f_val c l k) (seq 0 (length (f_rows c)))) (seq 0 (length (f_cols c))).

(** trace_matrix.py:134-161, the branch for discontinuous targets *)
Definition dg_triples (c : fcell) : list triple :=
  zip3 (np_tile (f_rows c) (length (f_cols c))) (np_repeat (f_cols c) (length (f_rows c))) (concat (local_values c)).
Definition trace_dg (m n : nat) (cells : list fcell) : mat := coo m n (flat_map dg_triples cells).

(** trace_matrix.py:163-192, the branch that skips rows already filled *)
Definition clear (needs : list bool) (ds : list nat) : list bool := fold_left (fun s d => set_nth s d false) ds needs.
Fixpoint trace_triples (needs : list bool) (cells : list fcell) : list triple :=
  match cells with
  | [] => []
  | c :: cells' =>
    let unseen := map (fun d => nth d needs false) (f_rows c) in
    let rows := np_select unseen (f_rows c) in
    zip3 (np_tile rows (length (f_cols c))) (np_repeat (f_cols c) (length rows)) (flat_map (np_select unseen) (local_values c))
    ++ trace_triples (clear needs rows) cells'
  end.
Definition trace_cg (m n : nat) (cells : list fcell) : mat := coo m n (trace_triples (repeat true m) cells).

(** mat.setValues([row], cols, vals, INSERT_VALUES) *)
Definition set_ent (E : nat -> nat -> Qc) (i j : nat) (v : Qc) : nat -> nat -> Qc :=
  fun i' j' => if (i' =? i) && (j' =? j) then v else E i' j'.
Definition set_row (E : nat -> nat -> Qc) (i : nat) (cols : list nat) (vals : list Qc) : nat -> nat -> Qc :=
  fold_left (fun E' p => set_ent E' i (fst p) (snd p)) (combine cols vals) E.

(** restriction_matrix.py:64-87, interpolation_matrix.py:40-56 *)
Fixpoint fill_dofs (c : fcell) (k : nat) (ds : list nat) (s : list bool * (nat -> nat -> Qc)) : list bool * (nat -> nat -> Qc) :=
  match ds with
  | [] => s
  | d :: ds' =>
    if nth d (fst s) true then fill_dofs c (S k) ds' s
    else fill_dofs c (S k) ds' (set_nth (fst s) d true, set_row (snd s) d (f_cols c) (map (fun l => f_val c l k) (seq 0 (length (f_cols c)))))
  end.
Definition restriction_fill (m n : nat) (cells : list fcell) : mat :=
  Mat m n (snd (fold_left (fun s c => fill_dofs c 0 (f_rows c) s) cells (repeat false m, fun _ _ => q0))).

(** average_matrix.py:151-249 *)
Section Average.
Context {X N : Type}.
Variable collision : X -> nat.               (** tree.compute_first_entity_collision *)
Variable limit : nat.                        (** mesh.num_cells() *)
Variable basis : nat -> X -> list Qc.        (** evaluate_basis_all on a cell *)
Variable V_dofs : nat -> list nat.           (** V.dofmap().cell_dofs *)
Variable quadrature : X -> N -> list X * list Qc.

(** 212-228: add [value] to the dictionary *)
Fixpoint dict_add (d : list (nat * Qc)) (col : nat) (v : Qc) : list (nat * Qc) :=
  match d with [] => [(col, v)] | (c, w) :: d' => if c =? col then (c, (w + v)%Qc) :: d' else (c, w) :: dict_add d' col v end.
Definition avg_point (measure : Qc) (d : list (nat * Qc)) (p : X * Qc) : list (nat * Qc) :=
  let c := collision (fst p) in
  if limit <=? c then d
  else fold_left (fun d' cv => dict_add d' (fst cv) (snd cv * snd p / measure)%Qc) (combine (V_dofs c) (basis c (fst p))) d.
Definition avg_row (x : X) (n : N) : list (nat * Qc) :=
  let (points, wq) := quadrature x n in
  fold_left (avg_point (qplus_list wq)) (combine points wq) [].
(** 196-241: a line cell is its tangent and its dofs with their points *)
Definition scalar_average (m n : nat) (cells : list (N * list (nat * X))) : mat :=
  coo m n (flat_map (fun lc => flat_map (fun rx => map (fun cv => (fst rx, fst cv, snd cv)) (avg_row (snd rx) (fst lc))) (snd lc)) cells).

(** average_matrix.py:56-148 for [size] components; a basis function has [size]
    consecutive values; the rows of the components follow one another *)
Variable size : nat.
Fixpoint reshape (count : nat) (l : list Qc) : list (list Qc) :=
  match count with 0 => [] | S c => firstn size l :: reshape c (skipn size l) end.
Fixpoint dict_vadd (d : list (nat * vec)) (col : nat) (v : vec) : list (nat * vec) :=
  match d with [] => [(col, v)] | (c, w) :: d' => if c =? col then (c, vtab size (fun k => (vnth w k + vnth v k)%Qc)) :: d' else (c, w) :: dict_vadd d' col v end.
Definition vavg_point (measure : Qc) (d : list (nat * vec)) (p : X * Qc) : list (nat * vec) :=
  let c := collision (fst p) in
  if limit <=? c then d
  else fold_left (fun d' cv => dict_vadd d' (fst cv) (vtab size (fun k => (vnth (snd cv) k * snd p / measure)%Qc)))
         (combine (V_dofs c) (reshape (length (V_dofs c)) (basis c (fst p)))) d.
Definition vavg_row (x : X) (n : N) : list (nat * vec) :=
  let (points, wq) := quadrature x n in
  fold_left (vavg_point (qplus_list wq)) (combine points wq) [].
Definition vavg_dof (n : N) (E : nat -> nat -> Qc) (rx : nat * X) : nat -> nat -> Qc :=
  let data := vavg_row (snd rx) n in
  fold_left (fun E' shift => set_row E' (fst rx + shift) (map fst data) (map (fun cv => vnth (snd cv) shift) data)) (seq 0 size) E.
Definition vector_average (m n : nat) (cells : list (N * list (nat * X))) : mat :=
  Mat m n (fold_left (fun E lc => fold_left (vavg_dof (fst lc)) (snd lc) E) cells (fun _ _ => q0)).
End Average.
