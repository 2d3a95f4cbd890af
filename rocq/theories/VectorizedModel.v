(** One operator for all components of a space (xii/linalg/block_utils.py, VectorizedOperator and
    block_diag_mat)

    Library meaning that is trusted here: getSubVector takes the entries at the indices and
    raises for indices out of range; a matrix times a vector of another size raises; numpy's assignment
    to indices writes one value after the other and raises ValueError for another number of values and
    IndexError out of range; set_local raises for another size; unpacking a set with other than one
    element raises ValueError; create_vec of cbc.block, which the decorator vec_pool wraps, is
    called without dim, so with that of the wrapper, and what the vector holds before set_local
    does not matter. *)
From Verif Require Export Base Mat EmbedModel FillModel.

(** block_utils.py 17-23: zeros, then the diagonal is set; [None] is the number 0 *)
Fixpoint set_diagonal {X} (i : nat) (diagonal : list X) (blocks : list (list (option X))) : list (list (option X)) :=
  match diagonal with
  | [] => blocks
  | A :: diagonal' => set_diagonal (i + 1) diagonal' (set_nth blocks i (set_nth (nth i blocks []) i (Some A)))
  end.
Definition block_diag_mat {X} (diagonal : list X) : list (list (option X)) :=
  set_diagonal 0 diagonal (repeat (repeat None (length diagonal)) (length diagonal)).

(** A function space of several components: its dimension, the sub-elements (by their
    name) and the dofs of the components *)
Record space := { wdim : nat; elements : list nat; component_dofs : list (list nat) }.
(** What get_dims says: a number has no sizes *)
Inductive operator := OpMat (A : mat) | OpNum (a : Qc).
Definition get_dims (op : operator) : option (nat * nat) := match op with OpMat A => Some (nr A, nc A) | OpNum _ => None end.

(** [x, = set(xs)] *)
Definition unpack_set (xs : list nat) : res nat :=
  match nodup Nat.eq_dec xs with [x] => Ok x | _ => Err ValueError end.

(** 190-207, with a list of spaces, given by the dimensions: [m] is assigned in the other branch only *)
Definition vectorize_list (op : operator) (dims : list nat) : res unit :=
  do size <- unpack_set dims;
  match get_dims op with
  | None => Err TypeError
  | Some (_, n) => Err UnboundLocalError
  end.

(** 209-224: what the constructor checks; the index sets are kept.  [n == m == W.dim()/nsubs] *)
Definition vectorize (op : operator) (W : space) : res (mat * list (list nat)) :=
  let nsubs := length (component_dofs W) in
  do _ <- py_assert (0 <? nsubs);
  do _ <- unpack_set (elements W);
  match op with
  | OpNum _ => Err TypeError
  | OpMat A =>
      do _ <- py_assert ((nr A =? nc A) && (nc A * nsubs =? wdim W));
      Ok (A, component_dofs W)
  end.

(** 227-231: a component is taken, multiplied, and put in the working array *)
Definition sub_vector (b : vec) (index : list nat) : res vec :=
  if forallb (fun k => k <? length b) index then Ok (map (vnth b) index) else Err PetscError.
Definition multiply (A : mat) (x : vec) : res vec := if length x =? nc A then Ok (mv A x) else Err RuntimeError.
Definition put (work : vec) (index : list nat) (values : vec) : res vec :=
  if forallb (fun k => k <? length work) index then
    if length values =? length index then Ok (fold_left (fun w kv => set_nth w (fst kv) (snd kv)) (combine index values) work) else Err ValueError
  else Err IndexError.
Definition component (A : mat) (b : vec) (work : vec) (index : list nat) : res vec :=
  do bj <- sub_vector b index;
  do xj <- multiply A bj;
  put work index xj.
(** 226-235, 240-241: the product and the working array, which stays for the next product *)
Definition vectorized_matvec (W : space) (op : mat * list (list nat)) (work : vec) (b : vec) : res (vec * vec) :=
  do work <- foldM (fun w index => component (fst op) b w index) (snd op) work;
  if length work =? wdim W then Ok (work, work) else Err RuntimeError.
(** The products of an operator one after the other *)
Fixpoint products (W : space) (op : mat * list (list nat)) (work : vec) (bs : list vec) : res (list vec) :=
  match bs with
  | [] => Ok []
  | b :: bs' =>
      do r <- vectorized_matvec W op work b;
      do xs <- products W op (snd r) bs';
      Ok (fst r :: xs)
  end.
