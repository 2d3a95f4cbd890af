(** Model of xii/linalg/bc_apply.py: apply_bc (lines 14-145) and as_block
    (lines 153-200).

    Library meaning that is trusted here (serial PETSc, exact arithmetic):
    - [Vec.setValues(rows, vals)] inserts one after the other, so the last
      value for an index stays; arrays of different length raise ValueError,
      an index outside the vector raises PETSc.Error;
    - [Mat.zeroRows(rows, diag, x, b)] zeroes the rows, puts [diag] on their
      diagonal and sets [b[r] = diag*x[r]];
    - [Mat.zeroRowsColumns(rows, diag, x, b)] does in addition
      [b[i] -= A[i,r]*x[r]] and [A[i,r] = 0] for the other rows i;
    - [np.hstack([])] raises ValueError;
    - a DirichletBC is the dictionary returned by get_boundary_values(), a
      dictionary is the list of its items in iteration order. *)
From Verif Require Import Base Mat ConvertModel.

(** What may stand in the argument [bcs]. *)
Definition items := list (nat * Qc).
Inductive pybc :=
| PDirichlet (d : items)
| PDict (d : items)
| PList (l : list pybc).
(** The argument itself: None, a value, or a dictionary from block numbers. *)
Inductive bcs_arg := BNone | BVal (b : pybc) | BKeys (l : list (Z * pybc)).

(** Arguments and results of apply_bc; block matrices are [bmat]. *)
Inductive mat_arg := APlain (m : expr) | ABlock (b : bmat).
Inductive vec_arg := VNone | VPlain (v : vec) | VBlock (l : list vec).

(** Python truth value; DirichletBC objects are true. *)
Definition truthy (b : pybc) : bool :=
  match b with
  | PDirichlet _ => true
  | PDict d => negb (length d =? 0)
  | PList l => negb (length l =? 0)
  end.

(** Line 19: nothing to do. *)
Definition nothing_to_do (b : bcs_arg) : bool :=
  match b with
  | BNone => true
  | BKeys l => length l =? 0
  | BVal (PList l) => negb (existsb truthy l)
  | BVal b => negb (truthy b)
  end.

Definition is_plist (b : pybc) : bool := match b with PList _ => true | _ => false end.

(** dict.get(i, []) *)
Fixpoint dict_get (l : list (Z * pybc)) (i : Z) : pybc :=
  match l with
  | [] => PList []
  | (k, v) :: l' => if Z.eqb k i then v else dict_get l' i
  end.

(** Lines 36-42: one entry per block row of A. *)
Definition per_block (nA : nat) (wrapped : bool) (b : bcs_arg) : res (list pybc) :=
  match b with
  | BNone => Err TypeError
  | BKeys l =>
    do _ <- py_assert (forallb (fun kv => Z.leb 0 (fst kv) && Z.ltb (fst kv) (Z.of_nat nA)) l);
    do _ <- py_assert (forallb (fun kv => is_plist (snd kv)) l);
    Ok (map (fun i => dict_get l (Z.of_nat i)) (seq 0 nA))
  | BVal v =>
    if wrapped then Ok [v]
    else match v with
         | PList l => Ok l
         | PDict _ => Err AssertionError        (* never: a dict argument is BKeys *)
         | PDirichlet _ => Err TypeError        (* len of a DirichletBC *)
         end
  end.

(** Lines 47-54: a single DirichletBC becomes a list. *)
Definition as_list (b : pybc) : pybc :=
  match b with PDirichlet d => PList [PDirichlet d] | _ => b end.

(** Lines 79-85: the items of one block; iterating over a dictionary gives
    numbers, which have no keys(), and neither has a list. *)
Definition block_items (b : pybc) : res (list items) :=
  match b with
  | PDirichlet d => Ok [d]                     (* never: see as_list *)
  | PDict [] => Ok []
  | PDict _ => Err AttributeError
  | PList l => mapM (fun c => match c with
                              | PDirichlet d | PDict d => Ok d
                              | PList _ => Err AttributeError
                              end) l
  end.

(** Lines 68-70. *)
Fixpoint offsets_from (o : nat) (sizes : list nat) : list nat :=
  match sizes with [] => [o] | s :: sizes' => o :: offsets_from (o + s) sizes' end.
Definition offsets (sizes : list nat) : list nat := offsets_from 0 sizes.

(** Lines 78-85: (row, value) pairs in the order of insertion. *)
Definition global_pairs (offs : list nat) (bcs : list pybc) : res items :=
  do l <- mapM (fun sb => do ds <- block_items (snd sb);
                          Ok (map (fun kv => (fst sb + fst kv, snd kv)) (concat ds)))
               (combine offs bcs);
  Ok (concat l).

(** Vec.setValues *)
Definition upd (x : vec) (k : nat) (v : Qc) : vec :=
  map (fun i => if i =? k then v else vnth x i) (seq 0 (length x)).
Definition set_values (x : vec) (rows : list nat) (vals : list Qc) : res vec :=
  if negb (length rows =? length vals) then Err ValueError
  else if forallb (fun r => r <? length x) rows
  then Ok (fold_left (fun x rv => upd x (fst rv) (snd rv)) (combine rows vals) x)
  else Err PetscError.

Definition mem (k : nat) (l : list nat) : bool := existsb (Nat.eqb k) l.

(** Mat.zeroRows, Mat.zeroRowsColumns (see the header). *)
Definition zero_rows (A : mat) (rows : list nat) (diag : Qc) (x b : vec) : mat * vec :=
  (Mat (nr A) (nc A) (fun i j => if mem i rows then (if i =? j then diag else q0) else ent A i j),
   vtab (length b) (fun i => if mem i rows then (diag * vnth x i)%Qc else vnth b i)).
Definition zero_rows_columns (A : mat) (rows : list nat) (diag : Qc) (x b : vec) : mat * vec :=
  (Mat (nr A) (nc A) (fun i j => if mem i rows then (if i =? j then diag else q0)
                                 else if mem j rows then q0 else ent A i j),
   vtab (length b) (fun i => if mem i rows then (diag * vnth x i)%Qc
      else (vnth b i - sumn (nc A) (fun j => if mem j rows then (ent A i j * vnth x j)%Qc else q0))%Qc)).

(** as_block (lines 153-200) with index lists; every set of indices gives one
    block.  [elm_type, = element_types(blocks)] needs at least one block.  An
    index outside is an error (PETSc or scipy). *)
Definition take (x : vec) (idx : list nat) : vec := map (vnth x) idx.
Definition submat (A : mat) (ri ci : list nat) : mat :=
  Mat (length ri) (length ci) (fun i j => ent A (nth i ri 0) (nth j ci 0)).
Definition as_block_vec (blocks : list (list nat)) (x : vec) : res (list vec) :=
  if length blocks =? 0 then Err ValueError
  else if forallb (forallb (fun i => i <? length x)) blocks
  then Ok (map (take x) blocks) else Err PetscError.
Definition as_block_mat (blocks : list (list nat)) (A : mat) : res bmat :=
  if length blocks =? 0 then Err ValueError
  else if forallb (forallb (fun i => (i <? nr A) && (i <? nc A))) blocks
  then Ok (map (fun ri => map (fun ci => EMat (submat A ri ci)) blocks) blocks) else Err IndexError.

(** Lines 95-97: consecutive index ranges. *)
Definition strides (sizes : list nat) : list (list nat) :=
  map (fun os => seq (fst os) (snd os)) (combine (offsets sizes) sizes).

(** Lines 106-129: the function returned with return_apply_b.  [bcs_now] are
    the conditions with the values they have when it is called; dictionaries
    contribute nothing to [values]. *)
Definition values_now (bcs_now : list pybc) : res (list Qc) :=
  do l <- mapM (fun b => match b with
     | PList l => Ok (concat (map (fun c => match c with PDirichlet d => map snd d | _ => [] end) l))
     | PDict _ => Ok []
     | PDirichlet _ => Err TypeError            (* never: see as_list *)
     end) bcs_now;
  Ok (concat l).

Definition apply_b (AA : mat) (dofs : list nat) (bcs_now : list pybc) (blocks : list (list nat))
    (bb : list vec) : res (list vec) :=
  do values <- values_now bcs_now;
  do c <- set_values (vtab (nc AA) (fun _ => q0)) dofs values;
  let Ac := mv AA c in
  let b := convert_bvec bb in
  do _ <- (if length b =? length Ac then Ok tt else Err PetscError);
  do b' <- set_values (vsub b Ac) dofs values;
  as_block_vec blocks b'.

Inductive result :=
| RPair (A : mat_arg) (b : vec_arg)
| RTriple (A : mat_arg) (b : vec_arg) (f : list pybc -> list vec -> res (list vec)).

(** apply_bc (lines 14-145). *)
Definition apply_bc (fuel : nat) (A : mat_arg) (b : vec_arg) (bcs : bcs_arg)
    (diag_val : Qc) (symmetric return_apply_b : bool) : res result :=
  if nothing_to_do bcs then Ok (RPair A b) else
  let '(wrapped, bA) := match A with APlain m => (true, [[m]]) | ABlock B => (false, B) end in
  do bl <- match b with
           | VNone => do sizes <- bmat_sizes bA; Ok (map (fun n => vtab n (fun _ => q0)) (snd sizes))
           | VPlain v => do _ <- py_assert wrapped; Ok [v]
           | VBlock l => Ok l
           end;
  do bcs1 <- per_block (nbrows bA) wrapped bcs;
  do _ <- py_assert ((nbrows bA =? length bl) && (length bl =? length bcs1));
  let bcs2 := map as_list bcs1 in
  if negb (existsb truthy bcs2) then Ok (RPair (ABlock bA) (VBlock bl)) else
  do AA <- convert_bmat fuel bA;
  let bb := convert_bvec bl in
  let sizes := map (@length Qc) bl in
  do _ <- py_assert ((nr AA =? nc AA) && (nc AA =? last (offsets sizes) 0));
  do pairs <- global_pairs (offsets sizes) bcs2;
  let rows := map fst pairs in
  do _ <- (if length rows =? 0 then Err ValueError else Ok tt);
  do x <- set_values (vtab (length bb) (fun _ => q0)) rows (map snd pairs);
  let blocks := strides sizes in
  let '(AA', bb') := (if symmetric then zero_rows_columns else zero_rows) AA rows diag_val x bb in
  do b' <- as_block_vec blocks bb';
  do A' <- as_block_mat blocks AA';
  if wrapped then Ok (RPair (APlain (blk A' 0 0)) (VPlain (nth 0 b' [])))
  else if return_apply_b then
    (if symmetric then Ok (RTriple (ABlock A') (VBlock b')
                              (fun bcs_now => apply_b AA rows bcs_now blocks))
     else Err UnboundLocalError)
  else Ok (RPair (ABlock A') (VBlock b')).
