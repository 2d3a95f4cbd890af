(** Model of the block operators of xii/linalg/block_utils.py (lines 248-413)
    and of block_reshape, xii/linalg/matrix_utils.py (lines 73-87).

    Library meaning that is trusted here:
    - a cbc.block block_vec is the list of its blocks, a dolfin Vector is the
      list of its entries; [list[i]], [list[a:b]] follow Python, negative
      numbers included;
    - a PETSc nest vector made of blocks has the entries of the blocks one
      after the other, getSubVector / getValues with an index set read them;
    - W[i].dofmap().dofs() is 0 .. dim-1 (serial, space without parent). *)
From Verif Require Import Base Mat.

(** A Vector or a block_vec. *)
Inductive bobj := BV (v : vec) | BB (l : list bobj).

(** Python sequence indexing and slicing with integers of any sign. *)
Definition norm_index (n : nat) (i : Z) : Z := if Z.ltb i 0 then (i + Z.of_nat n)%Z else i.
Definition py_get {A} (l : list A) (i : Z) : res A :=
  let k := norm_index (length l) i in
  if Z.ltb k 0 then Err IndexError
  else opt_res IndexError (nth_error l (Z.to_nat k)).
Definition clamp (n : nat) (i : Z) : nat := Z.to_nat (Z.min (Z.max (norm_index n i) 0) (Z.of_nat n)).
Definition py_slice {A} (l : list A) (f g : Z) : list A :=
  let a := clamp (length l) f in let b := clamp (length l) g in
  firstn (b - a) (skipn a l).
(** l[i] = x *)
Definition replace_nth {A} (l : list A) (k : nat) (x : A) : list A := firstn k l ++ x :: skipn (S k) l.
Definition py_set {A} (l : list A) (i : Z) (x : A) : res (list A) :=
  let k := norm_index (length l) i in
  if Z.ltb k 0 || Z.leb (Z.of_nat (length l)) k then Err IndexError
  else Ok (replace_nth l (Z.to_nat k) x).

(** block_utils.py 248-253 is_increasing *)
Fixpoint is_increasing (s : list Z) : bool :=
  match s with
  | [] => false
  | [_] => true
  | x :: ((y :: _) as s') => Z.ltb x y && is_increasing s'
  end.

(** offsets[-1] *)
Definition last_offset (s : list Z) : res Z := match rev s with [] => Err IndexError | x :: _ => Ok x end.

(** zip(offsets[:-1], offsets[1:]) *)
Fixpoint pairs_of (s : list Z) : list (Z * Z) :=
  match s with x :: ((y :: _) as s') => (x, y) :: pairs_of s' | _ => [] end.

(** block_utils.py 388-391 RegroupOperator.__init__, nW = len(W); returns
    self.offsets. *)
Definition regroup_init (offsets : list Z) (nW : nat) : res (list Z) :=
  do l <- last_offset offsets;
  do _ <- py_assert (Z.eqb (Z.of_nat nW) l);
  do _ <- py_assert (is_increasing offsets);
  Ok (0%Z :: offsets).

(** block_utils.py 393-402 RegroupOperator.matvec *)
Definition regroup_matvec (offs : list Z) (b : list bobj) : res bobj :=
  do reduced <- mapM (fun fl => if Z.eqb (snd fl - fst fl) 1 then py_get b (fst fl)
                                else Ok (BB (py_slice b (fst fl) (snd fl)))) (pairs_of offs);
  if 1 <? length reduced then Ok (BB reduced) else py_get reduced 0.

(** block_utils.py 404-413 RegroupOperator.transpmult.  Iterating over a Vector
    gives its entries, which have no attribute blocks. *)
Definition regroup_transpmult (b : bobj) : res bobj :=
  match b with
  | BV [] => Ok (BB [])
  | BV _ => Err AttributeError
  | BB l => Ok (BB (concat (map (fun bi => match bi with BV v => [BV v] | BB l' => l' end) l)))
  end.

(** block_utils.py 293-317 RearangeOperator.__init__: per group the index set
    of every member inside the concatenated group.  [sizes] are the dimensions
    of the spaces. *)
Fixpoint cumsum_from (o : nat) (l : list nat) : list nat :=
  match l with [] => [o] | s :: l' => o :: cumsum_from (o + s) l' end.
Definition group_index_sets (sizes : list nat) (indices : list Z) : res (list (list nat)) :=
  do dims <- mapM (py_get sizes) indices;
  Ok (map (fun od => seq (fst od) (snd od)) (combine (cumsum_from 0 dims) dims)).
Definition rearange_init (mapping : list (list Z)) (sizes : list nat) : res (list (list (list nat))) :=
  mapM (group_index_sets sizes) mapping.

(** 307-312: index sets of the spaces inside the monolithic vector. *)
Definition petsc_index_sets (sizes : list nat) : list (list nat) :=
  map (fun od => seq (fst od) (snd od)) (combine (cumsum_from 0 sizes) sizes).

Definition getv (x : vec) (idx : list nat) : vec := map (vnth x) idx.

(** The vectors of a block_vec; the PETSc calls need Vectors. *)
Definition the_vec (b : bobj) : res vec := match b with BV v => Ok v | BB _ => Err TypeError end.

(** block_utils.py 326-346 RearangeOperator.matvec *)
Definition rearange_matvec (mapping : list (list Z)) (sizes : list nat) (b : bobj) : res bobj :=
  do blocks <- match b with
               | BV v => if length v =? list_sum sizes
                         then Ok (map (fun s => BV (getv v s)) (petsc_index_sets sizes))
                         else Err AttributeError
               | BB l => Ok l
               end;
  do reshaped <- mapM (fun indices =>
      match indices with
      | [i] => py_get blocks i
      | _ => do vs <- mapM (fun i => do x <- py_get blocks i; the_vec x) indices; Ok (BV (concat vs))
      end) mapping;
  if 1 <? length reshaped then Ok (BB reshaped) else py_get reshaped 0.

(** for j, subvec in zip(blocks, subvecs): unpacked[j] = subvec *)
Fixpoint set_all (u : list bobj) (l : list (Z * bobj)) : res (list bobj) :=
  match l with [] => Ok u | (j, x) :: l' => do u' <- py_set u j x; set_all u' l' end.

(** One step of the loop 357-364. *)
Definition unpack_step (u : list bobj) (s : bobj * list (list nat) * list Z) : res (list bobj) :=
  let '(bi, block_dofs, blocks) := s in
  match blocks with
  | [j] => py_set u j bi
  | _ => do x <- the_vec bi; set_all u (combine blocks (map (fun d => BV (getv x d)) block_dofs))
  end.
Fixpoint unpack_loop (u : list bobj) (l : list (bobj * list (list nat) * list Z)) : res (list bobj) :=
  match l with [] => Ok u | s :: l' => do u' <- unpack_step u s; unpack_loop u' l' end.

(** block_utils.py 348-366 RearangeOperator.transpmult; the initial entries
    [0]*n are numbers, here empty vectors. *)
Definition rearange_transpmult (mapping : list (list Z)) (index_sets : list (list (list nat))) (b : bobj) : res bobj :=
  let bl := match b with BV v => [BV v] | BB l => l end in
  let n := list_sum (map (@length _) index_sets) in
  do u <- unpack_loop (repeat (BV []) n) (combine (combine bl index_sets) mapping);
  Ok (BB u).

(** range(f, l) *)
Definition py_range (f l : Z) : list Z := map (fun k => (f + Z.of_nat k)%Z) (seq 0 (Z.to_nat (l - f))).

(** block_utils.py 377-384 ReductionOperator.__init__: the mapping. *)
Definition reduction_mapping (offsets : list Z) (nW : nat) : res (list (list Z)) :=
  do l <- last_offset offsets;
  do _ <- py_assert (Z.eqb (Z.of_nat nW) l);
  do _ <- py_assert (is_increasing offsets);
  Ok (map (fun fl => py_range (fst fl) (snd fl)) (pairs_of (0%Z :: offsets))).

(** block_utils.py 271-276 SubSelectOperator.matvec.  With several indices a
    Vector would be indexed entry by entry; here that is a TypeError. *)
Definition subselect_matvec (indices : list Z) (b : bobj) : res bobj :=
  match b with
  | BV _ => if length indices =? 1 then Err AssertionError else Err TypeError
  | BB l =>
    match indices with
    | [i] => py_get l i
    | _ => do xs <- mapM (py_get l) indices; Ok (BB xs)
    end
  end.

(** block_utils.py 278-289 SubSelectOperator.transpmult, sizes = dimensions of W. *)
Fixpoint scatter (ans : list bobj) (b : list bobj) (source : nat) (indices : list Z) : res (list bobj) :=
  match indices with
  | [] => Ok ans
  | dest :: indices' =>
    do x <- py_get b (Z.of_nat source);
    do ans' <- py_set ans dest x;
    scatter ans' b (S source) indices'
  end.
Definition subselect_transpmult (indices : list Z) (sizes : list nat) (b : bobj) : res bobj :=
  let ans := map (fun n => BV (vtab n (fun _ => q0))) sizes in
  do bl <- match b with
           | BV v => if length indices =? 1 then Ok [b] else Err TypeError
           | BB l => if length indices =? 1 then Err AssertionError else Ok l
           end;
  do r <- scatter ans bl 0 indices;
  Ok (BB r).

(** matrix_utils.py 73-87 block_reshape.  A matrix of blocks is a list of rows;
    the result has a block or a matrix of blocks in every position. *)
Inductive bgroup (X : Type) := GOne (x : X) | GMany (l : list (list X)).
Arguments GOne {X} x.
Arguments GMany {X} l.
Definition block_reshape {X} (AA : list (list X)) (offsets : list Z) : res (list (list (bgroup X))) :=
  let ps := pairs_of (0%Z :: offsets) in
  mapM (fun r => mapM (fun c =>
     if Z.eqb (snd r - fst r) 1 && Z.eqb (snd c - fst c) 1
     then do row <- py_get AA (fst r); do x <- py_get row (fst c); Ok (GOne x)
     else Ok (GMany (map (fun row => py_slice row (fst c) (snd c)) (py_slice AA (fst r) (snd r))))) ps) ps.
