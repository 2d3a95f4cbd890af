(** Model of xii/linalg/convert.py and of the matrix helpers of
    xii/linalg/matrix_utils.py.

    Library meaning that is trusted here:
    - a PETSc matrix is its size and entries (Mat.v); sparsity, communicators
      and local-to-global maps are dropped, everything is serial (the code
      asserts or assumes a single process);
    - floating point numbers are exact rationals;
    - cbc.block: [A*B] of two operators is a [block_mul] whose chain is the
      concatenation of the chains of its factors, [A+B], [A-B] are [block_add],
      [block_sub], [A.T] is [block_transpose]; operators on two Python numbers
      give a Python number. *)
From Verif Require Import Base Mat.

(** The objects [collapse] distinguishes (convert.py:81-135). *)
Inductive expr :=
| EMat (m : mat)                          (* PETScMatrix, Matrix *)
| ENum (a : Qc)                           (* int, float *)
| EMul (chain : list expr)                (* block_mul *)
| EAdd (a b : expr)                       (* block_add *)
| ESub (a b : expr)                       (* block_sub *)
| ETr (a : expr)                          (* block_transpose *)
| EDiag (v : vec)                         (* has attribute v: a diagonal *)
| EMatrix (m : mat)                       (* has attribute matrix, or a method collapse *)
| EFun (m n : nat) (act : vec -> vec)     (* only create_vec and * vector *)
| EOther.                                 (* none of the above *)

(** matrix_utils.py:15-22 *)
Definition is_number (e : expr) : bool := match e with ENum _ => true | _ => false end.

(** cbc.block operator overloads (see the header). *)
Definition chain_of (e : expr) : list expr := match e with EMul c => c | _ => [e] end.
Definition py_mul (a b : expr) : expr :=
  match a, b with
  | ENum x, ENum y => ENum (x * y)
  | _, _ => EMul (chain_of a ++ chain_of b)
  end.
Definition py_add (a b : expr) : expr :=
  match a, b with ENum x, ENum y => ENum (x + y) | _, _ => EAdd a b end.
Definition py_sub (a b : expr) : expr :=
  match a, b with ENum x, ENum y => ENum (x - y) | _, _ => ESub a b end.

(** functools.reduce(operator.mul, B) *)
Definition reduce_mul (l : list expr) : res expr :=
  match l with [] => Err TypeError | x :: l' => Ok (fold_left py_mul l' x) end.

(** The tolerance 1E-14 of convert.py:155,157. *)
Definition tol14 : Qc := Q2Qc (1 # 100000000000000).

(** Rn_basis (convert.py:403-415): the unit vectors of R^n in order. *)
Definition unit_vec (n j : nat) : vec := vtab n (fun i => if i =? j then q1 else q0).
Definition Rn_basis (n : nat) : list vec := map (unit_vec n) (seq 0 n).

(** The columns branch of collapse (convert.py:125-133): stack the images of
    the unit vectors as rows, transpose.  scipy.sparse.vstack raises ValueError
    for no rows and for rows of different length. *)
Definition collapse_columns (n : nat) (act : vec -> vec) : res expr :=
  let columns := map act (Rn_basis n) in
  match columns with
  | [] => Err ValueError
  | c :: _ =>
    if forallb (fun c' => length c' =? length c) columns
    then Ok (EMat (mtr (of_rows n (length c) columns)))
    else Err ValueError
  end.

(** collapse, collapse_tr, collapse_add, collapse_sub, collapse_mul
    (convert.py:81-221).  One unit of fuel is one Python call; vectors are not
    part of [expr].  [abs(B) < 1E-14] is [qltb (qabs b) tol14]. *)
Fixpoint collapse (fuel : nat) (e : expr) : res expr :=
  match fuel with
  | 0 => Err OutOfFuel
  | S fuel =>
    match e with
    | EMat _ | ENum _ => Ok e
    | EMul _ => collapse_mul fuel e
    | EAdd _ _ => collapse_add fuel e
    | ESub _ _ => collapse_sub fuel e
    | ETr _ => collapse_tr fuel e
    | EDiag v => Ok (EMat (mdiag (length v) (vnth v)))
    | EMatrix m => Ok (EMat m)
    | EFun _ n act => collapse_columns n act
    | EOther => Err ValueError
    end
  end
with collapse_tr (fuel : nat) (e : expr) : res expr :=
  match fuel with
  | 0 => Err OutOfFuel
  | S fuel =>
    match e with
    | ETr (EMat m) => Ok (EMat (mtr m))
    | ETr _ => do x <- collapse fuel e; collapse_tr fuel x
    | _ => Err AttributeError
    end
  end
with collapse_add (fuel : nat) (e : expr) : res expr :=
  match fuel with
  | 0 => Err OutOfFuel
  | S fuel =>
    match e with
    | EAdd a b =>
      let recurse := do a' <- collapse fuel a; do b' <- collapse fuel b;
                     collapse_add fuel (py_add a' b') in
      match a, b with
      | EMat A, ENum y => if qltb (qabs y) tol14 then Ok a else recurse
      | ENum x, EMat B => if qltb (qabs x) tol14 then Ok b else recurse
      | EMat A, EMat B =>
        do _ <- py_assert ((nr A =? nr B) && (nc A =? nc B));
        Ok (EMat (madd A B))
      | _, _ => recurse
      end
    | _ => Err AttributeError
    end
  end
with collapse_sub (fuel : nat) (e : expr) : res expr :=
  match fuel with
  | 0 => Err OutOfFuel
  | S fuel =>
    match e with
    | ESub a b =>
      match a, b with
      | EMat A, EMat B =>
        do _ <- py_assert ((nr A =? nr B) && (nc A =? nc B));
        Ok (EMat (msub A B))
      | _, _ => do a' <- collapse fuel a; do b' <- collapse fuel b;
                collapse_sub fuel (py_sub a' b')
      end
    | _ => Err AttributeError
    end
  end
with collapse_mul (fuel : nat) (e : expr) : res expr :=
  match fuel with
  | 0 => Err OutOfFuel
  | S fuel =>
    match e with
    | EMul [] => Err IndexError
    | EMul [a; b] =>
      match a, b with
      | EMat A, EMat B =>
        do _ <- py_assert (nc A =? nr B);
        Ok (EMat (mmul A B))
      | EMat A, ENum y => Ok (EMat (mscale y A))
      | ENum x, EMat B => Ok (EMat (mscale x B))
      | _, _ => do a' <- collapse fuel a; do b' <- collapse fuel b;
                collapse fuel (py_mul a' b')
      end
    | EMul (a :: B) =>
      do a' <- collapse fuel a; do r <- reduce_mul B; do b' <- collapse fuel r;
      collapse_mul fuel (py_mul a' b')
    | _ => Err AttributeError
    end
  end.

(** get_dims (convert.py:294-356): [None] for numbers.  EDiag objects carry the
    square PETSc matrix [A] they were made from; EMatrix objects have
    [__sizes__] or create_vec; both give the stored size. *)
Notation dims := (option (nat * nat)) (only parsing).

Fixpoint get_dims (fuel : nat) (e : expr) : res dims :=
  match fuel with
  | 0 => Err OutOfFuel
  | S fuel =>
    match e with
    | EMat m => Ok (Some (nr m, nc m))
    | ENum _ => Ok None
    | EMul [] => Err IndexError
    | EMul [_] => Err IndexError
    | EMul (a :: b :: bs) =>
      do dA <- get_dims fuel a; do dB <- get_dims fuel b;
      match dA, dB with
      | None, _ => Ok dB
      | _, None => Ok dA
      | Some (ra, ca), Some (rb, cb) =>
        match bs with
        | [] => do _ <- py_assert (ca =? rb); Ok (Some (ra, cb))
        | _ =>
          do r <- reduce_mul (b :: bs); do dB' <- get_dims fuel r;
          match dB' with
          | None => Err TypeError
          | Some (rb', cb') => do _ <- py_assert (ca =? rb'); Ok (Some (ra, cb'))
          end
        end
      end
    | EAdd a b | ESub a b =>
      if is_number a then get_dims fuel b
      else if is_number b then get_dims fuel a
      else
        do dA <- get_dims fuel a; do dB <- get_dims fuel b;
        do _ <- py_assert
          (match dA, dB with
           | None, None => true
           | Some (p, q), Some (r, s) => (p =? r) && (q =? s)
           | _, _ => false
           end);
        Ok dA
    | ETr a =>
      do d <- get_dims fuel a;
      match d with Some (p, q) => Ok (Some (q, p)) | None => Err TypeError end
    | EDiag v => Ok (Some (length v, length v))
    | EMatrix m => Ok (Some (nr m, nc m))
    | EFun m n _ => Ok (Some (m, n))
    | EOther => Err ValueError
    end
  end.

(** ** Block matrices and vectors *)

(** cbc.block create_vec(dim): the size of the range (0) and of the domain (1)
    of an operator; numbers have none.  For a product the outermost operators
    of the chain decide, for a sum the first summand that knows. *)
Fixpoint first_some {A} (l : list (option A)) : option A :=
  match l with [] => None | Some a :: _ => Some a | None :: l' => first_some l' end.

Fixpoint create_dims (e : expr) : dims :=
  match e with
  | EMat m => Some (nr m, nc m)
  | ENum _ => None
  | EMul l =>
    match first_some (map create_dims l), first_some (rev (map create_dims l)) with
    | Some (p, _), Some (_, q) => Some (p, q)
    | _, _ => None
    end
  | EAdd a b | ESub a b =>
    match create_dims a with Some d => Some d | None => create_dims b end
  | ETr a => match create_dims a with Some (p, q) => Some (q, p) | None => None end
  | EDiag v => Some (length v, length v)
  | EMatrix m => Some (nr m, nc m)
  | EFun m n _ => Some (m, n)
  | EOther => None
  end.

(** block_mat.blocks: the rows of blocks. *)
Definition bmat := list (list expr).
Definition nbrows (b : bmat) : nat := length b.
Definition nbcols (b : bmat) : nat := match b with [] => 0 | row :: _ => length row end.
Definition blk (b : bmat) (i j : nat) : expr := nth j (nth i b []) EOther.

(** bmat_sizes (convert.py:359-375), block_mat case.  cbc.block's
    block_mat.create_vec raises when a whole block row (column) consists of
    numbers; here ValueError. *)
Definition bmat_sizes (b : bmat) : res (list nat * list nat) :=
  do rs <- mapM (fun i => opt_res ValueError
                  (first_some (map (fun j => option_map fst (create_dims (blk b i j))) (seq 0 (nbcols b)))))
                (seq 0 (nbrows b));
  do cs <- mapM (fun j => opt_res ValueError
                  (first_some (map (fun i => option_map snd (create_dims (blk b i j))) (seq 0 (nbrows b)))))
                (seq 0 (nbcols b));
  Ok (rs, cs).

(** matrix_utils.py:46-56 with a number. *)
Definition diagonal_matrix (n : nat) (a : Qc) : mat := mdiag n (fun _ => a).

(** matrix_utils.py:90-101; every row stores a zero in column 0, which scipy
    rejects when there are no columns. *)
Definition zero_matrix (m n : nat) : res mat :=
  if (n =? 0) && (0 <? m) then Err ValueError else Ok (mzero m n).

(** The body of the loop convert.py:42-56 together with the check 60-61. *)
Definition convert_block (fuel i j ri cj : nat) (e : expr) : res mat :=
  do A <- collapse fuel e;
  match A with
  | ENum a =>
    if (i =? j) && (ri =? cj) then Ok (diagonal_matrix ri a) else zero_matrix ri cj
  | EMat m => Ok m
  | _ => Err AssertionError
  end.

(** convert(bmat, algorithm='') of a block matrix (convert.py:35-66): the
    collapsed blocks.  set_lg_map does not change entries. *)
Definition convert_blocks (fuel : nat) (b : bmat) : res (list (list mat)) :=
  do sizes <- bmat_sizes b;
  let '(rs, cs) := sizes in
  mapM (fun i => mapM (fun j => convert_block fuel i j (nth i rs 0) (nth j cs 0) (blk b i j))
                      (seq 0 (nbcols b)))
       (seq 0 (nbrows b)).

(** Position of a monolithic index: (block, index inside the block). *)
Fixpoint locate (sizes : list nat) (k : nat) : nat * nat :=
  match sizes with
  | [] => (0, k)
  | s :: sizes' => if k <? s then (0, k) else let '(i, r) := locate sizes' (k - s) in (S i, r)
  end.

Definition mnth (bs : list (list mat)) (i j : nat) : mat := nth j (nth i bs []) (mzero 0 0).

(** scipy.sparse.bmat as used in block_mat_to_numpy (convert.py:230-243): sizes
    are read off the first column / first row of blocks; other sizes raise
    ValueError (simplification: also when one of them is 0). *)
Definition numpy_block_mat (m n : nat) (bs : list (list mat)) : res mat :=
  let rs := map (fun i => nr (mnth bs i 0)) (seq 0 m) in
  let cs := map (fun j => nc (mnth bs 0 j)) (seq 0 n) in
  if forallb (fun i => forallb (fun j => (nr (mnth bs i j) =? nth i rs 0) && (nc (mnth bs i j) =? nth j cs 0))
                               (seq 0 n)) (seq 0 m)
  then Ok (Mat (list_sum rs) (list_sum cs)
             (fun I J => let '(i, r) := locate rs I in let '(j, c) := locate cs J in
                         ent (mnth bs i j) r c))
  else Err ValueError.

(** convert of a block matrix with algorithm='numpy' (convert.py:35-75). *)
Definition convert_bmat (fuel : nat) (b : bmat) : res mat :=
  do bs <- convert_blocks fuel b;
  numpy_block_mat (nbrows b) (nbcols b) bs.

(** convert of a block vector (convert.py:27-31, 225-227). *)
Definition convert_bvec (xs : list vec) : vec := concat xs.

(** PETSc norm type 2 is the Frobenius norm; [norm < tol] is
    [0 < tol /\ sum of squares < tol^2]. *)
Definition frob2 (A : mat) : Qc := sumn (nr A) (fun i => sumn (nc A) (fun j => (ent A i j * ent A i j)%Qc)).
Definition norm_lt (A : mat) (tol : Qc) : bool := qltb q0 tol && qltb (frob2 A) (tol * tol)%Qc.

(** nest of a block matrix without preconditioners (nest.py:135-158): [None]
    is an absent (zero) block of the PETSc nest matrix. *)
Definition nest_block (fuel : nat) (tol : Qc) (i j : nat) (e : expr) : res (option mat) :=
  match e with
  | ENum _ => Ok None
  | _ =>
    do A <- collapse fuel e;
    match A with
    | EMat m => Ok (if negb (i =? j) && norm_lt m tol then None else Some m)
    | _ => Err ValueError        (* as_petsc of something that is not a matrix *)
    end
  end.

Definition nest (fuel : nat) (tol : Qc) (b : bmat) : res (list (list (option mat))) :=
  mapM (fun i => mapM (fun j => nest_block fuel tol i j (blk b i j)) (seq 0 (nbcols b)))
       (seq 0 (nbrows b)).
