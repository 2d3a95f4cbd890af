(** Model of xii/linalg/block_nullspace.py and xii/linalg/sherman_morrison.py.

    Numbers are real numbers (no rounding).  A block_vec over spaces of
    dimensions [sizes] is the function giving entry i of block b; a Vector of
    size n is the function giving its entries.  The in-place operations of the
    code return the new vector here. *)
From Verif Require Import RLin.

(** ** block_nullspace.py *)

Definition bvec := nat -> nat -> R.

(** block_vec.inner, block_vec.norm('l2') *)
Definition inner (sizes : list nat) (u v : bvec) : R :=
  rsum (length sizes) (fun b => rsum (nth b sizes O) (fun i => u b i * v b i)).
Definition norm (sizes : list nat) (u : bvec) : R := sqrt (inner sizes u u).

(** vec -= alpha*b, (1/a)*vec *)
Definition bsub (u : bvec) (alpha : R) (v : bvec) : bvec := fun b i => u b i - alpha * v b i.
Definition bscale (a : R) (u : bvec) : bvec := fun b i => a * u b i.

(** 49-50 angles *)
Definition angles (sizes : list nat) (Z : list bvec) (vec : bvec) : list R := map (inner sizes vec) Z.

(** 43-47 orthogonalize: the angles are all computed before the loop. *)
Definition orthogonalize (sizes : list nat) (Z : list bvec) (vec : bvec) : bvec :=
  fold_left (fun v ba => bsub v (snd ba) (fst ba)) (combine Z (angles sizes Z vec)) vec.

(** 22-32: the blocks of the vector to be added.  interpolate and Constant are
    not imported by the module, so everything but a Vector is a NameError. *)
Inductive bentry := EVector (v : nat -> R) | EConstant | ENumber | ESequence.
Fixpoint substitute (vec : list bentry) : res (list (nat -> R)) :=
  match vec with
  | [] => Ok []
  | EVector v :: vec' => do l <- substitute vec'; Ok (v :: l)
  | _ :: _ => Err NameError
  end.
Definition as_bvec (l : list (nat -> R)) : bvec := fun b i => nth b l (fun _ => 0) i.

(** 34-36: the loop with its check for parallel vectors; alpha/vec.norm() is
    a division of Python floats. *)
Fixpoint add_loop (sizes : list nat) (l : list (bvec * R)) (vec : bvec) : res bvec :=
  match l with
  | [] => Ok vec
  | (b, alpha) :: l' =>
    let n := norm sizes vec in
    if Req_EM_T n 0 then Err ZeroDivisionError
    else if Rgt_dec (Rabs (Rabs (alpha / n) - 1)) (1 / 10 ^ 10)
    then add_loop sizes l' (bsub vec alpha b)
    else Err AssertionError
  end.

(** 22-41 add_vector: the new list of stored vectors. *)
Definition add_vector (sizes : list nat) (Z : list bvec) (vec : list bentry) : res (list bvec) :=
  do l <- substitute vec;
  let v := as_bvec l in
  do w <- add_loop sizes (combine Z (angles sizes Z v)) v;
  let n := norm sizes w in
  if Req_EM_T n 0 then Err ZeroDivisionError else Ok (Z ++ [bscale (1 / n) w]).

(** 6-13 __init__ with vectors, and any later calls of add_vector. *)
Fixpoint add_vectors (sizes : list nat) (Z : list bvec) (vecs : list (list bentry)) : res (list bvec) :=
  match vecs with
  | [] => Ok Z
  | v :: vecs' => do Z' <- add_vector sizes Z v; add_vectors sizes Z' vecs'
  end.
Definition block_nullspace (sizes : list nat) (vecs : list (list bentry)) : res (list bvec) :=
  add_vectors sizes [] vecs.

(** ** sherman_morrison.py *)

Definition fvec := nat -> R.
Definition dot (n : nat) (x y : fvec) : R := rsum n (fun i => x i * y i).
Definition mulv (n : nat) (M : nat -> nat -> R) (x : fvec) : fvec := fun i => rsum n (fun j => M i j * x j).

(** 12-19: the Gram matrix; entry (j, i) with j > i is a copy of (i, j). *)
Definition gram (n : nat) (M : nat -> nat -> R) (basis : list fvec) (i j : nat) : R :=
  let z k := nth k basis (fun _ => 0) in
  if (j <? i)%nat then dot n (z j) (mulv n M (z i)) else dot n (z i) (mulv n M (z j)).

(** 27: np.round(vals, 10); a tie is rounded up here (numpy: to even). *)
Definition round10 (x : R) : R := IZR (up (x * 10 ^ 10 - 1 / 2)) / 10 ^ 10.
Fixpoint unique (l : list R) : list R :=
  match l with
  | [] => []
  | x :: l' => if in_dec Req_EM_T x l' then unique l' else x :: unique l'
  end.

(** 8-33 orthonormalize.  [eig] stands for np.linalg.eig: the eigenvalues and
    the eigenvectors (already as the rows of vecs.T).  Eigenvalues are real
    here, so the check 23 of the imaginary parts is not there. *)
Definition lincomb (alphas : fvec) (basis : list fvec) : fvec :=
  fun i => rsum (length basis) (fun k => alphas k * nth k basis (fun _ => 0) i).
Definition orthonormalize (n : nat) (M : nat -> nat -> R) (basis : list fvec)
    (eig : (nat -> nat -> R) -> list (R * fvec)) : res (list fvec) :=
  let pairs := eig (gram n M basis) in
  let vals := map fst pairs in
  do _ <- py_assert (forallb (fun v => if Rgt_dec v 0 then true else false) vals);
  do _ <- py_assert (Nat.eqb (length (unique (map round10 vals))) (length vals));
  Ok (map (fun va => fun i => (1 / sqrt (fst va)) * lincomb (snd va) basis i) pairs).

(** 36-62 Projector.matvec: [z, Mz = next(basis)] needs one vector. *)
Definition projector (n : nat) (M : nat -> nat -> R) (basis : list fvec) (x : fvec) : res fvec :=
  match basis with
  | [] => Err StopIteration
  | z :: rest =>
    let y := fold_left (fun y z => fun i => y i + dot n (mulv n M z) x * z i) rest
               (fun i => dot n (mulv n M z) x * z i) in
    Ok (fun i => x i - y i)
  end.

(** 64-73 Projector.collapse: I - B.T*D with B, D the matrices whose rows are
    the primal and the dual basis; row_matrix unpacks the set of row sizes, which must not be empty. *)
Definition projector_matrix (n : nat) (M : nat -> nat -> R) (basis : list fvec) : res (nat -> nat -> R) :=
  match basis with
  | [] => Err ValueError
  | _ => Ok (fun i j => (if (i =? j)%nat then 1 else 0) -
               rsum (length basis) (fun k => nth k basis (fun _ => 0) i * mulv n M (nth k basis (fun _ => 0)) j))
  end.

(** 76-87 L20_inner_product.matvec *)
Definition l20_inner (n : nat) (M : nat -> nat -> R) (basis : list fvec) (x : fvec) : res fvec :=
  do p <- projector n M basis x; Ok (mulv n M p).

(** 97-125 L20_riesz_map.matvec; [iM] is the action of inv(M).  Line 123 divides
    by an integer and line 125 adds to x, not to y. *)
Definition l20_riesz (n : nat) (M : nat -> nat -> R) (iM : fvec -> fvec) (basis : list fvec) (x : fvec) : res fvec :=
  let y := iM x in
  match basis with
  | [] => Err StopIteration
  | p :: rest =>
    let w := fold_left (fun w p => fun i => w i + dot n (mulv n M p) y * p i) rest
               (fun i => dot n (mulv n M p) y * p i) in
    let scale := (1 - Z.of_nat (length basis))%Z in
    if Z.eqb scale 0 then Err ZeroDivisionError
    else Ok (fun i => x i + (1 / IZR scale) * w i)
  end.
