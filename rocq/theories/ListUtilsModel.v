(** Model of xii/linalg/list_utils.py (whole file) and of the list branch of
    xii/assembler/xii_assembly.py:assemble (lines 59-67).

    A Python value is a rose tree: [Leaf a] is anything that is not a list,
    [Node l] is a Python list. *)
From Verif Require Import Base.

Inductive tree (A : Type) := Leaf (a : A) | Node (l : list (tree A)).
Arguments Leaf {A} a.
Arguments Node {A} l.

Fixpoint eqb_shape (s t : list nat) : bool :=
  match s, t with
  | [], [] => true
  | x :: s', y :: t' => (x =? y) && eqb_shape s' t'
  | _, _ => false
  end.

(** list_utils.py 6-14 [shape_list].  The set of item shapes is a singleton iff
    every shape equals the first one; [assert not items_shape] otherwise. *)
Fixpoint shape_list {A} (t : tree A) : res (list nat) :=
  match t with
  | Leaf _ => Ok []
  | Node l =>
    match l with
    | [] => Ok []
    | _ =>
      do shapes <- mapM shape_list l;
      match shapes with
      | [] => Ok []
      | s :: rest =>
        do _ <- py_assert (forallb (eqb_shape s) rest);
        Ok (length l :: s)
      end
    end
  end.

(** [sum(lst, [])] on a list whose items must be lists: list_utils.py 23. *)
Definition children {A} (t : tree A) : res (list (tree A)) :=
  match t with Leaf _ => Err TypeError | Node l => Ok l end.

Definition sum_lists {A} (t : tree A) : res (tree A) :=
  do l <- children t;
  do ls <- mapM children l;
  Ok (Node (concat ls)).

(** list_utils.py 22-25, the [while len(fshape) > 1] loop; [rest] is fshape[1:],
    fshape[0] is never read. *)
Fixpoint flatten_loop {A} (rest : list nat) (t : tree A) : res (tree A) :=
  match rest with
  | [] => Ok t
  | _ :: rest' => do t' <- sum_lists t; flatten_loop rest' t'
  end.

(** list_utils.py 17-25 [flatten_list]. *)
Definition flatten_list {A} (t : tree A) : res (tree A) :=
  do s <- shape_list t;
  flatten_loop (tl s) t.

(** list_utils.py 41-43 [package].  The recursion consumes [count] items per
    call; with count = 0 it does not end, hence the fuel. *)
Fixpoint package {A} (fuel : nat) (l : list (tree A)) (count : nat) : res (list (tree A)) :=
  match fuel with
  | 0 => Err OutOfFuel
  | S fuel' =>
    match l with
    | [] => Ok []
    | _ => do rest <- package fuel' (skipn count l) count;
           Ok (Node (firstn count l) :: rest)
    end
  end.

(** [reduce(lambda x, y: x*y, shape)]: list_utils.py 31; TypeError on an empty sequence. *)
Definition reduce_mul (s : list nat) : res nat :=
  match s with
  | [] => Err TypeError
  | x :: s' => Ok (fold_left Nat.mul s' x)
  end.

(** list_utils.py 34-38: the [while len(shape) > 1] loop, [rev_tail] is
    shape[:0:-1], i.e. shape[-1], shape[-2], ..., shape[1]. *)
Fixpoint package_loop {A} (rev_tail : list nat) (t : tree A) : res (tree A) :=
  match rev_tail with
  | [] => Ok t
  | count :: rest =>
    do l <- children t;
    do l' <- package (S (length l)) l count;
    package_loop rest (Node l')
  end.

(** list_utils.py 28-38 [reshape_list]. *)
Definition reshape_list {A} (t : tree A) (shape : list nat) : res (tree A) :=
  do old <- shape_list t;
  do p <- reduce_mul old;
  do q <- reduce_mul shape;
  do _ <- py_assert (p =? q);
  do flat <- flatten_list t;
  package_loop (rev (tl shape)) flat.

(** Result of xii_assembly.assemble: a tensor/number, or a block_vec / block_mat
    around a nested list of results. *)
Inductive asm (B : Type) := Tensor (b : B) | BlockVec (t : tree (asm B)) | BlockMat (t : tree (asm B)).
Arguments Tensor {B} b.
Arguments BlockVec {B} t.
Arguments BlockMat {B} t.

(** xii_assembly.py 24-67 [assemble].  [f] stands for lines 46-60: what happens to a
    Form or a number.  Recursion is over list_utils.flatten_list results (line 65),
    hence the fuel (nesting depth suffices). *)
Fixpoint assemble {A B} (f : A -> res B) (fuel : nat) (t : tree A) : res (asm B) :=
  match fuel with
  | 0 => Err OutOfFuel
  | S fuel' =>
    match t with
    | Leaf a => do b <- f a; Ok (Tensor b)
    | Node _ =>
      do shape <- shape_list t;
      do flat <- flatten_list t;
      do items <- children flat;
      do done <- mapM (assemble f fuel') items;
      do blocks <- reshape_list (Node (map Leaf done)) shape;
      Ok (if length shape =? 1 then BlockVec blocks else BlockMat blocks)
    end
  end.
