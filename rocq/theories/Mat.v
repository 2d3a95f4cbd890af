(** Dense matrices and vectors over the canonical rationals [Qc].
    This stands for PETSc/scipy matrices (entries instead of storage format);
    no part of /repo is modelled here.  A matrix is a size and an entry
    function; only entries inside the size are meaningful, so equality is
    [meq]. *)
From Verif Require Export Base.
From Coq Require Export QArith Qcanon.
Export ListNotations.
Open Scope nat_scope.
Open Scope list_scope.

Definition q0 : Qc := Q2Qc 0.
Definition q1 : Qc := Q2Qc 1.

(** Sum of [f 0 .. f (n-1)]. *)
Fixpoint sumn (n : nat) (f : nat -> Qc) : Qc :=
  match n with 0 => q0 | S n' => (sumn n' f + f n')%Qc end.

Record mat := Mat { nr : nat; nc : nat; ent : nat -> nat -> Qc }.

(** Same size and same entries inside the size. *)
Definition meq (A B : mat) : Prop :=
  nr A = nr B /\ nc A = nc B /\
  forall i j, i < nr A -> j < nc A -> ent A i j = ent B i j.

Definition madd (A B : mat) := Mat (nr A) (nc A) (fun i j => (ent A i j + ent B i j)%Qc).
Definition msub (A B : mat) := Mat (nr A) (nc A) (fun i j => (ent A i j - ent B i j)%Qc).
Definition mscale (a : Qc) (A : mat) := Mat (nr A) (nc A) (fun i j => (a * ent A i j)%Qc).
Definition mmul (A B : mat) :=
  Mat (nr A) (nc B) (fun i j => sumn (nc A) (fun k => (ent A i k * ent B k j)%Qc)).
Definition mtr (A : mat) := Mat (nc A) (nr A) (fun i j => ent A j i).
Definition mdiag (n : nat) (d : nat -> Qc) :=
  Mat n n (fun i j => if i =? j then d i else q0).
Definition mid (n : nat) := mdiag n (fun _ => q1).
Definition mzero (m n : nat) := Mat m n (fun _ _ => q0).

(** Vectors are lists; [vnth] reads with default 0. *)
Notation vec := (list Qc).
Definition vnth (x : vec) (i : nat) : Qc := nth i x q0.
Definition vtab (n : nat) (f : nat -> Qc) : vec := map f (seq 0 n).
Definition mv (A : mat) (x : vec) : vec :=
  vtab (nr A) (fun i => sumn (nc A) (fun j => (ent A i j * vnth x j)%Qc)).
Definition vdot (x y : vec) : Qc := sumn (length x) (fun i => (vnth x i * vnth y i)%Qc).
Definition vadd (x y : vec) : vec := vtab (length x) (fun i => (vnth x i + vnth y i)%Qc).
Definition vsub (x y : vec) : vec := vtab (length x) (fun i => (vnth x i - vnth y i)%Qc).
Definition vscale (a : Qc) (x : vec) : vec := vtab (length x) (fun i => (a * vnth x i)%Qc).

(** Matrix with the given rows (for examples and for columns computed one by
    one). *)
Definition of_rows (m n : nat) (rows : list (list Qc)) : mat :=
  Mat m n (fun i j => nth j (nth i rows []) q0).
Definition to_rows (A : mat) : list (list Qc) :=
  map (fun i => map (fun j => ent A i j) (seq 0 (nc A))) (seq 0 (nr A)).

(** Comparison and absolute value. *)
Definition qleb (a b : Qc) : bool := Qle_bool a b.
Definition qltb (a b : Qc) : bool := negb (qleb b a).
Definition qeqb (a b : Qc) : bool := if Qc_eq_dec a b then true else false.
Definition qabs (a : Qc) : Qc := if qleb q0 a then a else (- a)%Qc.
Definition qz (z : Z) : Qc := Q2Qc (inject_Z z).
