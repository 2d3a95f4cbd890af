(** Model of the inverse of linear combinations of fractional norms,
    xii/linalg/hsmg_utils.py:12-113.

    Scalars are real numbers (floating point is not modelled).  From the package
    hsmg only the attributes of an InterpolationMatrix are used: the matrices A
    and M, the exponent s, and lmbda and U if they have been computed; what its
    power -1 is (line 18) is not modelled.  The power of an eigenvalue
    (by numpy) and scipy's eigh are parameters.  Division of 1 by a vanishing
    entry (numpy gives inf) is division of real numbers in the model; the theorems
    do not depend on it. *)
From Coq Require Import Reals List Arith.
From Verif Require Export Base.
From Verif Require Import RLin.
Import ListNotations.
Local Open Scope R_scope.

Record rmat := RMat { rnr : nat; rnc : nat; rent : nat -> nat -> R }.
Record interp := Interp { i_A : rmat; i_M : rmat; i_s : R; i_lmbda : option (nat -> R); i_U : option (nat -> nat -> R) }.

(** Expressions of cbc.block; VectorizedOperator is of block_utils.py:184-245;
    [HOther] is any other operand, eg a matrix. *)
Inductive hexpr :=
| HNum (a : R)
| HInterp (i : interp)
| HMul (chain : list hexpr)
| HAdd (x y : hexpr)
| HSub (x y : hexpr)
| HVec (x : hexpr) (W : nat)
| HOther.

(** What inverse returns *)
Inductive hinv := IPow (i : interp) | IVec (x : hinv) (W : nat) | IMat (B : rmat).

(** 43-58 crawl: numbers and interpolation matrices *)
Inductive terminal := TNum (a : R) | TInterp (i : interp).
Fixpoint crawl (e : hexpr) : list terminal :=
  match e with
  | HMul chain => flat_map crawl chain
  | HAdd x y | HSub x y => crawl x ++ crawl y
  | HNum a => [TNum a]
  | HInterp i => [TInterp i]
  | HVec _ _ | HOther => []
  end.
Definition interps (e : hexpr) : list interp := flat_map (fun t => match t with TInterp i => [i] | TNum _ => [] end) (crawl e).

(** 61-74 is_well_defined *)
Definition same_size (A B : rmat) : bool := (Nat.eqb (rnr A) (rnr B) && Nat.eqb (rnc A) (rnc B))%bool.
Definition is_well_defined (e : hexpr) : bool :=
  match interps e with
  | [] => true
  | i :: rest => forallb (fun j => same_size (i_A i) (i_A j) && same_size (i_M i) (i_M j))%bool rest
  end.

(** 77-98 collect; None is returned when nothing fits *)
Fixpoint collect (e : hexpr) : res (option (list (R * R))) :=
  match e with
  | HInterp i => Ok (Some [(1, i_s i)])
  | HAdd x y => do a <- collect x; do b <- collect y;
                match a, b with Some l, Some r => Ok (Some (l ++ r)) | _, _ => Err TypeError end
  | HSub x y => do b <- collect y; do a <- collect x;
                match b with
                | None => Err TypeError
                | Some r => match a with Some l => Ok (Some (l ++ map (fun p => (- fst p, snd p)) r)) | None => Err TypeError end
                end
  | HMul [x; y] =>
    match x with
    | HInterp i => match y with HNum b => Ok (Some [(b, i_s i)]) | _ => Err AssertionError end
    | HNum a => match y with HInterp i => Ok (Some [(a, i_s i)]) | _ => Err AssertionError end
    | _ => Err AssertionError
    end
  | HMul _ => Err AssertionError
  | HNum _ | HVec _ _ | HOther => Ok None
  end.

(** 101-113 extract_attributes for one attribute: the first terminal having it (a
    number has none of them) *)
Definition extract {T} (attr : interp -> option T) (e : hexpr) : option T :=
  fold_right (fun i found => match attr i with Some t => Some t | None => found end) None (interps e).

Section Inverse.
(** lmbda to the power s *)
Variable power : R -> R -> R.
(** scipy.linalg.eigh *)
Variable eigh : rmat -> rmat -> res ((nat -> R) * (nat -> nat -> R)).

(** 26-31 *)
Definition eigenpairs (e : hexpr) : res ((nat -> R) * (nat -> nat -> R) * nat) :=
  match extract (fun i => Some (i_A i)) e with
  | None => Err AttributeError                        (* None.array() *)
  | Some A =>
    match extract i_lmbda e, extract i_U e with
    | Some l, Some U => Ok (l, U, rnr A)
    | _, _ => match extract (fun i => Some (i_M i)) e with
              | None => Err AttributeError
              | Some M => do lU <- eigh A M; Ok (fst lU, snd lU, rnr A)
              end
    end
  end.
(** 33-35 *)
Definition diagonal (l : nat -> R) (terms : list (R * R)) (k : nat) : R :=
  fold_left (fun d p => d + fst p * power (l k) (snd p)) terms 0.
(** 12-41 inverse.  The size of the result is that of the eigenvectors. *)
Fixpoint inverse (e : hexpr) : res hinv :=
  match e with
  | HInterp i => Ok (IPow i)
  | HVec x W => do r <- inverse x; Ok (IVec r W)
  | _ =>
    if negb (is_well_defined e) then Err AssertionError
    else
      do lUn <- eigenpairs e;
      let '(l, U, n) := lUn in
      do terms <- collect e;
      match terms with
      | None => Err TypeError
      | Some ts =>
        let d := fun k => 1 / diagonal l ts k in
        Ok (IMat (RMat n n (fun i j => rsum n (fun k => U i k * (d k * U j k)))))
      end
  end.
End Inverse.
