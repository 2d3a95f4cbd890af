(** Grad, Div and asExpr of sandbox/calculus.py:6-46

    Expressions of SymPy are trees; SymPy's simplifications do not change their values and are left
    out, but for the question of [values]: it keeps the entries of which SymPy does not know that
    they are zero, and [known_zero] says what it knows.  In asExpr the code of an expression is the
    expression itself; df.Expression is what it is made from. *)
From Verif Require Export Base.
From Coq Require Export Reals QArith.
From Coq Require Import Qreals.
Local Close Scope Q_scope.
Local Open Scope nat_scope.

Inductive expr :=
| Num (q : Q)
| Sym (s : nat)
| Plus (a b : expr)
| Times (a b : expr)
| Power (a : expr) (n : nat)
| Sin (a : expr)
| Cos (a : expr)
| Exp (a : expr).

(** e.diff(s) *)
Fixpoint diff (e : expr) (s : nat) : expr :=
  match e with
  | Num _ => Num 0
  | Sym t => if t =? s then Num 1 else Num 0
  | Plus a b => Plus (diff a s) (diff b s)
  | Times a b => Plus (Times (diff a s) b) (Times a (diff b s))
  | Power a n => Times (Times (Num (inject_Z (Z.of_nat n))) (Power a (pred n))) (diff a s)
  | Sin a => Times (Cos a) (diff a s)
  | Cos a => Times (Times (Num (-1)) (Sin a)) (diff a s)
  | Exp a => Times (Exp a) (diff a s)
  end.

(** sp.Matrix: the shape and the entries row by row *)
Record smat := SMat { rows : nat; cols : nat; entries : list expr }.
Inductive arg := Scalar (e : expr) | Matrix (M : smat).
(** f.row(i) *)
Definition row (M : smat) (i : nat) : smat := SMat 1 (cols M) (firstn (cols M) (skipn (i * cols M) (entries M))).
(** sp.Matrix of a list of expressions: a column *)
Definition column (l : list expr) : smat := match l with [] => SMat 0 0 [] | _ => SMat (length l) 1 l end.
(** sp.Matrix of a list of rows, all of length [n] *)
Definition of_rows (n : nat) (l : list (list expr)) : smat := match l with [] => SMat 0 0 [] | _ => SMat (length l) n (concat l) end.

(** 6-9 *)
Definition is_vector (M : smat) : bool := (rows M =? 1) || (cols M =? 1).
Definition is_2tensor (M : smat) : bool := negb ((rows M =? 1) || (cols M =? 1)).

(** sp.symbols('x[0], x[1]'), the default of X (12, 25) *)
Definition default : list nat := [0; 1].

Section Calculus.
Variable known_zero : expr -> bool.
(** M.values(): SymPy leaves out the zeros *)
Definition values (M : smat) : list expr := filter (fun e => negb (known_zero e)) (entries M).

(** 12-22 Grad *)
Definition Grad (f : arg) (X : list nat) : res smat :=
  match f with
  | Scalar e => do x <- opt_res IndexError (nth_error X 0); do y <- opt_res IndexError (nth_error X 1); Ok (column [diff e x; diff e y])
  | Matrix M =>
      do _ <- py_assert (is_vector M);
      Ok (of_rows (length X) (map (fun fi => map (fun xj => diff fi xj) X) (values M)))
  end.

(** 25-31 Div; a scalar has no shape; the calls for the rows have no X.  sum starts with 0 *)
Definition div_vector (M : smat) (X : list nat) : expr :=
  fold_left (fun s p => Plus s (diff (fst p) (snd p))) (combine (values M) X) (Num 0).
Definition Div (f : arg) (X : list nat) : res arg :=
  match f with
  | Scalar _ => Err AttributeError
  | Matrix M =>
      if is_vector M then Ok (Scalar (div_vector M X))
      else do _ <- py_assert (is_2tensor M); Ok (Matrix (column (map (fun i => div_vector (row M i) default) (seq 0 (rows M)))))
  end.

(** 34-46 asExpr *)
Inductive expression := EScalar (e : expr) | EVector (l : list expr) | ETensor (l : list (list expr)).
(** np.reshape of a list to [m] rows of length [n] *)
Fixpoint chunks (m n : nat) (l : list expr) : list (list expr) :=
  match m with O => [] | S m => firstn n l :: chunks m n (skipn n l) end.
Definition asExpr (f : arg) : res expression :=
  match f with
  | Scalar e => Ok (EScalar e)
  | Matrix M =>
      let code := values M in
      if is_vector M then if length code =? Nat.max (rows M) (cols M) then Ok (EVector code) else Err ValueError
      else if length code =? rows M * cols M then Ok (ETensor (chunks (rows M) (cols M) code)) else Err ValueError
  end.
End Calculus.
