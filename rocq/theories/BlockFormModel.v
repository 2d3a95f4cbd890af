(** Model of xii/assembler/block_form.py.

    Function spaces are identifiers.  A form is the list of its integrals
    (measure, integrand); adding forms appends the lists, as ufl.Form does. *)
From Verif Require Import Base UflModel.
From Coq Require Import QArith Qcanon Qabs.
Local Open Scope nat_scope.
Local Close Scope Q_scope.
Local Close Scope Qc_scope.

Notation integral := (nat * expr)%type (only parsing).
Notation form := (list (nat * expr)) (only parsing).

(** 19-21: a block is a number, a (scalar) Constant or a form. *)
Inductive block := BNum (q : Qc) | BConst (q : Qc) | BForm (f : form).

(** ufl.algorithms.extract_arguments and filters 24-37: the function spaces of
    the distinct arguments with the given number (of a form). *)
Fixpoint dedup (l : list nat) : list nat :=
  match l with [] => [] | x :: l' => if existsb (Nat.eqb x) l' then dedup l' else x :: dedup l' end.
Definition arg_spaces (n : nat) (e : expr) : list nat :=
  flat_map (fun t => match tkind t with KArg m v => if m =? n then [v] else [] | _ => [] end) (terminals e).
Definition form_spaces (n : nat) (f : form) : list nat := dedup (flat_map (fun i => arg_spaces n (snd i)) f).
Definition test_function (f : form) : list nat := form_spaces 0 f.
Definition trial_function (f : form) : list nat := form_spaces 1 f.

(** 66-80: a linear block form is a list of blocks, a bilinear one a list of
    rows; row i remembers its test space V0[i]. *)
Inductive bform := Lin (V0 : list nat) (bs : list block) | Bil (V0 : list nat) (rows : list (list block)).

(** next(dropwhile(...)) of 105, 115, 118: the first index of the space *)
Fixpoint first_index (v : nat) (V0 : list nat) : res nat :=
  match V0 with
  | [] => Err StopIteration
  | w :: V' => if v =? w then Ok 0 else do i <- first_index v V'; Ok (S i)
  end.

(** old + form for the values a block can have (ufl.Form.__radd__ accepts
    only 0 from the left) *)
Definition block_plus (b : block) (f : form) : res block :=
  match b with
  | BNum q => if Qc_eq_bool q (Q2Qc 0) then Ok (BForm f) else Err TypeError
  | BConst _ => Err TypeError
  | BForm g => Ok (BForm (g ++ f))
  end.

Definition nat_list_eqb (l m : list nat) : bool := if list_eq_dec Nat.eq_dec l m then true else false.

(** list.__setitem__ with a nonnegative index *)
Fixpoint set_nth {A} (l : list A) (i : nat) (x : A) : res (list A) :=
  match l, i with
  | [], _ => Err IndexError
  | _ :: l', O => Ok (x :: l')
  | y :: l', S i' => do r <- set_nth l' i' x; Ok (y :: r)
  end.
Definition get_nth {A} (l : list A) (i : nat) : res A := match nth_error l i with Some x => Ok x | None => Err IndexError end.

(** 82-86: __setitem__ of a linear block form *)
Definition set_lin (V0 : list nat) (bs : list block) (i : nat) (value : block) : res (list block) :=
  do _ <- match value with
       | BForm f => do v <- get_nth V0 i; if nat_list_eqb [v] (test_function f) then Ok tt else Err AssertionError
       | _ => Ok tt
       end;
  set_nth bs i value.

(** 88-91: __setitem__ of a row of a bilinear block form (V1 = test space) *)
Definition set_row (V0 : list nat) (V1 : nat) (row : list block) (j : nat) (value : block) : res (list block) :=
  do _ <- match value with
       | BForm f => if nat_list_eqb [V1] (test_function f) then
                      do v <- get_nth V0 j; if nat_list_eqb [v] (trial_function f) then Ok tt else Err AssertionError
                    else Err AssertionError
       | _ => Ok tt
       end;
  set_nth row j value.

(** bform[i][j] = value for a bilinear form *)
Definition set_bil (V0 : list nat) (rows : list (list block)) (i j : nat) (value : block) : res (list (list block)) :=
  do row <- get_nth rows i;
  do V1 <- get_nth V0 i;
  do row' <- set_row V0 V1 row j value;
  set_nth rows i row'.
Definition get_bil (rows : list (list block)) (i j : nat) : res block := do row <- get_nth rows i; get_nth row j.

Definition only (l : list nat) : res nat := match l with [x] => Ok x | _ => Err ValueError end.

(** 98-121: add, a form with (at most) one integral *)
Definition add1 (b : bform) (f : form) : res bform :=
  match b with
  | Lin V0 bs =>
    match trial_function f with
    | [] => do v <- only (test_function f);
            do i <- first_index v V0;
            do old <- get_nth bs i;
            do new <- block_plus old f;
            do bs' <- set_lin V0 bs i new;
            Ok (Lin V0 bs')
    | _ => Err AssertionError
    end
  | Bil V0 rows =>
    do v <- only (test_function f);
    do u <- only (trial_function f);
    do col <- first_index u V0;
    do row <- first_index v V0;
    do old <- get_bil rows row col;
    do new <- block_plus old f;
    do rows' <- set_bil V0 rows row col new;
    Ok (Bil V0 rows')
  end.

(** 95-96: list(map(self.add, ...)); a StopIteration coming out of self.add
    is taken by list() as the end of the map, the state is what was reached. *)
Fixpoint add_map (b : bform) (l : list integral) : res bform :=
  match l with
  | [] => Ok b
  | i :: l' => match add1 b [i] with
               | Ok b' => add_map b' l'
               | Err StopIteration => Ok b
               | Err e => Err e
               end
  end.

(** 93-121 add *)
Definition add (b : bform) (f : form) : res bform :=
  if 1 <? length f then add_map b f else add1 b f.

(** Successive calls of add. *)
Fixpoint adds (b : bform) (fs : list form) : res bform :=
  match fs with [] => Ok b | f :: fs' => do b' <- add b f; adds b' fs' end.

(** 142-152: block_form(W, arity); zf V is the null form on V (149-151) *)
Definition block_form (zf : nat -> form) (W : list nat) (arity : nat) : res bform :=
  if (0 <? arity) && (arity <? 3) then
    match W with
    | [] => Err StopIteration   (* elm_type of an empty list, 61-63 *)
    | _ => if arity =? 1 then Ok (Lin W (map (fun v => BForm (zf v)) W))
           else Ok (Bil W (map (fun _ => repeat (BNum (Q2Qc 0)) (length W)) W))
    end
  else Err AssertionError.

(** 123-134 __add__ *)
Definition block_sum (a b : block) : res block :=
  match a, b with
  | BNum p, BNum q => Ok (BNum (Qcplus p q))
  | BForm f, BForm g => Ok (BForm (f ++ g))
  | BForm f, BNum q => if Qc_eq_bool q (Q2Qc 0) then Ok (BForm f) else Err TypeError
  | BNum q, BForm f => if Qc_eq_bool q (Q2Qc 0) then Ok (BForm f) else Err TypeError
  | _, _ => Err TypeError
  end.
Definition bform_add (a b : bform) : res bform :=
  match a, b with
  | Lin V bs, Lin W cs =>
    if nat_list_eqb V W then
      do l <- mapM (fun i => do x <- get_nth bs i; do y <- get_nth cs i; block_sum x y) (seq 0 (length V));
      Ok (Lin V l)
    else Err AssertionError
  | Bil V rs, Bil W ss =>
    if nat_list_eqb V W then
      do l <- mapM (fun i => mapM (fun j => do x <- get_bil rs i j; do y <- get_bil ss i j; block_sum x y) (seq 0 (length V)))
                (seq 0 (length V));
      Ok (Bil V l)
    else Err AssertionError
  | _, _ => Err AssertionError
  end.

(** 155-164 is_null; DOLFIN_EPS = 3e-16 *)
Definition eps : Q := Qmake 3 10000000000000000.
Definition is_null (b : block) : bool :=
  match b with
  | BForm _ => false
  | BNum q | BConst q => match Qcompare (Qabs q) eps with Lt => true | _ => false end
  end.

Definition below (n : nat) : list (nat * nat) := flat_map (fun i => map (fun j => (i, j)) (seq 0 i)) (seq 0 n).

(** all(generator): stops at the first false *)
Fixpoint allM (l : list (res bool)) : res bool :=
  match l with [] => Ok true | x :: l' => do b <- x; if b then allM l' else Ok false end.

(** 167-176 *)
Definition is_upper_triangular (b : bform) : res bool :=
  match b with
  | Lin _ _ => Ok false
  | Bil V0 rows => allM (map (fun ij => do x <- get_bil rows (fst ij) (snd ij); Ok (is_null x)) (below (length V0)))
  end.
Definition is_lower_triangular (b : bform) : res bool :=
  match b with
  | Lin _ _ => Ok false
  | Bil V0 rows => allM (map (fun ij => do x <- get_bil rows (snd ij) (fst ij); Ok (is_null x)) (below (length V0)))
  end.

(** 190-208: form_adjoint of an integrand.  [ord] is the order in which the
    Python set is iterated.  The first of several ==-equal arguments is the
    one kept by the set. *)
Fixpoint set_of (l : list term) : list term :=
  match l with [] => [] | t :: l' => t :: filter (fun s => negb (ufl_eq t s)) (set_of l') end.
Definition is_argument (t : term) : bool := match tkind t with KArg _ _ => true | _ => false end.
Definition arguments (e : expr) : list term := set_of (filter is_argument (terminals e)).

Definition ii_attrs : list attr := [ATrace; ARestriction; AAverage].
Definition adj_arg (arg : term) : res term :=
  match tkind arg with
  | KArg 0 v => Ok (Term (KArg 1 v) (a_trace arg) (a_restriction arg) (a_average arg) [])
  | KArg 1 v => Ok (Term (KArg 0 v) (a_trace arg) (a_restriction arg) (a_average arg) [])
  | KArg _ _ => Err KeyError
  | KOther _ => Err AttributeError
  end.
Fixpoint adjoint_args (e : expr) (args : list term) : res expr :=
  match args with
  | [] => Ok e
  | arg :: args' => do new <- adj_arg arg;
                    adjoint_args (replace e (Leaf arg) (Leaf new) (Some (filter (hasattr arg) ii_attrs))) args'
  end.
Definition expr_adjoint (ord : list term -> list term) (e : expr) : res expr := adjoint_args e (ord (arguments e)).

(** 179-188 *)
Definition form_adjoint (ord : list term -> list term) (b : block) : res block :=
  match b with
  | BForm f => do l <- mapM (fun i => do e <- expr_adjoint ord (snd i); Ok (fst i, e)) f; Ok (BForm l)
  | _ => Ok b
  end.

(** 211-229 make_selfadjoint *)
Fixpoint fill (ord : list term -> list term) (upper : bool) (V0 : list nat) (rows : list (list block)) (l : list (nat * nat))
  : res (list (list block)) :=
  match l with
  | [] => Ok rows
  | (i, j) :: l' =>
    let (p, q) := if upper then (i, j) else (j, i) in
    do src <- get_bil rows q p;
    do value <- form_adjoint ord src;
    do rows' <- set_bil V0 rows p q value;
    fill ord upper V0 rows' l'
  end.
Definition make_selfadjoint (ord : list term -> list term) (b : bform) : res bform :=
  do u <- is_upper_triangular b;
  if u then
    match b with Bil V0 rows => do r <- fill ord true V0 rows (below (length V0)); Ok (Bil V0 r) | _ => Err ValueError end
  else
    do lo <- is_lower_triangular b;
    if lo then
      match b with Bil V0 rows => do r <- fill ord false V0 rows (below (length V0)); Ok (Bil V0 r) | _ => Err ValueError end
    else Err ValueError.

(** 232-255 permute *)
Inductive ordering := ByIndex (l : list Z) | BySpace (l : list nat).

Fixpoint zinsert (x : Z) (l : list Z) : list Z :=
  match l with [] => [x] | y :: l' => if (x <=? y)%Z then x :: l else y :: zinsert x l' end.
Fixpoint np_sort (l : list Z) : list Z := match l with [] => [] | x :: l' => zinsert x (np_sort l') end.
Fixpoint np_diff (l : list Z) : list Z :=
  match l with x :: ((y :: _) as l') => (y - x)%Z :: np_diff l' | _ => [] end.

(** Python list indexing *)
Definition py_get {A} (l : list A) (i : Z) : res A :=
  let k := if (i <? 0)%Z then (i + Z.of_nat (length l))%Z else i in
  if (k <? 0)%Z then Err IndexError else get_nth l (Z.to_nat k).

Definition index_of (v : nat) (V0 : list nat) : res Z :=
  match first_index v V0 with Ok i => Ok (Z.of_nat i) | Err _ => Err ValueError end.

Definition zmin (l : list Z) : Z := match l with [] => 0%Z | x :: l' => fold_left Z.min l' x end.
Definition zmax (l : list Z) : Z := match l with [] => 0%Z | x :: l' => fold_left Z.max l' x end.

Definition permute_idx (b : bform) (o : list Z) : res bform :=
  let V0 := match b with Lin V _ => V | Bil V _ => V end in
  let n := length V0 in
  match np_diff (np_sort o) with
  | [] => Err ValueError
  | step :: rest =>
    if forallb (Z.eqb step) rest then
      if negb (Z.abs step =? 1)%Z then Err AssertionError
      else if negb (length o =? n) then Err AssertionError
      else if negb ((zmin o =? 0) && (zmax o =? Z.of_nat n - 1))%Z then Err AssertionError
      else
        do W <- mapM (py_get V0) o;
        match b with
        | Lin _ bs => do l <- mapM (py_get bs) o; Ok (Lin W l)
        | Bil _ rows => do l <- mapM (fun i => mapM (fun j => do row <- py_get rows i; py_get row j) o) o; Ok (Bil W l)
        end
    else Err ValueError
  end.

Definition permute (b : bform) (o : ordering) : res bform :=
  let V0 := match b with Lin V _ => V | Bil V _ => V end in
  match o with
  | ByIndex [] | BySpace [] => Err StopIteration
  | ByIndex l => permute_idx b l
  | BySpace l => do o' <- mapM (fun v => index_of v V0) l; permute_idx b o'
  end.
