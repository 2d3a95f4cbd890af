(** Model of xii/nonlin/jacobian.py, lines 8-112: derivatives of functionals
    whose coefficients may be restricted, and block Jacobians.

    Expressions, attributes and [replace] are those of UflModel.v.  A
    coefficient is a terminal [KOther i]; [info i] says what the object with
    number i is.  ufl.derivative does not differentiate: it wraps the integrand
    into a CoefficientDerivative node, and this is what is modelled (its fourth
    operand, the empty mapping, is left out).  The order of the integrals in a
    form and simplifying constructors are not modelled. *)
From Verif Require Import Base UflModel.

Notation form := (list (nat * expr)) (only parsing).

(** dolfin.Function (with its function space and the id of its vector),
    dolfin.Constant, a coefficient without vector (dolfin.Expression), and any
    terminal which is not a coefficient (coordinates, normals, ...) *)
Inductive cinfo := CFun (space vec : nat) | CConst | CExpr | CNone.

(** Classes of ufl.differentiation.CoefficientDerivative, ufl.ExprList *)
Definition ty_deriv : nat := 0.
Definition ty_list : nat := 1.

Section Jac.
Variable info : nat -> cinfo.

Definition coef_info (t : term) : cinfo := match tkind t with KOther i => info i | KArg _ _ => CNone end.
Definition is_coefficient (t : term) : bool := match coef_info t with CNone => false | _ => true end.
Definition is_constant (t : term) : bool := match coef_info t with CConst => true | _ => false end.
(** fi.function_space(), fi.vector().id() *)
Definition function_space (t : term) : res nat := match coef_info t with CFun s _ => Ok s | _ => Err AttributeError end.
Definition vector_id (t : term) : res nat := match coef_info t with CFun _ v => Ok v | _ => Err AttributeError end.
Definition count (t : term) : nat := match tkind t with KOther i => i | KArg _ _ => 0 end.

Definition form_terminals (f : form) : list term := flat_map (fun i => terminals (snd i)) f.

(** ufl.Form.coefficients: the distinct coefficients by increasing count *)
Fixpoint cinsert (t : term) (l : list term) : list term :=
  match l with
  | [] => [t]
  | s :: l' => if count t =? count s then l else if count t <? count s then t :: l else s :: cinsert t l'
  end.
Definition coefficients (f : form) : list term :=
  fold_left (fun l t => cinsert t l) (filter is_coefficient (form_terminals f)) [].

(** ufl.Form.arguments: the distinct arguments by number; UFL refuses two
    arguments which differ only in the space *)
Fixpoint ainsert (t : term) (l : list term) : res (list term) :=
  match l, tkind t with
  | [], KArg _ _ => Ok [t]
  | s :: l', KArg n v =>
    match tkind s with
    | KArg m w => if n =? m then (if v =? w then Ok l else Err RuntimeError)
                  else if n <? m then Ok (t :: l) else do r <- ainsert t l'; Ok (s :: r)
    | KOther _ => Ok l
    end
  | _, KOther _ => Ok l
  end.
Definition is_argument (t : term) : bool := match tkind t with KArg _ _ => true | KOther _ => false end.
Fixpoint ainserts (ts l : list term) : res (list term) :=
  match ts with [] => Ok l | t :: ts' => do r <- ainsert t l; ainserts ts' r end.
Definition arguments (f : form) : res (list term) := ainserts (filter is_argument (form_terminals f)) [].
Definition number (t : term) : nat := match tkind t with KArg n _ => n | KOther _ => 0 end.
Definition arg_space (t : term) : nat := match tkind t with KArg _ s => s | KOther _ => 0 end.

(** 8-15 *)
Definition is_okay_functional (f : form) : res term :=
  do args <- arguments f;
  match args with
  | [a] => if number a =? 1 then Err AssertionError else Ok a
  | _ => Err AssertionError
  end.

(** 37-52: is_restricted, restriction_type (None: not restricted) *)
Definition restriction_type (t : term) : option attr :=
  if hasattr t ATrace then Some ATrace
  else if hasattr t AAverage then Some AAverage
  else if hasattr t ARestriction then Some ARestriction
  else None.
Definition is_restricted (t : term) : bool := match restriction_type t with Some _ => true | None => false end.

(** != of UFL expressions (negated) *)
Fixpoint expr_eqb (a b : expr) {struct a} : bool :=
  match a, b with
  | Leaf t, Leaf s => ufl_eq t s
  | Node f xs, Node g ys =>
    (f =? g) &&
    (fix go (xs ys : list expr) : bool :=
       match xs, ys with
       | [], [] => true
       | x :: xs', y :: ys' => expr_eqb x y && go xs' ys'
       | _, _ => false
       end) xs ys
  | _, _ => false
  end.

Definition plain (k : kind) : term := Term k None None None [].

(** 83-90: the integrals in which fi occurs, with fi_sub instead *)
Definition sub_integrals (f : form) (fi sub : term) (attributes : option (list attr)) : form :=
  flat_map (fun i => let e := replace (snd i) (Leaf fi) (Leaf sub) attributes in
                     if expr_eqb e (snd i) then [] else [(fst i, e)]) f.

(** dolfin.derivative(form, u): the direction is a new argument of the space of
    u with the next number; ufl.derivative wraps every integrand *)
Definition next_number (args : list term) : nat := fold_left (fun m a => Nat.max m (S (number a))) args 0.
Definition derivative (f : form) (u : term) (space : nat) : res form :=
  do args <- arguments f;
  let du := plain (KArg (next_number args) space) in
  Ok (map (fun i => (fst i, Node ty_deriv [snd i; Node ty_list [Leaf u]; Node ty_list [Leaf du]])) f).

(** 96-100 *)
Definition substitute_back (f : form) (sub fi : term) : res form :=
  mapM (fun i : nat * expr => let e := replace (snd i) (Leaf sub) (Leaf fi) None in
                 if expr_eqb e (snd i) then Err AssertionError else Ok (fst i, e)) f.

(** 55-57 get_trialfunction *)
Definition get_trialfunction (f : form) : res term :=
  do args <- arguments f;
  match filter (fun a => number a =? 1) args with t :: _ => Ok t | [] => Err StopIteration end.

(** setattr(t, a, v) *)
Definition setattr (t : term) (a : attr) (v : option nat) : term :=
  match a with
  | ATrace => Term (tkind t) v (a_restriction t) (a_average t) (a_other t)
  | ARestriction => Term (tkind t) (a_trace t) v (a_average t) (a_other t)
  | AAverage => Term (tkind t) (a_trace t) (a_restriction t) v (a_other t)
  | AOther k => Term (tkind t) (a_trace t) (a_restriction t) (a_average t)
                     match v with Some x => (k, x) :: a_other t | None => a_other t end
  end.

Definition term_eq_dec (t s : term) : {t = s} + {t <> s}.
Proof. repeat decide equality. Defined.

(** The change of an object is seen wherever it occurs.  Objects are not
    modelled; the trial function has just been made, so the terminals equal to
    it in every respect are the object itself. *)
Fixpoint update (o o' : term) (e : expr) : expr :=
  match e with
  | Leaf t => Leaf (if term_eq_dec t o then o' else t)
  | Node f ops => Node f (map (update o o') ops)
  end.

(** 60-110, one pass of the loop for a coefficient with the vector of x *)
Definition partial (f : form) (fi : term) (fresh_id : nat) : res form :=
  let rtype := restriction_type fi in
  let attributes := match rtype with Some a => Some [a] | None => None end in
  do space <- function_space fi;
  let sub := plain (KOther fresh_id) in
  do d <- derivative (sub_integrals f fi sub attributes) sub space;
  do d <- substitute_back d sub fi;
  match rtype with
  | Some a => do t <- get_trialfunction d;
              Ok (map (fun i => (fst i, update t (setattr t a (getattr fi a)) (snd i))) d)
  | None => Ok d
  end.

(** 73: does fi depend on x? *)
Definition depends (fi x : term) : res bool :=
  if ufl_eq fi x then Ok true
  else do a <- vector_id fi; do b <- vector_id x; Ok (a =? b).

(** 72-110; the value 0 of J is None *)
Fixpoint deriv_loop (f : form) (x : term) (cs : list term) (fresh_id : nat) (J : option form) : res (option form) :=
  match cs with
  | [] => Ok J
  | fi :: cs' =>
    do b <- depends fi x;
    if b then
      do d <- partial f fi fresh_id;
      deriv_loop f x cs' (S fresh_id) (Some (match J with Some g => g ++ d | None => d end))
    else deriv_loop f x cs' fresh_id J
  end.

(** 60-112; functions made on the way get the numbers from [fresh_id] on *)
Definition ii_derivative (fresh_id : nat) (f : form) (x : term) : res (option form) :=
  do _ <- is_okay_functional f;
  if is_coefficient x && negb (is_restricted x)
  then deriv_loop f x (filter (fun c => negb (is_constant c)) (coefficients f)) fresh_id None
  else Err AssertionError.

(** 31-32: all(...) over the zipped lists *)
Fixpoint spaces_match (ts foos : list term) : res bool :=
  match ts, foos with
  | t :: ts', f :: foos' =>
    do s <- function_space f;
    if arg_space t =? s then spaces_match ts' foos' else Ok false
  | _, _ => Ok true
  end.

(** 17-34 *)
Definition block_jacobian (fresh_id : nat) (bf : list form) (foos : list term) : res (list (list (option form))) :=
  if negb (length bf =? length foos) then Err AssertionError
  else if negb (forallb is_coefficient foos) then Err AssertionError
  else
    do tests <- mapM is_okay_functional bf;
    do ok <- spaces_match tests foos;
    if negb ok then Err AssertionError
    else mapM (fun bfi => mapM (fun fj => ii_derivative fresh_id bfi fj) foos) bf.

End Jac.
