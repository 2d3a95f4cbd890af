(** Model of xii/assembler/ufl_utils.py, lines 24-108: traversal, comparison
    and substitution in UFL expressions.

    A terminal is what UFL compares ([==]: an Argument by number and function
    space, anything else by identity) together with the attributes that the
    reduction operators attach to it; attributes play no role in [==].
    Operator nodes are compared by their class; rebuilding a node with
    [type(expr)(...)] gives the node with the new operands (constructors that
    simplify are not modelled). *)
From Verif Require Import Base.

Inductive kind := KArg (number space : nat) | KOther (id : nat).
Inductive attr := ATrace | ARestriction | AAverage | AOther (name : nat).
Record term := Term { tkind : kind; a_trace : option nat; a_restriction : option nat;
                      a_average : option nat; a_other : list (nat * nat) }.

Definition kind_eqb (k l : kind) : bool :=
  match k, l with
  | KArg n v, KArg m w => (n =? m) && (v =? w)
  | KOther i, KOther j => i =? j
  | _, _ => false
  end.
(** this == that *)
Definition ufl_eq (t s : term) : bool := kind_eqb (tkind t) (tkind s).

Fixpoint assoc (k : nat) (l : list (nat * nat)) : option nat :=
  match l with [] => None | (k', v) :: l' => if k =? k' then Some v else assoc k l' end.
Definition getattr (t : term) (a : attr) : option nat :=
  match a with
  | ATrace => a_trace t | ARestriction => a_restriction t | AAverage => a_average t
  | AOther k => assoc k (a_other t)
  end.
Definition hasattr (t : term) (a : attr) : bool := match getattr t a with Some _ => true | None => false end.

Definition opt_eqb (x y : option nat) : bool :=
  match x, y with Some a, Some b => a =? b | None, None => true | _, _ => false end.

(** 45-61 is_equal_terminal (both are terminals here) *)
Definition is_equal_terminal (this that : term) (attributes : option (list attr)) : bool :=
  match attributes with
  | None => ufl_eq this that
  | Some l => ufl_eq this that
              && (forallb (hasattr this) l && forallb (hasattr that) l)
              && forallb (fun a => opt_eqb (getattr this a) (getattr that a)) l
  end.

Inductive expr := Leaf (t : term) | Node (ty : nat) (ops : list expr).

(** 64-75 matches; zip stops at the shorter list of operands, and the
    attributes are not passed down. *)
Fixpoint matches (e target : expr) (attributes : option (list attr)) {struct e} : bool :=
  match e, target with
  | Leaf x, Leaf y => is_equal_terminal x y attributes
  | Node f xs, Node g ys =>
    (f =? g) &&
    (fix go (xs ys : list expr) : bool :=
       match xs, ys with
       | x :: xs', y :: ys' => matches x y None && go xs' ys'
       | _, _ => true
       end) xs ys
  | _, _ => false
  end.

(** 24-42 traverse, traverse_terminals, traverse_subexpr *)
Fixpoint traverse (e : expr) : list expr :=
  match e with
  | Leaf _ => [e]
  | Node _ ops => (fix go (l : list expr) : list expr := match l with [] => [] | x :: l' => traverse x ++ go l' end) ops ++ [e]
  end.
Definition terminals (e : expr) : list term :=
  flat_map (fun x => match x with Leaf t => [t] | Node _ _ => [] end) (traverse e).
Definition subexprs (e : expr) : list expr :=
  filter (fun x => match x with Leaf _ => false | Node _ _ => true end) (traverse e).

(** 78-95 contains *)
Definition contains (e target : expr) (attributes : option (list attr)) : bool :=
  match target, e with
  | Leaf t, Leaf x => is_equal_terminal x t attributes
  | Leaf t, Node _ _ => existsb (fun s => matches target (Leaf s) attributes) (terminals e)
  | Node _ _, Leaf _ => false
  | Node _ _, Node _ _ => existsb (fun s => matches s target attributes) (subexprs e)
  end.

(** 98-108 replace *)
Fixpoint replace (e arg replacement : expr) (attributes : option (list attr)) {struct e} : expr :=
  if negb (contains e arg attributes) then e
  else if matches e arg attributes then replacement
  else match e with
       | Leaf _ => e
       | Node f ops => Node f (map (fun op => replace op arg replacement attributes) ops)
       end.
