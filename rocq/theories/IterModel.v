(** Collapsing an expression by rewriting its graph (xii/linalg/collapse_iter.py:17-265)

    Objects have an identity: operators a number, matrices an address; the same operator
    may occur twice.  The networkx graph is the list of its edges (parent, child, index):
    nodes without edges play no role.  [str] is what Python prints for a matrix, as a
    number.  The order in which the collapsable trees are found is that of a Python set,
    given by [order].  Vectors as terminals are left out. *)
From Verif Require Export Base Mat ConvertModel.

(** The classes that get_children distinguishes (17-28); [KNone] is any other *)
Inductive kind := KAdd | KSub | KMul | KTr | KNone.
Inductive iexpr := IMat (addr : nat) (m : mat) | INum (q : Qc) | IOp (id : nat) (k : kind) (children : list iexpr).
(** Values of nodes: objects *)
Inductive obj := OMat (addr : nat) (m : mat) | ONum (q : Qc).
(** Nodes: operators, names A_k (68), names str(mat) (256) *)
Inductive node := NOp (id : nat) (k : kind) | NLab (k : nat) | NStr (s : nat) | NNum (q : Qc).
Definition kind_eqb (a b : kind) : bool := match a, b with KAdd, KAdd | KSub, KSub | KMul, KMul | KTr, KTr | KNone, KNone => true | _, _ => false end.
Definition node_eqb (a b : node) : bool :=
  match a, b with NOp i k, NOp j l => (i =? j) && kind_eqb k l | NLab i, NLab j => i =? j | NStr i, NStr j => i =? j | NNum p, NNum q => qeqb p q | _, _ => false end.
Definition edge := (node * node * nat)%type.
Definition src (e : edge) : node := fst (fst e).
Definition dst (e : edge) : node := snd (fst e).
(** DiGraph.add_edge: the index of an edge that is there is overwritten *)
Fixpoint add_edge (p c : node) (i : nat) (g : list edge) : list edge :=
  match g with [] => [(p, c, i)] | e :: g' => if node_eqb (src e) p && node_eqb (dst e) c then (p, c, i) :: g' else e :: add_edge p c i g' end.
(** Names of values *)
Fixpoint lookup (n : node) (t : list (node * obj)) : res obj :=
  match t with [] => Err KeyError | (n', v) :: t' => if node_eqb n' n then Ok v else lookup n t' end.
Fixpoint assign (n : node) (v : obj) (t : list (node * obj)) : list (node * obj) :=
  match t with [] => [(n, v)] | (n', v') :: t' => if node_eqb n' n then (n, v) :: t' else (n', v') :: assign n v t' end.

(** 17-28 *)
Definition get_children (e : iexpr) : list iexpr := match e with IOp _ KNone _ => [] | IOp _ _ ch => ch | _ => [] end.
(** block_mul flattens products *)
Definition ichain_of (e : iexpr) : list iexpr := match e with IOp _ KMul ch => ch | _ => [e] end.
(** 58-68: at most two children; the product of the others is a new operator *)
Definition two_children (fresh : nat) (k : kind) (ch : list iexpr) : res (list iexpr) :=
  match ch with
  | child :: ((_ :: _ :: _) as rest) => match k with KMul => Ok [child; IOp fresh KMul (flat_map ichain_of rest)] | _ => Err ValueError end
  | _ => Ok ch
  end.
Record building := { b_edges : list edge; b_terms : list (node * obj); b_count : nat; b_fresh : nat; b_stack : list iexpr }.
(** 70-80 *)
Fixpoint link (parent : node) (index : nat) (ch : list iexpr) (b : building) : building :=
  match ch with
  | [] => b
  | c :: ch' =>
      let b' :=
        match c with
        | IMat a m => {| b_edges := add_edge parent (NLab (b_count b)) index (b_edges b); b_terms := assign (NLab (b_count b)) (OMat a m) (b_terms b); b_count := S (b_count b); b_fresh := b_fresh b; b_stack := b_stack b |}
        | INum q => {| b_edges := add_edge parent (NLab (b_count b)) index (b_edges b); b_terms := assign (NLab (b_count b)) (ONum q) (b_terms b); b_count := S (b_count b); b_fresh := b_fresh b; b_stack := b_stack b |}
        | IOp id k _ => {| b_edges := add_edge parent (NOp id k) index (b_edges b); b_terms := b_terms b; b_count := b_count b; b_fresh := b_fresh b; b_stack := c :: b_stack b |}
        end in
      link parent (S index) ch' b'
  end.
(** 52-80; [terminals] of collapse (245) is built along *)
Fixpoint expr2graph (fuel : nat) (b : building) : res building :=
  match fuel with
  | O => Err OutOfFuel
  | S fuel =>
      match b_stack b with
      | [] => Ok b
      | IOp id k ch :: stack =>
          do ch' <- two_children (b_fresh b) k (get_children (IOp id k ch));
          expr2graph fuel (link (NOp id k) 0 ch' {| b_edges := b_edges b; b_terms := b_terms b; b_count := b_count b; b_fresh := S (b_fresh b); b_stack := stack |})
      | _ :: stack => expr2graph fuel {| b_edges := b_edges b; b_terms := b_terms b; b_count := b_count b; b_fresh := b_fresh b; b_stack := stack |}
      end
  end.
(** A tree: the root and its children in order *)
Definition tree := (node * list node)%type.
Fixpoint insert_index (ci : node * nat) (l : list (node * nat)) : list (node * nat) :=
  match l with [] => [ci] | cj :: l' => if snd cj <=? snd ci then cj :: insert_index ci l' else ci :: l end.
(** 141-144, 112: the children of a node by index *)
Definition children_of (g : list edge) (p : node) : list node :=
  map fst (fold_left (fun l ci => insert_index ci l) (map (fun e => (dst e, snd e)) (filter (fun e => node_eqb (src e) p) g)) []).
Definition is_leaf (g : list edge) (n : node) : bool := negb (existsb (fun e => node_eqb (src e) n) g).
Fixpoint distinct (l : list node) : list node := match l with [] => [] | n :: l' => n :: filter (fun m => negb (node_eqb n m)) (distinct l') end.
Definition roots (g : list edge) : list node := distinct (map src g).
(** 97-117 *)
Definition collapsable_trees (g : list edge) : list tree :=
  map (fun p => (p, children_of g p)) (filter (fun p => forallb (is_leaf g) (children_of g p)) (roots g)).
(** 164-234; matrices are new objects *)
Definition collapse_node (fresh : nat) (k : kind) (args : list obj) : res obj :=
  match k with
  | KTr => match args with [OMat _ A] => Ok (OMat fresh (mtr A)) | [ONum q] => Ok (ONum q) | _ => Err TypeError end
  | KAdd =>
      match args with
      | [OMat a A; ONum q] => if qltb (qabs q) tol14 then Ok (OMat a A) else Err ValueError
      | [ONum q; OMat b B] => if qltb (qabs q) tol14 then Ok (OMat b B) else Err ValueError
      | [OMat _ A; OMat _ B] => do _ <- py_assert ((nr A =? nr B) && (nc A =? nc B)); Ok (OMat fresh (madd A B))
      | [_; _] => Err ValueError
      | _ => Err TypeError
      end
  | KSub =>
      match args with
      | [OMat _ A; OMat _ B] => do _ <- py_assert ((nr A =? nr B) && (nc A =? nc B)); Ok (OMat fresh (msub A B))
      | [_; _] => Err ValueError
      | _ => Err TypeError
      end
  | KMul =>
      match args with
      | [OMat _ A; OMat _ B] => do _ <- py_assert (nc A =? nr B); Ok (OMat fresh (mmul A B))
      | [OMat _ A; ONum q] => Ok (OMat fresh (mscale q A))
      | [ONum q; OMat _ B] => Ok (OMat fresh (mscale q B))
      | [_; _] => Err ValueError
      | _ => Err TypeError
      end
  | KNone => Err ValueError
  end.
(** 138-161 *)
Definition collapse_tree (fresh : nat) (t : tree) (terms : list (node * obj)) : res obj :=
  do args <- mapM (fun c => lookup c terms) (snd t);
  match fst t with NOp _ k => collapse_node fresh k args | _ => Err ValueError end.
(** 126-135: nodes of the tree and all their edges are removed *)
Definition member (n : node) (l : list node) : bool := existsb (node_eqb n) l.
Definition replace_tree (g : list edge) (t : tree) (n : node) : res (list edge * bool) :=
  match filter (fun e => node_eqb (dst e) (fst t)) g with
  | [] => Ok (g, true)
  | [e] => Ok (add_edge (src e) n (snd e) (filter (fun e => negb (member (src e) (fst t :: snd t) || member (dst e) (fst t :: snd t))) g), false)
  | _ => Err ValueError
  end.
Section Loop.
Variable str : nat -> mat -> nat.
Variable order : list tree -> list tree.
(** 256 *)
Definition name_of (v : obj) : node := match v with OMat a m => NStr (str a m) | ONum q => NNum q end.
(** 252-260 *)
Fixpoint one_round (trees : list tree) (g : list edge) (terms : list (node * obj)) (fresh : nat) (done : bool) : res (list edge * list (node * obj) * nat * bool) :=
  match trees with
  | [] => Ok (g, terms, fresh, done)
  | t :: trees' =>
      do v <- collapse_tree fresh t terms;
      do gd <- replace_tree g t (name_of v);
      one_round trees' (fst gd) (assign (name_of v) v terms) (S fresh) (snd gd)
  end.
(** 251-260 *)
Fixpoint rounds (fuel : nat) (g : list edge) (terms : list (node * obj)) (fresh : nat) : res (list edge * list (node * obj) * nat) :=
  match fuel with
  | O => Err OutOfFuel
  | S fuel =>
      do r <- one_round (order (collapsable_trees g)) g terms fresh false;
      let '(g', terms', fresh', done) := r in
      if done then Ok (g', terms', fresh') else rounds fuel g' terms' fresh'
  end.
(** 237-263, but for block_mat; [fresh] is above all identities and addresses *)
Definition collapse_iter (fuel fresh : nat) (e : iexpr) : res obj :=
  match e with
  | IMat a m => Ok (OMat a m)
  | INum q => Ok (ONum q)
  | IOp _ _ _ =>
      do b <- expr2graph fuel {| b_edges := []; b_terms := []; b_count := 0; b_fresh := fresh; b_stack := [e] |};
      do r <- rounds fuel (b_edges b) (b_terms b) (b_fresh b);
      let '(g, terms, fresh') := r in
      match roots g with [p] => collapse_tree fresh' (p, children_of g p) terms | _ => Err ValueError end
  end.
(** 240-242 *)
Definition collapse_blocks (fuel fresh : nat) (b : list (list iexpr)) : res (list (list obj)) := mapM (mapM (collapse_iter fuel fresh)) b.
End Loop.
