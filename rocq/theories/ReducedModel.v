(** Model of xii/assembler/reduced_assembler.py (ReducedFormAssembler.assemble)
    and of the dispatch in xii/assembler/xii_assembly.py:24-57.

    Terminals and substitution are those of UflModel.v.  The identity of a
    [KOther] terminal encodes a pair: (S V, k) is the k-th Function that was
    created, in space V; (0, k) is something without a function space
    (constants, ...).  The store holds the coefficient vectors by number.
    The operators built by cbc.block (A*T, block_transpose(T)*A, sums) are the
    unevaluated expressions of ConvertModel.v. *)
From Verif Require Import Base Mat ConvertModel UflModel BlockFormModel.
From Coq Require Import Cantor.

Definition store := list vec.
Definition fun_space (id : nat) : option nat := match fst (Cantor.of_nat id) with 0 => None | S V => Some V end.
Definition fun_num (id : nat) : nat := snd (Cantor.of_nat id).
Definition fun_id (V k : nat) : nat := Cantor.to_nat (S V, k).

(** What the assemblers read from dolfin objects. *)
Record world := World {
  w_mesh : nat -> nat;                       (* space -> mesh id *)
  w_tdim : nat -> nat;                       (* mesh id -> topological dimension *)
  w_dim : nat -> nat;                        (* space -> number of dofs *)
  w_imesh : nat -> nat;                      (* measure -> mesh id (ufl_domain().ufl_cargo()) *)
  w_amesh : attr -> nat -> nat;              (* attribute value -> its 'mesh' *)
  w_domain : nat -> nat                      (* value of flux_average_ -> its 'domain' *)
}.

(** function_space() of a terminal *)
Definition space_of (t : term) : res nat :=
  match tkind t with
  | KArg _ V => Ok V
  | KOther id => match fun_space id with Some V => Ok V | None => Err AttributeError end
  end.

(** The hooks of ReducedFormAssembler (reduced_assembler.py:21-53). *)
Record assembler := Assembler {
  asm_attr : attr;                                     (* self.attributes (one in every subclass) *)
  asm_sel : nat -> term -> bool;                       (* is_..._integrand, per terminal *)
  asm_filter : nat -> term -> bool;                    (* restriction_filter, per terminal *)
  asm_compat : nat -> term -> res bool;                (* is_compatible *)
  asm_domain : term -> nat -> res nat;                 (* domain_space(terminal); the attribute value is given *)
  asm_space : nat -> nat -> nat -> nat;                (* reduced_space(V, mesh, data) *)
  asm_matrix : nat -> nat -> nat -> nat -> res mat     (* reduction_matrix(V, TV, mesh, data) *)
}.

Inductive tensor := TOp (e : ConvertModel.expr) | TVec (b : vec) | TNum (q : Qc).

(** operator.add on assembled components; cbc.block does not look at sizes *)
Definition tadd (a b : tensor) : res tensor :=
  match a, b with
  | TOp A, TOp B => Ok (TOp (py_add A B))
  | TVec x, TVec y => if length x =? length y then Ok (TVec (vadd x y)) else Err RuntimeError
  | TNum p, TNum q => Ok (TNum (p + q)%Qc)
  | _, _ => Err TypeError
  end.

(** reduce(operator.add, components) (140) *)
Definition tsum (l : list tensor) : res tensor :=
  match l with
  | [] => Err TypeError
  | x :: l' => fold_left (fun acc y => do a <- acc; tadd a y) l' (Ok x)
  end.

Definition plain_term (k : kind) : term := Term k None None None [].

(** form.arguments(): UFL raises when two arguments have the same number *)
Definition arity (f : form) : res nat :=
  match form_spaces 0 f, form_spaces 1 f with
  | _ :: _ :: _, _ => Err ValueError
  | _, _ :: _ :: _ => Err ValueError
  | a, b => Ok (length a + length b)
  end.

Section Assemble.
Variable w : world.
Variable asms : list assembler.
(** Iteration order of Python sets. *)
Variable ord : list term -> list term.
(** df.assemble *)
Variable dfa : store -> form -> res tensor.

(** terminals of an integrand: traverse_unique_terminals *)
Definition unique_terminals (e : expr) : list term := set_of (terminals e).

(** select_integrals: some terminal asks for the reduction *)
Definition selects (A : assembler) (i : nat * expr) : bool :=
  existsb (asm_sel A (w_imesh w (fst i))) (unique_terminals (snd i)).

(** 77-83: sorted by compatibility (stable, False < True), the last is popped *)
Definition pick (l : list (term * bool)) : option (term * bool) :=
  match rev (filter snd l) with
  | p :: _ => Some p
  | [] => match rev l with p :: _ => Some p | [] => None end
  end.

(** 69-137 for one selected integral; [rec] is xii_assembly.assemble *)
Definition reduce_integral (rec : store -> form -> res tensor) (st : store) (A : assembler) (ar : nat) (i : nat * expr) : res (list tensor) :=
  let mesh := w_imesh w (fst i) in
  let e := snd i in
  let cands := filter (asm_filter A mesh) (ord (unique_terminals e)) in
  do keys <- mapM (fun t => do b <- asm_compat A mesh t; Ok (t, b)) cands;
  match pick keys with
  | None => Err AssertionError
  | Some (_, false) => Err AssertionError
  | Some (t, true) =>
    do d <- opt_res AttributeError (getattr t (asm_attr A));
    do V <- asm_domain A t d;
    let TV := asm_space A V mesh d in
    do T <- asm_matrix A V TV mesh d;
    let subst := fun new => [(fst i, replace e (Leaf t) (Leaf (plain_term new)) (Some [asm_attr A]))] in
    match tkind t with
    | KArg 0 _ =>
      do r <- rec st (subst (KArg 0 TV));
      if ar =? 2 then
        match r with TOp M => Ok [TOp (py_mul (ETr (EMat T)) M)] | _ => Err TypeError end
      else
        match r with TVec b => Ok [TVec (mv (mtr T) b)] | _ => Err TypeError end
    | KArg 1 _ =>
      if ar =? 2 then
        do r <- rec st (subst (KArg 1 TV));
        match r with TOp M => Ok [TOp (py_mul M (EMat T))] | _ => Err TypeError end
      else Err AssertionError
    | KArg _ _ => Ok []
    | KOther id =>
      do r <- rec (st ++ [mv T (nth (fun_num id) st [])]) (subst (KOther (fun_id TV (length st)))); Ok [r]
    end
  end.

(** == of integrals: UFL compares the measure and the integrands, by the classes of
    the operators and by == of the terminals.  (Some versions of UFL also give the
    operands of the one integrand to the other when they turn out equal, so that
    the reduction of the one replaces that of the other; this is not modelled.) *)
Fixpoint expr_eqb (a b : expr) {struct a} : bool :=
  match a, b with
  | Leaf t, Leaf s => ufl_eq t s
  | Node f xs, Node g ys =>
    (f =? g) &&
    (fix go (xs ys : list expr) : bool :=
       match xs, ys with
       | [], [] => true
       | x :: xs', y :: ys' => expr_eqb x y && go xs' ys'
       | _, _ => false
       end) xs ys
  | _, _ => false
  end.
Definition integral_eqb (i j : nat * expr) : bool := (fst i =? fst j) && expr_eqb (snd i) (snd j).

(** 65: integral in reduced_integrals *)
Definition taken (A : assembler) (f : form) (i : nat * expr) : bool :=
  existsb (fun j => selects A j && integral_eqb j i) f.

(** 56-140 together with the dispatch; a module that selects no integral
    returns None and the next one is tried; df.assemble in the end. *)
Definition with_module (rec : store -> form -> res tensor) (st : store) (A : assembler) (ar : nat) (f : form) : res tensor :=
  do comps <- mapM (fun i => if taken A f i then reduce_integral rec st A ar i else do r <- rec st [i]; Ok [r]) f;
  tsum (concat comps).

Fixpoint dispatch (rec : store -> form -> res tensor) (st : store) (l : list assembler) (ar : nat) (f : form) : res tensor :=
  match l with
  | [] => dfa st f
  | A :: l' => if existsb (selects A) f then with_module rec st A ar f else dispatch rec st l' ar f
  end.

Fixpoint xii_assemble (fuel : nat) (st : store) (f : form) : res tensor :=
  match fuel with
  | 0 => Err OutOfFuel
  | S n => do ar <- arity f; dispatch (xii_assemble n) st asms ar f
  end.
End Assemble.

(** ** The modules of xii_assembly.py:29-40

    Attributes other than trace_, average_ and restriction_ are [AOther n]:
    0 transpose_trace_, 1 flux_average_, 2 patch_average_, 3 mean_, 4 dirac_,
    5 grad_dirac_, 6 surface_mean_, 7 injection_.  All integrals are cell
    integrals; terminals without a function space have no domain (geometric
    quantities are not modelled). *)
Definition t_mesh (w : world) (t : term) : option nat :=
  match tkind t with
  | KArg _ V => Some (w_mesh w V)
  | KOther id => match fun_space id with Some V => Some (w_mesh w V) | None => None end
  end.
(** topological_dim of a terminal (ufl_utils.py:7-10) and of a mesh *)
Definition t_tdim (w : world) (t : term) : Z := match t_mesh w t with Some m => Z.of_nat (w_tdim w m) | None => (-1)%Z end.
Definition m_tdim (w : world) (m : nat) : Z := Z.of_nat (w_tdim w m).

Definition has_mesh (w : world) (a : attr) (mesh : nat) (t : term) : bool :=
  match getattr t a with Some d => w_amesh w a d =? mesh | None => false end.
(** is_compatible: two assertions and return True / one assertion *)
Definition assert_mesh (w : world) (a : attr) (mesh : nat) (t : term) : res bool :=
  if has_mesh w a mesh t then Ok true else Err AssertionError.
Definition assert_attr (a : attr) (t : term) : res bool := if hasattr t a then Ok true else Err AssertionError.
Definition other_mesh (w : world) (mesh : nat) (t : term) : bool :=
  match t_mesh w t with Some m => negb (m =? mesh) | None => false end.

(** domain_space of ReducedFormAssembler (reduced_assembler.py:43-45) *)
Definition own_space (t : term) (d : nat) : res nat := space_of t.

Section Modules.
Variable w : world.
Variable sp : attr -> nat -> nat -> nat -> nat.
Variable mt : attr -> nat -> nat -> nat -> nat -> res mat.

(** trace_assembly.py:14-43, trace_form.py:125-139 is_trace_integrand *)
Definition trace_module : assembler :=
  Assembler ATrace
    (fun mesh t => (t_tdim w t - 1 =? m_tdim w mesh)%Z && hasattr t ATrace)
    (fun mesh t => (m_tdim w mesh <? t_tdim w t)%Z)
    (fun mesh t => Ok (hasattr t ATrace && has_mesh w ATrace mesh t))
    own_space (sp ATrace) (mt ATrace).
(** transpose_trace_assembly.py, transpose_trace_form.py is_transpose_trace_integrand *)
Definition transpose_trace_module : assembler :=
  Assembler (AOther 0)
    (fun _ t => hasattr t (AOther 0))
    (fun mesh t => (t_tdim w t + 1 =? m_tdim w mesh)%Z)
    (fun _ t => Ok (hasattr t (AOther 0)))
    own_space (sp (AOther 0)) (mt (AOther 0)).
(** average_assembly.py:7-33, average_form.py is_average_integrand *)
Definition average_module : assembler :=
  Assembler AAverage
    (fun mesh t => (t_tdim w t =? m_tdim w mesh + 2)%Z && hasattr t AAverage)
    (fun mesh t => (t_tdim w t - 2 =? m_tdim w mesh)%Z)
    (assert_mesh w AAverage)
    own_space (sp AAverage) (mt AAverage).
(** flux_average_assembly.py:7-37 (domain_space at 27-29), flux_average_form.py is_flux_average_integrand *)
Definition flux_average_module : assembler :=
  Assembler (AOther 1)
    (fun mesh t => (t_tdim w t =? m_tdim w mesh + 2)%Z && hasattr t (AOther 1))
    (fun mesh t => (t_tdim w t - 2 =? m_tdim w mesh)%Z)
    (assert_mesh w (AOther 1))
    (fun _ d => Ok (w_domain w d)) (sp (AOther 1)) (mt (AOther 1)).
(** patch_average_assembly.py, patch_average_form.py is_patch_average_integral *)
Definition patch_average_module : assembler :=
  Assembler (AOther 2)
    (fun mesh t => (m_tdim w mesh =? 1)%Z && hasattr t (AOther 2))
    (fun _ t => hasattr t (AOther 2)) (fun _ t => assert_attr (AOther 2) t)
    own_space (sp (AOther 2)) (mt (AOther 2)).
(** mean_assembly.py, point_trace_assembly.py, gradient_point_trace_assembly.py
    and their is_..._integral *)
Definition attr_module (a : attr) : assembler :=
  Assembler a (fun _ t => hasattr t a) (fun _ t => hasattr t a) (fun _ t => assert_attr a t) own_space (sp a) (mt a).
(** surface_mean_assembly.py; surface_mean_form.py is_surface_mean_integrand
    does not look at the attribute *)
Definition surface_mean_module : assembler :=
  Assembler (AOther 6)
    (fun mesh t => (t_tdim w t - 1 =? m_tdim w mesh)%Z)
    (fun _ t => hasattr t (AOther 6)) (fun _ t => assert_attr (AOther 6) t)
    own_space (sp (AOther 6)) (mt (AOther 6)).
(** restriction_assembly.py:7-43, restriction_form.py is_restriction_integrand *)
Definition restriction_module : assembler :=
  Assembler ARestriction (fun _ t => hasattr t ARestriction) (other_mesh w) (assert_mesh w ARestriction)
    own_space (sp ARestriction) (mt ARestriction).
(** injection_assembly.py, injection_form.py is_injection_integral *)
Definition injection_module : assembler :=
  Assembler (AOther 7) (fun mesh t => hasattr t (AOther 7) && has_mesh w (AOther 7) mesh t) (other_mesh w)
    (assert_mesh w (AOther 7))
    own_space (sp (AOther 7)) (mt (AOther 7)).

(** xii_assembly.py:29-40 *)
Definition modules : list assembler :=
  [trace_module; transpose_trace_module; average_module; flux_average_module; patch_average_module;
   attr_module (AOther 3); attr_module (AOther 4); attr_module (AOther 5); surface_mean_module;
   restriction_module; injection_module].
End Modules.
