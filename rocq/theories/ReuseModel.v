(** Forms that are assembled again and again while the values of a function
    change: test/evolve_rhs.py:20-36 and sandbox/lhs_reduced.py:70-89, with
    Functions as objects that refer to vectors (trace_form.py:91-99).

    Library meaning that is trusted here: Function(V) has a new vector,
    Function(V, x) refers to the vector x, v.vector()[:] = x and set_local write
    into the vector and accept only as many values as it has, and v.assign(g)
    lets v refer to a new vector with the values of g.  A Function is known by
    its number; forms refer to Functions by number (see ReducedModel.v). *)
From Verif Require Import Base Mat ConvertModel UflModel BlockFormModel FillModel ReducedModel.

(** The vectors, and for every Function the address of its vector *)
Record heap := Heap { h_vecs : list vec; h_addr : list nat }.
Definition address (h : heap) (f : nat) : nat := nth f (h_addr h) 0.
Definition contents (h : heap) (f : nat) : vec := nth (address h f) (h_vecs h) [].
(** What the assemblers read *)
Definition values (h : heap) : store := map (fun a => nth a (h_vecs h) []) (h_addr h).

(** trace_form.py:99 and the other reductions: df.Function(v.function_space(), v.vector()) *)
Definition sharing (h : heap) (f : nat) : heap * nat :=
  (Heap (h_vecs h) (h_addr h ++ [address h f]), length (h_addr h)).
(** evolve_rhs.py:29, lhs_reduced.py:81-82 *)
Definition fill (h : heap) (f : nat) (x : vec) : res heap :=
  if length x =? length (contents h f) then Ok (Heap (set_nth (h_vecs h) (address h f) x) (h_addr h)) else Err RuntimeError.
(** evolve_rhs.py:28 (the line that is commented out) *)
Definition assign (h : heap) (f : nat) (x : vec) : heap :=
  Heap (h_vecs h ++ [x]) (set_nth (h_addr h) f (length (h_vecs h))).

(** lhs_reduced.py:70,76: the integrand with the trial function, and the same
    integrand with Function number [f] in its place, reduced in the same way *)
Definition plug_term (f : nat) (t : term) : term :=
  match tkind t with
  | KArg 1 V => Term (KOther (fun_id V f)) (a_trace t) (a_restriction t) (a_average t) (a_other t)
  | _ => t
  end.
Fixpoint plug (f : nat) (e : UflModel.expr) : UflModel.expr :=
  match e with
  | Leaf t => Leaf (plug_term f t)
  | Node ty l => Node ty (map (plug f) l)
  end.
Definition plug_form (f : nat) (a : form) : form := map (fun i => (fst i, plug f (snd i))) a.

Section Scripts.
(** ii_assemble *)
Variable assemble : store -> form -> res tensor.

(** evolve_rhs.py:25-31: fill the values, assemble *)
Fixpoint evolve (h : heap) (v : nat) (L : form) (xs : list vec) : res (list tensor) :=
  match xs with
  | [] => Ok []
  | x :: xs' =>
    do h <- fill h v x;
    do b <- assemble (values h) L;
    do r <- evolve h v L xs';
    Ok (b :: r)
  end.
(** evolve_rhs.py:25-31 with line 28 instead of line 29 *)
Fixpoint evolve_assign (h : heap) (v : nat) (L : form) (xs : list vec) : res (list tensor) :=
  match xs with
  | [] => Ok []
  | x :: xs' =>
    let h := assign h v x in
    do b <- assemble (values h) L;
    do r <- evolve_assign h v L xs';
    Ok (b :: r)
  end.

(** lhs_reduced.py:79-89, after ii_convert of the matrix; the comparison is exact here *)
Fixpoint vec_eqb (x y : vec) : bool :=
  match x, y with
  | [], [] => true
  | a :: x', b :: y' => if Qc_eq_dec a b then vec_eqb x' y' else false
  | _, _ => false
  end.
Fixpoint check_action (h : heap) (v : nat) (M : mat) (L : form) (xs : list vec) : res heap :=
  match xs with
  | [] => Ok h
  | x :: xs' =>
    do h <- fill h v x;
    do r <- assemble (values h) L;
    match r with
    | TVec b => do _ <- py_assert (vec_eqb b (mv M (contents h v))); check_action h v M L xs'
    | _ => Err TypeError
    end
  end.
End Scripts.

(** lhs_reduced.py:70-89 as a whole: [a] is the form with the trial function,
    the reduced copy of dp_prev is made at 76 *)
Definition lhs_reduced (assemble : store -> form -> res tensor) (fuel : nat) (h : heap) (v : nat) (a : form) (xs : list vec) : res heap :=
  let (h, tv) := sharing h v in
  let L := plug_form tv a in
  do r <- assemble (values h) a;
  match r with
  | TOp e =>
    do c <- collapse fuel e;
    match c with EMat M => check_action assemble h v M L xs | _ => Err TypeError end
  | _ => Err TypeError
  end.
