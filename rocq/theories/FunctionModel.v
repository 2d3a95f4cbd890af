(** Functions in several spaces (xii/linalg/function.py)

    Library meaning that is trusted here: Function(V) has a new zero vector of the size of V, and
    Function(V, x) shares the vector x; a nested vector of PETSc holds its parts by reference;
    interpolate returns a new function of the space.  What [f.assign(g)] does with the vector of f is a
    parameter: dolfin's operator= makes a copy of the vector of g and lets f refer to it
    ([replaces = true]); the other possibility is that the entries are copied.  Functions and
    vectors are objects: addresses in a store. *)
From Verif Require Export Base Mat EmbedModel FillModel.

Record space := { sid : nat; sdim : nat }.
(** The store: the vectors, and the functions with their space and the address of their vector *)
Record store := { vecs : list vec; funs : list (space * nat) }.
Definition no_space : space := {| sid := 0; sdim := 0 |}.
Definition fun_space (s : store) (f : nat) : space := fst (nth f (funs s) (no_space, 0)).
Definition fun_vec (s : store) (f : nat) : nat := snd (nth f (funs s) (no_space, 0)).
Definition vec_at (s : store) (a : nat) : vec := nth a (vecs s) [].
Definition coefficients (s : store) (f : nat) : vec := vec_at s (fun_vec s f).

Definition new_vec (s : store) (x : vec) : store * nat := ({| vecs := vecs s ++ [x]; funs := funs s |}, length (vecs s)).
Definition new_fun (s : store) (V : space) (a : nat) : store * nat := ({| vecs := vecs s; funs := funs s ++ [(V, a)] |}, length (funs s)).
Definition set_vec (s : store) (a : nat) (x : vec) : store := {| vecs := set_nth (vecs s) a x; funs := funs s |}.

(** What a component may be *)
Inductive comp := CFun (f : nat) | CVec (a : nat).
Record iifun := { functions : list nat; W : list space }.

(** __init__, 22-23: new functions *)
Fixpoint zero_functions (s : store) (spaces : list space) : store * list nat :=
  match spaces with
  | [] => (s, [])
  | V :: spaces' =>
      let (s, a) := new_vec s (repeat q0 (sdim V)) in
      let (s, f) := new_fun s V a in
      let (s, fs) := zero_functions s spaces' in
      (s, f :: fs)
  end.
(** 35: functions of the vectors *)
Fixpoint wrap_vectors (s : store) (pairs : list (nat * space)) : store * list nat :=
  match pairs with
  | [] => (s, [])
  | (a, V) :: pairs' =>
      let (s, f) := new_fun s V a in
      let (s, fs) := wrap_vectors s pairs' in
      (s, f :: fs)
  end.
(** 33: the sizes are compared one after the other; functions have no size *)
Fixpoint check_sizes (s : store) (pairs : list (comp * space)) : res (list (nat * space)) :=
  match pairs with
  | [] => Ok []
  | (CFun _, _) :: _ => Err AttributeError
  | (CVec a, V) :: pairs' =>
      do _ <- py_assert (length (vec_at s a) =? sdim V);
      do rest <- check_sizes s pairs';
      Ok ((a, V) :: rest)
  end.
(** 28: whether the space of a function is the given one; vectors have no function_space *)
Definition same_space (s : store) (p : comp * space) : res bool :=
  match fst p with CFun f => Ok (sid (fun_space s f) =? sid (snd p)) | CVec _ => Err AttributeError end.
Definition fun_id (c : comp) : nat := match c with CFun f => f | CVec a => a end.
(** 21-37.  What is asserted in 28 is a list, which is true if it is not empty *)
Definition init (s : store) (spaces : list space) (components : option (list comp)) : res (store * iifun) :=
  match components with
  | None => let (s, fs) := zero_functions s spaces in Ok (s, {| functions := fs; W := spaces |})
  | Some cs =>
      do _ <- py_assert (length cs =? length spaces);
      match cs with
      | [] => Err StopIteration
      | CFun _ :: _ =>
          do same <- mapM (same_space s) (combine cs spaces);
          do _ <- py_assert (negb (length same =? 0));
          Ok (s, {| functions := map fun_id cs; W := spaces |})
      | CVec _ :: _ =>
          do pairs <- check_sizes s (combine cs spaces);
          let (s, fs) := wrap_vectors s pairs in
          Ok (s, {| functions := fs; W := spaces |})
      end
  end.

(** 45-63: the vectors; a nested vector is the list of its parts *)
Definition vectors (s : store) (u : iifun) : list nat := map (fun_vec s) (functions u).
Definition petsc_vec (s : store) (u : iifun) : list nat := vectors s u.
Definition nest_values (s : store) (nest : list nat) : vec := concat (map (vec_at s) nest).
(** Writing entry [k] of a nested vector *)
Fixpoint nest_set (s : store) (nest : list nat) (k : nat) (v : Qc) : res store :=
  match nest with
  | [] => Err PetscError
  | a :: nest' => let n := length (vec_at s a) in if k <? n then Ok (set_vec s a (set_nth (vec_at s a) k v)) else nest_set s nest' (k - n) v
  end.

(** 65-77: items by number are checked; iteration is by number *)
Definition getitem (u : iifun) (i : Z) : res nat :=
  do _ <- py_assert ((0 <=? i) && (i <? Z.of_nat (length (functions u))))%Z;
  opt_res IndexError (nth_error (functions u) (Z.to_nat i)).
Definition items (u : iifun) : res (list nat) := mapM (fun i => getitem u (Z.of_nat i)) (seq 0 (length (functions u))).

(** What can be interpolated: something with values of its own, or a function *)
Inductive source := Expr (values : space -> vec) | Fun (f : nat).
Section Interpolate.
Variable replaces : bool.
(** The interpolant of a function with a space and coefficients *)
Variable interp : space -> space -> vec -> vec.
Definition interpolant (s : store) (g : source) (V : space) : vec :=
  match g with Expr values => values V | Fun f => interp V (fun_space s f) (coefficients s f) end.
(** [f.assign(df.interpolate(g, f.function_space()))] *)
Definition assign_interpolant (s : store) (f : nat) (g : source) : store :=
  let x := interpolant s g (fun_space s f) in
  if replaces
  then {| vecs := vecs s ++ [x]; funs := set_nth (funs s) f (fun_space s f, length (vecs s)) |}
  else set_vec s (fun_vec s f) x.
(** 79-86 *)
Definition interpolate (s : store) (u : iifun) (g : list source) : res store :=
  do _ <- py_assert (length (functions u) =? length g);
  do fs <- items u;
  Ok (fold_left (fun s p => assign_interpolant s (fst p) (snd p)) (combine fs g) s).
End Interpolate.
(** 88-93: the values drawn are a parameter *)
Definition randomize (s : store) (u : iifun) (draw : nat -> nat -> vec) : store :=
  fold_left (fun s p => set_vec s (snd p) (draw (fst p) (length (vec_at s (snd p))))) (combine (seq 0 (length (functions u))) (vectors s u)) s.
