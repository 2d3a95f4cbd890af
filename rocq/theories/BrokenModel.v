(** broken_norm of demo/common.py:12-37, and the subdomains of the demos it is used with

    A cell is the list of its vertices.  [norm_f] is given by the tag of the exact solution and the
    cells of the submesh: uh is interpolated to a space with the same element on the submesh, where
    it stays the same function.  Dictionaries are association lists, [u] is the list of its keys.
    Numbers are real. *)
From Verif Require Export ImmersedModel.
Local Open Scope nat_scope.

(** SubDomain::mark of dolfin for one cell: all vertices and the midpoint are inside *)
Definition marks (inside : point -> bool) (c : list point) : bool := forallb inside c && inside (midpoint c).
(** 23-26: all cells 0, those inside [tag]; the cells with [tag] *)
Definition sub_mesh (inside : point -> bool) (tag : nat) (mesh : list (list point)) : list (list point) :=
  filter (fun c => (if marks inside c then tag else 0) =? tag) mesh.
Fixpoint lookup (subdomains : list (nat * (point -> bool))) (tag : nat) : option (point -> bool) :=
  match subdomains with [] => None | (t, s) :: r => if t =? tag then Some s else lookup r tag end.
(** 21-33 *)
Fixpoint errors (subdomains : list (nat * (point -> bool))) (norm_f : nat -> list (list point) -> R) (mesh : list (list point)) (u : list nat)
  : res (list R) :=
  match u with
  | [] => Ok []
  | tag :: u' =>
      do s <- opt_res KeyError (lookup subdomains tag);
      match sub_mesh s tag mesh with
      | [] => errors subdomains norm_f mesh u'
      | sub => do es <- errors subdomains norm_f mesh u'; Ok (norm_f tag sub :: es)
      end
  end.
(** 14-35 *)
Definition broken_norm (subdomains : list (nat * (point -> bool))) (norm_f : nat -> list (list point) -> R) (mesh : list (list point)) (u : list nat) : res R :=
  do es <- errors subdomains norm_f mesh u;
  Ok (sqrt (fold_right Rplus 0%R (map (fun e => (e * e)%R) es))).

(** demo/twoDoneDoneD.py:80-81 *)
Definition halves : list (nat * (point -> bool)) :=
  [(1, fun p => lt (fst p) (5 / 10 + EPS)); (2, fun p => lt (5 / 10 - EPS) (fst p))].
(** demo/twoDoneDoneD.py:29-30: all cells 1, those inside 2 *)
Definition half_f (n : nat) (c : list vertex) : nat := mark n (fun p => lt (5 / 10 - EPS) (fst p)) 2 c 1.
(** demo/poisson_babuska_bc.py:85-88, also demo/sym_grad_babuska.py:21-24 *)
Definition square_sides : list (nat * (point -> bool)) :=
  [(1, fun p => near (fst p) 0); (2, fun p => near (fst p) 1); (3, fun p => near (snd p) 0); (4, fun p => near (snd p) 1)].
(** demo/poisson_babuska_bc.py:141-142: the facets of a square mesh, marked one side after the
    other; the cells of EmbeddedMesh(facet_f, tags) *)
Definition side_facets (n : nat) (tags : list nat) : list (list vertex) :=
  filter (fun e => existsb (Nat.eqb (facet_f n square_sides e)) tags) (nodup (list_eq_dec vertex_eq) (flat_map edges (cells n))).
(** The subdomains of demo/emi_primal.py:57-62 and demo/dq_darcy_stokes.py:80-85 are
    [inner_boundaries] *)
