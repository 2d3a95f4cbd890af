(** immersed_geometry of demo/utils.py:13-73, and rotate (6)

    UnitSquareMesh(n, n): n times n squares with the diagonal to the upper right; a vertex is the
    pair of its numbers in the rows, its coordinates are those numbers over [n].  SubDomain::mark of
    dolfin marks an entity if all of its vertices and its midpoint are inside.  EmbeddedMesh for
    cells keeps the cells with the marker; a facet is the list of its two vertices.  Arithmetic is
    exact, as it is in the code, since n is a power of 2 (but for 0.75 + DOLFIN_EPS). *)
From Verif Require Export Base.
From Coq Require Export Reals.
Local Open Scope nat_scope.

Notation vertex := (nat * nat)%type.
Notation point := (R * R)%type.
(** 30: n = 4*2**i *)
Definition resolution (i : nat) : nat := 4 * 2 ^ i.
Definition coord (n : nat) (v : vertex) : point := (INR (fst v) / INR n, INR (snd v) / INR n)%R.
(** 31 *)
Definition square_cells (a b : nat) : list (list vertex) := [[(a, b); (a + 1, b); (a + 1, b + 1)]; [(a, b); (a, b + 1); (a + 1, b + 1)]].
Definition cells (n : nat) : list (list vertex) := flat_map (fun b => flat_map (fun a => square_cells a b) (seq 0 n)) (seq 0 n).
(** The edges of a cell *)
Definition edges (c : list vertex) : list (list vertex) :=
  match c with [u; v; w] => [[u; v]; [u; w]; [v; w]] | _ => [] end.

(** Conditions of C++ *)
Definition EPS : R := (3 / 10 ^ 16)%R.
Definition lt (x y : R) : bool := if Rlt_dec x y then true else false.
Definition near (x x0 : R) : bool := if Rle_dec (x0 - EPS) x then if Rle_dec x (x0 + EPS) then true else false else false.

(** 33-36 *)
Definition inner (p : point) : bool :=
  lt (fst p) (75 / 100 + EPS) && lt (25 / 100 - EPS) (fst p) && lt (snd p) (75 / 100 + EPS) && lt (25 / 100 - EPS) (snd p).
(** 43-51, 56-61 *)
Definition in_range (x : R) : bool := lt (25 / 100 - EPS) x && lt x (75 / 100 + EPS).
Definition inner_boundaries : list (nat * (point -> bool)) :=
  [(1, fun p => near (fst p) (25 / 100) && in_range (snd p)); (2, fun p => near (fst p) (75 / 100) && in_range (snd p));
   (3, fun p => near (snd p) (25 / 100) && in_range (fst p)); (4, fun p => near (snd p) (75 / 100) && in_range (fst p))].
Definition outer_boundaries : list (nat * (point -> bool)) :=
  inner_boundaries ++ [(5, fun p => near (fst p) 0); (6, fun p => near (fst p) 1); (7, fun p => near (snd p) 0); (8, fun p => near (snd p) 1)].

(** SubDomain::mark for an entity with these vertices and this marker *)
Definition midpoint (ps : list point) : point :=
  (fold_right Rplus 0 (map fst ps) / INR (length ps), fold_right Rplus 0 (map snd ps) / INR (length ps))%R.
Definition mark (n : nat) (inside : point -> bool) (tag : nat) (e : list vertex) (old : nat) : nat :=
  let ps := map (coord n) e in if forallb inside ps && inside (midpoint ps) then tag else old.

(** 38-39 *)
Definition cell_f (n : nat) (c : list vertex) : nat := mark n inner 2 c 1.
(** 41, 54: EmbeddedMesh(cell_f, tag) *)
Definition embedded (n tag : nat) : list (list vertex) := filter (fun c => cell_f n c =? tag) (cells n).
(** 42-52, 55-62 *)
Definition facet_f (n : nat) (boundaries : list (nat * (point -> bool))) (e : list vertex) : nat :=
  fold_left (fun old b => mark n (snd b) (fst b) e old) boundaries 0.

(** 64-73: cells and, by facet or cell, markers *)
Inductive which_domain := Outer | Inner | Interface | Other.
Definition vertex_eq (u v : vertex) : {u = v} + {u <> v}.
Proof. decide equality; apply Nat.eq_dec. Defined.
Definition immersed_geometry (i : nat) (which : which_domain) : res (list (list vertex) * (list vertex -> nat)) :=
  let n := resolution i in
  match which with
  | Outer => Ok (embedded n 1, facet_f n outer_boundaries)
  | Inner => Ok (embedded n 2, facet_f n inner_boundaries)
  | Interface =>
      (* EmbeddedMesh(inner_ff, (1, 2, 3, 4)) *)
      let facets := nodup (list_eq_dec vertex_eq) (flat_map edges (embedded n 2)) in
      Ok (filter (fun e => existsb (Nat.eqb (facet_f n inner_boundaries e)) [1; 2; 3; 4]) facets, facet_f n inner_boundaries)
  | Other => Err AssertionError
  end.

(** 6: the dot product with ((0, 1), (-1, 0)) *)
Definition rotate (v : point) : point := (0 * fst v + 1 * snd v, -1 * fst v + 0 * snd v)%R.
