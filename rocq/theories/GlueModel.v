(** Traces of functions that know only a part of the interface:
    sandbox/incomple_trace.py and incomple_trace_tagged.py.

    Library meaning that is trusted here: UnitSquareMesh(n, n) and
    RectangleMesh cut every square by the diagonal from the lower left to the
    upper right; SubDomain.mark marks an entity when all its vertices and its
    midpoint are inside; a function of CG1 is known by its values in the
    vertices, and the trace in DG1 of the edges takes them over where the vertex
    belongs to the mesh of the function.  Where it does not, the value is
    whatever the trace matrix gives there: a parameter.  Integrals of products
    of linear functions over an edge are exact.  near(x, y) is equality. *)
From Coq Require Import List Arith ZArith Reals Bool.
Import ListNotations.

(** A point (a / d, b / d) *)
Record point := Pt { px : Z; py : Z; pd : Z }.
Definition vertex := (nat * nat)%type.
Definition edge := (vertex * vertex)%type.

(** The mesh of the unit square with [n] times [n] squares *)
Section Mesh.
Variable n : nat.
Definition at_vertex (v : vertex) : point := Pt (Z.of_nat (fst v)) (Z.of_nat (snd v)) (Z.of_nat n).
Definition midpoint (l : list vertex) : point :=
  Pt (fold_right Z.add 0%Z (map (fun v => Z.of_nat (fst v)) l)) (fold_right Z.add 0%Z (map (fun v => Z.of_nat (snd v)) l))
     (Z.of_nat (length l) * Z.of_nat n).
Definition grid (a b : nat) : list vertex := list_prod (seq 0 a) (seq 0 b).
Definition lower (s : vertex) : list vertex := let (i, j) := s in [(i, j); (S i, j); (S i, S j)].
Definition upper (s : vertex) : list vertex := let (i, j) := s in [(i, j); (i, S j); (S i, S j)].
Definition cells : list (list vertex) := flat_map (fun s => [lower s; upper s]) (grid n n).
Definition edges : list edge :=
  map (fun s => (s, (S (fst s), snd s))) (grid n (S n)) ++
  map (fun s => (s, (fst s, S (snd s)))) (grid (S n) n) ++
  map (fun s => (s, (S (fst s), S (snd s)))) (grid n n).

(** CompiledSubDomain(...).mark(f, value), one after the other on a function of zeros *)
Definition inside_all (inside : point -> bool) (l : list vertex) : bool :=
  forallb (fun v => inside (at_vertex v)) l && inside (midpoint l).
Fixpoint marked (l : list vertex) (domains : list ((point -> bool) * nat)) (value : nat) : nat :=
  match domains with
  | [] => value
  | (inside, tag) :: domains' => marked l domains' (if inside_all inside l then tag else value)
  end.
(** Entities with the tags [ts] *)
Definition ends (e : edge) : list vertex := [fst e; snd e].
Definition embedded (domains : list ((point -> bool) * nat)) (ts : list nat) : list (edge * nat) :=
  filter (fun p => existsb (Nat.eqb (snd p)) ts) (map (fun e => (e, marked (ends e) domains 0)) edges).
Definition sub_vertices (domains : list ((point -> bool) * nat)) (tag : nat) : list vertex :=
  concat (filter (fun c => marked c domains 0 =? tag) cells).

(** Length of an edge *)
Definition len (e : edge) : R :=
  (sqrt (IZR ((Z.of_nat (fst (snd e)) - Z.of_nat (fst (fst e))) ^ 2 + (Z.of_nat (snd (snd e)) - Z.of_nat (snd (fst e))) ^ 2)) / INR n)%R.
End Mesh.

(** The domains of 60-66, with the tolerance 1 / tol (72, 80: 1E-10) *)
Section Domains.
Variable tol : Z.
Definition x_below (p : point) : bool := (2 * tol * px p <? pd p * tol + 2 * pd p)%Z.   (* x[0] < 0.5 + tol *)
Definition y_below (p : point) : bool := (2 * tol * py p <? pd p * tol + 2 * pd p)%Z.
Definition x_above (p : point) : bool := (pd p * tol - 2 * pd p <? 2 * tol * px p)%Z.   (* x[0] > 0.5 - tol *)
Definition y_above (p : point) : bool := (pd p * tol - 2 * pd p <? 2 * tol * py p)%Z.
(** 60-62 *)
Definition domain0 (p : point) : bool := x_below p && (tol * px p - pd p <? tol * py p)%Z.
Definition domain1 (p : point) : bool := y_below p && (tol * py p <? tol * px p + pd p)%Z.
Definition domain2 (p : point) : bool := x_above p && y_above p.
(** 64-66 *)
Definition iface1 (p : point) : bool := (2 * px p =? pd p)%Z && y_above p.
Definition iface2 (p : point) : bool := (px p =? py p)%Z && x_below p.
Definition iface3 (p : point) : bool := (2 * py p =? pd p)%Z && x_above p.
(** 71-72, 79-80 *)
Definition iface_tags : list ((point -> bool) * nat) := [(iface1, 1); (iface2, 2); (iface3, 3)].
Definition domain_tags : list ((point -> bool) * nat) := [(domain0, 0); (domain1, 1); (domain2, 2)].
End Domains.

(** 27-30: the sides of a square, with the coordinates relative to its lower left corner *)
Definition side1 (p : point) : bool := (px p =? 0)%Z.
Definition side2 (p : point) : bool := (py p =? pd p)%Z.
Definition side3 (p : point) : bool := (px p =? pd p)%Z.
Definition side4 (p : point) : bool := (py p =? 0)%Z.
Definition side_tags : list ((point -> bool) * nat) := [(side1, 1); (side2, 2); (side3, 3); (side4, 4)].

(** ** The system *)
Open Scope R_scope.
(** Integral of the product of the linear functions with the values u0, u1 and q0, q1 over an edge of length h *)
Definition product (h u0 u1 q0 q1 : R) : R := h / 6 * (2 * u0 * q0 + u0 * q1 + u1 * q0 + 2 * u1 * q1).
Fixpoint total (l : list R) : R := match l with [] => 0 | x :: l' => x + total l' end.
(** 42, 92: inner(p, q)*dx *)
Definition mass (n : nat) (mesh : list (edge * nat)) (u q : vertex -> R) : R :=
  total (map (fun p => let e := fst p in product (len n e) (u (fst e)) (u (snd e)) (q (fst e)) (q (snd e))) mesh).
(** 43, 93: the sum of inner(traces i, q)*dx(i); the trace may have two values in a vertex *)
Definition load (n : nat) (mesh : list (edge * nat)) (tags : list nat) (traces : nat -> edge -> R * R) (q : vertex -> R) : R :=
  total (map (fun t => total (map (fun p => let e := fst p in product (len n e) (fst (traces t e)) (snd (traces t e)) (q (fst e)) (q (snd e)))
                                  (filter (fun p => (snd p =? t)%nat) mesh))) tags).
(** The trace of the function [f] of the vertices [vs]; [out] stands for what is found elsewhere *)
Definition vertex_eqb (v w : vertex) : bool := (fst v =? fst w)%nat && (snd v =? snd w)%nat.
Definition trace (vs : list vertex) (f : vertex -> R) (out : edge -> R * R) (e : edge) : R * R :=
  let at_ v o := if existsb (vertex_eqb v) vs then f v else o in
  (at_ (fst e) (fst (out e)), at_ (snd e) (snd (out e))).

(** 24-43: one function for the four sides *)
Definition square_iface (n : nat) : list (edge * nat) := embedded n side_tags [1; 2; 3; 4]%nat.
Definition square_load (n : nat) (f : vertex -> R) (out : edge -> R * R) : (vertex -> R) -> R :=
  load n (square_iface n) [1; 2; 3; 4]%nat (fun _ => trace (concat (cells n)) f out).
(** 68-93: three functions *)
Definition pieces_iface (n : nat) (tol : Z) : list (edge * nat) := embedded n (iface_tags tol) [1; 2; 3]%nat.
Definition pieces_load (n : nat) (tol : Z) (f : vertex -> R) (out : nat -> edge -> R * R) : (vertex -> R) -> R :=
  load n (pieces_iface n tol) [1; 2; 3]%nat
    (fun t => trace (sub_vertices n (domain_tags tol) (t - 1)) f (out t)).
(** incomple_trace_tagged.py:43,87: the trace is zero on the other pieces *)
Definition tagged (n : nat) (mesh : list (edge * nat)) (t : nat) (g : edge -> R * R) (e : edge) : R * R :=
  if existsb (fun p => vertex_eqb (fst (fst p)) (fst e) && vertex_eqb (snd (fst p)) (snd e) && (snd p =? t)%nat) mesh then g e else (0, 0).
Definition tagged_load (n : nat) (tol : Z) (f : vertex -> R) (out : nat -> edge -> R * R) : (vertex -> R) -> R :=
  load n (pieces_iface n tol) [1; 2; 3]%nat
    (fun t => tagged n (pieces_iface n tol) t (trace (sub_vertices n (domain_tags tol) (t - 1)) f (out t))).
