(** create_mesh of sandbox/daniele.py:10-34

    Meaning of dolfin that is trusted here: BoxMesh(Point(-1, -1, -1), Point(1, 1, 1), N, N, 2 N) has the vertices
    (-1 + 2 a/N, -1 + 2 b/N, -1 + c/N), and each edge joins two corners of a box along one of the seven directions
    below; SubDomain.mark marks the edges whose two vertices and midpoint are inside; near(x, a) is |x - a| < tol, the
    tolerance is an argument; EmbeddedMesh has the marked edges.  Coordinates are exact. *)
From Coq Require Import Reals.
From Verif Require Export Base.
Local Open Scope R_scope.

Definition pt : Type := R * R * R.
Definition px (p : pt) : R := fst (fst p).
Definition py (p : pt) : R := snd (fst p).
Definition pz (p : pt) : R := snd p.
Definition vertex : Type := nat * nat * nat.
(** An edge: its first vertex and the direction *)
Inductive dir := D100 | D010 | D001 | D110 | D101 | D011 | D111.
Definition edge : Type := vertex * dir.
Definition other_end (e : edge) : vertex :=
  let '((a, b, c), d) := e in
  (match d with
   | D100 => (S a, b, c) | D010 => (a, S b, c) | D001 => (a, b, S c)
   | D110 => (S a, S b, c) | D101 => (S a, b, S c) | D011 => (a, S b, S c) | D111 => (S a, S b, S c)
   end)%nat.

Section Wire.
Variables (N : nat) (tol : R).
(** 14 *)
Definition coords (v : vertex) : pt :=
  let '(a, b, c) := v in (-1 + 2 * INR a / INR N, -1 + 2 * INR b / INR N, -1 + 2 * INR c / INR (2 * N)).
Definition in_mesh (v : vertex) : Prop := let '(a, b, c) := v in (a <= N /\ b <= N /\ c <= 2 * N)%nat.
Definition middle (p q : pt) : pt := ((px p + px q) / 2, (py p + py q) / 2, (pz p + pz q) / 2).
Definition near_ (x a : R) : bool := if Rlt_dec (Rabs (x - a)) tol then true else false.
Definition marks (inside : pt -> bool) (e : edge) : bool :=
  let p := coords (fst e) in let q := coords (other_end e) in inside p && inside q && inside (middle p q).
(** 18-28: the conditions in their order *)
Definition conditions : list (pt -> bool) :=
  flat_map (fun xi => map (fun yi p => near_ (px p) xi && near_ (py p) yi) [- / 2; 0; / 2]) [- / 2; 0; / 2] ++
  flat_map (fun zi => map (fun yi p => near_ (py p) yi && near_ (pz p) zi) [- / 2; 0; / 2]) [- / 2; / 2] ++
  flat_map (fun zi => map (fun xi p => near_ (px p) xi && near_ (pz p) zi) [- / 2; / 2]) [- / 2; / 2].
(** 16, 20, 24, 28 *)
Definition gamma (e : edge) : nat := fold_left (fun t c => if marks c e then 1%nat else t) conditions 0%nat.
(** 10-34: the edges of mesh1d and the vertex *)
Definition create_mesh : res ((edge -> Prop) * pt) :=
  do _ <- py_assert (N mod 2 =? 0)%nat;
  Ok (fun e => gamma e = 1%nat, (0, 0, -1)).
End Wire.
