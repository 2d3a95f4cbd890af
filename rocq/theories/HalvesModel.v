(** get_geometry of demo/twoDoneDoneD.py:21-42

    Cells, facets and points as in StripModel.v and InnerModel.v, with what is trusted there about dolfin; near(x, a)
    is |x - a| < tol, and DOLFIN_EPS is the same tolerance, an argument. *)
From Coq Require Import Reals.
From Verif Require Export InnerModel.
Local Open Scope R_scope.

Section Halves.
Variables (n : nat) (tol : R).
Definition rlt (a b : R) : bool := if Rlt_dec a b then true else false.
Definition near_to (x a : R) : bool := rlt (Rabs (x - a)) tol.
(** SubDomain.mark: all vertices and the midpoint *)
Definition marked (inside : R * R -> bool) (vs : list (nat * nat)) : bool :=
  forallb inside (map (point n) vs) && inside (midpoint n vs).
(** 29-30 *)
Definition cell_tag (c : gcell) : nat := if marked (fun p => rlt (/ 2 - tol) (fst p)) (cell_vertices c) then 2%nat else 1%nat.
(** 33-39 *)
Definition boundaries : list (nat * (R * R -> bool)) :=
  [(1%nat, fun p => near_to (fst p) 0);
   (2%nat, fun p => near_to (fst p) 1);
   (3%nat, fun p => near_to (snd p) 0 && rlt (fst p) (/ 2 + tol));
   (4%nat, fun p => near_to (snd p) 0 && rlt (/ 2 - tol) (fst p));
   (5%nat, fun p => near_to (snd p) 1 && rlt (fst p) (/ 2 + tol));
   (6%nat, fun p => near_to (snd p) 1 && rlt (/ 2 - tol) (fst p));
   (7%nat, fun p => near_to (fst p) (/ 2))].
(** 32, 40: in the order of the dictionary, later marks win *)
Definition facet_tag (f : gfacet) : nat :=
  fold_left (fun t b => if marked (snd b) (facet_vertices f) then fst b else t) boundaries 0%nat.
End Halves.
(** 26 *)
Definition cells_per_side (i : nat) : nat := (4 * 2 ^ i)%nat.
