(** test_translate_markers_2d of test/test_translate_markers.py:6-50

    Cells, facets, points and conditions as in StripModel.v, InnerModel.v and HalvesModel.v, with what is trusted there
    about dolfin; DOLFIN_EPS is the tolerance of near.  EmbeddedMesh(cell_f, 2) has the cells of tag 2, and its
    translate_markers (EmbedModel.v) is used by what it returns for such meshes: each facet of the embedded mesh has
    the value of the facet of the mesh with the same vertices if the value is one of the tags, 0 otherwise. *)
From Coq Require Import Reals.
From Verif Require Export HalvesModel.
Local Open Scope R_scope.

Section Quarter.
Variables (n : nat) (tol : R).
(** 18-21: between 0.25 - DOLFIN_EPS and 0.75 + DOLFIN_EPS *)
Definition q_between (x : R) : bool := rlt (/ 4 - tol) x && rlt x (3 / 4 + tol).
(** 14-21 *)
Definition q_conditions : list (nat * (R * R -> bool)) :=
  [(10%nat, fun p => near_to tol (fst p) 0);
   (20%nat, fun p => near_to tol (fst p) 1);
   (30%nat, fun p => near_to tol (snd p) 0);
   (40%nat, fun p => near_to tol (snd p) 1);
   (1%nat, fun p => near_to tol (fst p) (/ 4) && q_between (snd p));
   (2%nat, fun p => near_to tol (fst p) (3 / 4) && q_between (snd p));
   (3%nat, fun p => near_to tol (snd p) (/ 4) && q_between (fst p));
   (4%nat, fun p => near_to tol (snd p) (3 / 4) && q_between (fst p))].
(** 13-21: bdries, later marks win *)
Definition q_tag (f : gfacet) : nat :=
  fold_left (fun t b => if marked n (snd b) (facet_vertices f) then fst b else t) q_conditions 0%nat.
(** 24-26: cell_f *)
Definition q_cell (c : gcell) : nat := if marked n (fun p => q_between (fst p) && q_between (snd p)) (cell_vertices c) then 2%nat else 1%nat.
(** 28 *)
Definition q_inside : list gcell := filter (fun c => q_cell c =? 2)%nat (mesh_cells n n).
Definition q_facets : list gfacet := flat_map cell_facets q_inside.
(** 29 *)
Definition q_values (f : gfacet) : nat := if existsb (Nat.eqb (q_tag f)) [1; 2; 3; 4; 10; 20; 30; 40]%nat then q_tag f else 0%nat.
(** 30: the values are those of the set *)
Definition q_assert : Prop := forall t, (exists f, In f q_facets /\ q_values f = t) <-> In t [0; 1; 2; 3; 4]%nat.
End Quarter.
