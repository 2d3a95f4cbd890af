(** The manufactured solution on the unit cube: demo/poisson_babuska_3d.py:12-67.

    Expressions and integrands are as in MmsModel.v; the third coordinate is the symbol 3, the first
    parameter.  The sides of the cube are 1: x = 0, 2: x = 1, 3: y = 0, 4: y = 1, 5: z = 0, 6: z = 1.
    Meshes, elements and assembly are not modelled. *)
From Coq Require Import Reals List.
From Verif Require Export MmsModel.
Import ListNotations.
Local Open Scope nat_scope.

(** SpatialCoordinate(mesh), line 55 *)
Definition Z : expr := Sym 3.
Definition at3 (e : expr) (x y z : R) : R := at_ [z] e x y.
(** grad and div in space *)
Definition grad3 (a : expr) : expr * expr * expr := (diff a 0, diff a 1, diff a 3).
Definition div3 (u : expr * expr * expr) : expr := let '(a, b, c) := u in Plus (Plus (diff a 0) (diff b 1)) (diff c 3).
(** Values and derivatives at a point *)
Record jet3 := Jet3 { wa : R; w1 : R; w2 : R; w3 : R }.
Definition jet3_of (e : expr) (x y z : R) : jet3 := Jet3 (at3 e x y z) (at3 (diff e 0) x y z) (at3 (diff e 1) x y z) (at3 (diff e 3) x y z).

(** Lines 17-19: the marker of the facets of a side; the second marking overwrites the first *)
Definition P3_tag (side : nat) : nat := if side =? 1 then 2 else 1.
(** Line 21 *)
Definition P3_multiplier_tag : nat := 2.
(** Lines 45-46: the marker of the condition for V and its value, the value of the condition on the boundary of bmesh *)
Definition P3_bc_tag : nat := 1.
(** Lines 56-60 *)
Definition P3_u : expr := Cos (Times (Times (Times (Times (Times (Times Pi X) (Minus (Num 1) X)) Y) (Minus (Num 1) Y)) Z) (Minus (Num 1) Z)).
Definition P3_p : expr := Num 0.
Definition P3_f : expr := Plus (Neg (div3 (grad3 P3_u))) P3_u.
Definition P3_g : expr := P3_u.
Definition P3_bc_V : expr := P3_u.
Definition P3_bc_Q : expr := Num 0.
Local Open Scope R_scope.
(** Lines 35-37, 42-43 *)
Definition P3_a00 (u v : jet3) : R := (w1 u * w1 v + w2 u * w2 v + w3 u * w3 v) + wa u * wa v.
Definition P3_a01 (v p : jet3) : R := wa v * wa p.
Definition P3_a10 (u q : jet3) : R := wa u * wa q.
Definition P3_L0 (f : R) (v : jet3) : R := f * wa v.
Definition P3_L1 (g : R) (q : jet3) : R := g * wa q.
(** Rows of the system: integrands over the cube and over a side; dx_ has the facets bmesh was made of *)
Definition P3_row0_dx (u v : jet3) (f : R) : R := P3_a00 u v - P3_L0 f v.
Definition P3_row0_side (side : nat) (v p : jet3) : R := if (P3_tag side =? P3_multiplier_tag)%nat then P3_a01 v p else 0.
Definition P3_row1_side (side : nat) (u q : jet3) (g : R) : R := if (P3_tag side =? P3_multiplier_tag)%nat then P3_a10 u q - P3_L1 g q else 0.
