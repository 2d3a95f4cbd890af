(** Problems coupled with multipliers in demo/layer_2d.py:34-74 (over the overlap of two domains) and
    apps/d123/solving.py:17-65 (a domain, a surface in it and a curve in the surface).

    Functions are coefficients and the integrals of products of basis functions are given, as in
    VesselModel.v: [g1], [m1] are inner(grad, grad)*dx and inner*dx of V1 and so on, [mO] is
    inner*dxOmega of Q.  The restriction of a function to the overlap, and the trace, are given by
    their matrices ([r1], [r2] and [t32], [t21]) into the spaces on the smaller mesh, which are those
    of the multipliers: all spaces are CG 1.  [bf1], [bf2], [bg] are the integrals of the data with
    basis functions.  Numbers are real. *)
From Verif Require Export VesselModel.
Local Open Scope R_scope.

(** ** demo/layer_2d.py *)
Section Layer.
Variables (n1 n2 nq : nat) (g1 m1 g2 m2 mO r1 r2 : nat -> nat -> R) (bf1 bf2 bg : nat -> R).
(** 37 *)
Definition Alpha1 : R := 5.
Definition Alpha2 : R := 1.
(** 55, 57, 67 *)
Definition ly_row0 (u1 u2 p v1 : fvec) : R := Alpha1 * form n1 n1 g1 u1 v1 + form n1 n1 m1 u1 v1 + form nq nq mO (Pi n1 r1 v1) p.
(** 60-61, 68 *)
Definition ly_row1 (u1 u2 p v2 : fvec) : R := Alpha2 * form n2 n2 g2 u2 v2 + form n2 n2 m2 u2 v2 + - form nq nq mO (Pi n2 r2 v2) p.
(** 63-64, 69 *)
Definition ly_row2 (u1 u2 p q : fvec) : R := form nq nq mO (Pi n1 r1 u1) q + - form nq nq mO (Pi n2 r2 u2) q.
(** 67-72 *)
Definition ly_solves (u1 u2 p : fvec) : Prop :=
  (forall v1, ly_row0 u1 u2 p v1 = lin n1 bf1 v1) /\ (forall v2, ly_row1 u1 u2 p v2 = lin n2 bf2 v2) /\ (forall q, ly_row2 u1 u2 p q = lin nq bg q).
End Layer.

(** ** apps/d123/solving.py *)
Section D123.
Variables (n3 n2 n1 : nat) (g3 g2 g1 mS mG t32 t21 : nat -> nat -> R) (bf : nat -> R).
(** 45, 49 *)
Definition d_row0 (u3 u2 u1 p2 p1 v3 : fvec) : R := form n3 n3 g3 u3 v3 + form n2 n2 mS p2 (Pi n3 t32 v3).
(** 46, 50, 52 *)
Definition d_row1 (u3 u2 u1 p2 p1 v2 : fvec) : R := form n2 n2 g2 u2 v2 + - form n2 n2 mS p2 v2 + form n1 n1 mG p1 (Pi n2 t21 v2).
(** 47, 53 *)
Definition d_row2 (u3 u2 u1 p2 p1 v1 : fvec) : R := form n1 n1 g1 u1 v1 + - form n1 n1 mG p1 v1.
(** 58-59 *)
Definition d_row3 (u3 u2 u1 p2 p1 q2 : fvec) : R := form n2 n2 mS q2 (Pi n3 t32 u3) + - form n2 n2 mS q2 u2.
(** 55-56 *)
Definition d_row4 (u3 u2 u1 p2 p1 q1 : fvec) : R := form n1 n1 mG q1 (Pi n2 t21 u2) + - form n1 n1 mG q1 u1.
(** 61-65 *)
Definition d_solves (u3 u2 u1 p2 p1 : fvec) : Prop :=
  (forall v, d_row0 u3 u2 u1 p2 p1 v = 0) /\ (forall v, d_row1 u3 u2 u1 p2 p1 v = 0) /\ (forall v, d_row2 u3 u2 u1 p2 p1 v = 0) /\
  (forall q, d_row3 u3 u2 u1 p2 p1 q = 0) /\ (forall q, d_row4 u3 u2 u1 p2 p1 q = lin n1 bf q).
End D123.
