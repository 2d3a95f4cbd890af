(** Coupled 3d-1d problems with averages: apps/enumath/has_multiplier.py:6-82,
    apps/enumath/not_has_multiplier.py:6-59 and sandbox/daniele.py:37-125.

    Functions are coefficients.  The integrals of products of basis functions are given: [g3], [m3],
    [s3] are inner(grad, grad)*dx, inner*dx and inner*ds of V3, [g1], [m1], [s1] those of V on the
    curve (dxG, and ds of its end points), [mT] is inner*dxG of the space of averages and [mTV] that
    of an average with a function of V.  [avg] is the averaging matrix (of average_matrix.py); an
    Average in a form is replaced by the average, as in C26.  [bf] and [bg] are the integrals of f*ds
    and g*dxG with basis functions.  A system is given by its rows times a vector of coefficients of
    the test function.  Numbers are real. *)
From Coq Require Export Reals.
From Verif Require Export RLin.
Local Open Scope R_scope.

Notation fvec := (nat -> R).
(** A form at functions with coefficients x and y *)
Definition form (n m : nat) (F : nat -> nat -> R) (x y : fvec) : R := rsum n (fun i => rsum m (fun j => x i * F i j * y j)).
Definition lin (n : nat) (f : nat -> R) (x : fvec) : R := rsum n (fun i => f i * x i).

Section Vessel.
Variables (n3 n nT : nat) (g3 m3 s3 g1 m1 s1 mT mTV : nat -> nat -> R) (avg : nat -> nat -> R) (bf bg : nat -> R).
Variables (k3d k1d kG kbdry radius : R).
Definition Pi (u3 : fvec) : fvec := fun t => rsum n3 (fun j => avg t j * u3 j).

(** ** not_has_multiplier.py *)
(** 40-42, 48; sandbox/daniele.py:69-71, 77 *)
Definition nh_row0 (u3 u v3 : fvec) : R :=
  (k3d * form n3 n3 g3 u3 v3 + kbdry * form n3 n3 s3 u3 v3 + 2 * PI * radius * kG * form nT nT mT (Pi u3) (Pi v3)) +
  - (2 * PI * radius * kG * form nT n mTV (Pi v3) u).
(** 44-46, 49; sandbox/daniele.py:73-75, 78 *)
Definition nh_row1 (u3 u v : fvec) : R :=
  - (2 * PI * radius * kG * form nT n mTV (Pi u3) v) +
  (PI * radius ^ 2 * k1d * form n n g1 u v + form n n s1 u v + 2 * PI * radius * kG * form n n m1 u v).
(** 51-52; sandbox/daniele.py:80-81, has_multiplier.py:55-56 *)
Definition L0 (v3 : fvec) : R := kbdry * lin n3 bf v3.
Definition L1 (v : fvec) : R := kbdry * lin n bg v.
Definition nh_solves (u3 u : fvec) : Prop := (forall v3, nh_row0 u3 u v3 = L0 v3) /\ (forall v, nh_row1 u3 u v = L1 v).

(** ** has_multiplier.py *)
(** 52 *)
Definition p_const : R := 1 / (2 * PI * radius * kG).
(** 41, 45 *)
Definition hm_row0 (u3 u p v3 : fvec) : R := k3d * form n3 n3 g3 u3 v3 + kbdry * form n3 n3 s3 u3 v3 + - form nT n mTV (Pi v3) p.
(** 43, 46 *)
Definition hm_row1 (u3 u p v : fvec) : R := PI * radius ^ 2 * k1d * form n n g1 u v + form n n s1 u v + form n n m1 p v.
(** 48-49, 53 *)
Definition hm_row2 (u3 u p q : fvec) : R := - form nT n mTV (Pi u3) q + form n n m1 q u + - p_const * form n n m1 p q.
(** 55-57 *)
Definition hm_solves (u3 u p : fvec) : Prop :=
  (forall v3, hm_row0 u3 u p v3 = L0 v3) /\ (forall v, hm_row1 u3 u p v = L1 v) /\ (forall q, hm_row2 u3 u p q = 0).

(** ** Preconditioners: what is given to AMG *)
(** daniele.py:103; 122; 108 and 125 *)
Definition pc_H1 (u3 v3 : fvec) : R := form n3 n3 g3 u3 v3 + form n3 n3 m3 u3 v3.
Definition pc_A (u3 v3 : fvec) : R := pc_H1 u3 v3 + 2 * PI * radius * form nT nT mT (Pi u3) (Pi v3).
Definition pc_1d (u v : fvec) : R := PI * radius ^ 2 * form n n g1 u v + form n n m1 u v.
(** has_multiplier.py:73, 76 *)
Definition pc_robin3 (u3 v3 : fvec) : R := form n3 n3 g3 u3 v3 + form n3 n3 s3 u3 v3.
Definition pc_robin1 (u v : fvec) : R := form n n g1 u v + form n n s1 u v.
End Vessel.
(** has_multiplier.py:17, not_has_multiplier.py:17, daniele.py:7: 3d, 1d, interface, boundary *)
Definition K_CONSTANTS : R * R * R * R := (1 / 10, 1, 5 / 10, 2 / 10).
