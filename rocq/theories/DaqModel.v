(** The tissue and vessel problem of d'Angelo and Quarteroni (sandbox/daq_standalone.py:12-55) and the
    problem with a value at a point (demo/dirac_2d.py:6-34).

    Functions are coefficients and integrals of products of basis functions are given, as in
    VesselModel.v: [g3], [m3] are those of V, [g1], [m1] of Q on the curve, [mT] is inner*dxGamma of two
    functions of the space of averages and [mTV] of one and a function of Q.  [avg] and [tr] are the
    matrices of Average with the circle and with None, into the same space.  [bfT] and [bfQ] are the
    integrals of f with basis functions.  Numbers are real. *)
From Verif Require Export VesselModel.
Local Open Scope R_scope.

(** ** daq_standalone.py *)
Section Daq.
Variables (n3 n nT : nat) (g3 m3 g1 m1 mT mTV avg tr : nat -> nat -> R) (bfT bfQ : nat -> R).
(** 13-15; daq_3d1d.py:15-17 *)
Definition Alpha1 : R := 2 / 100.
Definition Alpha0 : R := 1 / 100.
Definition alpha1 : R := 2.
Definition alpha0 : R := 1 / 100.
Definition beta : R := 10.
(** 45-46; daq_3d1d.py:46-47 *)
Definition dq_row0 (u p v : fvec) : R :=
  (Alpha1 * form n3 n3 g3 u v + Alpha0 * form n3 n3 m3 u v + beta * form nT nT mT (Pi n3 avg u) (Pi n3 tr v)) + - beta * form nT n mTV (Pi n3 tr v) p.
(** 47-48; daq_3d1d.py:48-49 (there the block of 49 is not used) *)
Definition dq_row1 (u p q : fvec) : R :=
  - beta * form nT n mTV (Pi n3 avg u) q + (alpha1 * form n n g1 p q + (alpha0 + beta) * form n n m1 p q).
(** 53-55 *)
Definition dq_solves (u p : fvec) : Prop := (forall v, dq_row0 u p v = lin nT bfT (Pi n3 tr v)) /\ (forall q, dq_row1 u p q = lin n bfQ q).
End Daq.

(** ** dirac_2d.py: [dlt] are the values of basis functions at x0, by components (20); an integral over
    the mesh of a number is the number times [volume] (11, 23-24) *)
Section Dirac.
Variables (n : nat) (g m dlt : nat -> nat -> R) (volume : R) (bf : nat -> R) (gv : nat -> R).
(** 22, 25; 28 *)
Definition di_row0 (u p v : fvec) : R := form n n g u v + form n n m u v + volume * rsum 2 (fun k => Pi n dlt v k * p k).
(** 26; 29 *)
Definition di_row1 (u p q : fvec) : R := volume * rsum 2 (fun k => Pi n dlt u k * q k).
Definition di_solves (u p : fvec) : Prop := (forall v, di_row0 u p v = lin n bf v) /\ (forall q, di_row1 u p q = volume * rsum 2 (fun k => gv k * q k)).
End Dirac.
