(** The optimal control problem of demo/optim_control_L2.py

    The spaces are given by what the integrals give for pairs of their basis functions: [dxQQ],
    [dxQV], [dxVV] are inner(., .)*dx, [gVV] is inner(grad(.), grad(.))*dx and [bVV] is
    inner(T., T.)*dxGamma; [bVf] is inner(T., f)*dxGamma.  V and B of 19-20 are the same space.  A
    matrix has a row per test function and a column per trial function.  Numbers are rational. *)
From Verif Require Export Base Mat.
Local Open Scope Qc_scope.

Section Forms.
Variables (n m : nat) (dxQQ dxQV dxVV gVV bVV : nat -> nat -> Qc) (bVf : nat -> Qc) (eps : Qc).
(** 33-34 *)
Definition a00 : mat := Mat n n (fun q p => eps * dxQQ p q).
Definition a02 : mat := Mat n m (fun q lmbda => dxQV q lmbda).
(** 36-37 *)
Definition a11 : mat := Mat m m (fun v u => bVV u v).
Definition a12 : mat := Mat m m (fun v lmbda => gVV v lmbda + dxVV v lmbda).
(** 39-40; inner(p, beta) is that of a function of Q with one of V *)
Definition a20 : mat := Mat m n (fun beta p => dxQV p beta).
Definition a21 : mat := Mat m m (fun beta u => gVV u beta + dxVV u beta).
(** 42-44 *)
Definition L0 : vec := vtab n (fun _ => q0).
Definition L1 : vec := vtab m bVf.
Definition L2 : vec := vtab m (fun _ => q0).
(** 31-46: rows times (p, u, lmbda); a block that is 0 adds nothing *)
Definition row0 (p u l : vec) : vec := vadd (mv a00 p) (mv a02 l).
Definition row1 (p u l : vec) : vec := vadd (mv a11 u) (mv a12 l).
Definition row2 (p u l : vec) : vec := vadd (mv a20 p) (mv a21 u).
Definition solves (p u l : vec) : Prop := row0 p u l = L0 /\ row1 p u l = L1 /\ row2 p u l = L2.

(** 76-85: what AMG gets from Nielsen's preconditioner; [D] is the diagonal of LumpedInvDiag (of
    cbc.block) of the mass matrix *)
Variable D : nat -> Qc.
Definition B11_nielsen : mat :=
  let M_bdry := Mat m m (fun v u => bVV u v) in
  let A := Mat m m (fun v u => gVV v u + dxVV v u) in
  let M := mdiag m D in
  madd M_bdry (mmul (mmul (mscale eps A) M) A).
(** 97-98: Schoeberl and Zulehner; ds is the measure of the same boundary, traces are values *)
Definition B11_zulehner : mat := Mat m m (fun v u => bVV u v + eps * (gVV v u + dxVV v u)).
End Forms.

(** ** sandbox/optim_control_H0.5.py *)
(** The system is that above with other blocks (1, 1) and 1 (42-57, 69-70).  [T] is the matrix of the trace (60) and
    [fDelta] that of HsNorm (62, of hsmg), both as entries.  64 *)
Definition A11_fract (T fDelta : mat) : mat := mmul (mmul (mtr T) fDelta) T.
(** 67-69; [f_vec] are the values of the interpolant of f *)
Definition b1_fract (T fDelta : mat) (f_vec : vec) : vec := mv (A11_fract T fDelta) f_vec.
Definition solves_fract (n m : nat) (dxQQ dxQV dxVV gVV : nat -> nat -> Qc) (eps : Qc) (T fDelta : mat) (f_vec : vec) (p u l : vec) : Prop :=
  solves n m dxQQ dxQV dxVV gVV (fun u v => ent (A11_fract T fDelta) v u) (fun v => vnth (b1_fract T fDelta f_vec) v) eps p u l.
(** 102-103: what AMG gets *)
Definition B11_fract (m : nat) (dxVV gVV : nat -> nat -> Qc) (eps : Qc) (T fDelta : mat) : mat :=
  madd (A11_fract T fDelta) (Mat m m (fun v u => eps * (gVV v u + dxVV v u))).
