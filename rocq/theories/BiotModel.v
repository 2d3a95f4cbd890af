(** The system of Biot and Stokes with an interface in sandbox/bc_apply.py:8-108.

    Functions are coefficients and integrals over the two domains are given, as in VesselModel.v: [b_mV] is inner*dx of Vp, [b_mQ]
    of Qp, [b_eU], [b_dU] are inner(sym(grad), sym(grad))*dx and inner(div, div)*dx of U, [b_eF] the first of Vf; [b_bV],
    [b_bU], [b_bF] are the integrals of div of the first with the pressure.  Integrals over the interface are sums over points with
    weights, where [b_n] is the normal n_Gamma_f, and [b_tV], [b_tU], [b_tF] are the components of traces at the points, [b_xi]
    the functions of X.  A system is given by its rows times coefficients of the test function.  The constants of line 8 are
    parameters.  Numbers are real.  Boundary conditions (113-136) are left out. *)
From Verif Require Export VesselModel.
Local Open Scope R_scope.

Record biot := Biot {
  dt : R; alpha : R; s0 : R; mu_f : R; mu_p : R; lbd_p : R; perm : R;                            (* 8 *)
  nV : nat; nQ : nat; nU : nat; nF : nat; nP : nat; nX : nat;                                  (* 30-41 *)
  b_mV : nat -> nat -> R; b_mQ : nat -> nat -> R; b_eU : nat -> nat -> R; b_dU : nat -> nat -> R; b_eF : nat -> nat -> R;
  b_bV : nat -> nat -> R; b_bU : nat -> nat -> R; b_bF : nat -> nat -> R;
  b_pts : nat; b_w : nat -> R; b_n : nat -> R * R;
  b_tV : nat -> nat -> R * R; b_tU : nat -> nat -> R * R; b_tF : nat -> nat -> R * R; b_xi : nat -> nat -> R }.

(** Trace(u, interface) at a point, 54-56 *)
Definition trace2 (n : nat) (t : nat -> nat -> R * R) (u : fvec) (k : nat) : R * R :=
  (rsum n (fun j => fst (t k j) * u j), rsum n (fun j => snd (t k j) * u j)).
Definition dot2 (a b : R * R) : R := fst a * fst b + snd a * snd b.
Definition neg2 (a : R * R) : R * R := (- fst a, - snd a).
Section Rows.
Variable b : biot.
(** dxGamma, 59 *)
Definition over (f : nat -> R) : R := rsum (b_pts b) (fun k => b_w b k * f k).
Definition n_f (k : nat) : R * R := b_n b k.                                                     (* 60 *)
Definition n_p (k : nat) : R * R := neg2 (b_n b k).                                              (* 61 *)
Definition TV (u : fvec) := trace2 (nV b) (b_tV b) u.
Definition TU (u : fvec) := trace2 (nU b) (b_tU b) u.
Definition TF (u : fvec) := trace2 (nF b) (b_tF b) u.
Definition XI (l : fvec) (k : nat) : R := rsum (nX b) (fun j => b_xi b k j * l j).
(** lbd * dot(T, n) * dxGamma, 80-83 *)
Definition paired (l : fvec) (T n : nat -> R * R) : R := over (fun k => XI l k * dot2 (T k) (n k)).
(** 86-94 *)
Definition friction (S T : nat -> R * R) : R :=
  over (fun k => dot2 (S k) (T k) * (1 / dt b)) - over (fun k => dot2 (S k) (n_f k) * dot2 (T k) (n_f k) * (1 / dt b)).
(** 65-78 and the rows 100-105 *)
Definition row0 (up pp dp uf pf lbd vp : fvec) : R :=
  mu_p b / perm b * form (nV b) (nV b) (b_mV b) up vp + - form (nV b) (nQ b) (b_bV b) vp pp + paired lbd (TV vp) n_p.
Definition row1 (up pp dp uf pf lbd wp : fvec) : R :=
  - form (nV b) (nQ b) (b_bV b) up wp + s0 b / dt b * form (nQ b) (nQ b) (b_mQ b) pp wp + - (alpha b / dt b * form (nU b) (nQ b) (b_bU b) dp wp).
Definition row2 (up pp dp uf pf lbd ep : fvec) : R :=
  - (alpha b / dt b * form (nU b) (nQ b) (b_bU b) ep pp) +
  (mu_p b / dt b * form (nU b) (nU b) (b_eU b) dp ep + lbd_p b * form (nU b) (nU b) (b_dU b) dp ep + friction (TU ep) (TU dp)) +
  - friction (TU ep) (TF uf) + 1 / dt b * paired lbd (TU ep) n_p.
Definition row3 (up pp dp uf pf lbd vf : fvec) : R :=
  - friction (TF vf) (TU dp) + (2 * mu_f b * form (nF b) (nF b) (b_eF b) uf vf + dt b * friction (TF vf) (TF uf)) +
  - form (nF b) (nP b) (b_bF b) vf pf + paired lbd (TF vf) n_f.
Definition row4 (up pp dp uf pf lbd wf : fvec) : R := - form (nF b) (nP b) (b_bF b) uf wf.
Definition row5 (up pp dp uf pf lbd mu : fvec) : R := paired mu (TV up) n_p + 1 / dt b * paired mu (TU dp) n_p + paired mu (TF uf) n_f.
(** The matrix: all rows, with tests for each *)
Definition AA (up pp dp uf pf lbd vp wp ep vf wf mu : fvec) : R :=
  row0 up pp dp uf pf lbd vp + row1 up pp dp uf pf lbd wp + row2 up pp dp uf pf lbd ep + row3 up pp dp uf pf lbd vf + row4 up pp dp uf pf lbd wf + row5 up pp dp uf pf lbd mu.
End Rows.
