(** Manufactured solutions in the sandbox: sandbox/babuska_hand_newton.py:14-42, 98-108 (the same in
    babuska_hand_newton_precond.py and babuska_snes.py:13-46), sandbox/mini_hack.py:7-45, 63-101,
    103-140, sandbox/grad_div_hypre_2d.py:32-53 and sandbox/mixed_poisson_hypre_2d.py:108-143.

    Expressions, jets and forms as in MmsModel.v.  Interpolations and projections of data are the
    data.  Symbols of sympy are those of UFL. *)
From Verif Require Export Mms2Model.
Local Open Scope nat_scope.

(** * babuska_hand_newton.py *)
(** 103-104 *)
Definition NB_u : expr := Cos (Times (Times (Times (Times Pi X) (Minus (Num 1) X)) Y) (Minus (Num 1) Y)).
Definition NB_p : expr := Num 0.
(** 33-36 *)
Definition NB_nl (u : expr) : expr := Power (Plus (Num 1) u) 2.
Definition NB_f : expr := Neg (div (scale_v (NB_nl NB_u) (grad NB_u))).
Definition NB_h : expr := NB_u.
Local Open Scope R_scope.
Definition NB_nlR (u : R) : R := (1 + u) ^ 2.
(** 42-43 *)
Definition NB_F0_dx (u v : jet) (f : R) : R := dot (NB_nlR (va u) * da u, NB_nlR (va u) * db u) (jgrad v) - f * va v.
Definition NB_F0_side (p v : jet) : R := va p * va v.
Definition NB_F1_side (u q : jet) (h : R) : R := va u * va q - h * va q.
Local Close Scope R_scope.

(** * mini_hack.py *)
(** 7-8 *)
Definition MH_u : vec2 := (Cos (Times Pi Y), Sin (Times Pi X)).
Definition MH_p : expr := Sin (Times (Times (Num 2) Pi) (Plus X Y)).
(** 21-22, 74-75, 118-119; exactly, not the projections *)
Definition MH_f : vec2 := add_v (neg_v (div_t (grad_v MH_u))) (grad MH_p).
Definition MH_h : ten2 := add_id (grad_v MH_u) (Neg MH_p).
Local Open Scope R_scope.
Definition jgrad_v (u : jet * jet) : (R * R) * (R * R) := (jgrad (fst u), jgrad (snd u)).
Definition plus_jet (u v : jet) : jet := Jet (va u + va v) (da u + da v) (db u + db v).
Definition plus_jets (u v : jet * jet) : jet * jet := (plus_jet (fst u) (fst v), plus_jet (snd u) (snd v)).
(** 36-37: dx and ds of a side with the normal n, with values of h by rows *)
Definition MH_dx (u v : jet * jet) (p q : jet) (f : R * R) : R :=
  inner2 (jgrad_v u) (jgrad_v v) - jdiv v * va p - jdiv u * va q - dot f (jval v).
Definition MH_ds (n : R * R) (v : jet * jet) (h : (R * R) * (R * R)) : R := - dot (dot (fst h) n, dot (snd h) n) (jval v).
(** 88-94: the same with u = u_ + ub, v = v_ + vb *)
Definition MH_mini_dx (u_ ub v_ vb : jet * jet) (p q : jet) (f : R * R) : R := MH_dx (plus_jets u_ ub) (plus_jets v_ vb) p q f.
Definition MH_mini_ds (n : R * R) (v_ vb : jet * jet) (h : (R * R) * (R * R)) : R := MH_ds n (plus_jets v_ vb) h.
(** 133-148: the rows of the block system *)
Definition MH_row0_dx (u ub v : jet * jet) (p : jet) (f : R * R) : R :=
  inner2 (jgrad_v u) (jgrad_v v) + inner2 (jgrad_v v) (jgrad_v ub) + - (jdiv v * va p) - dot f (jval v).
Definition MH_row0_ds (n : R * R) (v : jet * jet) (h : (R * R) * (R * R)) : R := - dot (dot (fst h) n, dot (snd h) n) (jval v).
Definition MH_row1_dx (u ub vb : jet * jet) (p : jet) (f : R * R) : R :=
  inner2 (jgrad_v vb) (jgrad_v u) + inner2 (jgrad_v ub) (jgrad_v vb) + - (jdiv vb * va p) - dot f (jval vb).
Definition MH_row2_dx (u ub : jet * jet) (q : jet) : R := - (jdiv u * va q) + - (jdiv ub * va q) - 0 * va q.
Local Close Scope R_scope.
(** 39, 96, 150: the boundary condition on x[0] = 0 *)
Definition MH_bcs : list (nat * vec2) := [(1, MH_u)].

(** * grad_div_hypre_2d.py *)
(** 37-43 *)
Definition GH_sigma : vec2 := (Cos (Times Pi (Power Y 2)), Sin (Times Pi (Power X 2))).
Definition GH_f : vec2 := add_v (neg_v (grad (div GH_sigma))) GH_sigma.
(** 53-54 *)
Definition GH_dx (u v : jet * jet) (f : R * R) : R := (jdiv u * jdiv v + dot (jval u) (jval v) - dot f (jval v))%R.

(** * mixed_poisson_hypre_2d.py *)
(** 112-119 *)
Definition MX_u : expr := Sin (Times (Times (Times (Times Pi X) (Minus (Num 1) X)) Y) (Minus (Num 1) Y)).
Definition MX_sigma : vec2 := grad MX_u.
Definition MX_f : expr := Plus (Neg (div MX_sigma)) MX_u.
Local Open Scope R_scope.
(** 133-139 *)
Definition MX_row0_dx (sigma tau : jet * jet) (u : jet) : R := dot (jval sigma) (jval tau) + jdiv tau * va u - dot (0, 0) (jval tau).
Definition MX_row1_dx (sigma : jet * jet) (u v : jet) (f : R) : R := jdiv sigma * va v + - (va u * va v) - - f * va v.
