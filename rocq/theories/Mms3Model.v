(** Manufactured solutions of further demos: setup_mms and the forms of setup_problem of
    demo/emi_primal.py:21-132, demo/emi_primal_mortar.py:9-66, demo/twoDoneDoneD.py:45-140,
    demo/bertoluzza_stokes.py:21-186, demo/free_slip_stokes_iter.py:27-206 (and
    free_slip_stokes_iter_cylinder.py:27-202, which has the same forms without the jumps),
    demo/isoP2_stokes.py:18-92, demo/dirac_2d.py:6-34, 56-74 and sandbox/stokes.py:21-75, 117-140.

    Expressions, jets and forms as in MmsModel.v and Mms2Model.v.  FacetNormal and OuterNormal are
    the normals of the domain with exact boundary, also for the domain of bertoluzza_stokes.py with
    an arc.  The system of daq_3d1d.py:12-57 is here too, as a function of values at a point. *)
From Verif Require Export Mms2Model.
From Coq Require Import Qreals.
Local Open Scope nat_scope.

(** * emi_primal.py *)
(** 27-40; kappa0 and kappa1 are the symbols 3 and 4 *)
Definition EP_u0 : expr := Sin (Times Pi (Minus X (Times (Num 2) Y))).
Definition EP_u1 : expr := Cos (Times (Times (Num 2) Pi) (Minus (Times (Num 3) X) Y)).
Definition EP_sigma0 : vec2 := scale_v (Sym 3) (grad EP_u0).
Definition EP_sigma1 : vec2 := scale_v (Sym 4) (grad EP_u1).
Definition EP_f0 : expr := Neg (div EP_sigma0).
Definition EP_f1 : expr := Neg (div EP_sigma1).
Definition EP_normalsI : list vec2 := [(Num 1, Num 0); (Num (-1), Num 0); (Num 0, Num 1); (Num 0, Num (-1))].
Definition EP_g_n : list expr := map (fun n => Minus (dot_e EP_sigma0 n) (dot_e EP_sigma1 n)) EP_normalsI.
Definition EP_g_r : list expr := map (fun n => Plus (Minus EP_u0 EP_u1) (dot_e EP_sigma0 n)) EP_normalsI.
Definition EP_lms : list expr := map (fun n => Neg (dot_e EP_sigma0 n)) EP_normalsI.
Definition EP_dirichlet_0 : list expr := repeat EP_u0 8.
Definition EP_dirichlet_tags : list nat := [5; 6; 7; 8].
Definition EP_V0_bcs : list (nat * expr) := map (fun tag => (tag, pick EP_dirichlet_0 tag)) EP_dirichlet_tags.
Local Open Scope R_scope.
(** 109-126 *)
Definition EP_row0_dx (par : list R) (u0 v0 : jet) (f0 : R) : R := nth 0 par 0 * dot (jgrad u0) (jgrad v0) - f0 * va v0.
Definition EP_row0_side (tag : nat) (u0 u1 v0 : jet) (g_r : R) : R :=
  if among [1%nat; 2%nat; 3%nat; 4%nat] tag then va u0 * va v0 + - (va u1 * va v0) - g_r * va v0 else 0.
Definition EP_row1_dx (par : list R) (u1 v1 : jet) (f1 : R) : R := nth 1 par 0 * dot (jgrad u1) (jgrad v1) - f1 * va v1.
Definition EP_row1_side (u0 u1 v1 : jet) (g_r g_n : R) : R := - (va u0 * va v1) + va u1 * va v1 - (- (g_r * va v1) + g_n * va v1).
(** emi_primal_mortar.py:40-60 *)
Definition EP_mortar0_side (tag : nat) (v0 : jet) (p : R) : R := if among [1%nat; 2%nat; 3%nat; 4%nat] tag then p * va v0 else 0.
Definition EP_mortar1_side (v1 : jet) (p g_n : R) : R := - (p * va v1) - g_n * va v1.
Definition EP_mortar2_side (u0 u1 : jet) (p q g_r : R) : R := q * va u0 + - (q * va u1) + - (p * q) - g_r * q.
Local Close Scope R_scope.

(** * twoDoneDoneD.py *)
(** 53-66; kappai is the symbol kappa, 3, and kappa is kappa1, 4 (68-69) *)
Definition TD_u0 : expr := Sin (Times (Times Pi Y) (Minus X (Num (1 # 2)))).
Definition TD_u1 : expr := Neg (Sin (Times (Times Pi Y) (Minus X (Num (1 # 2))))).
Definition TD_f0 : expr := Neg (div (scale_v (Sym 3) (grad TD_u0))).
Definition TD_f1 : expr := Neg (div (scale_v (Sym 3) (grad TD_u1))).
Definition TD_n : vec2 := (Num 1, Num 0).
Definition TD_lm : expr := Neg (Minus (Times (Sym 3) (dot_e (grad TD_u0) TD_n)) (Times (Sym 3) (dot_e (grad TD_u1) TD_n))).
Definition TD_u : expr := Sin (Times (Times Pi Y) (Minus (Num 1) Y)).
Definition TD_f : expr := Minus (Neg (Times (Sym 4) (diff (diff TD_u 1) 1))) TD_lm.
(** 88-91 *)
Definition TD_dirichlet_omega : list (nat * expr) := [(1, TD_u0); (3, TD_u0); (5, TD_u0); (2, TD_u1); (4, TD_u1); (6, TD_u1)].
Definition TD_dirichlet_gamma : expr := TD_u.
Definition TD_g_u : expr := Minus TD_u0 TD_u.
Local Open Scope R_scope.
(** 120-130; grad on the curve is the derivative along it *)
Definition TD_row0_dx (par : list R) (u v : jet) (f : R) : R := nth 0 par 0 * dot (jgrad u) (jgrad v) - f * va v.
Definition TD_row0_gamma (v p : jet) : R := va p * va v.
Definition TD_row1_gamma (par : list R) (u1 v1 p : jet) (f : R) : R := nth 1 par 0 * (db u1 * db v1) + - (va p * va v1) - f * va v1.
Definition TD_row2_gamma (q u u1 : jet) (g_u : R) : R := va q * va u + - (va q * va u1) - g_u * va q.
(** 136: the ends of the curve and the value there *)
Definition TD_Q_bcs : list ((R * R) * R) := [((1/2, 0), 0); ((1/2, 1), 0)].
Local Close Scope R_scope.

(** * bertoluzza_stokes.py *)
(** 29-34 *)
Definition BS_phi : expr := Sin (Times Pi (Minus X (Times (Num 2) Y))).
Definition BS_u : vec2 := (diff BS_phi 1, Neg (diff BS_phi 0)).
Definition BS_p : expr := Cos (Times Pi (Minus (Times (Num 2) X) (Times (Num 3) Y))).
Definition stress (u : vec2) (p : expr) : ten2 := add_id (scale (Num 2) (sym (grad_v u))) (Neg p).
Definition BS_sigma : ten2 := stress BS_u BS_p.
Definition BS_f : vec2 := neg_v (div_t BS_sigma).
(** 37-38, 52-53, 107: (x-cx)/r is 2*x, (y-cy)/r is 2*(y - 1/2) *)
Definition BS_normals (flat : bool) : list vec2 :=
  (if flat then (Num (-1), Num 0) else (Times (Num 2) X, Times (Num 2) (Minus Y (Num (1 # 2))))) :: [(Num 1, Num 0); (Num 0, Num (-1)); (Num 0, Num 1)].
(** 109-120 *)
Definition BS_R : ten2 := ((Num 0, Num (-1)), (Num 1, Num 0)).
Definition BS_g_dir : list vec2 := repeat BS_u 4.
Definition BS_g_neu (flat : bool) : list vec2 := map (fun n => dot_t BS_sigma n) (BS_normals flat).
Definition BS_g_lm_t (flat : bool) : list expr := map (fun n => dot_e BS_u (dot_t BS_R n)) (BS_normals flat).
Definition BS_g_lm_n (flat : bool) : list expr := map (fun n => dot_e (dot_t BS_sigma n) n) (BS_normals flat).
Definition BS_lm (flat : bool) : expr := let n := pick_v (BS_normals flat) 1 in Neg (dot_e (dot_t BS_R n) (dot_t BS_sigma n)).
(** 144-146 *)
Definition BS_lm_tags : list nat := [1].
Definition BS_dir_tags : list nat := [3; 4].
Definition BS_neu_tags : list nat := [2].
Definition BS_V_bcs : list (nat * vec2) := map (fun tag => (tag, pick_v BS_g_dir tag)) BS_dir_tags.
Local Open Scope R_scope.
(** 137: dot(Rot, n) *)
Definition BS_rot (n : R * R) : R * R := (0 * fst n + -1 * snd n, 1 * fst n + 0 * snd n).
(** 165-166, 173 *)
Definition BS_row0_dx (u v : jet * jet) (p : jet) (f : R * R) : R := 2 * inner2 (jsym u) (jsym v) + - (jdiv v * va p) - dot f (jval v).
(** 167, 175-177; n is the normal of the domain *)
Definition BS_row0_side (tag : nat) (n : R * R) (v : jet * jet) (l : R) (neumann : R * R) (lagrange_n : R) : R :=
  (if among BS_lm_tags tag then l * dot (jval v) (BS_rot n) else 0) -
  ((if among BS_neu_tags tag then dot neumann (jval v) else 0) + (if among BS_lm_tags tag then lagrange_n * dot (jval v) n else 0)).
(** 168 *)
Definition BS_row1_dx (u : jet * jet) (q : jet) : R := - (jdiv u * va q).
(** 169, 179 *)
Definition BS_row2_side (n : R * R) (m : R) (u : jet * jet) (lagrange_t : R) : R := m * dot (jval u) (BS_rot n) - lagrange_t * m.
(** 183; the ends of the side 1 or of the arc *)
Definition BS_M_bcs : list ((R * R) * R) := [((0, 0), 0); ((0, 1), 0)].
Local Close Scope R_scope.

(** * free_slip_stokes_iter.py; velocity, pressure and normals are those of bertoluzza_stokes.py *)
(** 24: tangent *)
Definition tangent (f n : vec2) : vec2 := add_v f (neg_v (scale_v (dot_e f n) n)).
(** 120-127 *)
Definition FS_g_lm_n (flat : bool) : list expr := map (fun n => dot_e BS_u n) (BS_normals flat).
Definition FS_g_lm_t (flat : bool) : list vec2 := map (fun n => tangent (dot_t BS_sigma n) n) (BS_normals flat).
Definition FS_lm (flat : bool) : expr := let n := pick_v (BS_normals flat) 1 in Neg (dot_e n (dot_t BS_sigma n)).
Local Open Scope R_scope.
Definition jtangent (f n : R * R) : R * R := (fst f - dot f n * fst n, snd f - dot f n * snd n).
(** 189, 197-199 *)
Definition FS_row0_side (tag : nat) (n : R * R) (v : jet * jet) (l : R) (neumann lagrange_t : R * R) : R :=
  (if among BS_lm_tags tag then l * dot (jval v) n else 0) -
  ((if among BS_neu_tags tag then dot neumann (jval v) else 0) + (if among BS_lm_tags tag then dot lagrange_t (jtangent (jval v) n) else 0)).
(** 191, 201 *)
Definition FS_row2_side (n : R * R) (m : R) (u : jet * jet) (lagrange_n : R) : R := m * dot (jval u) n - lagrange_n * m.
(** 185-186: values on the two sides of a facet *)
Definition FS_stab (hF : R) (up um vp vm : R * R) : R := 2 / hF * dot (fst up - fst um, snd up - snd um) (fst vp - fst vm, snd vp - snd vm).
(** 205 *)
Definition FS_M_bcs : list ((R * R) * R) := [((0, 0), 0); ((0, 1), 0)].
Local Close Scope R_scope.

(** * isoP2_stokes.py *)
(** 24-31 *)
Definition IS_phi : expr := Sin (Times Pi (Plus X Y)).
Definition IS_u : vec2 := (diff IS_phi 1, Neg (diff IS_phi 0)).
Definition IS_p : expr := Times (Cos (Times Pi X)) (Cos (Times Pi Y)).
Definition IS_sigma : ten2 := stress IS_u IS_p.
Definition IS_f : vec2 := neg_v (div_t IS_sigma).
Definition IS_g_u : vec2 := IS_u.
Local Open Scope R_scope.
(** 79-87; phi and psi are numbers *)
Definition IS_row0_dx (u v : jet * jet) (p : jet) (f : R * R) : R := 2 * inner2 (jsym u) (jsym v) + - (va p * jdiv v) - dot f (jval v).
Definition IS_row1_dx (q : jet) (u : jet * jet) (phi : R) : R := - (va q * jdiv u) + va q * phi.
Definition IS_row2_dx (p : jet) (psi : R) : R := va p * psi.
Local Close Scope R_scope.

(** * dirac_2d.py *)
(** 62-69: the components of u, the point and the values there *)
Definition DI_u : expr := Cos (Times (Times (Times (Times Pi X) (Minus (Num 1) X)) Y) (Minus (Num 1) Y)).
Definition DI_f : expr := Plus (Minus (Neg (diff (diff DI_u 0) 0)) (diff (diff DI_u 1) 1)) DI_u.
Local Open Scope R_scope.
Definition DI_x0 : R * R := (33/100, 66/100).
Definition DI_g : R * R := let g := at_ [] DI_u (fst DI_x0) (snd DI_x0) in (g, g).
Definition DI_p : R * R := (0, 0).
(** 22-29; Dv is the value of the test function in x0, the measure of the square is 1 *)
Definition DI_row0_dx (u v : jet * jet) (Dv p f : R * R) : R :=
  dot (jgrad (fst u)) (jgrad (fst v)) + dot (jgrad (snd u)) (jgrad (snd v)) + dot (jval u) (jval v) + dot Dv p - dot f (jval v).
Definition DI_row1_dx (Du q g : R * R) : R := dot Du q - dot g q.
Local Close Scope R_scope.

(** * sandbox/stokes.py *)
(** 120-140 *)
Definition ST_u : vec2 := (Sin Y, Cos X).
Definition ST_p : expr := Sin (Plus (Power X 2) (Power Y 2)).
Definition ST_sigma : ten2 := add_id (grad_v ST_u) (Neg ST_p).
Definition ST_f : vec2 := neg_v (div_t ST_sigma).
Definition ST_normal : vec2 := (Num (-1), Num 0).
Definition ST_tangent : vec2 := (Num 0, Num 1).
Definition ST_g : expr := Plus (dot_e ST_u ST_tangent) (dot_e ST_tangent (dot_t ST_sigma ST_normal)).
Definition ST_h : vec2 := dot_t ST_sigma (Num 1, Num 0).
Definition ST_x : expr := Neg (dot_e ST_normal (dot_t ST_sigma ST_normal)).
Local Open Scope R_scope.
(** 45-46 *)
Definition ST_n : R * R := (-1, 0).
Definition ST_tau : R * R := (0, 1).
(** 52-62; its marker 3 is the side x = 0, here 1; its 2 is x = 1 *)
Definition ST_row0_dx (u v : jet * jet) (p : jet) (f : R * R) : R :=
  dot (jgrad (fst u)) (jgrad (fst v)) + dot (jgrad (snd u)) (jgrad (snd v)) + - va p * jdiv v - dot f (jval v).
Definition ST_row0_side (tag : nat) (u v : jet * jet) (x g : R) (h : R * R) : R :=
  (if (tag =? 1)%nat then dot (jval u) ST_tau * dot (jval v) ST_tau + dot (jval v) ST_n * x - dot (jval v) ST_tau * g else 0) -
  (if (tag =? 2)%nat then dot h (jval v) else 0).
Definition ST_row1_dx (q : jet) (u : jet * jet) : R := - va q * jdiv u.
Definition ST_row2_side (u : jet * jet) (y : R) (data_u : R * R) : R := dot (jval u) ST_n * y - dot data_u ST_n * y.

(** * daq_3d1d.py *)
(** 15-17 *)
Definition DA_Alpha1 : R := 2/100.
Definition DA_Alpha0 : R := 1/100.
Definition DA_alpha1 : R := 2.
Definition DA_alpha0 : R := 1/100.
Definition DA_beta : R := 10.
(** 46-49: the integrands on the curve; p, q and their derivatives, averages Pi_u, traces T_v *)
Definition DA_a00 (Pi_u T_v : R) : R := DA_beta * (Pi_u * T_v).
Definition DA_a01 (p T_v : R) : R := - DA_beta * (p * T_v).
Definition DA_a10 (Pi_u q : R) : R := - DA_beta * (Pi_u * q).
Definition DA_a11 (p dp q dq : R) : R := DA_alpha1 * (dp * dq) + (DA_alpha0 + DA_beta) * (p * q).
(** 54: a = [[a00, a01], [a10, 0]] *)
Definition DA_row0 (Pi_u p dp T_v : R) : R := DA_a00 Pi_u T_v + DA_a01 p T_v.
Definition DA_row1 (Pi_u p dp q dq : R) : R := DA_a10 Pi_u q + 0.
