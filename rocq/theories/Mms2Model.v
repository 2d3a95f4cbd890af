(** Manufactured solutions of demos with two domains, and of elasticity: setup_mms and the forms of
    setup_problem of demo/dq_darcy_stokes.py:29-169, demo/layton_darcy_stokes.py:12-92,
    demo/isect_mortar_2d.py:57-105, 148-175, demo/elasticity_2d.py:12-48, 105-143 and
    demo/elasticity_mixed_2d.py:14-60, 109-147.

    Expressions, jets and forms as in MmsModel.v.  The domains are those of demo/utils.py:13-73
    (ImmersedModel.v): the inner one is [0.25, 0.75]^2, the outer one the rest of the unit square.
    FacetNormal is the outer normal of the domain, nD_ = OuterNormal(interface, [0.5, 0.5]) that of
    the inner domain.  Symbols 3, 4, .. are the parameters, with which ulfy.Expression and
    as_expression are evaluated. *)
From Verif Require Export MmsModel.
From Coq Require Import Qreals.
Local Open Scope nat_scope.

Definition scale (c : expr) (s : ten2) : ten2 := ((Times c (fst (fst s)), Times c (snd (fst s))), (Times c (fst (snd s)), Times c (snd (snd s)))).
(** s + c*Identity(2) *)
Definition add_id (s : ten2) (c : expr) : ten2 := ((Plus (fst (fst s)) c, snd (fst s)), (fst (snd s), Plus (snd (snd s)) c)).
Definition scale_v (c : expr) (u : vec2) : vec2 := (Times c (fst u), Times c (snd u)).

(** Normals of the sides of the outer domain: FacetNormal(meshS) *)
Definition nS (tag : nat) : R * R :=
  match tag with 1 => (1, 0) | 2 => (-1, 0) | 3 => (0, 1) | 4 => (0, -1) | 5 => (-1, 0) | 6 => (1, 0) | 7 => (0, -1) | _ => (0, 1) end%R.
Definition nD (tag : nat) : R * R := n_ tag.
(** nS_ = -nD_ *)
Definition nS_ (tag : nat) : R * R := (- fst (n_ tag), - snd (n_ tag))%R.

(** * Data of the Darcy-Stokes problems, dq_darcy_stokes.py:29-103 *)
(** 35: the parameters *)
Definition mu : expr := Sym 3.
Definition K : expr := Sym 4.
Definition alpha : expr := Sym 5.
(** 37-42 *)
Definition DS_phi : expr := Sin (Times Pi (Minus X (Times (Num 2) Y))).
Definition DS_uS : vec2 := (diff DS_phi 1, Neg (diff DS_phi 0)).
Definition DS_pS : expr := Cos (Times (Times (Num 2) Pi) (Minus (Times (Num 3) X) Y)).
Definition DS_pD : expr := Sin (Times (Times (Num 2) Pi) (Plus X Y)).
Definition DS_uD : vec2 := scale_v (Neg K) (grad DS_pD).
(** 45-46 *)
Definition DS_sigma : ten2 := add_id (scale (Times (Num 2) mu) (sym (grad_v DS_uS))) (Neg DS_pS).
Definition DS_fS : vec2 := neg_v (div_t DS_sigma).
(** 49-50 *)
Definition DS_normalsS : list vec2 :=
  [(Num 1, Num 0); (Num (-1), Num 0); (Num 0, Num 1); (Num 0, Num (-1)); (Num (-1), Num 0); (Num 1, Num 0); (Num 0, Num (-1)); (Num 0, Num 1)].
Definition DS_traction : list vec2 := map (fun n => dot_t DS_sigma n) DS_normalsS.
(** 53 *)
Definition DS_fD : expr := div DS_uD.
(** 58-65 *)
Definition DS_normalsI : list vec2 := [(Num 1, Num 0); (Num (-1), Num 0); (Num 0, Num 1); (Num 0, Num (-1))].
Definition rotate (n : vec2) : vec2 := dot_t Rot n.
Definition DS_g_u : list expr := map (fun n => Minus (dot_e DS_uS n) (dot_e DS_uD n)) DS_normalsI.
Definition DS_g_n : list expr := map (fun n => Minus (Neg (dot_e n (dot_t DS_sigma n))) DS_pD) DS_normalsI.
Definition DS_g_t : list expr := map (fun n => Minus (Neg (dot_e (rotate n) (dot_t DS_sigma n))) (Times alpha (dot_e (rotate n) DS_uS))) DS_normalsI.
Definition DS_lms : list expr := map (fun n => Neg (dot_e n (dot_t DS_sigma n))) DS_normalsI.
(** 72: what is asserted of the parameters [mu; K; alpha] *)
Definition DS_check (par : list R) : Prop := (0 < nth 0 par 0 /\ 0 < nth 1 par 0 /\ 0 <= nth 2 par 0)%R.
(** 93 *)
Definition DS_velocity_S : list vec2 := repeat DS_uS (length DS_normalsS).
(** dq_darcy_stokes.py:150-166, layton_darcy_stokes.py:73-89 *)
Definition DS_lm_tags : list nat := [1; 2; 3; 4].
Definition DS_neumann_tags : list nat := [7; 8].
Definition DS_dirichlet_tags : list nat := [5; 6].
Definition DS_VS_bcs : list (nat * vec2) := map (fun tag => (tag, pick_v DS_velocity_S tag)) DS_dirichlet_tags.

Local Open Scope R_scope.
(** * dq_darcy_stokes.py *)
(** 141, 143, 154, the integrals over the outer domain; 138: the parameters; layton_darcy_stokes.py:53, 60, 77 *)
Definition DS_stokes_dx (par : list R) (uS vS : jet * jet) (pS : jet) (fS : R * R) : R :=
  2 * nth 0 par 0 * inner2 (jsym uS) (jsym vS) + - (va pS * jdiv vS) - dot fS (jval vS).
(** 141-144, 155-160: the terms of the sides *)
Definition DQ_row0_side (par : list R) (tag : nat) (uS vS : jet * jet) (pD : jet) (traction : R * R) (g_n g_t : R) : R :=
  (if among DS_lm_tags tag then nth 2 par 0 * (dot (jval uS) (rot (nS_ tag)) * dot (jval vS) (rot (nS_ tag))) + va pD * dot (jval vS) (nS_ tag) else 0) -
  ((if among DS_neumann_tags tag then dot traction (jval vS) else 0)
   - (if among DS_lm_tags tag then g_n * dot (jval vS) (nS tag) else 0)
   - (if among DS_lm_tags tag then g_t * dot (jval vS) (rot (nS tag)) else 0)).
(** 146; layton_darcy_stokes.py:67 *)
Definition DS_mass_dx (qS : jet) (uS : jet * jet) : R := - (va qS * jdiv uS).
(** 147-148, 162-164 *)
Definition DQ_row2_dx (par : list R) (pD qD : jet) (fD : R) : R := - (nth 1 par 0 * dot (jgrad pD) (jgrad qD)) - - (fD * va qD).
Definition DQ_row2_side (tag : nat) (uS : jet * jet) (qD : jet) (g_u : R) : R := va qD * dot (jval uS) (nS_ tag) - g_u * va qD.

(** * layton_darcy_stokes.py *)
(** 53-54, 61, 77-81 *)
Definition LY_row0_side (par : list R) (tag : nat) (uS vS : jet * jet) (l : R) (traction : R * R) (g_t : R) : R :=
  (if among DS_lm_tags tag then nth 2 par 0 * (dot (jval uS) (rot (nS_ tag)) * dot (jval vS) (rot (nS_ tag))) + l * dot (jval vS) (nS_ tag) else 0) -
  ((if among DS_neumann_tags tag then dot traction (jval vS) else 0) - (if among DS_lm_tags tag then g_t * dot (jval vS) (rot (nS tag)) else 0)).
(** 56-58: the term of an interior facet of area hA with normal n, for values on its two sides *)
Definition LY_stab (par : list R) (hA : R) (n up um vp vm : R * R) : R :=
  2 * nth 0 par 0 / hA * ((dot up n + dot um (- fst n, - snd n)) * (dot vp n + dot vm (- fst n, - snd n))).
(** 63-65, 83 *)
Definition LY_row1_dx (par : list R) (uD vD : jet * jet) (pD : jet) : R := 1 / nth 1 par 0 * dot (jval uD) (jval vD) + - (va pD * jdiv vD).
Definition LY_row1_side (tag : nat) (vD : jet * jet) (l g_n : R) : R := l * dot (jval vD) (n_ tag) - g_n * dot (jval vD) (nD tag).
(** 68, 85 *)
Definition LY_row3_dx (qD : jet) (uD : jet * jet) (fD : R) : R := - (va qD * jdiv uD) - - (fD * va qD).
(** 70-71, 87 *)
Definition LY_row4_side (tag : nat) (m : R) (uS uD : jet * jet) (g_u : R) : R := m * dot (jval uS) (nS_ tag) + m * dot (jval uD) (n_ tag) - g_u * m.
Local Close Scope R_scope.

(** * isect_mortar_2d.py *)
(** 156-170; the parameter EPS is symbol 3 *)
Definition IM_bump : expr := Times (Times (Times (Minus X (Num (1 # 4))) (Minus X (Num (3 # 4)))) (Minus Y (Num (1 # 4)))) (Minus Y (Num (3 # 4))).
Definition IM_u1 : expr := Cos (Times (Times (Num 2) Pi) IM_bump).
Definition IM_u2 : expr := Times (Num 2) (Cos (Times Pi IM_bump)).
Definition IM_p : expr := IM_u1.
Definition IM_f1 : expr := Plus (Times (Sym 3) (Minus (Neg (diff (diff IM_u1 0) 0)) (diff (diff IM_u1 1) 1))) IM_u1.
Definition IM_f2 : expr := Minus (Neg (diff (diff IM_u2 0) 0)) (diff (diff IM_u2 1) 1).
Definition IM_h2 : vec2 := (diff IM_u2 0, diff IM_u2 1).
Definition IM_h : expr := Plus IM_u1 IM_u2.
Definition IM_g : expr := Minus IM_u1 IM_u2.
Local Open Scope R_scope.
(** 82-100 *)
Definition IM_row0_dx (par : list R) (u1 v1 : jet) (f1 : R) : R := nth 0 par 0 * dot (jgrad u1) (jgrad v1) + va u1 * va v1 - f1 * va v1.
Definition IM_row0_side (u1 v1 p : jet) : R := va u1 * va v1 + - (va p * va v1).
Definition IM_row1_dx (u2 v2 : jet) (f2 : R) : R := dot (jgrad u2) (jgrad v2) - f2 * va v2.
(** 5, .., 8 are the outer boundary, ds_out *)
Definition IM_row1_side (tag : nat) (u2 v2 p : jet) (h2 : R * R) (h : R) : R :=
  if among [1%nat; 2%nat; 3%nat; 4%nat] tag then va u2 * va v2 + va p * va v2 - h * va v2 else - (dot h2 (nS tag) * va v2).
Definition IM_row2_side (u1 u2 q : jet) (g : R) : R := - (va q * va u1) + va q * va u2 - - (g * va q).
Local Close Scope R_scope.

(** * elasticity_2d.py and elasticity_mixed_2d.py *)
(** elasticity_2d.py:122-132, elasticity_mixed_2d.py:124-135; mu and lmbda are the symbols 3 and 4 *)
Definition EL_lmbda : expr := Sym 4.
Definition EL_bump : expr := Times (Times (Times X (Minus (Num 1) X)) Y) (Minus (Num 1) Y).
Definition EL_u : vec2 := (Times (Num (1 # 100)) (Cos (Times Pi EL_bump)), Times (Num (-1 # 100)) (Cos (Times (Times (Num 2) Pi) EL_bump))).
Definition EL_x : vec2 := (Num 0, Num 0).
Definition EL_sigma (u : vec2) : ten2 := add_id (scale (Times (Num 2) mu) (sym (grad_v u))) (Times EL_lmbda (div u)).
Definition EL_f : vec2 := neg_v (div_t (EL_sigma EL_u)).
Definition EL_g : vec2 := EL_u.
(** elasticity_mixed_2d.py:127 *)
Definition EM_p : expr := Times EL_lmbda (div EL_u).
Local Open Scope R_scope.
(** elasticity_2d.py:36-43; elasticity_mixed_2d.py:48, 52, 56 *)
Definition EL_stress (par : list R) (u : jet * jet) : (R * R) * (R * R) :=
  let e := jsym u in let c := 2 * nth 0 par 0 in let d := nth 1 par 0 * jdiv u in
  ((c * fst (fst e) + d, c * snd (fst e)), (c * fst (snd e), c * snd (snd e) + d)).
Definition EL_row0_dx (par : list R) (u v : jet * jet) (f : R * R) : R := inner2 (EL_stress par u) (jsym v) - dot f (jval v).
Definition EL_row0_side (v p : jet * jet) : R := dot (jval v) (jval p).
Definition EL_row1_side (u q : jet * jet) (g : R * R) : R := dot (jval u) (jval q) - dot g (jval q).
(** elasticity_mixed_2d.py:46-56 *)
Definition EM_row0_dx (par : list R) (u v : jet * jet) (p : jet) (f : R * R) : R := 2 * nth 0 par 0 * inner2 (jsym u) (jsym v) + jdiv v * va p - dot f (jval v).
Definition EM_row1_dx (par : list R) (u : jet * jet) (p q : jet) : R := jdiv u * va q + - (1 / nth 1 par 0) * (va p * va q) - 0 * va q.
Local Close Scope R_scope.
