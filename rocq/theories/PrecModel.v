(** The preconditioners of demos with iterative solvers: setup_preconditioner of
    demo/poisson_babuska_bc_iter.py:16-76, demo/mixed_poisson_babuska_iter.py:16-56,
    demo/twoDoneDoneD_iter.py:21-56 and demo/layton_darcy_stokes_iter.py:14-75.

    Blocks that are assembled are their integrands on jets, as the rows of the systems in MmsModel.v,
    Mms2Model.v and Mms3Model.v.  The norms of hsmg for the multipliers are not modelled; modelled are
    the points of the multiplier's mesh which are constrained in them (near is equality), and whether
    the block is given a value.  Points are on the unit square. *)
From Coq Require Import Reals List.
From Verif Require Export MmsModel Mms2Model Mms3Model.
Import ListNotations.
Local Open Scope nat_scope.

(** args.hs *)
Inductive hs_choice := HsEig_ | HsMg_ | HsRa_.
(** The names bound when the norm of the multiplier is made: poisson_babuska_bc_iter.py:60-74 and
    mixed_poisson_babuska_iter.py:39-54 have a branch for every choice, twoDoneDoneD_iter.py:50-55 and
    layton_darcy_stokes_iter.py:70-75 have one only *)
Definition hs_all (h : hs_choice) : res unit := match h with HsEig_ => Ok tt | HsMg_ => Ok tt | HsRa_ => Ok tt end.
Definition hs_eig_only (h : hs_choice) : res unit := match h with HsEig_ => Ok tt | _ => Err UnboundLocalError end.
(** choices of --hs: poisson_babuska_bc_iter.py:90, mixed_poisson_babuska_iter.py:71; twoDoneDoneD_iter.py:69, layton_darcy_stokes_iter.py:91 *)
Definition choices_3 : list hs_choice := [HsEig_; HsMg_; HsRa_].
Definition choices_2 : list hs_choice := [HsEig_; HsMg_].

Local Open Scope R_scope.
(** A point of the multiplier's mesh, the right and top sides (tags 2, 4), and the ends of that curve, where DomainBoundary is *)
Definition lm_curve (x y : R) : Prop := (x = 1 /\ 0 <= y <= 1) \/ (y = 1 /\ 0 <= x <= 1).
Definition domain_boundary (x y : R) : Prop := (x = 1 /\ y = 0) \/ (x = 0 /\ y = 1).
(** poisson_babuska_bc_iter.py:46-58: points with a condition for the multiplier *)
Definition PBI_constrained (s : PBC_setup) (x y : R) : Prop :=
  match s with PBC_dir_neu => x = 0 | PBC_dir => domain_boundary x y | PBC_neu => False end.
(** mixed_poisson_babuska_iter.py:34-37 *)
Definition MPI_constrained (x y : R) : Prop := x = 1.

(** poisson_babuska_bc_iter.py:33-40 *)
Definition PBI_V (s : PBC_setup) (u v : jet) : R :=
  match PBC_dir_tags s with [] => dot (jgrad u) (jgrad v) + va u * va v | _ => dot (jgrad u) (jgrad v) end.
(** poisson_babuska_bc_iter.py:25-27, 40: sides with conditions *)
Definition PBI_V_tags (s : PBC_setup) : list nat := match s with PBC_dir_neu => [1%nat] | PBC_dir => [1%nat; 3%nat] | PBC_neu => [] end.
(** mixed_poisson_babuska_iter.py:26, 30 *)
Definition MPI_S (sigma tau : jet * jet) : R := dot (jval sigma) (jval tau) + jdiv sigma * jdiv tau.
Definition MPI_V (u v : jet) : R := va u * va v.
(** twoDoneDoneD_iter.py:35, 40; the parameters are kappa and kappa1, grad on the curve is the derivative along it *)
Definition TDI_V (par : list R) (u v : jet) : R := nth 0 par 0 * dot (jgrad u) (jgrad v).
Definition TDI_V1 (par : list R) (u1 v1 : jet) : R := nth 1 par 0 * (db u1 * db v1).
(** layton_darcy_stokes_iter.py:38-39, 55, 59, 63; the parameters are mu, K and alpha; 41-44 *)
Definition LYI_VS_dx (par : list R) (uS vS : jet * jet) : R := 2 * nth 0 par 0 * inner2 (jsym uS) (jsym vS).
Definition LYI_VS_side (par : list R) (tag : nat) (uS vS : jet * jet) : R := nth 2 par 0 * (dot (jval uS) (rot (nS_ tag)) * dot (jval vS) (rot (nS_ tag))).
Definition LYI_stab (par : list R) (hA : R) (n up um vp vm : R * R) : R :=
  2 * nth 0 par 0 / hA * ((dot up n + dot um (- fst n, - snd n)) * (dot vp n + dot vm (- fst n, - snd n))).
Definition LYI_VD (par : list R) (uD vD : jet * jet) : R := 1 / nth 1 par 0 * dot (jval uD) (jval vD) + 1 / nth 1 par 0 * (jdiv uD * jdiv vD).
Definition LYI_QS (par : list R) (pS qS : jet) : R := 1 / nth 0 par 0 * (va pS * va qS).
Definition LYI_QD (par : list R) (pD qD : jet) : R := nth 1 par 0 * (va pD * va qD).
(** 50: sides with conditions *)
Definition LYI_VS_tags : list nat := [5%nat; 6%nat].
