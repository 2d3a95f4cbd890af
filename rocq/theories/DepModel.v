(** The heat equation of test/test_dep.py:8-83 with its manufactured solution (91-103)

    Expressions, jets and forms as in MmsModel.v; the parameters of an expression are t and k (symbols 3 and
    4), as in 91.  The three expressions of w_exact are different objects; assembled matrices and the solver
    are not modelled here (HeatModel.v has the same scheme with them): a turn of the loop says with which
    values of the attributes t the right hand side and the boundary conditions are computed.  Arithmetic
    is exact, except in [dep_steps]. *)
From Coq Require Import SpecFloat.
From Verif Require Export MmsModel.
Local Open Scope nat_scope.

(** 91-94 *)
Definition Tm : expr := Sym 3.
Definition Kk : expr := Sym 4.
Definition DT_u : expr := Times (Sin (Times (Num 2) Tm)) (Sin (Times (Num 5) (Plus (Power X 2) (Power Y 2)))).
Definition DT_f : expr := Minus (diff DT_u 3) (Plus (diff (diff DT_u 0) 0) (diff (diff DT_u 1) 1)).
Definition DT_p : expr := Times Kk (diff DT_u 0).
(** The tags of the sides 1 left, 2 right, 3 bottom, 4 top: 14-20 *)
Definition DT_tag (side : nat) : nat := if side =? 1 then 1 else 2.
(** 48: the condition on V, with u_exact on the facets of tag 2 *)
Definition DT_V_sides : list nat := filter (fun s => DT_tag s =? 2) [1; 2; 3; 4].
(** 49: on the ends of bmesh, which has the facets of tag 1 *)
Definition DT_Q_bcs : list ((R * R) * R) := [((0, 0), 0); ((0, 1), 0)]%R.

Local Open Scope R_scope.
(** 36-38, 45-46: row 0 on the cells and on bmesh, row 1 on bmesh *)
Definition DT_row0_dx (dt : R) (u u0 v : jet) (f : R) : R :=
  va u * va v + dt * dot (jgrad u) (jgrad v) - (va u0 * va v + dt * (f * va v)).
Definition DT_row0_side (side : nat) (p v : jet) : R := if Nat.eqb (DT_tag side) 1 then va p * va v else 0.
Definition DT_row1_side (u q : jet) (g : R) : R := va q * va u - g * va q.

(** The attributes of u_exact, p_exact, f_exact, 96-98 *)
Record attrs := Attrs { u_t : R; p_t : R; p_k : R; f_t : R }.
Definition created : attrs := Attrs 0 0 0 0.
(** 11, with what a former call left *)
Definition rest (w : attrs) : attrs := Attrs 0 0 (p_k w) 0.
(** 42 *)
Definition set_k (dt : R) (w : attrs) : attrs := Attrs (u_t w) (p_t w) dt (f_t w).
(** 67-68 *)
Definition set_time (time : R) (w : attrs) : attrs := Attrs time (p_t w) (p_k w) time.

(** What a turn uses: f_exact and u_exact in L (45-46), u_exact in the condition (48, applied in 73) *)
Record turn := Turn { source : R; trace : R; boundary : R }.
Definition use (w : attrs) : turn := Turn (f_t w) (u_t w) (u_t w).
(** 63-79: one turn for each unit of fuel; the time, the attributes and the turns in order *)
Fixpoint dep_loop (fuel : nat) (dt time : R) (w : attrs) : res (R * attrs * list turn) :=
  if Rlt_dec time (1 / 2) then
    match fuel with
    | O => Err OutOfFuel
    | S fuel' =>
        let time' := time + dt in
        let w' := set_time time' w in
        do r <- dep_loop fuel' dt time' w';
        Ok (fst r, use w' :: snd r)
    end
  else Ok (time, w, []).
(** 8-83: what is left in the attributes, the turns and the functions that 80-81 compare with *)
Definition dep_test (fuel : nat) (dt : R) (w : attrs) : res (attrs * list turn * ((R -> R -> R) * (R -> R -> R))) :=
  do r <- dep_loop fuel dt 0 (set_k dt (rest w));
  let w' := snd (fst r) in
  Ok (w', snd r, (at_ [u_t w'; 0] DT_u, at_ [p_t w'; p_k w'] DT_p)).
(** 107-113: the calls for one size after the other share the expressions *)
Fixpoint dep_calls (fuel : nat) (dts : list R) (w : attrs) : res (list (attrs * list turn * ((R -> R -> R) * (R -> R -> R)))) :=
  match dts with
  | [] => Ok []
  | dt :: rest_ => do r <- dep_test fuel dt w; do rs <- dep_calls fuel rest_ (fst (fst r)); Ok (r :: rs)
  end.
Local Close Scope R_scope.

(** 63-65 in double precision: the number of turns and the time after them *)
Definition float_half : spec_float := S754_finite false 4503599627370496 (-53).
Fixpoint dep_steps (fuel : nat) (dt t : spec_float) (k : nat) : option (nat * spec_float) :=
  if SFltb t float_half then
    match fuel with O => None | S fuel' => dep_steps fuel' dt (SFadd 53 1024 t dt) (S k) end
  else Some (k, t).
