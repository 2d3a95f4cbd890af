(** Backward Euler with a multiplier, demo/time_dep.py:5-62

    What dolfin assembles is given: [h_M], [h_K] are the matrices of inner(u, v)*dx and
    inner(grad(u), grad(v))*dx, [h_T] that of inner(q, Tu)*dx_, [h_f t] and [h_g t] the vectors of
    inner(f, v)*dx and inner(gD, q)*dx_ while f.t and gD.t are t, [h_V t] what get_boundary_values of the
    condition on V (37) then returns, [h_Q] that of the condition on Q.  [lu A b] is the solution by LUSolver
    (an exception for a singular matrix).  The conditions are applied by the functions of bc_apply.py, see
    BcModel.v.  Arithmetic is exact, except in [float_steps]. *)
From Coq Require Import SpecFloat.
From Verif Require Export Base Mat ConvertModel BcModel.
Local Open Scope nat_scope.

Record heat_problem := Heat {
  h_K : mat; h_M : mat; h_T : mat;
  h_f : Qc -> vec; h_g : Qc -> vec;
  h_V : Qc -> items; h_Q : items }.

(** 26-29 and 40: block_form has zeros for blocks that are not set *)
Definition lhs (H : heat_problem) (dt : Qc) : bmat :=
  [[EMat (madd (h_K H) (mscale (q1 / dt)%Qc (h_M H))); EMat (mtr (h_T H))];
   [EMat (h_T H); ENum q0]].
(** 33-35 *)
Definition rhs (H : heat_problem) (dt t : Qc) (u0 : vec) : list vec :=
  [vadd (vscale (q1 / dt)%Qc (mv (h_M H) u0)) (h_f H t); h_g H t].
(** 37-38, with the values of time t *)
Definition conditions (H : heat_problem) (t : Qc) : list pybc :=
  [PList [PDirichlet (h_V H t)]; PList [PDirichlet (h_Q H)]].

Section Loop.
Variable lu : mat -> vec -> res vec.
(** 49-60: one turn for each unit of fuel *)
Fixpoint march (fuel : nat) (H : heat_problem) (dt : Qc) (A : mat) (apply : list pybc -> list vec -> res (list vec))
    (t : Qc) (u0 : vec) : res (Qc * vec) :=
  if qltb t q1 then
    match fuel with
    | O => Err OutOfFuel
    | S fuel' =>
        let t' := (t + dt)%Qc in
        do bb <- apply (conditions H t') (rhs H dt t' u0);
        do wh <- lu A (convert_bvec bb);
        march fuel' H dt A apply t' (firstn (nr (h_M H)) wh)
    end
  else Ok (t, u0).
(** 5-62; line 41 unpacks three values *)
Definition heat (fuel : nat) (H : heat_problem) (dt : Qc) (u0 : vec) : res (Qc * vec) :=
  do out <- apply_bc fuel (ABlock (lhs H dt)) (VBlock (rhs H dt q0 u0)) (BVal (PList (conditions H q0))) q1 true true;
  match out with
  | RTriple AA _ apply =>
      do A <- convert_bmat fuel (match AA with APlain e => [[e]] | ABlock b => b end);
      march fuel H dt A apply q0 u0
  | RPair _ _ => Err ValueError
  end.
End Loop.

(** 49-51 with the additions and the comparison of double precision: how often the loop runs, and t after it *)
Definition float_one : spec_float := S754_finite false 4503599627370496 (-52).
Fixpoint float_steps (fuel : nat) (dt t : spec_float) : option (nat * spec_float) :=
  if SFltb t float_one then
    match fuel with
    | O => None
    | S fuel' => match float_steps fuel' dt (SFadd 53 1024 t dt) with Some (k, t') => Some (S k, t') | None => None end
    end
  else Some (O, t).
