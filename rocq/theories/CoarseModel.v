(** Stokes with a coarse pressure and its preconditioner, sandbox/injection_mat.py:63-184, 211-219

    Integrals over the fine mesh are sums over points with weights: [s_gr k i] is the gradient of the velocity
    function i at the point k, [s_phF], [s_phC] are the values of the pressure functions of Qf and Qc, [s_J] is
    the injection matrix (C82 for stokes; for stokes_ii and stokes_iir that of the library, by which the forms with
    Injection are multiplied, C26).  [s_bc i] says that the dof i is one of V_bcs, whose values are zero.
    Matrices are functions of row and column.  apply_bc clears rows and columns and puts 1 on the
    diagonal (C16).  assemble_system puts 1 on the diagonal of the matrix of every cell of a dof, so the sum
    is the number [s_cells i] of cells that have it.  Numbers are real. *)
From Verif Require Export VesselModel.
Local Open Scope R_scope.

Record coarse := Coarse {
  s_V : nat; s_F : nat; s_C : nat; s_pts : nat; s_w : nat -> R;
  s_gr : nat -> nat -> (R * R) * (R * R); s_phF : nat -> nat -> R; s_phC : nat -> nat -> R;
  s_J : nat -> nat -> R; s_bc : nat -> bool; s_cells : nat -> nat }.

Definition inner22 (a b : (R * R) * (R * R)) : R :=
  fst (fst a) * fst (fst b) + snd (fst a) * snd (fst b) + (fst (snd a) * fst (snd b) + snd (snd a) * snd (snd b)).
Definition trace_of (a : (R * R) * (R * R)) : R := fst (fst a) + snd (snd a).

Section Blocks.
Variable S : coarse.
Definition over (f : nat -> R) : R := rsum (s_pts S) (fun k => s_w S k * f k).
(** 77-80: rows are test functions *)
Definition a00 (i j : nat) : R := over (fun k => inner22 (s_gr S k j) (s_gr S k i)).
Definition a01 (i l : nat) : R := over (fun k => s_phF S k l * trace_of (s_gr S k i)).
Definition a10 (l i : nat) : R := over (fun k => s_phF S k l * trace_of (s_gr S k i)).
(** 85-88 *)
Definition b01 (i j : nat) : R := rsum (s_F S) (fun l => a01 i l * s_J S l j).
Definition b10 (j i : nat) : R := rsum (s_F S) (fun l => s_J S l j * a10 l i).
(** 90-91: V_bcs for the first block, nothing for the second *)
Definition A00 (i j : nat) : R := if (s_bc S i || s_bc S j)%bool then (if Nat.eqb i j then 1 else 0) else a00 i j.
Definition A01 (i j : nat) : R := if s_bc S i then 0 else b01 i j.
Definition A10 (j i : nat) : R := if s_bc S i then 0 else b10 j i.
(** 93-101 *)
Definition V_inner (i j : nat) : R := if (s_bc S i || s_bc S j)%bool then (if Nat.eqb i j then INR (s_cells S i) else 0) else a00 i j.
Definition Q_inner (i j : nat) : R := over (fun k => s_phC S k j * s_phC S k i).
(** Row times vector *)
Definition times (n : nat) (A : nat -> nat -> R) (x : fvec) (i : nat) : R := rsum n (fun j => A i j * x j).
(** 218: A x = lambda B x for x = (u, p), not zero *)
Definition eigenpair (lambda : R) (u p : fvec) : Prop :=
  (forall i, (i < s_V S)%nat -> times (s_V S) A00 u i + times (s_C S) A01 p i = lambda * times (s_V S) V_inner u i) /\
  (forall j, (j < s_C S)%nat -> times (s_V S) A10 u j + 0 = lambda * times (s_C S) Q_inner p j) /\
  ((exists i, (i < s_V S)%nat /\ u i <> 0) \/ (exists j, (j < s_C S)%nat /\ p j <> 0)).
End Blocks.
