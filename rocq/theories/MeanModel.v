(** Model of xii/assembler/mean_matrix.py:28-53 mean_mat and
    surface_mean_matrix.py:27-51 surface_mean_mat, surface_mean_matrix.

    A domain is a list of cells, each with its volume and the quadrature
    (points and weights) that df.assemble uses on it; points are numbers.  A
    scalar space is the number of its dofs and its basis functions, evaluated
    in points.  Real spaces have one dof. *)
From Verif Require Import Base Mat.

Record mcell := MCell { volume : Qc; rule : list (nat * Qc) }.
Record sspace := SSpace { s_dim : nat; basis : nat -> nat -> Qc }.

(** df.assemble of an integral *)
Definition assembled (domain : list mcell) (f : nat -> Qc) : Qc :=
  fold_right Qcplus q0 (map (fun c => fold_right Qcplus q0 (map (fun pw => (snd pw * f (fst pw))%Qc) (rule c))) domain).

(** mean_mat (29-53); the measure is given by its domain, dx is all of the
    mesh of V; without a weight it is Constant(1) *)
Definition mean_mat (V : sspace) (mesh : list mcell) (weight : option (nat -> Qc)) (measure : option (list mcell)) : mat :=
  let domain := match measure with Some d => d | None => mesh end in
  let w := match weight with Some w => w | None => fun _ => q1 end in
  let values := map (fun j => assembled domain (fun x => (basis V j x * w x)%Qc)) (seq 0 (s_dim V)) in
  Mat 1 (s_dim V) (fun i j => if i =? 0 then vnth values j else q0).

(** surface_mean_matrix (39-51); T is the matrix of the trace to the space TV
    over the surface, and the mean is that of TV *)
Definition surface_mean_matrix (TV : sspace) (surface : list mcell) (T : mat) : mat :=
  let surface_area := fold_right Qcplus q0 (map volume surface) in
  let M := Mat 1 (s_dim TV) (fun _ j => assembled surface (fun x => (q1 / surface_area * basis TV j x)%Qc)) in
  mmul M T.
