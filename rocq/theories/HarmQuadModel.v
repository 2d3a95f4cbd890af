(** The matrices of the harmonic extension, xii/assembler/extension_matrix.py:126-168, as sums over quadrature points.

    A mesh is its quadrature points with weights (1), a function of a space is its value at the points, for the auxiliary
    mesh with both derivatives.  What Trace(v, mesh) is at the points of the curve and of the extended mesh is given for the
    functions of the auxiliary space.  The rest is harmonic_extension_operator of SpaceOpModel.v. *)
From Verif Require Import Base Mat SpaceOpModel.
Local Open Scope nat_scope.

(** dx of a mesh: number of points and weights *)
Record qmesh := QMesh { q_n : nat; q_w : nat -> Qc }.
(** assemble(inner(g, f)*dx): row for the function f_i of the test space, column for g_j of the trial space *)
Definition gram (m : qmesh) (r c : nat) (f g : nat -> nat -> Qc) : mat :=
  Mat r c (fun i j => sumn (q_n m) (fun k => q_w m k * (f i k * g j k))%Qc).

(** V on the curve, Q on the extended mesh, V2 on the auxiliary mesh (127-136); the markers of auxiliary_facet_f (113-118) *)
Record hdata := HData {
  d_V : nat; d_Q : nat; d_V2 : nat; d_markers : list nat;
  d_gamma : qmesh; d_ext : qmesh; d_aux : qmesh;
  d_psi : nat -> nat -> Qc;      (* V at the points of the curve *)
  d_chi : nat -> nat -> Qc;      (* Q at the points of the extended mesh *)
  d_phi : nat -> nat -> Qc; d_dx : nat -> nat -> Qc; d_dy : nat -> nat -> Qc;   (* V2 at the points of the auxiliary mesh *)
  d_tr_gamma : nat -> nat -> Qc; (* Trace(v, gamma_mesh) *)
  d_tr_ext : nat -> nat -> Qc    (* Trace(u, ext_mesh) *)
}.
(** 140 (a), 141 (L, as a matrix that acts on f), 156 (a), 157 (L, as a matrix that acts on uh) *)
Definition assembled (d : hdata) : harmonic :=
  Harmonic (d_V d) (d_Q d) (d_markers d)
    (madd (gram (d_aux d) (d_V2 d) (d_V2 d) (d_dx d) (d_dx d)) (gram (d_aux d) (d_V2 d) (d_V2 d) (d_dy d) (d_dy d)))
    (gram (d_aux d) (d_V2 d) (d_V2 d) (d_phi d) (d_phi d))
    (gram (d_gamma d) (d_V2 d) (d_V d) (d_tr_gamma d) (d_psi d))
    (gram (d_ext d) (d_Q d) (d_Q d) (d_chi d) (d_chi d))
    (gram (d_ext d) (d_Q d) (d_V2 d) (d_chi d) (d_tr_ext d)).
(** FOO().collapse() for meshes in the plane *)
Definition harmonic_of (solve : mat -> vec -> res vec) (d : hdata) : res mat :=
  harmonic_extension_operator solve (2, 2, 2) (repeat q0 (d_V d)) (assembled d).
