(** Model of xii/assembler/extension_matrix.py:33-99: extension_mat and
    uniform_extension_matrix.

    A space is what these functions read of it.  Vector and tensor elements
    have [f_comps = Some n]; then n dofs belong to every point, and [f_dof]
    gives for a dof its point (in the order of the coordinates of
    V.sub(0).collapse()) and its component.  Coordinates are rational; cdist
    is represented by squared distances, which have the same minima and are
    positive together with the distances.  The indices are computed by
    numpy as floats for vector elements and converted back by scipy; they are
    natural numbers here.  The harmonic extension solves boundary value
    problems; its matrix is a parameter. *)
From Verif Require Import Base Mat.

Record fspace := FSpace {
  f_mesh : nat; f_tdim : nat; f_gdim : nat; f_family : nat; f_degree : nat;
  f_comps : option nat;
  f_pts : list vec;
  f_dof : nat -> nat * nat
}.
(** V.dim() *)
Definition f_dim (V : fspace) : nat := match f_comps V with None => length (f_pts V) | Some n => n * length (f_pts V) end.

Definition sqdist (x y : vec) : Qc := fold_right Qcplus q0 (map (fun p => (fst p - snd p) * (fst p - snd p))%Qc (combine x y)).

(** np.argmin: the first of the smallest *)
Fixpoint argmin_from (k best : nat) (bv : Qc) (l : list Qc) : nat :=
  match l with [] => best | x :: l' => if qltb x bv then argmin_from (S k) k x l' else argmin_from (S k) best bv l' end.
Definition argmin (l : list Qc) : nat := match l with [] => 0 | x :: l' => argmin_from 1 0 x l' end.

(** uniform_extension_matrix (58-99) *)
Definition uniform_extension_matrix (V EV : fspace) : res mat :=
  if negb (f_gdim V =? f_gdim EV) then Err AssertionError else
  (* cdist(EV_dofs_x, V_dofs_x) *)
  let lookup := map (fun x => map (sqdist x) (f_pts V)) (f_pts EV) in
  match lookup with
  | [] => Err ValueError                                   (* the norm of no rows *)
  | _ :: _ =>
    (* the largest sum of a row is positive *)
    if negb (existsb (existsb (qltb q0)) lookup) then Err AssertionError else
    let columns := map argmin lookup in
    let columns := match f_comps V with
                   | None => columns
                   | Some n => flat_map (fun c => map (fun k => n * c + k) (seq 0 n)) columns
                   end in
    (* csr_matrix((values, columns, np.arange(EV.dim()+1))) *)
    if length columns <? f_dim EV then Err ValueError else
    Ok (Mat (f_dim EV) (f_dim V) (fun i j => if j =? nth i columns 0 then q1 else q0))
  end.

Section Dispatch.
Variable harmonic : fspace -> fspace -> res mat.

(** extension_mat (34-55); type 0 is 'uniform' and 1 is 'harmonic'; None is
    returned for any other *)
Definition extension_mat (V EV : fspace) (extended_mesh type : nat) : res (option mat) :=
  if negb (f_mesh EV =? extended_mesh) then Err AssertionError else
  if negb (f_tdim V =? 1) then Err AssertionError else
  if negb ((f_tdim EV =? 1) || (f_tdim EV =? 2)) then Err AssertionError else
  if negb (f_degree V =? f_degree EV) then Err AssertionError else
  if negb (f_family V =? f_family EV) then Err AssertionError else
  if negb (f_gdim V =? f_gdim EV) then Err AssertionError else
  if negb ((f_gdim V =? 2) || (f_gdim V =? 3)) then Err AssertionError else
  match type with
  | 0 => do E <- uniform_extension_matrix V EV; Ok (Some E)
  | 1 => do E <- harmonic V EV; Ok (Some E)
  | _ => Ok None
  end.
End Dispatch.
