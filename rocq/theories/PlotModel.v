(** Pictures of the surfaces over which averages are taken: vtk_tube_render, vtk_plot_data and
    radial_order_points of xii/io/plot.py:31-128

    Of VTK the points and the cells (lists of numbers of points) that are handed over are kept;
    the values (62-63, 100-102) are all one and left out, as is the writing of the file (14-28).
    np.linalg.eigh of a projection to a plane gives unit vectors [t0], [t1] that span it (116-120):
    [basis].  np.angle is the argument of a complex number, [angle]; np.argsort is a sort by
    insertion.  Arithmetic is exact. *)
From Verif Require Export Base ShapeModel.
From Verif Require Import EmbedModel.
From Coq Require Import Reals.
Local Open Scope nat_scope.

Section Cells.
Context {P : Type}.
(** 36-37, 40-41: the numbers of the points of a ring, the first again at the end *)
Definition ring (first n : nat) : list nat := seq first n ++ [first].
(** 44-47 *)
Definition quads_of (idx1 idx0 : list nat) : list (list nat) :=
  map (fun j => [nth j idx1 0; nth (j + 1) idx1 0; nth (j + 1) idx0 0; nth j idx0 0]) (seq 0 (length idx1 - 1)).
(** 35-47, for a tube; rows of different lengths can not be stacked *)
Definition add_tube (st : nat * list P * list (list nat)) (tube : list P * list P) : res (nat * list P * list (list nat)) :=
  let '(first, points, quads) := st in
  let (ring0, ring1) := tube in
  let points := points ++ ring0 in
  let idx0 := ring first (length ring0) in
  let first := first + length ring0 in
  let points := points ++ ring1 in
  let idx1 := ring first (length ring1) in
  let first := first + length ring1 in
  if length idx1 =? length idx0 then Ok (first, points, quads ++ quads_of idx1 idx0) else Err ValueError.
(** 31-67 *)
Definition vtk_tube_render (tubes : list (list P * list P)) : res (list P * list (list nat)) :=
  do st <- foldM add_tube tubes (0, [], []);
  let '(_, points, quads) := st in Ok (points, quads).

(** 89-98, for a surface with points [first], ..., [last] - 1; [v0] is the variable of the inner
    loop, which keeps its value after it *)
Definition close_lines (st : option nat * list (list nat)) (range : nat * nat) : res (option nat * list (list nat)) :=
  let '(v0, lines) := st in
  let (first, last) := range in
  let lines := lines ++ map (fun v => [v; v + 1]) (seq first (last - 1 - first)) in
  let v0 := if last - 1 - first =? 0 then v0 else Some (last - 2) in
  do v <- opt_res UnboundLocalError v0;
  Ok (v0, lines ++ [[v + 1; first]]).
(** 76-77: 0, n0, n0 + n1, ... *)
Fixpoint offsets (a : nat) (ns : list nat) : list nat := match ns with [] => [a] | n :: ns' => a :: offsets (a + n) ns' end.
(** 70-106 *)
Definition vtk_plot_data (order : list P -> res (list P)) (surfaces : list (list P)) : res (list P * list (list nat)) :=
  do points <- mapM order surfaces;
  let off := offsets 0 (map (@length P) points) in
  do st <- foldM close_lines (combine off (tl off)) (None, []);
  Ok (concat points, snd st).
End Cells.

Local Open Scope R_scope.
(** np.angle(u + v*1j) *)
Definition angle (u v : R) : R :=
  if Rlt_dec 0 u then atan (v / u)
  else if Rlt_dec u 0 then (if Rle_dec 0 v then atan (v / u) + PI else atan (v / u) - PI)
  else if Rlt_dec 0 v then PI / 2 else if Rlt_dec v 0 then - (PI / 2) else 0.
(** np.argsort and points[idx] *)
Fixpoint put_angle (x : R * v3) (l : list (R * v3)) : list (R * v3) :=
  match l with [] => [x] | y :: r => if Rle_dec (fst x) (fst y) then x :: l else y :: put_angle x r end.
Definition mean3 (points : list v3) : v3 := vmul (/ INR (length points)) (fold_left vplus points (V3 0 0 0)).
(** 109-128; a normal of length zero gives nan, for which no comparison holds *)
Definition radial_order_points (basis : v3 -> v3 * v3) (points : list v3) : res (list v3) :=
  if (length points <=? 3)%nat then Err AssertionError else
  match points with
  | v0 :: v1 :: v2 :: _ =>
      let com := mean3 points in
      let normal := cross (vminus v1 v0) (vminus v2 v0) in
      if Req_EM_T (norm3 normal) 0 then Err AssertionError else
      let normal := vmul (/ norm3 normal) normal in
      if forallb (fun p => if Rlt_dec (Rabs (vdot3 (vminus p com) normal)) (/ 10 ^ 10) then true else false) points then
        let (t0, t1) := basis normal in
        let angles := map (fun p => angle (vdot3 p t0) (vdot3 p t1) * 180 / PI) points in
        Ok (map snd (fold_right put_angle [] (combine angles points)))
      else Err AssertionError
  | _ => Err AssertionError
  end.
