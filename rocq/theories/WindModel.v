(** Winding numbers of contours and normals of curves: refine_contour,
    is_inside_contour, wind_number of xii/meshing/branching.py:163-212, NormalCurve of
    xii/meshing/embedded_mesh.py:516-541

    A contour is the list of its points in the plane.  Arithmetic is exact; nan
    (0/0) is None.  Library meaning that is trusted here: numpy's diff, row_stack
    and slices; the index 0 or -1 of nothing raises IndexError; dolfin's assembly
    with a piecewise constant integrand; the integral in embedded_mesh.py:494-508,
    which dolfin approximates, is a parameter. *)
From Coq Require Import Reals.
From Verif Require Export Base EmbedModel BranchModel GeomModel FillModel TangentModel.
Local Open Scope R_scope.

Notation point := (R * R)%type (only parsing).
(** edges of a contour: contour[:-1] with contour[1:] *)
Definition segments (contour : list point) : list (point * point) := combine (removelast contour) (tl contour).
(** 173: a midpoint, contour[:-1] + 0.5*dx *)
Definition mid (e : point * point) : point :=
  (fst (fst e) + / 2 * (fst (snd e) - fst (fst e)), snd (fst e) + / 2 * (snd (snd e) - snd (fst e))).
(** 170-175 *)
Definition refine_once (contour : list point) : res (list point) :=
  match contour with
  | [] => Err IndexError
  | p :: _ => Ok (flat_map (fun e => [fst e; mid e]) (segments contour) ++ [p])
  end.
(** 163-177, for n as a natural number *)
Fixpoint refine_times (contour : list point) (n : nat) : res (list point) :=
  match n with
  | O => Ok contour
  | S n' => match n' with O => refine_once contour | S _ => do finer <- refine_once contour; refine_times finer n' end
  end.
Definition refine_contour (contour : list point) (n : Z) : res (list point) :=
  if (n <? 0)%Z then Err AssertionError else refine_times contour (Z.to_nat n).

(** 199-212: a term of the sum; None for an edge without length (the normal is
    0/0) or a midpoint at c *)
Definition edge_term (c : point) (e : point * point) : option R :=
  let dx := fst (snd e) - fst (fst e) in
  let dy := snd (snd e) - snd (fst e) in
  let dl := sqrt (dx ^ 2 + dy ^ 2) in
  let x := mid e in
  let r := (fst x - fst c, snd x - snd c) in
  let norm := sqrt (fst r ^ 2 + snd r ^ 2) in
  if Req_EM_T dl 0 then None else
  if Req_EM_T norm 0 then None else
  Some (dl * (fst r * (dy / dl) + snd r * (- dx / dl)) / norm ^ 2).
Fixpoint nan_sum (l : list (option R)) : option R :=
  match l with
  | [] => Some 0
  | None :: _ => None
  | Some x :: r => match nan_sum r with Some s => Some (x + s) | None => None end
  end.
(** 185-212 *)
Definition wind_number (contour : list point) (points : list point) (nrefs : Z) : res (list (option R)) :=
  do contour <- (if (0 <? nrefs)%Z then refine_contour contour nrefs else Ok contour);
  match contour with
  | [] => Err IndexError
  | p :: _ =>
      let q := last contour p in
      if Rlt_dec (sqrt ((fst p - fst q) ^ 2 + (snd p - snd q) ^ 2)) (1 / 10 ^ 13) then
        Ok (map (fun c => match nan_sum (map (edge_term c) (segments contour)) with Some s => Some (s / 2 / PI) | None => None end) points)
      else Err AssertionError
  end.
(** 180-182; a comparison with nan is False *)
Definition is_inside_contour (contour points : list point) (tol : R) (nrefs : Z) : res (list bool) :=
  do w <- wind_number contour points nrefs;
  Ok (map (fun x => match x with Some x => if Rgt_dec (Rabs x) tol then true else false | None => false end) w).

(** 516-541.  [wind] is the number of the point [outside] (494-508), the
    assertions there are those on the loop and the plane; [R] turns to the right
    or left *)
Definition turn_right (t : list R) : list R := [nth 1 t 0; - nth 0 t 0].
Definition turn_left (t : list R) : list R := [- nth 1 t 0; nth 0 t 0].
Definition normal_curve (nv : nat) (g : list (nat * nat)) (gdim : nat) (X : nat -> list R) (wind tol : R) : res (list (list R)) :=
  if negb (is_loop nv g) then Err AssertionError else
  if negb (gdim =? 2)%nat then Err AssertionError else
  do tv <- tangent_curve nv g X None;
  Ok (map (if Rlt_dec (Rabs wind) tol then turn_right else turn_left) (fst tv)).
