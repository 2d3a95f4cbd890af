(** Segments and boxes: collides of xii/meshing/cut_surface_mesh.py:5-30 (Julia; the file with it is no
    Python module) and box_collides of xii/meshing/line_collision.py:9-40

    Numbers are real and arithmetic is exact.  [None] is the infinity from which u1 (minus) and u2 (plus)
    start.  A division by zero gives an infinity or nan, and line 18 keeps it in t; lines 20 and 22 look at
    t only if p[i] is not zero. *)
From Coq Require Import Reals.
From Verif Require Export Base.
Local Open Scope R_scope.

Definition rltb (a b : R) : bool := if Rlt_dec a b then true else false.
Definition reqb (a b : R) : bool := if Req_EM_T a b then true else false.

(** u1 < t and u2 > t (20, 22) *)
Definition low_lt (u1 : option R) (t : R) : bool := match u1 with None => true | Some u => rltb u t end.
Definition high_gt (u2 : option R) (t : R) : bool := match u2 with None => true | Some u => rltb t u end.
(** 15-25: [None] is the return of line 16 *)
Fixpoint clip (pq : list (R * R)) (u1 u2 : option R) : option (option R * option R) :=
  match pq with
  | [] => Some (u1, u2)
  | (p, q) :: pq' =>
      if reqb p 0 && rltb q 0 then None
      else
        let t := q / p in
        if rltb p 0 && low_lt u1 t then clip pq' (Some (Rmax 0 t)) u2
        else if rltb 0 p && high_gt u2 t then clip pq' u1 (Some (Rmin 1 t))
        else clip pq' u1 u2
  end.
(** 27: u1 > u2 *)
Definition crossed (u1 u2 : option R) : bool :=
  match u1, u2 with Some a, Some b => rltb b a | _, _ => false end.
(** 5-30: a segment is its ends, a box its lower and upper corner *)
Definition collides (A B low high : R * R) : bool :=
  let '(x, y) := A in
  let dx := fst B - x in
  let dy := snd B - y in
  let p := [- dx; dx; - dy; dy] in
  let q := [x - fst low; fst high - x; y - snd low; snd high - y] in
  match clip (combine p q) None None with
  | None => false
  | Some (u1, u2) => negb (crossed u1 u2)
  end.

(** line_collision.py:4-6 bbox of points with two coordinates; np.min of no points raises *)
Fixpoint least (x : R) (l : list R) : R := match l with [] => x | y :: r => Rmin x (least y r) end.
Fixpoint greatest (x : R) (l : list R) : R := match l with [] => x | y :: r => Rmax x (greatest y r) end.
Definition bbox (shape : list (R * R)) : res ((R * R) * (R * R)) :=
  match shape with
  | [] => Err ValueError
  | X :: r => Ok ((least (fst X) (map fst r), least (snd X) (map snd r)),
                  (greatest (fst X) (map fst r), greatest (snd X) (map snd r)))
  end.
(** line_collision.py:18-40: line 21 is the name of nothing.  9-15: nor is there a box_collides_3d *)
Definition box_collides_2d (box line : (R * R) * (R * R)) (tol : R) : res bool := Err NameError.
(** [len_box] is the length of box; that of bbox is 2 *)
Definition box_collides (len_box : nat) (box line : (R * R) * (R * R)) (tol : R) : res bool :=
  if Nat.eqb len_box 2 then box_collides_2d line box tol else Err NameError.
